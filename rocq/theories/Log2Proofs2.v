(** Accuracy of log2 and log10: the two-part sum of the primary range. *)
From Coq Require Import ZArith Reals Bool List Lia Lra Psatz.
From Flocq Require Import Core Sterbenz Plus_error.
From Verif Require Import Base BaseLemmas FloatModel FloatSpec FloatProofs FloatConvSpec LibmModel LibmSpec Elem FloatErr PolyBound ElemModel ElemSpec F64Lib
  ExpProofs3 ExpProofs4 ExpProofs5 ExpProofs6 ExpProofs7 ExpProofs8 LogProofs LogProofs2 LogProofs3 LogProofs4 HypotProofs3 TrigRed AsinProofs2 TanModel TanProofs2 TanProofs3 Log1pProofs Log2Model Log2Proofs.
Import ListNotations.
Open Scope Z_scope.

Local Instance valid64 : Valid_exp (FLT_exp (emin F64) (prec F64)).
Proof. apply FLT_exp_valid. exact Hp64. Qed.
Local Notation fmt := (generic_format radix2 (FLT_exp (emin F64) (prec F64))).

(** The difference of two close numbers is exact. *)
Lemma sterb x y r : fmt x -> fmt y -> (x = y * r -> / 2 <= r <= 2 -> rne F64 (x - y) = x - y)%R.
Proof.
  intros Fx Fy E H. destruct (Rle_lt_dec 0 y) as [p|p].
  - apply fmt_rne. apply sterbenz; auto with typeclass_instances. rewrite E. nra.
  - replace (x - y)%R with (- (- x - - y))%R by ring. rewrite rne_opp. f_equal. apply fmt_rne. apply sterbenz; auto with typeclass_instances; [apply generic_format_opp; assumption..|]. rewrite E. nra.
Qed.
Lemma fx_div P n k : 0 <= k -> (fx P n * bpow radix2 (- k) <= fx P (n / 2 ^ k + 1))%R.
Proof.
  intros H. assert (0 < 2 ^ k) by (apply Z.pow_pos_nonneg; lia). assert (n <= (n / 2 ^ k + 1) * 2 ^ k) as A by (pose proof (Z.mul_succ_div_gt n (2 ^ k)); lia).
  apply (fx_le P) in A. assert (E : fx P ((n / 2 ^ k + 1) * 2 ^ k) = (fx P (n / 2 ^ k + 1) * bpow radix2 k)%R).
  { unfold fx. rewrite mult_IZR, (IZR_Zpower radix2) by lia. ring. }
  rewrite E in A. apply Rmult_le_reg_r with (bpow radix2 k); [apply bpow_gt_0|]. rewrite Rmult_assoc, <- bpow_plus. replace (- k + k) with 0 by lia. change (bpow radix2 0) with 1%R. lra.
Qed.
Lemma small1 y : (Rabs y <= 2000 -> Rabs y <= bpow radix2 100)%R.
Proof. intros H. apply Rle_trans with (bpow radix2 11); [change (bpow radix2 11) with 2048%R; lra|]. apply bpow_le. lia. Qed.
Lemma rne0 : rne F64 0 = 0%R. Proof. apply round_0; auto with typeclass_instances. Qed.
Lemma good_fmt x : good x -> fmt (value F64 x). Proof. intros [A B]. apply format64; assumption. Qed.
Lemma u53_num : (u53 <= / 9000000000000000)%R.
Proof. unfold u53. change (bpow radix2 (-53)) with (/ 9007199254740992)%R. lra. Qed.

Section Main.
Context (o : fops) (Ho : ieee_ops F64 o) (c : icast) (Hc : icast_ok c).

(** The high part: f - f^2/2 with its low word cleared, and the rest of it. *)
Definition log_m (f : Z) : Z := o_sub o (o_sub o f (log_hi o f)) (o_mul o (o_mul o half f) f).
Lemma log_hilo f (F := value F64 f) (HI := value F64 (log_hi o f)) (M := value F64 (log_m f)) : good f -> good (o_mul o half f) -> value F64 (o_mul o half f) = (F / 2)%R ->
  (-0.293 <= F <= 0.41422)%R -> (F = 0 \/ bpow radix2 (-53) <= Rabs F)%R ->
  good (log_hi o f) /\ good (log_m f) /\ (exists m e, Z.abs m < 2 ^ 21 /\ -400 <= e /\ HI = (IZR m * bpow radix2 e)%R) /\ (Rabs HI <= 0.3361)%R /\ (Rabs HI <= 2 * Rabs F)%R /\
  (Rabs M <= Rabs F * bpow radix2 (-19))%R /\ (Rabs (M - (F - HI - F / 2 * F)) <= F * F * bpow radix2 (-54) + Rabs F * bpow radix2 (-71))%R.
Proof using Ho.
  intros Gf Gh Vh B NZ. pose proof u53_small as US. pose proof u53_num as UN.
  assert (FF : (F / 2 * F <= 0.0858 /\ 0 <= F / 2 * F)%R) by nra.
  destruct (mul64 o Ho _ f Gh Gf) as [GH VH]; [rewrite Vh; apply small1, Rabs_le; fold F; lra|]. rewrite Vh in VH. fold F in VH.
  unfold M, log_m, HI, log_hi. set (h := o_mul o (o_mul o half f) f) in *. set (H := value F64 h) in *.
  change (Z.land (o_sub o f h) 0xffffffff00000000) with (zero_low (o_sub o f h)).
  destruct NZ as [F0|NZ].
  - rewrite F0 in *. rewrite Rmult_0_r, rne0 in VH.
    destruct (sub64 o Ho f h Gf GH) as [GA VA]; [fold F; fold H; rewrite F0, VH; apply small1, Rabs_le; lra|]. fold F in VA; fold H in VA. rewrite F0, VH, Rminus_0_r, rne0 in VA.
    set (w := o_sub o f h) in *. destruct (good_split w GA) as (s & n & E & Hn). assert (n = 0) as ->.
    { rewrite E, value64 in VA by lia. destruct (Z.eq_dec n 0) as [->|N]; [reflexivity|]. pose proof (mag_pos64 n ltac:(lia)). destruct s; lra. }
    assert (EZ : zero_low w = w) by (rewrite E, zero_low_mk by lia; reflexivity). rewrite EZ.
    destruct (sub64 o Ho f w Gf GA) as [G1 V1]; [fold F; rewrite F0, VA; apply small1, Rabs_le; lra|]. fold F in V1. rewrite F0, VA, Rminus_0_r, rne0 in V1.
    destruct (sub64 o Ho _ h G1 GH) as [G2 V2]; [fold H; rewrite V1, VH; apply small1, Rabs_le; lra|]. fold H in V2. rewrite V1, VH, Rminus_0_r, rne0 in V2.
    split; [exact GA|]. split; [exact G2|]. rewrite V2, VA. split; [exists 0, 0; split; [lia|split; [lia|ring]]|].
    replace (0 - (0 - 0 - 0 / 2 * 0))%R with 0%R by field. rewrite Rabs_R0. repeat split; lra.
  - assert (NF : F <> 0%R) by (intros Q; rewrite Q, Rabs_R0 in NZ; pose proof (bpow_gt_0 radix2 (-53)); lra).
    assert (FF2 : (bpow radix2 (-107) <= F / 2 * F)%R).
    { replace (F / 2 * F)%R with (/ 2 * (Rabs F * Rabs F))%R by (rewrite <- Rabs_mult, (Rabs_pos_eq (F * F)) by nra; field). change (-107) with (-1 + (-53 + -53)). rewrite !(bpow_plus radix2). change (bpow radix2 (-1)) with (/ 2)%R.
      pose proof (bpow_gt_0 radix2 (-53)). apply Rmult_le_compat_l; [lra|]. apply Rmult_le_compat; lra. }
    destruct (rne_mulx (F / 2 * F)) as (e1 & He1 & E1); [rewrite Rabs_pos_eq by lra; eapply Rle_trans; [|exact FF2]; apply bpow_le; lia|]. rewrite E1 in VH. apply Rabs_le_inv in He1.
    assert (EFH : (F - H = F * (1 - F / 2 * (1 + e1)))%R) by (rewrite VH; field).
    set (r1 := (1 - F / 2 * (1 + e1))%R) in *. assert (R1 : (0.79288 <= r1 <= 1.14651)%R) by (unfold r1; nra).
    assert (P54 : (bpow radix2 (-54) <= Rabs (F - H))%R).
    { rewrite EFH, Rabs_mult, (Rabs_pos_eq r1) by lra. change (-54) with (-1 + -53). rewrite bpow_plus. change (bpow radix2 (-1)) with (/ 2)%R. pose proof (bpow_gt_0 radix2 (-53)). nra. }
    assert (AF : (Rabs F <= 0.41422)%R) by (apply Rabs_le; lra).
    assert (BFH : (Rabs (F - H) <= 0.336)%R) by (rewrite EFH; unfold r1; apply Rabs_le; split; nra).
    destruct (sub64 o Ho f h Gf GH) as [GA VA]; [fold F; fold H; apply small1; lra|]. fold F in VA; fold H in VA.
    destruct (rne_mulx (F - H)) as (e2 & He2 & E2); [eapply Rle_trans; [|exact P54]; apply bpow_le; lia|]. rewrite E2 in VA. apply Rabs_le_inv in He2. set (w := o_sub o f h) in *.
    assert (AW : (bpow radix2 (-200) <= Rabs (value F64 w))%R).
    { rewrite VA, Rabs_mult, (Rabs_pos_eq (1 + e2)) by lra. apply Rle_trans with (bpow radix2 (-55)); [apply bpow_le; lia|]. change (-55) with (-1 + -54). rewrite bpow_plus. change (bpow radix2 (-1)) with (/ 2)%R. pose proof (bpow_gt_0 radix2 (-54)). nra. }
    destruct (zero_low_ok w GA AW) as (G0 & X0 & d & Hd & Ed). set (hi := zero_low w) in *. rewrite VA in Ed.
    set (g := ((1 + e2) * (1 - d))%R) in *. assert (Hg : (1 - 1.001 / 1000000 <= g <= 1 + / 1000000000)%R) by (unfold g; nra).
    assert (EHI : (value F64 hi = F * (r1 * g))%R) by (rewrite Ed, EFH; unfold g; ring).
    assert (BHI : (Rabs (value F64 hi) <= 0.3361)%R). { replace (value F64 hi) with ((F - H) * g)%R by (rewrite Ed; unfold g; ring). rewrite Rabs_mult, (Rabs_pos_eq g) by lra. pose proof (Rabs_pos (F - H)). nra. }
    assert (BHF : (Rabs (value F64 hi) <= 2 * Rabs F)%R). { rewrite EHI, Rabs_mult, Rmult_comm. apply Rmult_le_compat_r; [apply Rabs_pos|]. rewrite Rabs_pos_eq; clear - R1 Hg; clearbody r1 g; nra. }
    destruct (sub64 o Ho f hi Gf G0) as [G1 V1]; [fold F; apply small1; eapply Rle_trans; [apply Rabs_triang|rewrite Rabs_Ropp; lra]|]. fold F in V1.
    assert (EX : rne F64 (F - value F64 hi) = (F - value F64 hi)%R).
    { replace (F - value F64 hi)%R with (- (value F64 hi - F))%R by ring. rewrite rne_opp. f_equal. apply (sterb _ _ (r1 * g)); [apply good_fmt, G0|apply good_fmt, Gf|exact EHI|clear - R1 Hg; clearbody r1 g; nra]. }
    rewrite EX in V1.
    assert (ED : (F - value F64 hi - H = (F - H) * (1 - g))%R) by (rewrite Ed; unfold g; ring).
    assert (BD : (Rabs (F - value F64 hi - H) <= Rabs F * 0.0000012)%R).
    { rewrite ED, EFH, Rmult_assoc, Rabs_mult. apply Rmult_le_compat_l; [apply Rabs_pos|]. apply Rabs_le. nra. }
    destruct (sub64 o Ho _ h G1 GH) as [G2 V2]; [fold H; rewrite V1; apply small1; pose proof (Rabs_pos F); lra|]. fold H in V2. rewrite V1 in V2.
    pose proof (rne_abs (F - value F64 hi - H)) as RA. rewrite <- V2 in RA. fold u53 kk in RA.
    assert (K : (kk <= Rabs F * / 1000000 * u53)%R).
    { unfold kk, u53. apply Rle_trans with (bpow radix2 (-53) * bpow radix2 (-20) * bpow radix2 (-53))%R; [rewrite <- !bpow_plus; apply bpow_le; lia|].
      apply Rmult_le_compat_r; [apply bpow_ge_0|]. apply Rmult_le_compat; [apply bpow_ge_0..|exact NZ|change (bpow radix2 (-20)) with (/ 1048576)%R; lra]. }
    assert (P71 : bpow radix2 (-71) = (u53 * / 262144)%R) by (unfold u53; change (-71) with (-53 + -18); rewrite bpow_plus; reflexivity).
    assert (P542 : bpow radix2 (-54) = (u53 * / 2)%R) by (unfold u53; change (-54) with (-53 + -1); rewrite bpow_plus; reflexivity).
    pose proof (Rabs_pos F) as AF0.
    assert (RA2 : (Rabs (value F64 (o_sub o (o_sub o f hi) h) - (F - value F64 hi - H)) <= Rabs F * bpow radix2 (-71))%R).
    { eapply Rle_trans; [exact RA|]. rewrite P71. assert (Rabs (F - value F64 hi - H) * u53 <= Rabs F * 0.0000012 * u53)%R by (apply Rmult_le_compat_r; lra).
      assert (0 <= Rabs F * u53)%R by (apply Rmult_le_pos; lra). lra. }
    split; [exact G0|]. split; [exact G2|]. split; [exact X0|]. split; [exact BHI|]. split; [exact BHF|]. split.
    + pose proof (diff_tri _ _ _ _ RA2 BD) as T. eapply Rle_trans; [exact T|]. rewrite P71. change (bpow radix2 (-19)) with (/ 524288)%R. nra.
    + assert (EHF : (H - F / 2 * F = F * F * (/ 2 * e1))%R) by (rewrite VH; field).
      replace (value F64 (o_sub o (o_sub o f hi) h) - (F - value F64 hi - F / 2 * F))%R with (- (F * F * (/ 2 * e1)) + (value F64 (o_sub o (o_sub o f hi) h) - (F - value F64 hi - H)))%R by (rewrite <- EHF; ring).
      apply sum_le; [|exact RA2]. rewrite Rabs_Ropp, Rabs_mult, (Rabs_pos_eq (F * F)) by nra. apply Rmult_le_compat_l; [nra|]. rewrite P542. apply Rabs_le. lra.
Qed.

(** y + val_hi + val_lo, in the manner of log2.rs:100-104. *)
Lemma spadd_ok y vh vl (Y := value F64 y) (VH := value F64 vh) (VL := value F64 vl) : good y -> good vh -> good vl -> (Rabs Y <= 1100)%R -> (Rabs VH <= 1)%R -> (Rabs VL <= 0.06)%R ->
  (Y = 0 \/ Rabs VH <= 0.49 * Rabs Y)%R -> good (spadd o y vh vl) /\ exists v, value F64 (spadd o y vh vl) = rne F64 v /\ (Rabs (v - (Y + VH + VL)) <= bpow radix2 (-58))%R /\ (Y = 0 -> v = VH + VL)%R.
Proof using Ho.
  intros Gy Gh Gl BY BH BL C. unfold spadd. pose proof (bpow_ge_0 radix2 (-58)) as P58. pose proof u53_small as US.
  destruct (add64 o Ho y vh Gy Gh) as [Gw Vw]; [fold Y; fold VH; apply small1; eapply Rle_trans; [apply Rabs_triang|lra]|]. fold Y in Vw; fold VH in Vw. set (w := o_add o y vh) in *.
  assert (FY := good_fmt _ Gy). assert (FH := good_fmt _ Gh). fold Y in FY; fold VH in FH.
  assert (EW : (rne F64 (Y - value F64 w) = Y - value F64 w)%R /\ (Rabs (Y - value F64 w) <= 4)%R).
  { destruct C as [C|C].
    - rewrite C, Rplus_0_l, (fmt_rne VH FH) in Vw. rewrite C, Vw, Rminus_0_l, Rabs_Ropp. split; [rewrite rne_opp, fmt_rne by exact FH; reflexivity|lra].
    - destruct (Req_dec Y 0) as [Y0|NY].
      { rewrite Y0, Rabs_R0, Rmult_0_r in C. assert (VH = 0)%R as Z0 by (pose proof (Rabs_pos VH); destruct (Req_dec VH 0) as [E|N]; [exact E|pose proof (Rabs_pos_lt _ N); lra]).
        rewrite Y0, Z0, Rplus_0_l, rne0 in Vw. rewrite Y0, Vw, Rminus_0_r, rne0, Rabs_R0. split; [reflexivity|lra]. }
      set (q := (VH / Y)%R). assert (EV : (VH = Y * q)%R) by (unfold q; field; exact NY).
      assert (Bq : (Rabs q <= 0.49)%R). { rewrite EV, Rabs_mult, Rmult_comm in C. apply (Rmult_le_reg_r (Rabs Y)); [apply Rabs_pos_lt, NY|exact C]. }
      apply Rabs_le_inv in Bq.
      assert (exists e, (Rabs e <= u53 /\ value F64 w = (Y + VH) * (1 + e))%R) as (e & He & Ee).
      { destruct (Rle_lt_dec (bpow radix2 (-1022)) (Rabs (Y + VH))) as [L|L].
        - destruct (rne_mulx _ L) as (e & He & E). exists e. split; [exact He|]. rewrite Vw. exact E.
        - exists 0%R. rewrite Rabs_R0. split; [lra|]. rewrite Vw, Rplus_0_r, Rmult_1_r. apply fmt_rne.
          apply (@FLT_format_plus_small radix2 (emin F64) (prec F64)); [exact Hp64|assumption..|].
          eapply Rle_trans; [left; exact L|]. apply bpow_le. vm_compute. discriminate. }
      apply Rabs_le_inv in He. assert (EW : (value F64 w = Y * ((1 + q) * (1 + e)))%R) by (rewrite Ee, EV; ring). split.
      + replace (Y - value F64 w)%R with (- (value F64 w - Y))%R by ring. rewrite rne_opp. f_equal. apply (sterb _ _ ((1 + q) * (1 + e))); [apply good_fmt, Gw|exact FY|exact EW|nra].
      + replace (Y - value F64 w)%R with (- (VH + (Y + VH) * e))%R by (rewrite Ee; ring). rewrite Rabs_Ropp. eapply Rle_trans; [apply sum_le; [exact BH|apply prod_le; [eapply Rle_trans; [apply Rabs_triang|apply Rplus_le_compat; [exact BY|exact BH]]|apply Rabs_le; exact He]]|]. lra. }
  destruct EW as [EW BW].
  destruct (sub64 o Ho y w Gy Gw) as [G1 V1]; [fold Y; apply small1; lra|]. fold Y in V1. rewrite EW in V1.
  set (d := (Y + VH - value F64 w)%R). assert (Ed : (Y - value F64 w + VH = d)%R) by (unfold d; ring).
  assert (Fd : fmt d). { unfold d. replace (Y + VH - value F64 w)%R with (- (value F64 w - (Y + VH)))%R by ring. apply generic_format_opp. rewrite Vw. unfold rne. apply plus_error; auto with typeclass_instances. }
  assert (Bd : (Rabs d <= bpow radix2 (-43))%R).
  { unfold d. rewrite <- Rabs_Ropp. replace (- (Y + VH - value F64 w))%R with (rne F64 (Y + VH) - (Y + VH))%R by (rewrite Vw; ring). apply (rne_error64 11); [|lia].
    change (bpow radix2 11) with 2048%R. eapply Rle_lt_trans; [apply Rabs_triang|]. lra. }
  assert (Bd2 : (Rabs d <= / 1000000)%R) by (eapply Rle_trans; [exact Bd|]; change (bpow radix2 (-43)) with (/ 8796093022208)%R; lra).
  destruct (add64 o Ho _ vh G1 Gh) as [G2 V2]; [rewrite V1; fold VH; rewrite Ed; apply small1; lra|]. rewrite V1 in V2. fold VH in V2. rewrite Ed, fmt_rne in V2 by exact Fd.
  assert (BS : (Rabs (VL + d) < bpow radix2 (-4))%R) by (change (bpow radix2 (-4)) with (/ 16)%R; eapply Rle_lt_trans; [apply Rabs_triang|]; lra).
  assert (p4 : bpow radix2 (-4) = (/ 16)%R) by reflexivity.
  destruct (add64 o Ho vl _ Gl G2) as [G3 V3]; [fold VL; rewrite V2; apply small1; lra|]. rewrite V2 in V3. fold VL in V3.
  pose proof (rne_error64 (-4) _ BS ltac:(lia)) as ER. rewrite <- V3 in ER. change (-4 - 54) with (-58) in ER.
  pose proof (small64 (-58) ltac:(lia)) as S58.
  set (l2 := o_add o vl (o_add o (o_sub o y w) vh)) in *.
  assert (TT : (Rabs (value F64 l2 + value F64 w - (Y + VH + VL)) <= bpow radix2 (-58))%R) by (replace (value F64 l2 + value F64 w - (Y + VH + VL))%R with (value F64 l2 - (VL + d))%R by (unfold d; ring); exact ER).
  destruct (add64 o Ho l2 w G3 Gw) as [G4 V4].
  { apply small1. apply Rabs_le_inv in TT, BY, BH, BL. apply Rabs_le. lra. }
  split; [exact G4|]. exists (value F64 l2 + value F64 w)%R. split; [exact V4|]. split; [exact TT|].
  intros Y0. unfold d in V3. rewrite Y0, Rplus_0_l in Vw, V3. rewrite (fmt_rne VH FH) in Vw. rewrite V3, Vw, Rminus_eq_0, Rplus_0_r, (fmt_rne VL (good_fmt _ Gl)). ring.
Qed.
End Main.
