(** Accuracy of log2 and log10: the results of the primary range. *)
From Coq Require Import ZArith Reals Bool List Lia Lra Psatz.
From Flocq Require Import Core.
From Verif Require Import Base BaseLemmas FloatModel FloatSpec FloatProofs FloatConvSpec LibmModel LibmSpec Elem FloatErr PolyBound ElemModel ElemSpec F64Lib
  ExpProofs3 ExpProofs4 ExpProofs5 ExpProofs6 ExpProofs7 ExpProofs8 LogProofs LogProofs2 LogProofs3 LogProofs4 HypotProofs3 TrigRed AsinProofs2 TanModel TanProofs2 TanProofs3 Log1pProofs Log2Model Log2Proofs Log2Proofs2 Log2Proofs3.
Open Scope Z_scope.

Local Instance valid64 : Valid_exp (FLT_exp (emin F64) (prec F64)).
Proof. apply FLT_exp_valid. exact Hp64. Qed.

Lemma IVLN2HI_ok : good IVLN2HI /\ value F64 IVLN2HI = (IZR 3098164009 * bpow radix2 (-31))%R /\ (1.442 <= value F64 IVLN2HI <= 1.443)%R.
Proof.
  split; [const_good|]. assert (E : value F64 IVLN2HI = (IZR 3098164009 * bpow radix2 (-31))%R) by (apply (kb_val 31); vm_compute; reflexivity).
  split; [exact E|]. rewrite E. change (bpow radix2 (-31)) with (/ 2147483648)%R. lra.
Qed.
Lemma IVLN10HI_ok : good IVLN10HI /\ value F64 IVLN10HI = (IZR 3730561193 * bpow radix2 (-33))%R /\ (0.434 <= value F64 IVLN10HI <= 0.4343)%R.
Proof.
  split; [const_good|]. assert (E : value F64 IVLN10HI = (IZR 3730561193 * bpow radix2 (-33))%R) by (apply (kb_val 33); vm_compute; reflexivity).
  split; [exact E|]. rewrite E. change (bpow radix2 (-33)) with (/ 8589934592)%R. lra.
Qed.
Lemma small_const iv n e : 0 <= n < 2 ^ 53 -> e <= -76 -> value F64 iv = (IZR n * bpow radix2 e)%R -> (0 <= value F64 iv <= / 1000000)%R.
Proof.
  intros H He ->. assert (0 <= IZR n)%R by (apply IZR_le; lia). assert (IZR n < bpow radix2 53)%R by (change (bpow radix2 53) with (IZR (2 ^ 53)); apply IZR_lt; lia).
  pose proof (bpow_gt_0 radix2 e). split; [apply Rmult_le_pos; lra|]. apply Rle_trans with (bpow radix2 53 * bpow radix2 (-76))%R.
  - apply Rmult_le_compat; [lra|lra|lra|apply bpow_le; exact He].
  - rewrite <- bpow_plus. change (bpow radix2 (53 + -76)) with (/ 8388608)%R. lra.
Qed.
Lemma IVLN2LO_ok : (0 <= value F64 IVLN2LO <= / 1000000)%R.
Proof. apply (small_const _ 12657236604881 (-76)); [lia|lia|]. apply (kb_val 76). vm_compute. reflexivity. Qed.
Lemma IVLN10LO_ok : (0 <= value F64 IVLN10LO <= / 1000000)%R.
Proof. apply (small_const _ 7762796009401813 (-88)); [lia|lia|]. apply (kb_val 88). vm_compute. reflexivity. Qed.
Lemma pw63 j : bpow radix2 (-60 - j) = (8 * bpow radix2 (-63 - j))%R.
Proof. replace (-60 - j) with (3 + (-63 - j)) by lia. rewrite bpow_plus. reflexivity. Qed.

Section Main.
Context (o : fops) (Ho : ieee_ops F64 o) (c : icast) (Hc : icast_ok c).

Lemma primary_gen q iv ivl B g f y l L E (F := value F64 f) (HI := value F64 (log_hi o f)) (Y := (value F64 y + L + ln (1 + F) / ln B)%R) (vh := o_mul o (log_hi o f) iv) (r := spadd o y vh (logb_val o q f l)) :
  good y -> good vh -> value F64 vh = (HI * value F64 iv)%R -> (Rabs (HI * value F64 iv) <= 1)%R -> (Rabs (value F64 y) <= 1100)%R -> (value F64 y = 0 \/ Rabs (HI * value F64 iv) <= 0.49 * Rabs (value F64 y))%R ->
  (rT q F HI L = (rA F 0 + F) * (value F64 iv + ivl) - HI * value F64 iv + L)%R ->
  (Rabs ((rA F 0 + F) * (value F64 iv + ivl) - ln (1 + F) / ln B) <= g * (Rabs F * bpow radix2 (-60)))%R ->
  good (logb_val o q f l) /\ (Rabs (value F64 (logb_val o q f l)) <= 0.06)%R /\ (Rabs (value F64 (logb_val o q f l) - rT q F HI L) <= E)%R ->
  (bpow radix2 (-1022) <= Rabs Y)%R -> (value F64 y = 0 /\ E + g * (Rabs F * bpow radix2 (-60)) <= ulp64 Y \/ E + g * (Rabs F * bpow radix2 (-60)) + bpow radix2 (-58) <= ulp64 Y)%R ->
  within (3 / 2) r Y.
Proof using Ho.
  intros Gy Gv Vv Bv By C ET EA (Gl & Bl & El) LY U. destruct (spadd_ok o Ho y vh (logb_val o q f l) Gy Gv Gl By ltac:(rewrite Vv; exact Bv) Bl ltac:(rewrite Vv; exact C)) as (Gr & v & Er & Ev & E0).
  rewrite Vv in Ev, E0. set (vl := value F64 (logb_val o q f l)) in *. set (y' := value F64 y) in *. set (H' := (HI * value F64 iv)%R) in *.
  assert (T : (Rabs (y' + H' + vl - Y) <= E + g * (Rabs F * bpow radix2 (-60)))%R).
  { replace (y' + H' + vl - Y)%R with ((vl - rT q F HI L) + ((rA F 0 + F) * (value F64 iv + ivl) - ln (1 + F) / ln B))%R by (rewrite ET; unfold Y; fold y' H'; ring). apply sum_le; assumption. }
  split; [apply Gr|]. split; [apply Gr|]. fold r. change (value F64 r) with (value F64 (spadd o y vh (logb_val o q f l))). rewrite Er. replace (3 / 2)%R with (1 + / 2)%R by field.
  apply final_round; [exact LY| |lra]. rewrite Rmult_1_l. destruct U as [[Z0 U]|U].
  - rewrite (E0 Z0). rewrite Z0, Rplus_0_l in T. eapply Rle_trans; [exact T|exact U].
  - replace (v - Y)%R with ((v - (y' + H' + vl)) + (y' + H' + vl - Y))%R by ring. eapply Rle_trans; [apply sum_le; [exact Ev|exact T]|]. lra.
Qed.

(** Errors and ulps near one: the result is at least F / 2^d. *)
Lemma ulp_near d j Y F : (bpow radix2 (- j) <= Rabs F)%R -> (bpow radix2 (- d) * Rabs F <= Rabs Y)%R -> (bpow radix2 (-52 - d - j) <= ulp64 Y)%R.
Proof.
  intros H1 H2. replace (-52 - d - j) with (1 - d - j - 53) by lia. apply ulp64_ge. replace (1 - d - j - 1) with (- d + - j) by lia. rewrite bpow_plus. eapply Rle_trans; [|exact H2]. apply Rmult_le_compat_l; [apply bpow_ge_0|exact H1].
Qed.

Lemma log2_primary_ok x k (X := value F64 x) : 0x3fe6a09e00000000 <= x < 0x3ff6a09e00000000 -> Z.abs k <= 1100 -> (k = 0 -> X <> 1%R) ->
  within (3 / 2) (log2_primary o c x k) ((ln X + IZR k * ln 2) / ln 2).
Proof using Ho Hc.
  intros Hx Hk K1. destruct (prep o Ho x Hx) as (PF & VF & BF & NZ). fold X in VF, BF, NZ. rewrite log2_eq. set (f := o_sub o x one) in *.
  destruct IVLN2HI_ok as (Gi & Vi & Bi). pose proof IVLN2LO_ok as Bl. destruct (hi_mul o Ho f IVLN2HI 3098164009 (-31) PF Gi Vi ltac:(lia) ltac:(lia) ltac:(rewrite Rabs_pos_eq; lra)) as (Gv & Vv & BH).
  destruct (ofi64 c Hc k ltac:(lia)) as [Gk Vk]. pose proof ln2_num as L2.
  replace ((ln X + IZR k * ln 2) / ln 2)%R with (value F64 (c_ofi c k) + 0 + ln (1 + value F64 f) / ln 2)%R.
  2:{ rewrite Vk, VF. replace (1 + (X - 1))%R with X by ring. field. lra. }
  assert (BA : (-0.293 <= value F64 f <= 0.4144)%R) by (rewrite VF; lra).
  pose proof (approx 2 (value F64 IVLN2HI) (value F64 IVLN2LO) 4.4 (value F64 f) ltac:(lra) ivln2 BA ltac:(lra) ltac:(lra)) as AP.
  destruct (ln_half _ BA) as [LL LU]. set (F := value F64 f) in *. set (HI := value F64 (log_hi o f)) in *.
  assert (BV : (Rabs (HI * value F64 IVLN2HI) <= 0.49)%R) by (eapply Rle_trans; [apply prod_le; [exact BH|rewrite Rabs_pos_eq; [apply Bi|lra]]|lra]).
  assert (K2 : (Rabs (IZR k) <= 1100)%R) by (rewrite <- abs_IZR; apply IZR_le; exact Hk).
  assert (AL : (Rabs (ln (1 + F) / ln 2) = Rabs (ln (1 + F)) / ln 2)%R) by (unfold Rdiv; rewrite Rabs_mult, (Rabs_pos_eq (/ ln 2)); [reflexivity|left; apply Rinv_0_lt_compat; lra]).
  assert (I2 : (1.4426 <= / ln 2 <= 1.4428)%R) by (split; apply (Rmult_le_reg_r (ln 2)); try lra; rewrite Rinv_l by lra; lra).
  pose proof (Rabs_pos F) as F0. assert (AF : (Rabs F <= 0.4144)%R) by (apply Rabs_le; lra).
  assert (RT := rT_2 F HI). rewrite <- (Rplus_0_r (_ - _)) in RT.
  pose proof (boxes_ok o Ho q2 0 0 340 f 0 0%R PF good_zero box2 ltac:(rewrite value_zero, Rabs_R0, fx_0; lra) ltac:(rewrite value_zero, Rminus_0_r, Rabs_R0, fx_0; lra)) as BX.
  destruct (Z.eq_dec k 0) as [k0|nk].
  - assert (Y0 : value F64 (c_ofi c k) = 0%R) by (rewrite Vk, k0; reflexivity). specialize (NZ (K1 k0)). rewrite <- VF in NZ. destruct (binade F BA NZ) as (j & Hj & J1 & J2).
    assert (LY : (Rabs F <= Rabs (value F64 (c_ofi c k) + 0 + ln (1 + F) / ln 2))%R) by (rewrite Y0, !Rplus_0_l, AL; unfold Rdiv; pose proof (Rabs_pos (ln (1 + F))); nra).
    assert (UL : (bpow radix2 (-52 - 0 - j) <= ulp64 (value F64 (c_ofi c k) + 0 + ln (1 + F) / ln 2))%R) by (apply (ulp_near 0 j _ F J1); change (bpow radix2 (- (0))) with 1%R; lra).
    replace (-52 - 0 - j) with (11 + (-63 - j)) in UL by lia. rewrite bpow_plus in UL. change (bpow radix2 11) with 2048%R in UL.
    assert (AF2 : (Rabs F * bpow radix2 (-60) <= 16 * bpow radix2 (-63 - j))%R).
    { apply Rle_trans with (bpow radix2 (1 - j) * bpow radix2 (-60))%R; [apply Rmult_le_compat_r; [apply bpow_ge_0|exact J2]|]. rewrite <- bpow_plus. replace (1 - j + -60) with (4 + (-63 - j)) by lia. rewrite bpow_plus. apply Rle_refl. }
    pose proof (bpow_gt_0 radix2 (-63 - j)) as pj.
    assert (L1 : (bpow radix2 (-1022) <= Rabs (value F64 (c_ofi c k) + 0 + ln (1 + F) / ln 2))%R) by (eapply Rle_trans; [|exact LY]; eapply Rle_trans; [|exact NZ]; apply bpow_le; lia).
    destruct (Z.eq_dec j 2) as [J|J].
    + apply (primary_gen q2 IVLN2HI (value F64 IVLN2LO) 2 4.4 f _ 0 0%R _ Gk Gv Vv ltac:(fold HI; lra) ltac:(rewrite Vk; exact K2) (or_introl Y0) RT AP BX L1).
      left. split; [exact Y0|]. fold F. rewrite J in *. change (-63) with (2 + (-63 - 2)) at 1. rewrite (bpow_plus radix2 2). change (bpow radix2 2) with 4%R. lra.
    + pose proof (group_ok o Ho q2 1010 f 0 j PF good_zero value_zero ltac:(lia) group2 ltac:(lia) J2) as GX.
      apply (primary_gen q2 IVLN2HI (value F64 IVLN2LO) 2 4.4 f _ 0 0%R _ Gk Gv Vv ltac:(fold HI; lra) ltac:(rewrite Vk; exact K2) (or_introl Y0) RT AP GX L1).
      left. split; [exact Y0|]. fold F. lra.
  - assert (D : (1 <= Rabs (IZR k))%R) by (rewrite <- abs_IZR; apply IZR_le; lia).
    assert (BLN : (Rabs (ln (1 + F) / ln 2) <= 0.5007)%R).
    { rewrite AL. unfold Rdiv. assert (Rabs (ln (1 + F)) <= 0.347)%R; [|nra]. rewrite VF. replace (1 + (X - 1))%R with X by ring. pose proof (lnX_bounds X ltac:(lra)). apply Rabs_le. lra. }
    assert (LY : (0.4993 <= Rabs (value F64 (c_ofi c k) + 0 + ln (1 + F) / ln 2))%R).
    { rewrite Vk, Rplus_0_r. pose proof (Rabs_triang_inv (IZR k) (- (ln (1 + F) / ln 2))) as Q. rewrite Rabs_Ropp in Q. replace (IZR k - - (ln (1 + F) / ln 2))%R with (IZR k + ln (1 + F) / ln 2)%R in Q by ring. lra. }
    assert (UL : (bpow radix2 (-54) <= ulp64 (value F64 (c_ofi c k) + 0 + ln (1 + F) / ln 2))%R) by (apply (ulp64_ge (-1)); change (bpow radix2 (-1 - 1)) with (/ 4)%R; lra).
    assert (P1 : bpow radix2 (-54) = (512 * bpow radix2 (-63))%R) by (change (-54) with (9 + -63); rewrite bpow_plus; reflexivity).
    assert (P2 : bpow radix2 (-60) = (8 * bpow radix2 (-63))%R) by (change (-60) with (3 + -63); rewrite bpow_plus; reflexivity).
    assert (P3 : bpow radix2 (-58) = (32 * bpow radix2 (-63))%R) by (change (-58) with (5 + -63); rewrite bpow_plus; reflexivity).
    pose proof (bpow_gt_0 radix2 (-63)) as p63.
    apply (primary_gen q2 IVLN2HI (value F64 IVLN2LO) 2 4.4 f _ 0 0%R _ Gk Gv Vv ltac:(fold HI; lra) ltac:(rewrite Vk; exact K2) ltac:(right; rewrite Vk; fold HI; lra) RT AP BX).
    + eapply Rle_trans; [|exact LY]. apply Rle_trans with (bpow radix2 (-2)); [apply bpow_le; lia|change (bpow radix2 (-2)) with (/ 4)%R; lra].
    + right. fold F. rewrite P3. rewrite P1 in UL. rewrite P2. nra.
Qed.

Lemma log10_k k (dk := c_ofi c k) (y := o_mul o dk LOG10_2HI) (l := o_mul o dk LOG10_2LO) (L := (IZR k * (ln 2 / ln 10 - value F64 LOG10_2HI))%R) : Z.abs k <= 1100 ->
  good y /\ value F64 y = (IZR k * value F64 LOG10_2HI)%R /\ (0.301 <= value F64 LOG10_2HI <= 0.302)%R /\ good l /\ (Rabs (value F64 l) <= fx LP (2 ^ (LP - 31)))%R /\
  (Rabs (value F64 l - L) <= fx LP (2 ^ (LP - 75)))%R /\ (Rabs L <= / 1000000)%R /\ (k = 0 -> value F64 l = 0%R /\ L = 0%R).
Proof using Ho Hc.
  intros Hk. destruct (ofi64 c Hc k ltac:(lia)) as [Gk Vk]. fold dk in Gk, Vk.
  assert (K1 : (Rabs (IZR k) <= 1100)%R) by (rewrite <- abs_IZR; apply IZR_le; exact Hk).
  assert (Gh : good LOG10_2HI) by const_good. assert (Gl : good LOG10_2LO) by const_good.
  assert (Eh : value F64 LOG10_2HI = (IZR 661971961083 * bpow radix2 (-41))%R) by (apply (kb_val 41); vm_compute; reflexivity).
  assert (El : value F64 LOG10_2LO = (IZR 3658597174646171 * bpow radix2 (-93))%R) by (apply (kb_val 93); vm_compute; reflexivity).
  assert (Bh : (0.301 <= value F64 LOG10_2HI <= 0.302)%R) by (rewrite Eh; change (bpow radix2 (-41)) with (/ 2199023255552)%R; lra).
  assert (Bl : (0 <= value F64 LOG10_2LO <= 0.00000000000037)%R).
  { rewrite El. change (-93) with (-53 + -40). rewrite bpow_plus. change (bpow radix2 (-53)) with (/ 9007199254740992)%R. change (bpow radix2 (-40)) with (/ 1099511627776)%R. lra. }
  destruct (mul64 o Ho dk LOG10_2HI Gk Gh) as [G1 V1]; [rewrite Vk; apply small1; eapply Rle_trans; [apply prod_le; [exact K1|rewrite Rabs_pos_eq; [apply Bh|lra]]|lra]|]. fold y in G1, V1.
  rewrite Vk, Eh, <- Rmult_assoc, <- mult_IZR, rne_exact64 in V1 by lia. rewrite mult_IZR, Rmult_assoc, <- Eh in V1.
  assert (BK : (Rabs (IZR k * value F64 LOG10_2LO) <= 0.00000000041)%R) by (eapply Rle_trans; [apply prod_le; [exact K1|rewrite Rabs_pos_eq; [apply Bl|lra]]|lra]).
  assert (p31 : bpow radix2 (-31) = (/ 2147483648)%R) by reflexivity.
  assert (BK2 : (Rabs (IZR k * value F64 LOG10_2LO) < bpow radix2 (-31))%R) by (rewrite p31; lra).
  destruct (mul64 o Ho dk LOG10_2LO Gk Gl) as [G2 V2]; [rewrite Vk; apply small1; lra|]. fold l in G2, V2. rewrite Vk in V2.
  split; [exact G1|]. split; [exact V1|]. split; [exact Bh|]. split; [exact G2|]. rewrite !fx_pow by (unfold LP; lia). replace (LP - 31 - LP) with (-31) by lia. replace (LP - 75 - LP) with (-75) by lia.
  pose proof (rne_error64 (-31) _ BK2 ltac:(lia)) as R. rewrite <- V2 in R. change (-31 - 54) with (-85) in R.
  assert (KD : (Rabs (IZR k * (ln 2 / ln 10 - (value F64 LOG10_2HI + value F64 LOG10_2LO))) <= 1100 * bpow radix2 (-90))%R) by (apply prod_le; [exact K1|exact log10_2]).
  assert (P1 : bpow radix2 (-75) = (32768 * bpow radix2 (-90))%R) by (change (-75) with (15 + -90); rewrite bpow_plus; reflexivity).
  assert (P2 : bpow radix2 (-85) = (32 * bpow radix2 (-90))%R) by (change (-85) with (5 + -90); rewrite bpow_plus; reflexivity).
  pose proof (bpow_gt_0 radix2 (-90)) as p90. pose proof (small64 (-90) ltac:(lia)) as s90.
  assert (EL : (L = IZR k * value F64 LOG10_2LO + IZR k * (ln 2 / ln 10 - (value F64 LOG10_2HI + value F64 LOG10_2LO)))%R) by (unfold L; ring).
  split; [|split; [|split]].
  - rewrite V2. apply abs_round_le_generic; [auto with typeclass_instances..|apply generic_format_bpow; vm_compute; discriminate|left; exact BK2].
  - rewrite EL. apply Rabs_le_inv in R, KD. apply Rabs_le. lra.
  - rewrite EL. eapply Rle_trans; [apply sum_le; [exact BK|exact KD]|]. lra.
  - intros ->. split; [rewrite V2, Rmult_0_l; apply rne0|unfold L; ring].
Qed.

Lemma log10_primary_ok x k (X := value F64 x) : 0x3fe6a09e00000000 <= x < 0x3ff6a09e00000000 -> Z.abs k <= 1100 -> (k = 0 -> X <> 1%R) ->
  within (3 / 2) (log10_primary o c x k) ((ln X + IZR k * ln 2) / ln 10).
Proof using Ho Hc.
  intros Hx Hk K1. destruct (prep o Ho x Hx) as (PF & VF & BF & NZ). fold X in VF, BF, NZ. rewrite log10_eq. set (f := o_sub o x one) in *.
  destruct IVLN10HI_ok as (Gi & Vi & Bi). pose proof IVLN10LO_ok as Bl. destruct (hi_mul o Ho f IVLN10HI 3730561193 (-33) PF Gi Vi ltac:(lia) ltac:(lia) ltac:(rewrite Rabs_pos_eq; lra)) as (Gv & Vv & BH).
  destruct (log10_k k Hk) as (Gy & Vy & Bc & Gl & BL1 & BL2 & BL3 & KZ). set (y := o_mul o (c_ofi c k) LOG10_2HI) in *. set (l := o_mul o (c_ofi c k) LOG10_2LO) in *.
  set (L := (IZR k * (ln 2 / ln 10 - value F64 LOG10_2HI))%R) in *. pose proof ln2_num as L2.
  assert (L10 : (2.302 <= ln 10 <= 2.303)%R).
  { pose proof ln10_bounds as [A1 A2]. unfold fx in A1, A2. split; [eapply Rle_trans; [|exact A1]|eapply Rle_trans; [exact A2|]];
      (apply Rmult_le_reg_r with (bpow radix2 160); [apply bpow_gt_0|]; rewrite Rmult_assoc, <- bpow_plus; change (bpow radix2 (- (160) + 160)) with 1%R; rewrite Rmult_1_r; change (bpow radix2 160) with (IZR (2 ^ 160)); let a := eval vm_compute in (2 ^ 160) in change (2 ^ 160) with a; let b := eval vm_compute in (ln10n - 2 ^ 33) in let d := eval vm_compute in (ln10n + 2 ^ 33) in change (ln10n - 2 ^ 33) with b || change (ln10n + 2 ^ 33) with d; lra). }
  replace ((ln X + IZR k * ln 2) / ln 10)%R with (value F64 y + L + ln (1 + value F64 f) / ln 10)%R.
  2:{ rewrite Vy, VF. unfold L. replace (1 + (X - 1))%R with X by ring. field. lra. }
  assert (BA : (-0.293 <= value F64 f <= 0.4144)%R) by (rewrite VF; lra).
  pose proof (approx 10 (value F64 IVLN10HI) (value F64 IVLN10LO) 1.5 (value F64 f) ltac:(lra) ivln10 BA ltac:(lra) ltac:(lra)) as AP.
  destruct (ln_half _ BA) as [LL LU]. set (F := value F64 f) in *. set (HI := value F64 (log_hi o f)) in *.
  assert (BV : (Rabs (HI * value F64 IVLN10HI) <= 0.146)%R) by (eapply Rle_trans; [apply prod_le; [exact BH|rewrite Rabs_pos_eq; [apply Bi|lra]]|lra]).
  assert (K2 : (Rabs (IZR k) <= 1100)%R) by (rewrite <- abs_IZR; apply IZR_le; exact Hk).
  assert (By : (Rabs (value F64 y) <= 1100)%R) by (rewrite Vy; eapply Rle_trans; [apply prod_le; [exact K2|rewrite Rabs_pos_eq; [apply Bc|lra]]|lra]).
  assert (AL : (Rabs (ln (1 + F) / ln 10) = Rabs (ln (1 + F)) / ln 10)%R) by (unfold Rdiv; rewrite Rabs_mult, (Rabs_pos_eq (/ ln 10)); [reflexivity|left; apply Rinv_0_lt_compat; lra]).
  assert (I2 : (0.4342 <= / ln 10 <= 0.4345)%R) by (split; apply (Rmult_le_reg_r (ln 10)); try lra; rewrite Rinv_l by lra; lra).
  pose proof (Rabs_pos F) as F0. assert (AF : (Rabs F <= 0.4144)%R) by (apply Rabs_le; lra).
  assert (RT := rT_10 F HI L).
  pose proof (boxes_ok o Ho q10 _ _ 108 f l L PF Gl box10 BL1 BL2) as BX.
  destruct (Z.eq_dec k 0) as [k0|nk].
  - assert (Y0 : value F64 y = 0%R) by (rewrite Vy, k0; apply Rmult_0_l). destruct (KZ k0) as [Vl L0]. specialize (NZ (K1 k0)). rewrite <- VF in NZ. destruct (binade F BA NZ) as (j & Hj & J1 & J2).
    assert (LY : (/ 4 * Rabs F <= Rabs (value F64 y + L + ln (1 + F) / ln 10))%R) by (rewrite Y0, L0, !Rplus_0_l, AL; unfold Rdiv; pose proof (Rabs_pos (ln (1 + F))); nra).
    assert (UL : (bpow radix2 (-52 - 2 - j) <= ulp64 (value F64 y + L + ln (1 + F) / ln 10))%R) by (apply (ulp_near 2 j _ F J1); change (bpow radix2 (- (2))) with (/ 4)%R; exact LY).
    replace (-52 - 2 - j) with (9 + (-63 - j)) in UL by lia. rewrite bpow_plus in UL. change (bpow radix2 9) with 512%R in UL.
    assert (AF2 : (Rabs F * bpow radix2 (-60) <= 16 * bpow radix2 (-63 - j))%R).
    { apply Rle_trans with (bpow radix2 (1 - j) * bpow radix2 (-60))%R; [apply Rmult_le_compat_r; [apply bpow_ge_0|exact J2]|]. rewrite <- bpow_plus. replace (1 - j + -60) with (4 + (-63 - j)) by lia. rewrite bpow_plus. apply Rle_refl. }
    pose proof (bpow_gt_0 radix2 (-63 - j)) as pj.
    assert (L1 : (bpow radix2 (-1022) <= Rabs (value F64 y + L + ln (1 + F) / ln 10))%R).
    { eapply Rle_trans; [|exact LY]. apply Rle_trans with (bpow radix2 (-2) * bpow radix2 (-53))%R; [rewrite <- bpow_plus; apply bpow_le; lia|]. apply Rmult_le_compat_l; [change (bpow radix2 (-2)) with (/ 4)%R; lra|exact NZ]. }
    destruct (Z.eq_dec j 2) as [J|J].
    + apply (primary_gen q10 IVLN10HI (value F64 IVLN10LO) 10 1.5 f _ l L _ Gy Gv Vv ltac:(fold HI; lra) By (or_introl Y0) RT AP BX L1).
      left. split; [exact Y0|]. fold F. rewrite J in *. change (-63) with (2 + (-63 - 2)) at 1. rewrite (bpow_plus radix2 2). change (bpow radix2 2) with 4%R.
      assert (Rabs F * bpow radix2 (-60) <= 0.4144 * (32 * bpow radix2 (-63 - 2)))%R; [|lra]. apply Rmult_le_compat; [exact F0|apply bpow_ge_0|exact AF|]. change (-60) with (5 + (-63 - 2)). rewrite (bpow_plus radix2 5). apply Rle_refl.
    + pose proof (group_ok o Ho q10 300 f l j PF Gl Vl ltac:(lia) group10 ltac:(lia) J2) as GX. fold F HI in GX. rewrite <- L0 in GX.
      apply (primary_gen q10 IVLN10HI (value F64 IVLN10LO) 10 1.5 f _ l L _ Gy Gv Vv ltac:(fold HI; lra) By (or_introl Y0) RT AP GX L1).
      left. split; [exact Y0|]. fold F. lra.
  - assert (D : (1 <= Rabs (IZR k))%R) by (rewrite <- abs_IZR; apply IZR_le; lia).
    assert (DY : (0.301 <= Rabs (value F64 y))%R) by (rewrite Vy, Rabs_mult, (Rabs_pos_eq (value F64 LOG10_2HI)) by lra; nra).
    assert (BLN : (Rabs (ln (1 + F) / ln 10) <= 0.1508)%R).
    { rewrite AL. unfold Rdiv. assert (Rabs (ln (1 + F)) <= 0.347)%R; [|nra]. rewrite VF. replace (1 + (X - 1))%R with X by ring. pose proof (lnX_bounds X ltac:(lra)). apply Rabs_le. lra. }
    assert (LY : (0.15 <= Rabs (value F64 y + L + ln (1 + F) / ln 10))%R).
    { pose proof (Rabs_triang_inv (value F64 y) (- (L + ln (1 + F) / ln 10))) as Q. rewrite Rabs_Ropp in Q. replace (value F64 y - - (L + ln (1 + F) / ln 10))%R with (value F64 y + L + ln (1 + F) / ln 10)%R in Q by ring.
      pose proof (sum_le L (ln (1 + F) / ln 10) _ _ BL3 BLN). lra. }
    assert (UL : (bpow radix2 (-55) <= ulp64 (value F64 y + L + ln (1 + F) / ln 10))%R) by (apply (ulp64_ge (-2)); change (bpow radix2 (-2 - 1)) with (/ 8)%R; lra).
    assert (P1 : bpow radix2 (-55) = (256 * bpow radix2 (-63))%R) by (change (-55) with (8 + -63); rewrite bpow_plus; reflexivity).
    assert (P2 : bpow radix2 (-60) = (8 * bpow radix2 (-63))%R) by (change (-60) with (3 + -63); rewrite bpow_plus; reflexivity).
    assert (P3 : bpow radix2 (-58) = (32 * bpow radix2 (-63))%R) by (change (-58) with (5 + -63); rewrite bpow_plus; reflexivity).
    pose proof (bpow_gt_0 radix2 (-63)) as p63.
    apply (primary_gen q10 IVLN10HI (value F64 IVLN10LO) 10 1.5 f _ l L _ Gy Gv Vv ltac:(fold HI; lra) By ltac:(right; fold HI; lra) RT AP BX).
    + eapply Rle_trans; [|exact LY]. apply Rle_trans with (bpow radix2 (-3)); [apply bpow_le; lia|change (bpow radix2 (-3)) with (/ 8)%R; lra].
    + right. fold F. rewrite P3. rewrite P1 in UL. rewrite P2. nra.
Qed.
End Main.
