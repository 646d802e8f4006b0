(** Accuracy of asin and acos: the rational function and the square root in floating point. *)
From Coq Require Import ZArith Reals Bool List Lia Lra Psatz.
From Flocq Require Import Core.
From Verif Require Import Base FloatModel FloatSpec LibmModel LibmSpec Elem FloatErr PolyBound ElemModel ElemSpec TrigModel F64Lib ExpProofs3 ExpProofs4 ExpProofs5 ExpProofs6 ExpProofs7 ExpProofs8 LogProofs LogProofs2 TrigProofs TrigRed TrigRed5 TrigLg8 TrigLg11 HypotProofs3 AtanModel AtanProofs AtanProofs2 Atan2Model Atan2Proofs Atan2Proofs2 FloatLib FloatProps AtanProofs3 HypotProofs10 AsinModel AsinProofs.
Import ListNotations.
Open Scope Z_scope.

Definition rx (z : nat) : ex :=
  Div (Mul (Vr z) (Add (K P_S0) (Mul (Vr z) (Add (K P_S1) (Mul (Vr z) (Add (K P_S2) (Mul (Vr z) (Add (K P_S3) (Mul (Vr z) (Add (K P_S4) (Mul (Vr z) (K P_S5))))))))))))
      (Add (K one) (Mul (Vr z) (Add (K Q_S1) (Mul (Vr z) (Add (K Q_S2) (Mul (Vr z) (Add (K Q_S3) (Mul (Vr z) (K Q_S4))))))))).
Definition chkR (a b : Z) : bool :=
  match aprog AP [Ab a b (2 ^ 24)] [rx 0] with Some l => match nth_error l 1 with Some b => (er b <=? 50000000) && (hi b <=? 56 * 2 ^ 70) && (- 2 ^ 72 <=? lo b) | None => false end | None => false end.
Lemma scanR : scan chkR 0 (2 ^ 75) 8 = true. Proof. vm_compute. reflexivity. Qed.
Definition chk_zero : bool := match aprog AP [Ab 0 0 0] [rx 0] with Some l => match nth_error l 1 with Some b => (hi b =? 0) && (lo b =? 0) | None => false end | None => false end.
Lemma scan_zero : chk_zero = true. Proof. vm_compute. reflexivity. Qed.
Definition u53 : R := bpow radix2 (-53).
Lemma u53_small : (0 < u53 <= / 1000000000000000)%R. Proof. split; [apply bpow_gt_0|apply small64; lia]. Qed.

Section R.
Context (o : fops) (Ho : ieee_ops F64 o).
Lemma fp_r l z : fprog o [z] [rx 0] = [z; comp_r o z] /\ rprog [l] [rx 0] = [l; Rr l].
Proof using. split; reflexivity. Qed.
Lemma comp_ok z Z0 : good z -> (0 <= value F64 z <= / 4)%R -> (Rabs (value F64 z - Z0) <= bpow radix2 (-56))%R ->
  good (comp_r o z) /\ (Rabs (value F64 (comp_r o z) - Rr Z0) <= 0.373 * u53)%R /\ (- / 256 <= value F64 (comp_r o z) <= 0.055)%R.
Proof using Ho.
  intros G B E. destruct (scan_ok AP chkR 0 (2 ^ 75) 8 (value F64 z) scanR ltac:(discriminate)) as (a & b & C & Hab).
  { change (0 + 2 ^ 75 * Z.of_nat 8) with (2 ^ 78). rewrite fx_0, fx_pow by (unfold AP; lia). exact B. }
  assert (rel AP [Ab a b (2 ^ 24)] [z] [Z0]) as RL.
  { split; [reflexivity|split; [reflexivity|]]. intros i q. destruct i as [|i]; cbn [nth_error nth]; intros Q; [|destruct i; discriminate]. apply Some_inj in Q. subst q. split; [apply G|split; [apply G|]]. cbn [lo hi er]. split; [exact Hab|]. rewrite fx_pow by (unfold AP; lia). exact E. }
  unfold chkR in C. destruct (aprog AP _ _) as [l|] eqn:Ea; [|discriminate]. destruct (nth_error l 1) as [q|] eqn:Eb; [|discriminate].
  pose proof (aprog_sound AP o ltac:(unfold AP; lia) Ho _ _ _ _ l RL Ea) as S. pose proof (rel_nth _ _ _ _ _ _ S Eb) as (FQ & NQ & BQ & EQ).
  destruct (fp_r Z0 z) as [E1 E2]. rewrite E1 in FQ, NQ, BQ, EQ. rewrite E2 in EQ. cbn [nth] in FQ, NQ, BQ, EQ.
  apply andb_prop in C. destruct C as [C C3]. apply andb_prop in C. destruct C as [C1 C2]. apply Z.leb_le in C1, C2, C3.
  apply (fx_le AP) in C1, C2, C3. replace (56 * 2 ^ 70) with (56 * 2 ^ (AP + -10)) in C2 by reflexivity. rewrite fx_scale in C2 by (unfold AP; lia). rewrite fx_opp, fx_pow in C3 by (unfold AP; lia). change (bpow radix2 (72 - AP)) with (/ 256)%R in C3. change (bpow radix2 (-10)) with (/ 1024)%R in C2.
  split; [split; assumption|]. split; [|lra]. eapply Rle_trans; [exact EQ|]. eapply Rle_trans; [exact C1|]. unfold fx, u53. change (- AP) with (-27 + -53). rewrite bpow_plus. change (bpow radix2 (-27)) with (/ 134217728)%R. pose proof (bpow_gt_0 radix2 (-53)). lra.
Qed.
Lemma comp_zero z : good z -> value F64 z = 0%R -> good (comp_r o z) /\ value F64 (comp_r o z) = 0%R.
Proof using Ho.
  intros G B. assert (rel AP [Ab 0 0 0] [z] [0%R]) as RL.
  { split; [reflexivity|split; [reflexivity|]]. intros i q. destruct i as [|i]; cbn [nth_error nth]; intros Q; [|destruct i; discriminate]. apply Some_inj in Q. subst q. split; [apply G|split; [apply G|]]. cbn [lo hi er]. rewrite fx_0, B, Rminus_0_r, Rabs_R0. lra. }
  pose proof scan_zero as C. unfold chk_zero in C. destruct (aprog AP _ _) as [l|] eqn:Ea; [|discriminate]. destruct (nth_error l 1) as [q|] eqn:Eb; [|discriminate].
  pose proof (aprog_sound AP o ltac:(unfold AP; lia) Ho _ _ _ _ l RL Ea) as S. pose proof (rel_nth _ _ _ _ _ _ S Eb) as (FQ & NQ & BQ & EQ).
  destruct (fp_r 0 z) as [E1 _]. rewrite E1 in FQ, NQ, BQ. cbn [nth] in FQ, NQ, BQ. apply andb_prop in C. destruct C as [C1 C2]. apply Z.eqb_eq in C1, C2. rewrite C1, C2, fx_0 in BQ. split; [split; assumption|lra].
Qed.
Lemma add_soft a b : good a -> good b -> o_add o a b = o_add (soft_ops F64 8) a b.
Proof using Ho.
  intros [Fa Na] [Fb Nb]. destruct (ops_add F64 o Ho a b Fa Fb) as (_ & _ & _ & _ & _ & R1). destruct (ops_add F64 _ soft_ok a b Fa Fb) as (_ & _ & _ & _ & _ & R2).
  exact (rounds_to_unique F64 W64 _ _ _ _ (R1 Na Nb) (R2 Na Nb)).
Qed.
Lemma sub_soft a b : good a -> good b -> o_sub o a b = o_sub (soft_ops F64 8) a b.
Proof using Ho.
  intros [Fa Na] [Fb Nb]. destruct (ops_sub F64 o Ho a b Fa Fb) as (_ & _ & _ & _ & _ & R1). destruct (ops_sub F64 _ soft_ok a b Fa Fb) as (_ & _ & _ & _ & _ & R2).
  exact (rounds_to_unique F64 W64 _ _ _ _ (R1 Na Nb) (R2 Na Nb)).
Qed.

(** * The reduction of the arguments from 1/2 *)
Lemma half_angle X : (/ 2 <= X <= 1)%R -> acos X = (2 * asin (sqrt ((1 - X) / 2)))%R.
Proof using.
  clear. intros H. set (Z := ((1 - X) / 2)%R). assert (0 <= Z <= / 4)%R as HZ by (unfold Z; lra). assert (0 <= sqrt Z <= / 2)%R as S.
  { split; [apply sqrt_pos|]. replace (/ 2)%R with (sqrt (/ 4)) by (replace (/ 4)%R with (/ 2 * / 2)%R by lra; rewrite sqrt_square; lra). apply sqrt_le_1; lra. }
  pose proof (asin_bound (sqrt Z)) as B. assert (0 <= asin (sqrt Z))%R as P.
  { destruct (Rle_lt_dec 0 (asin (sqrt Z))) as [p|p]; [exact p|]. assert (sin (asin (sqrt Z)) < 0)%R as Q by (apply sin_lt_0_var; lra). rewrite sin_asin in Q by lra. lra. }
  rewrite <- (acos_cos (2 * asin (sqrt Z))) by lra. f_equal. rewrite cos_2a_sin, sin_asin by lra. rewrite Rmult_assoc, sqrt_sqrt by lra. unfold Z. field.
Qed.
Lemma half_angle_asin X : (/ 2 <= X <= 1)%R -> asin X = (PI / 2 - 2 * asin (sqrt ((1 - X) / 2)))%R.
Proof using. clear. intros H. rewrite <- half_angle by exact H. rewrite acos_asin by lra. ring. Qed.

(** * The square root *)
Lemma sqrt_bounds Z : (0 < Z <= / 4)%R -> (0 < sqrt Z <= / 2)%R /\ (sqrt Z * sqrt Z = Z)%R.
Proof using.
  clear. intros H. split; [|apply sqrt_sqrt; lra]. split; [apply sqrt_lt_R0; lra|]. replace (/ 2)%R with (sqrt (/ 4)) by (replace (/ 4)%R with (/ 2 * / 2)%R by lra; rewrite sqrt_square; lra). apply sqrt_le_1; lra.
Qed.
Lemma root_half v : (0 < v <= / 2)%R -> (Rabs (rne F64 v - v) <= bpow radix2 (-55))%R /\ (0 <= rne F64 v <= / 2)%R.
Proof using.
  clear. intros H. assert (VE := valid_e). assert (rne F64 (/ 2) = / 2)%R as E by (replace (/ 2)%R with (IZR 1 * bpow radix2 (-1))%R by (change (bpow radix2 (-1)) with (/ 2)%R; ring); apply rne_exact64; lia). split.
  - destruct (Rlt_le_dec v (/ 2)) as [l|l]; [apply (rne_error64 (-1)); [rewrite Rabs_pos_eq by lra; exact l|lia]|]. assert (v = / 2)%R as -> by lra. rewrite E. rewrite Rminus_eq_0, Rabs_R0. apply bpow_ge_0.
  - assert (rne F64 0 <= rne F64 v <= rne F64 (/ 2))%R as L by (unfold rne; split; apply round_le; auto with typeclass_instances; lra). rewrite E, FloatErr.rne_0 in L. exact L.
Qed.
Lemma asin_root Z : (0 < Z <= / 4)%R -> (Rabs (sqrt Z * (1 + Rr Z) - asin (sqrt Z)) <= sqrt Z * (0.094 * u53))%R.
Proof using.
  clear. intros H. destruct (sqrt_bounds Z H) as [[S0 S1] SS]. set (s := sqrt Z) in *. pose proof (asin_R s ltac:(rewrite Rabs_pos_eq; lra)) as A. rewrite SS, (Rabs_pos_eq s) in A by lra.
  replace (s * (1 + Rr Z) - asin s)%R with (s + s * Rr Z - asin s)%R by ring. eapply Rle_trans; [exact A|]. apply Rmult_le_compat_l; [lra|]. change (-57) with (-4 + -53). rewrite bpow_plus. change (bpow radix2 (-4)) with (/ 16)%R. fold u53. pose proof u53_small. lra.
Qed.
(** The root with its low word cleared *)
Lemma cleared n : 2 ^ 52 <= n < INF -> let f := Z.land n 0xffffffff00000000 in
  0 <= f < INF /\ exists m e, 0 <= m < 2 ^ 21 /\ -1074 <= e /\ mag64 f = (IZR m * bpow radix2 e)%R /\ (mag64 n * (1 - bpow radix2 (-20)) <= mag64 f <= mag64 n)%R.
Proof using.
  clear. intros H f. assert (f = n - n mod 2 ^ 32) as Ef.
  { assert (n - n mod 2 ^ 32 = Z.shiftl (Z.shiftr n 32) 32) as ->.
    { rewrite Z.shiftl_mul_pow2, Z.shiftr_div_pow2 by lia. pose proof (Z.div_mod n (2 ^ 32)). lia. }
    unfold f. change 0xffffffff00000000 with (Z.shiftl (Z.ones 32) 32). apply Z.bits_inj'. intros i Hi. rewrite Z.land_spec.
    destruct (Z_lt_le_dec i 32) as [L|L]; [rewrite !Z.shiftl_spec_low by exact L; apply andb_false_r|]. rewrite !Z.shiftl_spec by exact Hi. rewrite Z.shiftr_spec by lia. replace (i - 32 + 32) with i by lia.
    destruct (Z_lt_le_dec i 64) as [L'|L']; [rewrite Z.ones_spec_low by lia; apply andb_true_r|]. rewrite Z.ones_spec_high by lia. rewrite andb_false_r. symmetry. apply Z.bits_above_log2; [lia|]. apply Z.log2_lt_pow2; [lia|]. apply Z.lt_le_trans with (2 ^ 64); [lia|apply Z.pow_le_mono_r; lia]. }
  pose proof (Z.mod_pos_bound n (2 ^ 32) ltac:(lia)) as M. split; [lia|].
  pose proof (Z.div_mod n (2 ^ 52) ltac:(lia)) as D. pose proof (Z.mod_pos_bound n (2 ^ 52) ltac:(lia)) as M2. set (E := n / 2 ^ 52) in *. set (w := n mod 2 ^ 52) in *.
  assert (n mod 2 ^ 32 = w mod 2 ^ 32) as Ew. { rewrite D. replace (2 ^ 52 * E + w) with (w + (2 ^ 20 * E) * 2 ^ 32) by lia. apply Z.mod_add. lia. }
  pose proof (Z.div_mod w (2 ^ 32) ltac:(lia)) as D3. set (v := w / 2 ^ 32) in *. assert (0 <= v < 2 ^ 20) as V by (unfold v; split; [apply Z.div_pos; lia|apply Z.div_lt_upper_bound; lia]).
  assert (f = v * 2 ^ 32 + E * 2 ^ 52) as Ef2 by lia. assert (f / 2 ^ 52 = E) as F1 by (rewrite Ef2, Z.div_add by lia; rewrite Z.div_small; lia). assert (f mod 2 ^ 52 = v * 2 ^ 32) as F2 by (rewrite Ef2, Z.mod_add by lia; apply Z.mod_small; lia).
  assert (1 <= E) as E1 by lia. assert (mag64 f = IZR (2 ^ 52 + v * 2 ^ 32) * bpow radix2 (E - 1075))%R as Mf by (rewrite HypotProofs.xval_mag by lia; unfold HypotProofs.xval; rewrite F1, F2; reflexivity).
  assert (mag64 n = IZR (2 ^ 52 + w) * bpow radix2 (E - 1075))%R as Mn by (rewrite HypotProofs.xval_mag by lia; reflexivity).
  exists (2 ^ 20 + v), (E - 1043). split; [lia|]. split; [lia|]. split.
  - rewrite Mf. replace (E - 1043) with (32 + (E - 1075)) by lia. rewrite bpow_plus, <- Rmult_assoc. f_equal. change (bpow radix2 32) with (IZR (2 ^ 32)). rewrite <- mult_IZR. f_equal. lia.
  - rewrite Mf, Mn. pose proof (bpow_gt_0 radix2 (E - 1075)) as P. set (q := bpow radix2 (E - 1075)) in *. change (bpow radix2 (-20)) with (/ 1048576)%R.
    assert (IZR (2 ^ 52 + w) <= IZR (2 ^ 52 + v * 2 ^ 32) + 4294967296)%R as A by (rewrite <- plus_IZR; apply IZR_le; lia). assert (4503599627370496 <= IZR (2 ^ 52 + w))%R as B by (apply IZR_le; lia). assert (IZR (2 ^ 52 + v * 2 ^ 32) <= IZR (2 ^ 52 + w))%R as C by (apply IZR_le; lia).
    split; [|apply Rmult_le_compat_r; lra]. replace (IZR (2 ^ 52 + w) * q * (1 - / 1048576))%R with (IZR (2 ^ 52 + w) * (1 - / 1048576) * q)%R by ring. apply Rmult_le_compat_r; lra.
Qed.
(** The correction of the truncated root *)
Lemma correction z s f (Z0 := value F64 z) (S := value F64 s) (F := value F64 f) : good z -> good s -> good f -> (bpow radix2 (-60) <= Z0 <= / 4)%R -> S = rne F64 (sqrt Z0) ->
  (exists m e, 0 <= m < 2 ^ 21 /\ -500 <= e /\ F = (IZR m * bpow radix2 e)%R) -> (S * (1 - bpow radix2 (-20)) <= F <= S)%R ->
  let c := o_div o (o_sub o z (o_mul o f f)) (o_add o s f) in
  good c /\ (Rabs (value F64 c - (sqrt Z0 - F)) <= bpow radix2 (-69) * sqrt Z0)%R /\ (Rabs (sqrt Z0 - F) <= bpow radix2 (-19) * sqrt Z0)%R.
Proof using Ho.
  intros Gz Gs Gf BZ ES (m & e & Hm & He & EF) BF c. assert (0 < bpow radix2 (-60))%R as p60 by apply bpow_gt_0.
  destruct (sqrt_bounds Z0 ltac:(lra)) as [[T0 T1] TT]. set (t := sqrt Z0) in *. pose proof u53_small as US.
  assert (bpow radix2 (-30) <= t)%R as T2. { unfold t. replace (bpow radix2 (-30)) with (sqrt (bpow radix2 (-60))); [apply sqrt_le_1; lra|]. change (-60) with (-30 + -30). rewrite bpow_plus. apply sqrt_square. apply bpow_ge_0. }
  assert (Rabs (S - t) <= u53 * t)%R as DS. { rewrite ES. pose proof (rne_rel t) as Q. rewrite (Rabs_pos_eq t) in Q by lra. apply Q. eapply Rle_trans; [|exact T2]. apply bpow_le. lia. }
  apply Rabs_le_inv in DS. change (bpow radix2 (-20)) with (/ 1048576)%R in BF. assert (0 <= u53 * t <= / 1000000000000000 * t)%R as UT by (split; [nra|apply Rmult_le_compat_r; lra]).
  set (d := (t - F)%R). assert (Rabs d <= 1.1 * / 1048576 * t)%R as BD by (unfold d; apply Rabs_le; lra). assert (bpow radix2 (-19) = / 524288)%R as B19 by reflexivity.
  assert (0.9 * t <= F <= 1.1 * t)%R as BF2 by lra. assert (0.9 * t <= S <= 1.1 * t)%R as BS2 by lra.
  (* the square is exact *)
  destruct (mul64 o Ho f f Gf Gf) as [Gq Vq]; [fold F; apply (small_ok _ 0); [lia|rewrite Rabs_pos_eq by nra; change (bpow radix2 0) with 1%R; nra]|]. fold F in Vq.
  assert (rne F64 (F * F) = F * F)%R as EQ. { rewrite EF. replace (IZR m * bpow radix2 e * (IZR m * bpow radix2 e))%R with (IZR (m * m) * bpow radix2 (e + e))%R by (rewrite mult_IZR, bpow_plus; ring). apply rne_exact64; [rewrite Z.abs_eq by lia; nia|lia]. }
  rewrite EQ in Vq. set (q := o_mul o f f) in *.
  assert (Z0 - F * F = d * (t + F))%R as EZ by (unfold d; rewrite <- TT; ring).
  assert (Rabs (d * (t + F)) <= 2.4 * / 1048576 * (t * t))%R as BDF. { rewrite Rabs_mult, (Rabs_pos_eq (t + F)) by lra. replace (2.4 * / 1048576 * (t * t))%R with (2.4 / 1048576 * t * t)%R by (unfold Rdiv; ring). apply Rle_trans with (1.1 * / 1048576 * t * (t + F))%R; [apply Rmult_le_compat_r; lra|nra]. }
  destruct (sub64 o Ho z q Gz Gq) as [Gd Vd]; [rewrite Vq; fold Z0; rewrite EZ; apply (small_ok _ 0); [lia|change (bpow radix2 0) with 1%R; nra]|]. rewrite Vq in Vd. fold Z0 in Vd. rewrite EZ in Vd. set (dd := o_sub o z q) in *. set (D := value F64 dd) in *.
  destruct (add64 o Ho s f Gs Gf) as [Gw Vw]; [fold S F; apply (small_ok _ 2); [lia|change (bpow radix2 2) with 4%R; rewrite Rabs_pos_eq; lra]|]. fold S F in Vw. set (w := o_add o s f) in *. set (W := value F64 w) in *.
  set (k := bpow radix2 (-1075)). assert (0 < k)%R as K0 by apply bpow_gt_0. assert (k <= bpow radix2 (-900) * (t * t))%R as K1. { unfold k. apply Rle_trans with (bpow radix2 (-900) * bpow radix2 (-60))%R; [rewrite <- bpow_plus; apply bpow_le; lia|]. apply Rmult_le_compat_l; [apply bpow_ge_0|lra]. }
  pose proof (rne_abs (d * (t + F))) as A1. rewrite <- Vd in A1. fold u53 k in A1. pose proof (rne_abs (S + F)) as A2. rewrite <- Vw in A2. fold u53 k in A2. rewrite (Rabs_pos_eq (S + F)) in A2 by lra.
  set (a := (t + F)%R) in *. assert (1.9 * t <= a <= 2.1 * t)%R as BA by (unfold a; lra). assert (0 <= Rabs d)%R as d0 by apply Rabs_pos. rewrite Rabs_mult, (Rabs_pos_eq a) in A1 by lra.
  assert (bpow radix2 (-900) <= / 1000000 * u53)%R as K2. { apply Rle_trans with (bpow radix2 (-20) * bpow radix2 (-53))%R; [rewrite <- bpow_plus; apply bpow_le; lia|]. apply Rmult_le_compat_r; [apply bpow_ge_0|]. change (bpow radix2 (-20)) with (/ 1048576)%R. lra. }
  set (h := bpow radix2 (-900)) in *. assert (0 < h)%R as h0 by apply bpow_gt_0. assert (k <= h * t)%R as K3 by (eapply Rle_trans; [exact K1|]; apply Rmult_le_compat_l; nra).
  assert (h * t <= / 1000000 * u53 * t)%R as K4 by (apply Rmult_le_compat_r; lra).
  assert (Rabs (W - a) <= 3.3 * (u53 * t))%R as EW. { apply Rabs_le. apply Rabs_le_inv in A2. assert (u53 * (S + F) <= 2.2 * (u53 * t))%R by nra. unfold a. lra. }
  assert (1.8 * t <= W)%R as BW. { apply Rabs_le_inv in EW. lra. }
  assert (Rabs (D / W - d) <= 3 * (u53 * Rabs d) + h * t)%R as EC.
  { replace (D / W - d)%R with (((D - d * a) - d * (W - a)) * / W)%R by (field; lra). rewrite Rabs_mult, (Rabs_pos_eq (/ W)) by (left; apply Rinv_0_lt_compat; lra).
    apply (Rmult_le_reg_r W); [lra|]. rewrite Rmult_assoc, Rinv_l, Rmult_1_r by lra. pose proof (Rabs_triang (D - d * a) (- (d * (W - a)))) as T. rewrite Rabs_Ropp, Rabs_mult in T. unfold Rminus at 1. eapply Rle_trans; [exact T|].
    assert (Rabs d * Rabs (W - a) <= Rabs d * (3.3 * (u53 * t)))%R by (apply Rmult_le_compat_l; lra). assert (0 <= u53 * Rabs d)%R as ud by nra. assert (u53 * (Rabs d * a) <= 2.1 * (u53 * Rabs d * t))%R by nra. assert (u53 * Rabs d * (1.8 * t) <= u53 * Rabs d * W)%R by (apply Rmult_le_compat_l; lra). assert (h * t * (1.8 * t) <= h * t * W)%R by (apply Rmult_le_compat_l; nra). assert (0 <= h * (t * t))%R by nra. nra. }
  assert (Rabs (D / W) <= 1.1 * Rabs d + h * t)%R as BC. { pose proof (Rabs_triang (D / W - d) d) as T. replace (D / W - d + d)%R with (D / W)%R in T by ring. assert (u53 * Rabs d <= / 1000000000000000 * Rabs d)%R by (apply Rmult_le_compat_r; lra). lra. }
  assert (h * t <= t)%R as ht by nra.
  destruct (div64 o Ho dd w Gd Gw) as [Gc Vc]; [fold W; lra|fold D W; apply (small_ok _ 1); [lia|change (bpow radix2 1) with 2%R; lra]|]. fold D W in Vc. fold c in Gc, Vc. split; [exact Gc|]. fold d. rewrite B19. split; [|lra].
  pose proof (rne_abs (D / W)) as A3. rewrite <- Vc in A3. fold u53 k in A3. replace (bpow radix2 (-69)) with (/ 65536 * u53)%R by (unfold u53; change (-69) with (-16 + -53); rewrite bpow_plus; reflexivity).
  pose proof (Rabs_triang (value F64 c - D / W) (D / W - d)) as T. replace (value F64 c - D / W + (D / W - d))%R with (value F64 c - d)%R in T by ring.
  assert (u53 * Rabs (D / W) <= u53 * (1.1 * Rabs d + h * t))%R by (apply Rmult_le_compat_l; lra). assert (u53 * (h * t) <= h * t)%R by nra. assert (u53 * Rabs d <= u53 * (1.1 * / 1048576 * t))%R by (apply Rmult_le_compat_l; lra). lra.
Qed.
End R.
