(** Accuracy of log: argument reduction. *)
From Coq Require Import ZArith Reals Bool List Lia Lra Psatz.
From Flocq Require Import Core.
From Verif Require Import Base BaseLemmas FloatModel FloatSpec FloatProofs FloatConvSpec LibmModel LibmSpec Elem FloatErr PolyBound ElemModel ElemSpec F64Lib
  ExpProofs3 ExpProofs4 ExpProofs5 ExpProofs6 ExpProofs7 ExpProofs8 LogProofs LogProofs2.
Import ListNotations.
Open Scope Z_scope.

Lemma mag_shift n e : 2 ^ 52 <= n -> 2 ^ 52 <= n + e * 2 ^ 52 -> mag64 (n + e * 2 ^ 52) = (mag64 n * bpow radix2 e)%R.
Proof.
  intros H1 H2. unfold mag64, V. change (fs F64) with 52.
  assert (D : (n + e * 2 ^ 52) / 2 ^ 52 = n / 2 ^ 52 + e) by (apply Z.div_add; lia).
  assert (M : (n + e * 2 ^ 52) mod 2 ^ 52 = n mod 2 ^ 52) by (apply Z.mod_add; lia).
  rewrite D, M. set (E := n / 2 ^ 52) in *. set (m := n mod 2 ^ 52) in *.
  assert (1 <= E) by (apply Z.div_le_lower_bound; lia). assert (1 <= E + e) by (rewrite <- D; apply Z.div_le_lower_bound; lia).
  destruct (Z.eqb_spec E 0); [lia|]. destruct (Z.eqb_spec (E + e) 0); [lia|].
  rewrite !mult_IZR, !(IZR_Zpower radix2) by lia. replace (E + e - 1) with (E - 1 + e) by lia. rewrite (bpow_plus _ _ e). ring.
Qed.
Lemma good_half : good half. Proof. const_good. Qed.
Lemma value_half : value F64 half = (/ 2)%R.
Proof. rewrite (kb_val 1 half 1) by (vm_compute; reflexivity). unfold fx. cbn. lra. Qed.

Local Instance valid64 : Valid_exp (FLT_exp (emin F64) (prec F64)).
Proof. apply FLT_exp_valid. exact Hp64. Qed.
Section Primary.
Context (o : fops) (Ho : ieee_ops F64 o) (c : icast) (Hc : icast_ok c).

Lemma log_x_range x : 0x3fe6a09e00000000 <= x < 0x3ff6a09e00000000 -> good x /\ (0.707 <= value F64 x < 1.41422)%R.
Proof.
  intros H. split.
  - replace x with (mk64 false x) by (unfold mk64; cbn [b2z]; lia). split; [apply float64; lia|apply finite64; lia].
  - rewrite <- mag_value by lia.
    pose proof (mag_ge 0x3fe6a09e00000000 ltac:(let z := eval vm_compute in (match kbits 60 F64 0x3fe6a09e00000000 with Some a => lo a | None => 0 end) in exact z) 60 x ltac:(vm_compute; reflexivity) ltac:(lia) ltac:(lia)) as A.
    pose proof (mag_lt 0x3ff6a09e00000000 ltac:(let z := eval vm_compute in (match kbits 60 F64 0x3ff6a09e00000000 with Some a => lo a | None => 0 end) in exact z) 60 x ltac:(vm_compute; reflexivity) ltac:(lia) ltac:(lia)) as B.
    unfold fx in A, B. change (bpow radix2 (- (60))) with (/ 1152921504606846976)%R in A, B. lra.
Qed.

(** f = x - 1 and half of it are exact. *)
Lemma log_f x (X := value F64 x) (f := o_sub o x one) : good x -> (0.707 <= X < 1.41422)%R ->
  good f /\ value F64 f = (X - 1)%R /\ good (o_mul o half f) /\ value F64 (o_mul o half f) = ((X - 1) / 2)%R /\ (X <> 1 -> bpow radix2 (-53) <= Rabs (X - 1))%R.
Proof using Ho.
  intros G B. destruct (multiple64 x (-1) G) as (m & Em); [fold X; change (bpow radix2 (-1)) with (/ 2)%R; rewrite Rabs_pos_eq; lra|].
  fold X in Em. change (-1 - 52) with (-53) in Em.
  assert (E1 : (X - 1 = IZR (m - 2 ^ 53) * bpow radix2 (-53))%R).
  { rewrite minus_IZR, Rmult_minus_distr_r, <- Em, (IZR_Zpower radix2) by lia. rewrite <- bpow_plus. reflexivity. }
  assert (A : Z.abs (m - 2 ^ 53) <= 2 ^ 52).
  { apply le_IZR. rewrite abs_IZR. apply Rmult_le_reg_r with (bpow radix2 (-53)); [apply bpow_gt_0|].
    rewrite <- (Rabs_pos_eq (bpow radix2 (-53))) at 1 by apply bpow_ge_0. rewrite <- Rabs_mult, <- E1, (IZR_Zpower radix2) by lia. rewrite <- bpow_plus.
    change (bpow radix2 (52 + -53)) with (/ 2)%R. apply Rabs_le. lra. }
  assert (S : forall y, (Rabs y <= 1 -> Rabs y <= bpow radix2 100)%R).
  { intros y H. eapply Rle_trans; [exact H|]. change 1%R with (bpow radix2 0). apply bpow_le. lia. }
  destruct (sub64 o Ho x one G good_one) as [Gf Vf]; [fold X; rewrite value_one; apply S, Rabs_le; lra|]. fold f in Gf, Vf. fold X in Vf. rewrite value_one, E1, rne_exact64, <- E1 in Vf by lia.
  destruct (mul64 o Ho half f good_half Gf) as [Gh Vh]; [rewrite Vf, value_half; apply S, Rabs_le; lra|].
  rewrite Vf, value_half, E1 in Vh. replace (/ 2 * (IZR (m - 2 ^ 53) * bpow radix2 (-53)))%R with (IZR (m - 2 ^ 53) * bpow radix2 (-54))%R in Vh.
  2:{ change (-54) with (-1 + -53). rewrite bpow_plus. change (bpow radix2 (-1)) with (/ 2)%R. ring. }
  rewrite rne_exact64 in Vh by lia.
  split; [exact Gf|]. split; [exact Vf|]. split; [exact Gh|]. split.
  - rewrite Vh, E1. change (-54) with (-1 + -53). rewrite bpow_plus. change (bpow radix2 (-1)) with (/ 2)%R. field.
  - intros N. rewrite E1, Rabs_mult, (Rabs_pos_eq (bpow radix2 _)) by apply bpow_ge_0. rewrite <- (Rmult_1_l (bpow radix2 (-53))) at 1.
    apply Rmult_le_compat_r; [apply bpow_ge_0|]. rewrite <- abs_IZR. apply IZR_le. assert (m - 2 ^ 53 <> 0); [|lia]. intros Z0. rewrite Z0, Rmult_0_l in E1. lra.
Qed.

Lemma log_k k (dk := c_ofi c k) : Z.abs k <= 1100 ->
  good (o_mul o dk LN2HI) /\ value F64 (o_mul o dk LN2HI) = (IZR k * value F64 LN2HI)%R /\
  good (o_mul o dk LN2LO) /\ (Rabs (value F64 (o_mul o dk LN2LO)) <= bpow radix2 (-22))%R /\
  (Rabs (value F64 (o_mul o dk LN2LO) - IZR k * (ln 2 - value F64 LN2HI)) <= bpow radix2 (-74))%R /\
  (k = 0 -> value F64 (o_mul o dk LN2LO) = 0%R).
Proof using Ho Hc.
  intros Hk. destruct (ofi64 c Hc k ltac:(lia)) as [Gk Vk]. fold dk in Gk, Vk.
  assert (K1 : (Rabs (IZR k) <= 1100)%R) by (rewrite <- abs_IZR; apply IZR_le; exact Hk).
  pose proof ln2_split as SP. pose proof LN2HI_num as VH. pose proof LN2LO_num as VL.
  destruct (mul64 o Ho dk LN2HI Gk good_LN2HI) as [G1 V1].
  { rewrite Vk, Rabs_mult, (Rabs_pos_eq (value _ _)) by lra. apply Rle_trans with (bpow radix2 11); [|apply bpow_le; lia]. change (bpow radix2 11) with 2048%R.
    pose proof (Rabs_pos (IZR k)). nra. }
  rewrite Vk, value_LN2HI, <- Rmult_assoc, <- mult_IZR, rne_exact64 in V1 by lia. rewrite mult_IZR, Rmult_assoc, <- value_LN2HI in V1.
  split; [exact G1|]. split; [exact V1|].
  set (HI := value F64 LN2HI) in *. set (LO := value F64 LN2LO) in *.
  assert (KL : (Rabs (IZR k * LO) < bpow radix2 (-22))%R).
  { rewrite Rabs_mult, (Rabs_pos_eq LO) by lra. change (bpow radix2 (-22)) with (/ 4194304)%R. pose proof (Rabs_pos (IZR k)). nra. }
  assert (KD : (Rabs (IZR k * (ln 2 - (HI + LO))) <= bpow radix2 (-75))%R).
  { rewrite Rabs_mult. apply Rle_trans with (bpow radix2 11 * bpow radix2 (-86))%R; [|rewrite <- bpow_plus; apply Rle_refl].
    apply Rmult_le_compat; try apply Rabs_pos; [|exact SP]. change (bpow radix2 11) with 2048%R. lra. }
  destruct (mul64 o Ho dk LN2LO Gk good_LN2LO) as [G2 V2].
  { rewrite Vk. left. eapply Rlt_le_trans; [exact KL|]. apply bpow_le. lia. }
  rewrite Vk in V2. fold LO in V2. split; [exact G2|].
  split.
  - rewrite V2. apply abs_round_le_generic; [auto with typeclass_instances..|apply generic_format_bpow; vm_compute; discriminate|left; exact KL].
  - split.
    + pose proof (rne_error64 (-22) _ KL ltac:(lia)) as R. rewrite <- V2 in R. change (-22 - 54) with (-76) in R.
      replace (value F64 (o_mul o dk LN2LO) - IZR k * (ln 2 - HI))%R with ((value F64 (o_mul o dk LN2LO) - IZR k * LO) - IZR k * (ln 2 - (HI + LO)))%R by ring.
      eapply Rle_trans; [apply Rabs_triang|]. rewrite Rabs_Ropp. change (-74) with (1 + -75). rewrite bpow_plus. change (bpow radix2 1) with 2%R.
      assert (bpow radix2 (-76) <= bpow radix2 (-75))%R by (apply bpow_le; lia). lra.
    + intros ->. rewrite V2, Rmult_0_l. unfold rne. apply round_0. auto with typeclass_instances.
Qed.

Lemma log_primary_eq x dk : let f := o_sub o x one in log_primary o x dk = o_add o (nth 9 (lprog o f (o_mul o half f) (o_mul o dk LN2LO)) 0) (o_mul o dk LN2HI).
Proof. reflexivity. Qed.
Lemma lprog_9 f hf l : nth 9 (lprog o f hf l) 0 = o_add o (nth 8 (lprog o f hf l) 0) f.
Proof. reflexivity. Qed.

Lemma lnX_bounds X : (0.707 <= X < 1.41422 -> -0.347 <= ln X <= 0.3467)%R.
Proof.
  intros B. pose proof ln2_num as L2. assert (E : (ln (X * X) = 2 * ln X)%R) by (rewrite ln_mult by lra; ring).
  assert (A : (ln (X * X) <= ln (2 * (1 + 0.0001)))%R) by (apply ln_le'; nra). rewrite !ln_mult in A by lra. pose proof (ln_upper 0.0001 ltac:(lra)).
  assert (A2 : (ln 1 <= ln (X * X * (2 * (1 + 0.0006))))%R) by (apply ln_le'; nra). rewrite ln_1, !ln_mult in A2 by nra. pose proof (ln_upper 0.0006 ltac:(lra)).
  rewrite ln_mult in E by lra. split; lra.
Qed.
Lemma log_primary_ok x k (X := value F64 x) (r := log_primary o x (c_ofi c k)) : 0x3fe6a09e00000000 <= x < 0x3ff6a09e00000000 -> Z.abs k <= 1100 -> (k = 0 -> X <> 1%R) ->
  good r /\ (Rabs (value F64 r - (ln X + IZR k * ln 2)) <= 3 / 2 * ulp64 (ln X + IZR k * ln 2))%R.
Proof using Ho Hc.
  intros Hx Hk K1. destruct (log_x_range x Hx) as [G B]. fold X in B. destruct (log_f x G B) as (Gf & Vf & Gh & Vh & NZ). fold X in Vf, Vh, NZ.
  destruct (log_k k Hk) as (G1 & V1 & G2 & V2 & V3 & V4). unfold r. rewrite log_primary_eq. cbv zeta.
  set (f := o_sub o x one) in *. set (hf := o_mul o half f) in *. set (l := o_mul o (c_ofi c k) LN2LO) in *. set (h := o_mul o (c_ofi c k) LN2HI) in *.
  assert (S : forall y, (Rabs y <= 2000 -> Rabs y <= bpow radix2 100)%R).
  { intros y H. apply Rle_trans with (bpow radix2 11); [change (bpow radix2 11) with 2048%R; lra|]. apply bpow_le. lia. }
  pose proof (lnX_bounds X B) as BL.
  destruct (Z.eq_dec k 0) as [->|nk].
  - specialize (NZ (K1 eq_refl)). specialize (V4 eq_refl). rewrite Rmult_0_l, Rplus_0_r. rewrite Rmult_0_l in V1.
    destruct (log_core0 o Ho f hf l Gf Gh G2) as [GA EA]; rewrite ?Vf; try assumption; [lra|]. rewrite Vf in EA. replace (1 + (X - 1))%R with X in EA by ring.
    rewrite lprog_9. set (A := nth 8 (lprog o f hf l) 0) in *.
    assert (U : (ulp64 (ln X) <= 1)%R).
    { apply Rle_trans with (ulp64 (bpow radix2 0)).
      - apply ulp_le; [auto with typeclass_instances..|]. change (bpow radix2 0) with 1%R. rewrite (Rabs_pos_eq 1) by lra. apply Rabs_le. lra.
      - unfold ulp64. rewrite ulp_bpow. change 1%R with (bpow radix2 0). apply bpow_le. vm_compute. discriminate. }
    apply Rabs_le_inv in EA as EA2.
    destruct (add64 o Ho A f GA Gf) as [GT VT]; [rewrite Vf; apply S, Rabs_le; lra|]. rewrite Vf in VT.
    assert (R1 : (Rabs (rne F64 (value F64 A + (X - 1)) - ln X) <= 3 / 2 * ulp64 (ln X))%R).
    { replace (3 / 2)%R with (1 + / 2)%R by field. apply final_round; [|lra|lra]. apply Rle_trans with (bpow radix2 (-53) * / 2)%R; [change (/ 2)%R with (bpow radix2 (-1)); rewrite <- bpow_plus; apply bpow_le; lia|].
      replace X with (1 + (X - 1))%R by ring. destruct (Rle_lt_dec 0 (X - 1)) as [p|p].
      - rewrite (Rabs_pos_eq (X - 1)) in NZ by exact p. pose proof (ln_lower (X - 1) ltac:(lra)). rewrite Rabs_pos_eq; lra.
      - rewrite (Rabs_left (X - 1)) in NZ by exact p. pose proof (ln_upper (X - 1) ltac:(lra)). rewrite Rabs_left; [|lra]. pose proof (bpow_gt_0 radix2 (-53)). lra. }
    destruct (add64 o Ho (o_add o A f) h GT G1) as [GR VR]; [rewrite V1, VT, Rplus_0_r; apply S, Rabs_le; apply Rabs_le_inv in R1; lra|].
    split; [exact GR|]. rewrite VR, V1, Rplus_0_r, (rne_value _ (proj1 GT) (proj2 GT)), VT. exact R1.
  - destruct (log_coreT o Ho f hf l (IZR k * (ln 2 - value F64 LN2HI)) Gf Gh G2) as [GT ET]; rewrite ?Vf; try assumption; [lra|].
    rewrite Vf in ET. replace (1 + (X - 1))%R with X in ET by ring. set (T := nth 9 (lprog o f hf l) 0) in *.
    assert (Y : (0.34 <= Rabs (ln X + IZR k * ln 2) <= 1000)%R).
    { assert (K2 : (Rabs (IZR k) <= 1100)%R) by (rewrite <- abs_IZR; apply IZR_le; exact Hk). apply Rabs_le_inv in K2. pose proof ln2_num as L2.
      assert (D : (IZR k <= -1 \/ 1 <= IZR k)%R) by (destruct (Z_lt_ge_dec k 0); [left|right]; apply IZR_le; lia).
      split; [|apply Rabs_le; split; nra]. destruct D; [rewrite Rabs_left|rewrite Rabs_pos_eq]; nra. }
    assert (U : (bpow radix2 (-54) <= ulp64 (ln X + IZR k * ln 2))%R).
    { apply (ulp64_ge (-1)). change (bpow radix2 (-1 - 1)) with (/ 4)%R. lra. }
    assert (E2 : (Rabs (value F64 T + value F64 h - (ln X + IZR k * ln 2)) <= bpow radix2 (-54))%R).
    { rewrite V1. replace (value F64 T + IZR k * value F64 LN2HI - (ln X + IZR k * ln 2))%R with (value F64 T - (ln X + IZR k * (ln 2 - value F64 LN2HI)))%R by ring. exact ET. }
    destruct (add64 o Ho T h GT G1) as [GR VR].
    { apply S, Rabs_le. pose proof (small64 (-54) ltac:(lia)). destruct Y as [_ Y]. apply Rabs_le_inv in E2. apply Rabs_le_inv in Y. lra. }
    split; [exact GR|]. rewrite VR. replace (3 / 2)%R with (1 + / 2)%R by field. apply final_round; [|lra|lra].
    apply Rle_trans with (bpow radix2 (-2)); [apply bpow_le; lia|]. change (bpow radix2 (-2)) with (/ 4)%R. lra.
Qed.
End Primary.
