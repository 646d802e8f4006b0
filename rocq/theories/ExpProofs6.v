(** Accuracy of exp: the multiple of ln 2 and the final result. *)
From Coq Require Import ZArith Reals Bool List Lia Lra Psatz.
From Flocq Require Import Core.
From Verif Require Import Base BaseLemmas FloatModel FloatSpec FloatProofs FloatConvSpec LibmModel LibmSpec LibmProps Elem FloatErr PolyBound ElemModel ElemSpec F64Lib ExpProofs ExpProofs2 ExpProofs3 ExpProofs4 ExpProofs5.
Import ListNotations.
Open Scope Z_scope.

Lemma fx_le_inv P a b : (fx P a <= fx P b)%R -> a <= b.
Proof. intros H. apply Znot_gt_le. intros G. apply Z.gt_lt in G. apply (fx_lt P) in G. lra. Qed.
Lemma fx_mulz P k a : (IZR k * fx P a)%R = fx P (k * a).
Proof. unfold fx. rewrite mult_IZR. ring. Qed.

(** No multiple of 2^-43 is too close to -1022 ln 2 or 1024 ln 2. *)
Lemma corner_low m : ~ (0 <= IZR m * bpow radix2 (-43) + 1022 * ln 2 <= bpow radix2 (-51))%R.
Proof.
  rewrite <- (fx_scale 160 (-43)) by lia. replace (bpow radix2 (-51)) with (fx 160 (1 * 2 ^ (160 + -51))) by (rewrite fx_scale by lia; ring).
  pose proof ln2_bounds as [L H]. intros [A B].
  assert (A' : (fx 160 0 <= fx 160 (m * 2 ^ (160 + -43) + 1022 * (ln2n + 2 ^ 20)))%R) by (rewrite fx_0, fx_add, <- (fx_mulz 160 1022); lra).
  assert (B' : (fx 160 (m * 2 ^ (160 + -43) + 1022 * (ln2n - 2 ^ 20)) <= fx 160 (1 * 2 ^ (160 + -51)))%R) by (rewrite fx_add, <- (fx_mulz 160 1022); lra).
  apply fx_le_inv in A'. apply fx_le_inv in B'. unfold ln2n in *. lia.
Qed.
Lemma corner_high m : ~ (- bpow radix2 (-50) <= IZR m * bpow radix2 (-43) - 1024 * ln 2 <= 0)%R.
Proof.
  rewrite <- (fx_scale 160 (-43)) by lia. replace (bpow radix2 (-50)) with (fx 160 (1 * 2 ^ (160 + -50))) by (rewrite fx_scale by lia; ring).
  pose proof ln2_bounds as [L H]. intros [A B].
  assert (A' : (fx 160 (1024 * (ln2n - 2 ^ 20) - 1 * 2 ^ (160 + -50)) <= fx 160 (m * 2 ^ (160 + -43)))%R) by (rewrite fx_sub, <- (fx_mulz 160 1024); lra).
  assert (B' : (fx 160 (m * 2 ^ (160 + -43)) <= fx 160 (1024 * (ln2n + 2 ^ 20)))%R) by (rewrite <- (fx_mulz 160 1024); lra).
  apply fx_le_inv in A'. apply fx_le_inv in B'. unfold ln2n in *. lia.
Qed.
Definition over_z : Z := 0x62e42fefa39ef + 2 ^ 52.
Lemma value_over : value F64 exp_over = (IZR over_z * bpow radix2 (-43))%R.
Proof. apply (kb_val 43). vm_compute. reflexivity. Qed.
Lemma over_lt : (value F64 exp_over < 1024 * ln 2 <= value F64 exp_over + bpow radix2 (-43))%R.
Proof.
  rewrite value_over. rewrite <- (fx_scale 160 (-43)) by lia. replace (bpow radix2 (-43)) with (fx 160 (1 * 2 ^ (160 + -43))) by (rewrite fx_scale by lia; ring).
  pose proof ln2_bounds as [L H].
  assert (fx 160 (over_z * 2 ^ (160 + -43)) < 1024 * fx 160 (ln2n - 2 ^ 20))%R by (rewrite (fx_mulz 160 1024); apply fx_lt; vm_compute; reflexivity).
  assert (1024 * fx 160 (ln2n + 2 ^ 20) <= fx 160 (over_z * 2 ^ (160 + -43)) + fx 160 (1 * 2 ^ (160 + -43)))%R by (rewrite <- fx_add, (fx_mulz 160 1024); apply fx_le; vm_compute; discriminate).
  lra.
Qed.
Lemma exp_kln2 k : exp (IZR k * ln 2) = bpow radix2 k.
Proof. rewrite bpow_exp. reflexivity. Qed.
Lemma exp_mono a b : (a <= b -> exp a <= exp b)%R.
Proof. intros [H| ->]; [left; apply exp_increasing, H|apply Rle_refl]. Qed.
Lemma exp_le_inv a b : (exp a <= exp b -> a <= b)%R.
Proof. intros H. apply Rnot_lt_le. intros L. apply exp_increasing in L. lra. Qed.
Lemma exp_upper r : (r < 1 -> exp r <= / (1 - r))%R.
Proof.
  intros H. pose proof (exp_ineq1_le (- r)) as Q. rewrite exp_Ropp in Q. pose proof (exp_pos r).
  apply Rmult_le_reg_r with (/ exp r)%R; [apply Rinv_0_lt_compat; lra|]. rewrite Rinv_r by lra.
  apply Rmult_le_reg_l with (1 - r)%R; [lra|]. rewrite <- Rmult_assoc, Rinv_r by lra. lra.
Qed.
Lemma exp_range r : (Rabs r <= 0.3466 -> 0.6 <= exp r <= 1.6)%R.
Proof.
  intros H. apply Rabs_le_inv in H. pose proof (exp_ineq1_le r). pose proof (exp_upper r ltac:(lra)).
  assert (/ (1 - r) <= / 0.6534)%R by (apply Rinv_le_contravar; lra). lra.
Qed.

Lemma mag_inf64 : mag64 INF = bpow radix2 1024.
Proof.
  unfold mag64. replace (V F64 INF) with (2 ^ 2098) by (vm_compute; reflexivity). rewrite (IZR_Zpower radix2) by lia. rewrite <- bpow_plus. reflexivity.
Qed.

Section Final.
Context (o : fops) (Ho : ieee_ops F64 o) (c : icast) (Hc : icast_ok c).

Lemma primary_scale x h l k : good (exp_y o x h l) -> - 2 ^ 31 <= k < 2 ^ 31 ->
  exists r, exp_primary o x h l k = Ok r /\ rounded (value F64 (exp_y o x h l) * bpow radix2 k) r.
Proof using Ho.
  intros [F N] Hk. rewrite exp_y_ok. set (y := exp_y o x h l) in *. destruct (Z.eqb_spec k 0) as [->|n].
  - exists y. split; [reflexivity|]. change (bpow radix2 0) with 1%R. rewrite Rmult_1_r. split; [exact F|]. rewrite rne_value by assumption.
    rewrite Rlt_bool_true; [split; [exact N|reflexivity]|]. destruct (split64 y F) as (s & m & E & Hm). rewrite E in N |- *. rewrite finite64 in N by exact Hm.
    rewrite value64 by exact Hm. replace (Rabs (if s then - mag64 m else mag64 m)) with (mag64 m).
    2:{ pose proof (mag_nonneg64 m ltac:(lia)). destruct s; [rewrite Rabs_Ropp|]; rewrite Rabs_pos_eq by assumption; reflexivity. }
    apply Rlt_le_trans with (mag64 INF); [apply mag_lt64; lia|]. right. apply mag_inf64.
  - destruct (C36_scalbn F64 o y k) as (r & E & Fr & R & _); [unfold std; tauto|exact Ho|exact F|exact Hk|].
    exists r. split; [exact E|]. destruct (R N) as (_ & _ & Q). split; [exact Fr|exact Q].
Qed.

Lemma red_main x k (X := value F64 x) : good x -> (bpow radix2 (-2) <= Rabs X)%R -> (-746 <= X <= value F64 exp_over)%R ->
  (Rabs (X - IZR k * ln 2) <= 0.3466)%R ->
  let kf := c_ofi c k in
  let h := o_sub o x (o_mul o kf LN2HI) in
  let l := o_mul o kf LN2LO in
  exists r, exp_primary o (o_sub o h l) h l k = Ok r /\ within (17 / 16) r (exp X).
Proof using Ho Hc.
  intros Gx HX [X1 X2] Hr kf h l. pose proof over_lt as OV. pose proof ln2_num as L2.
  assert (K : -1100 <= k <= 1024).
  { apply Rabs_le_inv in Hr. split.
    - apply le_IZR. apply Rnot_lt_le. intros Q. assert (IZR k * ln 2 < -1100 * ln 2)%R by (apply Rmult_lt_compat_r; lra). lra.
    - apply Z.lt_succ_r, lt_IZR. apply Rnot_le_lt. intros Q. assert (1025 * ln 2 <= IZR k * ln 2)%R by (apply Rmult_le_compat_r; [lra|exact Q]). lra. }
  destruct (exp_reduce o Ho c Hc x k Gx ltac:(lia) HX Hr) as (d & e & G). cbv zeta in G. fold kf h l in G. set (xr := o_sub o h l) in *.
  destruct G as (Gr & Gh & Gl & Br & E1 & Bl & Bd & Be & E2). fold X in E2.
  destruct (exp_core o Ho xr h l d e Gr Gh Gl Br E1 Bl Bd Be) as (Gy & A1 & A2). rewrite E2 in A1, A2. set (r := (X - IZR k * ln 2)%R) in *.
  destruct (primary_scale xr h l k Gy ltac:(lia)) as (q & Q1 & Q2). exists q. split; [exact Q1|].
  assert (EX : exp X = (exp r * bpow radix2 k)%R).
  { rewrite <- exp_kln2, <- exp_plus. f_equal. unfold r. ring. }
  rewrite EX. set (v := value F64 (exp_y o xr h l)) in *.
  assert (b55 := small64 (-55) ltac:(lia)). assert (b74 := small64 (-74) ltac:(lia)). apply Rabs_le_inv in Bd. apply Rabs_le_inv in Be.
  assert (u53 : bpow radix2 (-52) = (2 * U53)%R) by (unfold U53; change (-52) with (1 + -53); rewrite (bpow_plus _ 1); reflexivity).
  assert (ER : (Rabs (v - exp r) <= 17 / 16 * u12 (exp r))%R).
  { unfold u12. destruct (Rlt_bool_spec (exp r) 1) as [L|G].
    - apply A1. assert (r < 0)%R. { apply exp_lt_inv. rewrite exp_0. exact L. }
      apply Rle_trans with (/ 2048)%R; [lra|]. apply Rle_trans with (/ 1024)%R; [lra|apply Rle_refl].
    - destruct (Rle_lt_dec 0 (value F64 xr)) as [p|p]; [specialize (A2 p); lra|].
      assert (A : (value F64 xr <= bpow radix2 (-10))%R) by (pose proof (bpow_ge_0 radix2 (-10)); lra). specialize (A1 A).
      assert (0 < U53)%R by apply bpow_gt_0. lra. }
  apply scale_ok with (y := exp_y o xr h l).
  - exact Gy.
  - apply exp_range, Hr.
  - exact ER.
  - lia.
  - intros -> G. apply Rnot_lt_le. intros V. apply Rabs_le_inv in ER.
    unfold u12 in ER. rewrite Rlt_bool_false in ER by exact G. pose proof (exp_ineq1_le r) as I.
    assert (0 <= r)%R by (apply exp_le_inv; rewrite exp_0; exact G).
    assert (B : (512 <= Rabs X)%R). { apply Rabs_le_inv in Hr. unfold r in *. rewrite Rabs_left; lra. }
    destruct (multiple64 x 9 Gx B) as (m & Em). fold X in Em. change (9 - 52) with (-43) in Em.
    apply (corner_low m). rewrite <- Em. unfold r in *. split; [lra|].
    assert (bpow radix2 (-51) = 2 * bpow radix2 (-52))%R by (change (-51) with (1 + -52); rewrite (bpow_plus _ 1); reflexivity). fold v in V. lra.
  - intros ->. apply Rnot_le_lt. intros V. fold v in V. apply Rabs_le_inv in ER.
    assert (r < 0)%R by (unfold r; lra). assert (L : (exp r < 1)%R) by (rewrite <- exp_0; apply exp_increasing; assumption).
    unfold u12 in ER. rewrite Rlt_bool_true in ER by exact L. pose proof (exp_upper r ltac:(lra)) as I.
    assert (B : (512 <= Rabs X)%R). { apply Rabs_le_inv in Hr. unfold r in *. rewrite Rabs_pos_eq; lra. }
    destruct (multiple64 x 9 Gx B) as (m & Em). fold X in Em. change (9 - 52) with (-43) in Em.
    apply (corner_high m). rewrite <- Em. change (X - 1024 * ln 2)%R with r. split; [|lra].
    assert (bpow radix2 (-50) = 8 * bpow radix2 (-53))%R by (change (-50) with (3 + -53); rewrite (bpow_plus _ 3); reflexivity).
    pose proof (small64 (-53) ltac:(lia)). pose proof (bpow_gt_0 radix2 (-53)). set (t := bpow radix2 (-53)) in *.
    assert (J : (exp r * (1 - r) <= 1)%R). { apply Rmult_le_reg_r with (/ (1 - r))%R; [apply Rinv_0_lt_compat; lra|]. rewrite Rmult_assoc, Rinv_r, Rmult_1_r, Rmult_1_l by lra. exact I. }
    clear - J H H0 H1 H2 ER V. destruct ER as [_ ER]. set (w := exp r) in *. apply Rnot_lt_le. intros N.
    assert (A : ((1 - 17 / 16 * t) * (1 + 8 * t) <= w * (1 - r))%R) by (apply Rmult_le_compat; lra).
    assert (t * t <= t * / 1000)%R by (apply Rmult_le_compat_l; lra). lra.
  - exact Q2.
Qed.
End Final.
