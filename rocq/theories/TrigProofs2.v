(** The accuracy of k_sin and k_cos. *)
From Coq Require Import ZArith Reals Bool List Lia Lra Psatz.
From Flocq Require Import Core.
From Verif Require Import Base FloatModel FloatSpec LibmModel LibmSpec Elem FloatErr PolyBound ElemModel ElemSpec TrigModel F64Lib ExpProofs3 ExpProofs4 ExpProofs5 ExpProofs7 ExpProofs8 LogProofs TrigProofs.
Import ListNotations.
Open Scope Z_scope.

(** * Elementary bounds *)
Lemma sin_small a : (0 <= a <= 1 -> a - a * a * a / 6 <= sin a <= a)%R.
Proof.
  intros H. pose proof PI_gt. destruct (sin_bound a 0 ltac:(lra) ltac:(lra)) as [A _]. cbn [Nat.mul Nat.add] in A.
  unfold sin_approx, sum_f_R0, sin_term in A. cbn [Nat.mul Nat.add] in A. replace (INR (fact 1)) with 1%R in A by (cbn; lra). replace (INR (fact 3)) with 6%R in A by (cbn; lra).
  split; [lra|]. destruct (Req_dec a 0) as [->|N]; [rewrite sin_0; lra|]. left. apply sin_lt_x. lra.
Qed.
Lemma cos_small a : (-1 <= a <= 1 -> 1 - a * a / 2 <= cos a <= 1 - a * a / 2 + a * a * a * a / 24)%R.
Proof.
  intros H. pose proof PI_gt. destruct (cos_bound a 0 ltac:(lra) ltac:(lra)) as [A B]. cbn [Nat.mul Nat.add] in A, B.
  unfold cos_approx, sum_f_R0, cos_term in A, B. cbn [Nat.mul Nat.add] in A, B. replace (INR (fact 0)) with 1%R in * by (cbn; lra). replace (INR (fact 2)) with 2%R in * by (cbn; lra).
  replace (INR (fact 4)) with 24%R in * by (cbn; lra). lra.
Qed.
Lemma sin_small_abs a : (-1 <= a <= 1 -> Rabs (sin a - a) <= Rabs a * (a * a) / 6)%R.
Proof.
  intros H. destruct (Rle_lt_dec 0 a) as [p|p].
  - pose proof (sin_small a ltac:(lra)). rewrite (Rabs_pos_eq a) by exact p. apply Rabs_le. lra.
  - pose proof (sin_small (- a) ltac:(lra)) as Q. rewrite sin_neg in Q. rewrite (Rabs_left a) by exact p. apply Rabs_le. lra.
Qed.
Lemma sin_lip a b : (Rabs (sin b - sin a) <= Rabs (b - a))%R.
Proof.
  destruct (MVT_abs sin cos a b) as (c & E & _). { intros c _. apply derivable_pt_lim_sin. }
  rewrite E. pose proof (COS_bound c) as B. assert (Rabs (cos c) <= 1)%R by (apply Rabs_le; lra). pose proof (Rabs_pos (b - a)). nra.
Qed.
Lemma cos_lip a b : (Rabs (cos b - cos a) <= Rabs (b - a))%R.
Proof.
  destruct (MVT_abs cos (fun x => (- sin x)%R) a b) as (c & E & _). { intros c _. apply derivable_pt_lim_cos. }
  rewrite E. pose proof (SIN_bound c) as B. assert (Rabs (- sin c) <= 1)%R by (apply Rabs_le; lra). pose proof (Rabs_pos (b - a)). nra.
Qed.

(** * The sum of two doubles in the place of the argument *)
Definition U60 : R := bpow radix2 (-60).
Lemma U60_bounds : (0 < U60 <= / 1000000000000000)%R.
Proof. split; [apply bpow_gt_0|apply small64; lia]. Qed.
Lemma eps52 : (49 * bpow radix2 (-58) = 196 * U60)%R.
Proof. unfold U60. replace 196%R with (49 * bpow radix2 2)%R by (change (bpow radix2 2) with 4%R; lra). rewrite Rmult_assoc, <- bpow_plus. reflexivity. Qed.
Lemma eps62 : bpow radix2 (-62) = (U60 / 4)%R.
Proof. unfold U60, Rdiv. change (/ 4)%R with (bpow radix2 (-2)). rewrite <- bpow_plus. reflexivity. Qed.

Lemma sin_shift X Y T : (Rabs X <= 0.7856 -> Rabs Y <= 49 * bpow radix2 (-58) * Rabs X -> Rabs (T - (X + Y)) <= bpow radix2 (-62) * Rabs X ->
  Rabs (X * pev F64 (X * X) pSin + Y * (1 - X * X / 2) - sin T) <= Rabs X * (11 * U60) /\ Rabs X * (1 - X * X / 6 - / 250) <= Rabs (sin T))%R.
Proof.
  assert (P : forall X Y T, (0 <= X <= 0.7856 -> Rabs Y <= 196 * U60 * X -> Rabs (T - (X + Y)) <= U60 / 4 * X ->
    Rabs (X * pev F64 (X * X) pSin + Y * (1 - X * X / 2) - sin T) <= X * (11 * U60) /\ X * (1 - X * X / 6 - / 250) <= sin T)%R).
  { clear. intros X Y T HX HY HT. pose proof U60_bounds as [u0 u1].
    pose proof (sin_poly X ltac:(rewrite Rabs_pos_eq; lra)) as SP. rewrite (Rabs_pos_eq X) in SP by lra. change (bpow radix2 (-60)) with U60 in SP.
    assert (Y1 : (Rabs Y <= X * (/ 1000000000000))%R) by nra.
    assert (Yb := Rabs_le_inv _ _ Y1).
    assert (YY : (Y * Y <= 196 * U60 * X * (X * / 1000000000000))%R).
    { replace (Y * Y)%R with (Rabs Y * Rabs Y)%R by (rewrite <- Rabs_mult; apply Rabs_pos_eq; nra). apply Rmult_le_compat; try apply Rabs_pos; assumption. }
    pose proof (sin_small X ltac:(lra)) as Sx. pose proof (cos_small X ltac:(lra)) as Cx.
    pose proof (sin_small_abs Y ltac:(nra)) as Sy. pose proof (cos_small Y ltac:(nra)) as Cy.
    assert (X2 : (0 <= X * X <= 0.6172)%R) by nra.
    assert (X4 : (0 <= X * X * X * X / 24 <= 0.0159)%R) by (replace (X * X * X * X)%R with ((X * X) * (X * X))%R by ring; nra).
    assert (YY0 : (0 <= Y * Y <= 1)%R) by nra.
    pose proof (sin_lip (X + Y) T) as L. rewrite sin_plus in L.
    assert (E1 : (Rabs (sin X * (cos Y - 1)) <= U60 * X / 100)%R).
    { rewrite Rabs_mult. rewrite (Rabs_pos_eq (sin X)) by nra.
      assert (C0 : (Rabs (cos Y - 1) <= Y * Y)%R) by (apply Rabs_le; nra).
      apply Rle_trans with (X * (Y * Y))%R; [apply Rmult_le_compat; try apply Rabs_pos; nra|]. nra. }
    assert (E2 : (Rabs (cos X * (sin Y - Y)) <= U60 * X / 100)%R).
    { rewrite Rabs_mult. pose proof (COS_bound X). rewrite (Rabs_pos_eq (cos X)) by lra.
      apply Rle_trans with (1 * (Rabs Y * (Y * Y) / 6))%R; [apply Rmult_le_compat; try apply Rabs_pos; lra|].
      assert (Rabs Y * (Y * Y) <= 196 * U60 * X * (X * / 1000000000000))%R; [|nra].
      pose proof (Rabs_pos Y). nra. }
    assert (E3 : (Rabs (Y * (cos X - (1 - X * X / 2))) <= 4.08 * U60 * X)%R).
    { rewrite Rabs_mult. rewrite (Rabs_pos_eq (cos X - _)) by lra.
      apply Rle_trans with (196 * U60 * X * 0.0159)%R; [apply Rmult_le_compat; try apply Rabs_pos; lra|]. nra. }
    assert (D : (Rabs (sin T - (X * pev F64 (X * X) pSin + Y * (1 - X * X / 2))) <= X * (11 * U60))%R).
    { replace (sin T - (X * pev F64 (X * X) pSin + Y * (1 - X * X / 2)))%R with
        ((sin T - (sin X * cos Y + cos X * sin Y)) + (sin X * (cos Y - 1) + cos X * (sin Y - Y) + Y * (cos X - (1 - X * X / 2))) - (X * pev F64 (X * X) pSin - sin X))%R by ring.
      apply Rabs_le. apply Rabs_le_inv in SP, L, E1, E2, E3, HT. assert (L2 := L). 
      assert (-(U60 / 4 * X) <= sin T - (sin X * cos Y + cos X * sin Y) <= U60 / 4 * X)%R.
      { destruct (Rcase_abs (T - (X + Y))) as [q|q]; [rewrite Rabs_left in L by exact q|rewrite Rabs_right in L by exact q]; lra. }
      nra. }
    split.
    - rewrite <- Rabs_Ropp. replace (- (X * pev F64 (X * X) pSin + Y * (1 - X * X / 2) - sin T))%R with (sin T - (X * pev F64 (X * X) pSin + Y * (1 - X * X / 2)))%R by ring. exact D.
    - apply Rabs_le_inv in D, SP. assert (X * (11 * U60) <= X / 1000)%R by nra. assert (X * (6 * U60) <= X / 1000)%R by nra.
      assert (Rabs (Y * (1 - X * X / 2)) <= X / 1000)%R.
      { rewrite Rabs_mult. rewrite (Rabs_pos_eq (1 - _)) by lra. pose proof (Rabs_pos Y). nra. }
      apply Rabs_le_inv in H1. lra. }
  intros HX HY HT. rewrite eps52 in HY. rewrite eps62 in HT. destruct (Rle_lt_dec 0 X) as [p|p].
  - rewrite (Rabs_pos_eq X) in * by exact p. destruct (P X Y T ltac:(lra) HY HT) as [A B]. split; [exact A|]. rewrite Rabs_pos_eq; [exact B|]. assert (0 <= X * (1 - X * X / 6 - / 250))%R by (apply Rmult_le_pos; nra). lra.
  - rewrite (Rabs_left X) in * by exact p. destruct (P (- X) (- Y) (- T))%R as [A B]; [lra|rewrite Rabs_Ropp; exact HY| |].
    + replace (- T - (- X + - Y))%R with (- (T - (X + Y)))%R by ring. rewrite Rabs_Ropp. exact HT.
    + rewrite sin_neg in A, B. replace (- X * - X)%R with (X * X)%R in A, B by ring. split; [|assert (0 <= - X * (1 - X * X / 6 - / 250))%R by (apply Rmult_le_pos; nra); rewrite Rabs_left1; lra].
      rewrite <- Rabs_Ropp. replace (- (X * pev F64 (X * X) pSin + Y * (1 - X * X / 2) - sin T))%R with (- X * pev F64 (X * X) pSin + - Y * (1 - X * X / 2) - - sin T)%R by ring. exact A.
Qed.
Lemma cos_shift X Y T : (Rabs X <= 0.7856 -> Rabs Y <= 49 * bpow radix2 (-58) * Rabs X -> Rabs (T - (X + Y)) <= bpow radix2 (-62) * Rabs X ->
  Rabs (pev F64 (X * X) pCos - X * Y - cos T) <= 17 * U60 /\ 0.7 <= cos T <= 1)%R.
Proof.
  intros HX HY HT. rewrite eps52 in HY. rewrite eps62 in HT. pose proof U60_bounds as [u0 u1].
  pose proof (cos_poly X HX) as CP. change (bpow radix2 (-60)) with U60 in CP. assert (Xb := Rabs_le_inv _ _ HX).
  assert (X2 : (X * X = Rabs X * Rabs X)%R) by (rewrite <- Rabs_mult; symmetry; apply Rabs_pos_eq; nra). pose proof (Rabs_pos X) as x0.
  assert (Y1 : (Rabs Y <= 154 * U60)%R) by nra. assert (Yb := Rabs_le_inv _ _ Y1).
  assert (YY : (0 <= Y * Y <= U60 / 100)%R) by nra.
  pose proof (cos_small X ltac:(lra)) as Cx. pose proof (sin_small_abs X ltac:(lra)) as Sx.
  pose proof (sin_small_abs Y ltac:(lra)) as Sy. pose proof (cos_small Y ltac:(lra)) as Cy.
  assert (X3 : (Rabs X * (X * X) / 6 <= 0.081)%R) by nra.
  pose proof (cos_lip (X + Y) T) as L. rewrite cos_plus in L. pose proof (SIN_bound X) as SB.
  assert (E1 : (Rabs (cos X * (cos Y - 1)) <= U60 / 100)%R).
  { rewrite Rabs_mult. assert (Rabs (cos Y - 1) <= Y * Y)%R by (apply Rabs_le; nra). assert (Rabs (cos X) <= 1)%R by (apply Rabs_le, COS_bound). pose proof (Rabs_pos (cos X)). pose proof (Rabs_pos (cos Y - 1)). nra. }
  assert (E2 : (Rabs (sin X * (sin Y - Y)) <= U60 / 100)%R).
  { rewrite Rabs_mult. assert (Rabs (sin X) <= 1)%R by (apply Rabs_le; lra). pose proof (Rabs_pos (sin X)). pose proof (Rabs_pos (sin Y - Y)). pose proof (Rabs_pos Y). nra. }
  assert (E3 : (Rabs (Y * (sin X - X)) <= 12.5 * U60)%R).
  { rewrite Rabs_mult. apply Rle_trans with (154 * U60 * 0.081)%R; [apply Rmult_le_compat; try apply Rabs_pos; lra|]. lra. }
  assert (D : (Rabs (cos T - (pev F64 (X * X) pCos - X * Y)) <= 17 * U60)%R).
  { replace (cos T - (pev F64 (X * X) pCos - X * Y))%R with
      ((cos T - (cos X * cos Y - sin X * sin Y)) + (cos X * (cos Y - 1) - sin X * (sin Y - Y) - Y * (sin X - X)) - (pev F64 (X * X) pCos - cos X))%R by ring.
    apply Rabs_le. apply Rabs_le_inv in CP, E1, E2, E3.
    assert (- (U60 / 4) <= cos T - (cos X * cos Y - sin X * sin Y) <= U60 / 4)%R by (apply Rabs_le_inv; nra). lra. }
  split.
  - rewrite <- Rabs_Ropp. replace (- (pev F64 (X * X) pCos - X * Y - cos T))%R with (cos T - (pev F64 (X * X) pCos - X * Y))%R by ring. exact D.
  - split; [|apply COS_bound]. 
    assert (cos 0.786 <= cos T)%R.
    { pose proof PI_gt. apply Rabs_le_inv in HT. assert (T2 : (-0.786 <= T <= 0.786)%R) by nra. destruct (Rle_lt_dec 0 T) as [p|p].
      - apply cos_decr_1; lra.
      - rewrite <- (cos_neg T). apply cos_decr_1; lra. }
    assert (Hc := cos_bound 0.786 1). pose proof PI_gt. destruct Hc as [Hc _]; [lra|lra|]. cbn [Nat.mul Nat.add] in Hc. rewrite <- pCosT_ok in Hc.
    assert (0.7 <= pev F64 (0.786 * 0.786) (pCosT 3))%R; [|lra]. unfold pCosT. rewrite pev_horn. unfold sum_f_R0. cbn [fst snd pev Nat.add Nat.mul].
    change (Zfact 0) with 1. change (Zfact 2) with 2. change (Zfact 4) with 24. change (Zfact 6) with 720. change (sgn 0) with 1. change (sgn 1) with (-1). change (sgn 2) with 1. change (sgn 3) with (-1).
    lra.
Qed.
