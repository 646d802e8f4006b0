(** Elementary functions on the reals: Taylor polynomials with remainders. *)
From Coq Require Import ZArith Reals Bool List Lia Lra Psatz.
From Coquelicot Require Import Coquelicot.
From Flocq Require Import Core.
Open Scope R_scope.

(** * The exponential *)
Definition exp_taylor (n : nat) (x : R) : R := sum_f_R0 (fun m => x ^ m / INR (fact m)) n.

Lemma Derive_n_exp n x : Derive_n exp n x = exp x.
Proof. apply is_derive_n_unique, is_derive_n_exp. Qed.
Lemma is_derive_n_expm n : forall x, is_derive_n (fun t => exp (- t)) n x ((-1) ^ n * exp (- x)).
Proof.
  induction n as [|n IH]; intros x.
  - cbn. ring.
  - cbn [is_derive_n]. apply is_derive_ext with (fun t => (-1) ^ n * exp (- t)).
    + intros t. symmetry. apply is_derive_n_unique, IH.
    + auto_derive; [exact I|]. cbn [pow]. ring.
Qed.

Lemma exp_taylor_pos n x : 0 < x -> exists z, 0 < z < x /\ exp x = exp_taylor n x + x ^ S n / INR (fact (S n)) * exp z.
Proof.
  intros Hx. destruct (Taylor_Lagrange exp n 0 x Hx) as (z & Hz & E).
  - intros t _ k _. destruct k; [exact I|]. eexists. apply (is_derive_n_exp (S k)).
  - exists z. split; [exact Hz|]. rewrite E, Derive_n_exp, Rminus_0_r. f_equal. unfold exp_taylor. apply sum_eq. intros i _.
    rewrite Derive_n_exp, exp_0. ring.
Qed.
Lemma exp_taylor_neg n x : x < 0 -> exists z, x < z < 0 /\ exp x = exp_taylor n x + x ^ S n / INR (fact (S n)) * exp z.
Proof.
  intros Hx. destruct (Taylor_Lagrange (fun t => exp (- t)) n 0 (- x)) as (z & Hz & E); [lra| |].
  - intros t _ k _. destruct k; [exact I|]. eexists. apply (is_derive_n_expm (S k)).
  - exists (- z). split; [lra|]. rewrite Ropp_involutive in E. rewrite E, Rminus_0_r.
    assert (D : forall k t, Derive_n (fun t => exp (- t)) k t = (-1) ^ k * exp (- t)) by (intros; apply is_derive_n_unique, is_derive_n_expm).
    rewrite D. f_equal.
    + unfold exp_taylor. apply sum_eq. intros i _. rewrite D, Ropp_0, exp_0. rewrite Rmult_1_r. unfold Rdiv. rewrite Rmult_assoc, (Rmult_comm (/ _)), <- Rmult_assoc.
      rewrite <- Rpow_mult_distr. do 2 f_equal. ring.
    + replace ((- x) ^ S n / INR (fact (S n)) * ((-1) ^ S n * exp (- z))) with ((- x * -1) ^ S n / INR (fact (S n)) * exp (- z)) by (rewrite Rpow_mult_distr; unfold Rdiv; ring).
      do 3 f_equal. ring.
Qed.
Lemma exp_bound x : Rabs x <= 1 / 2 -> 0 < exp x <= 2.
Proof.
  intros H. split; [apply exp_pos|]. apply Rabs_le_inv in H. apply Rle_trans with (exp (1 / 2)).
  - destruct (Req_dec x (1/2)) as [->|n]; [lra|]. left. apply exp_increasing. lra.
  - assert (exp (1 / 2) * exp (- (1 / 2)) = 1) by (rewrite <- exp_plus, Rplus_opp_r; apply exp_0).
    pose proof (exp_ineq1_le (- (1 / 2))). pose proof (exp_pos (1 / 2)). nra.
Qed.
Lemma exp_taylor_0 n : exp_taylor n 0 = 1.
Proof. unfold exp_taylor. induction n as [|n IH]; [cbn; field|]. cbn [sum_f_R0]. rewrite IH. cbn [pow]. unfold Rdiv. ring. Qed.
(** Remainder of the Taylor polynomial of degree n, for |x| <= 1/2. *)
Theorem exp_taylor_ok n x : Rabs x <= 1 / 2 -> Rabs (exp x - exp_taylor n x) <= 2 * Rabs x ^ S n / INR (fact (S n)).
Proof.
  intros H. assert (F : 0 < INR (fact (S n))) by apply lt_0_INR, lt_O_fact.
  assert (X : forall z, Rabs z <= 1 / 2 -> exp x = exp_taylor n x + x ^ S n / INR (fact (S n)) * exp z -> Rabs (exp x - exp_taylor n x) <= 2 * Rabs x ^ S n / INR (fact (S n))).
  { intros z Hz E. pose proof (exp_bound z Hz). rewrite E. replace (exp_taylor n x + _ - _) with (x ^ S n / INR (fact (S n)) * exp z) by ring.
    unfold Rdiv. rewrite !Rabs_mult, <- RPow_abs. rewrite (Rabs_pos_eq (/ _)) by (left; apply Rinv_0_lt_compat, F). rewrite (Rabs_pos_eq (exp z)) by lra.
    rewrite (Rmult_comm 2), (Rmult_assoc _ 2), (Rmult_comm 2), <- Rmult_assoc. apply Rmult_le_compat_l; [|lra].
    apply Rmult_le_pos; [apply pow_le, Rabs_pos|left; apply Rinv_0_lt_compat, F]. }
  apply Rabs_le_inv in H. destruct (Rtotal_order x 0) as [l|[->|g]].
  - destruct (exp_taylor_neg n x l) as (z & Hz & E). apply (X z); [|exact E]. apply Rabs_le. lra.
  - rewrite exp_0, Rabs_R0. rewrite exp_taylor_0.
    rewrite Rminus_diag_eq by reflexivity. rewrite Rabs_R0. cbn [pow]. unfold Rdiv. lra.
  - destruct (exp_taylor_pos n x g) as (z & Hz & E). apply (X z); [|exact E]. apply Rabs_le. lra.
Qed.

(** * The logarithm, through the inverse hyperbolic tangent *)
Fixpoint atanh_taylor (n : nat) (s : R) : R :=
  match n with O => 0 | S m => atanh_taylor m s + 2 * s ^ (2 * m + 1) / INR (2 * m + 1) end.
Lemma atanh_derive n s : -1 < s < 1 ->
  is_derive (fun s => ln (1 + s) - ln (1 - s) - atanh_taylor n s) s (2 * s ^ (2 * n) / (1 - s * s)).
Proof.
  intros H. induction n as [|n IH].
  - cbn [atanh_taylor]. auto_derive; [lra|]. change (2 * 0)%nat with 0%nat. cbn [pow]. field. split; nra.
  - apply is_derive_ext with (fun s => (ln (1 + s) - ln (1 - s) - atanh_taylor n s) - 2 * s ^ (2 * n + 1) / INR (2 * n + 1)).
    { intros t. cbn [atanh_taylor]. match goal with |- @eq _ ?a ?b => change (@eq R a b) end. ring. }
    assert (J : is_derive (fun s => 2 * s ^ (2 * n + 1) / INR (2 * n + 1)) s (2 * s ^ (2 * n))).
    { auto_derive; [exact I|]. change (n + (n + 0) + 1)%nat with (2 * n + 1)%nat. replace (Init.Nat.pred (2 * n + 1)%nat) with (2 * n)%nat by lia. field. apply not_0_INR. lia. }
    replace (2 * s ^ (2 * S n) / (1 - s * s)) with (2 * s ^ (2 * n) / (1 - s * s) - 2 * s ^ (2 * n)).
    2:{ replace (2 * S n)%nat with (2 * n + 2)%nat by lia. rewrite pow_add. field. nra. }
    apply (is_derive_minus (V := R_NormedModule)); assumption.
Qed.
Lemma atanh_taylor_0 n : atanh_taylor n 0 = 0.
Proof. induction n as [|n IH]; [reflexivity|]. cbn [atanh_taylor]. rewrite IH. replace (2 * n + 1)%nat with (S (2 * n)) at 1 by lia. cbn [pow]. unfold Rdiv. ring. Qed.
Lemma atanh_taylor_odd n s : atanh_taylor n (- s) = - atanh_taylor n s.
Proof.
  induction n as [|n IH]; [cbn; ring|]. cbn [atanh_taylor]. rewrite IH.
  assert (E : (- s) ^ (2 * n + 1) = - s ^ (2 * n + 1)).
  { rewrite !pow_add, !pow_1, !pow_mult. replace ((- s) ^ 2) with (s ^ 2) by ring. ring. }
  rewrite E. unfold Rdiv. ring.
Qed.
Lemma incr_from_0 (g g' : R -> R) a : (forall t, 0 <= t <= a -> is_derive g t (g' t)) -> (forall t, 0 <= t <= a -> 0 <= g' t) -> g 0 = 0 -> 0 <= a -> 0 <= g a.
Proof.
  intros D Pp Z Ha. destruct (MVT_gen g 0 a g') as (c & Hc & E).
  - intros x Hx. rewrite Rmin_left, Rmax_right in Hx by lra. apply D. lra.
  - intros x Hx. rewrite Rmin_left, Rmax_right in Hx by lra. apply continuity_pt_filterlim, (ex_derive_continuous g). exists (g' x). apply D, Hx.
  - rewrite Rmin_left, Rmax_right in Hc by lra. rewrite Z in E. assert (0 <= g' c * (a - 0)) by (apply Rmult_le_pos; [apply Pp, Hc|lra]). lra.
Qed.
Lemma atanh_pos n s : 0 <= s < 1 ->
  0 <= ln (1 + s) - ln (1 - s) - atanh_taylor n s <= 2 * s ^ (2 * n + 1) / INR (2 * n + 1) / (1 - s * s).
Proof.
  intros H.
  assert (g0 : ln (1 + 0) - ln (1 - 0) - atanh_taylor n 0 = 0) by (rewrite atanh_taylor_0, Rplus_0_r; replace (1 - 0) with 1 by ring; ring).
  assert (N : 0 < INR (2 * n + 1)) by (apply lt_0_INR; lia).
  assert (S1 : 0 < 1 - s * s) by nra.
  split.
  - apply (incr_from_0 (fun s => ln (1 + s) - ln (1 - s) - atanh_taylor n s) (fun s => 2 * s ^ (2 * n) / (1 - s * s))); [| |exact g0|lra].
    + intros t Ht. apply atanh_derive. lra.
    + intros t Ht. apply Rmult_le_pos; [|left; apply Rinv_0_lt_compat; nra]. apply Rmult_le_pos; [lra|apply pow_le; lra].
  - apply Rminus_le_0.
    apply (incr_from_0 (fun t => 2 * t ^ (2 * n + 1) / INR (2 * n + 1) / (1 - s * s) - (ln (1 + t) - ln (1 - t) - atanh_taylor n t))
                       (fun t => 2 * t ^ (2 * n) / (1 - s * s) - 2 * t ^ (2 * n) / (1 - t * t))); [| | |lra].
    + intros t Ht. apply (is_derive_minus (V := R_NormedModule)); [|apply atanh_derive; lra].
      auto_derive; [lra|]. change (n + (n + 0) + 1)%nat with (2 * n + 1)%nat. replace (Init.Nat.pred (2 * n + 1)%nat) with (2 * n)%nat by lia. field. lra.
    + intros t Ht. apply -> Rminus_le_0. apply Rmult_le_compat_l; [apply Rmult_le_pos; [lra|apply pow_le; lra]|].
      apply Rinv_le; nra.
    + rewrite g0. replace (2 * n + 1)%nat with (S (2 * n)) at 1 by lia. cbn [pow]. unfold Rdiv. ring.
Qed.
(** ln ((1 + s) / (1 - s)) and the first n terms of its series. *)
Theorem atanh_taylor_ok n s a : Rabs s <= a -> a < 1 ->
  Rabs (ln ((1 + s) / (1 - s)) - atanh_taylor n s) <= 2 * Rabs s ^ (2 * n + 1) / INR (2 * n + 1) / (1 - a * a).
Proof.
  intros H A. assert (a0 : 0 <= a) by (pose proof (Rabs_pos s); lra). assert (Hs := Rabs_le_inv _ _ H).
  assert (N : 0 < INR (2 * n + 1)) by (apply lt_0_INR; lia).
  assert (W : forall t, 0 <= t <= a -> 2 * t ^ (2 * n + 1) / INR (2 * n + 1) / (1 - t * t) <= 2 * t ^ (2 * n + 1) / INR (2 * n + 1) / (1 - a * a)).
  { intros t Ht. apply Rmult_le_compat_l; [|apply Rinv_le; nra]. apply Rmult_le_pos; [|left; apply Rinv_0_lt_compat, N].
    apply Rmult_le_pos; [lra|apply pow_le; lra]. }
  unfold Rdiv at 1. rewrite ln_mult by (try apply Rinv_0_lt_compat; lra). rewrite ln_Rinv by lra.
  destruct (Rle_lt_dec 0 s) as [p|p].
  - rewrite (Rabs_pos_eq s) by exact p. pose proof (atanh_pos n s ltac:(lra)) as [X Y]. pose proof (W s ltac:(lra)). rewrite Rabs_pos_eq; lra.
  - rewrite (Rabs_left s) by exact p. pose proof (atanh_pos n (- s) ltac:(lra)) as [X Y]. pose proof (W (- s) ltac:(lra)).
    rewrite atanh_taylor_odd in X, Y. replace (1 + - s) with (1 - s) in X, Y by ring. replace (1 - - s) with (1 + s) in X, Y by ring.
    rewrite Rabs_left1; lra.
Qed.
