(** Pi to 1600 bits. *)
From Coq Require Import ZArith Reals Bool List Lia Lra Psatz.
From Flocq Require Import Core.
From Verif Require Import Base TrigModel FloatErr.
Import ListNotations.
Open Scope Z_scope.

(** Machin's series, pi/4 = 2 atan (1/3) + atan (1/7), in fixed point. *)
Definition PP : Z := 1700.
Fixpoint mloop (n : nat) (d p3 p7 acc : Z) (s : bool) : Z :=
  match n with
  | O => acc
  | S n => let t := 2 * p3 / d + p7 / d in mloop n (d + 2) (p3 / 9) (p7 / 49) (if s then acc + t else acc - t) (negb s)
  end.

Lemma div_fx n d : 0 < d -> (Rabs (fx PP (n / d) - fx PP n / IZR d) <= fx PP 1)%R.
Proof.
  intros Hd. pose proof (Z.div_mod n d ltac:(lia)) as E. pose proof (Z.mod_pos_bound n d Hd) as B.
  assert (D : (0 < IZR d)%R) by (apply IZR_lt; lia).
  replace (fx PP (n / d) - fx PP n / IZR d)%R with (- (IZR (n mod d) / IZR d * bpow radix2 (- PP)))%R.
  2:{ unfold fx. rewrite E at 3. rewrite plus_IZR, mult_IZR. field. lra. }
  rewrite Rabs_Ropp, Rabs_mult, (Rabs_pos_eq (bpow _ _)) by apply bpow_ge_0. unfold fx. apply Rmult_le_compat_r; [apply bpow_ge_0|].
  assert (0 <= IZR (n mod d) < IZR d)%R by (split; [apply IZR_le|apply IZR_lt]; lia).
  rewrite Rabs_pos_eq by (apply Rmult_le_pos; [lra|left; apply Rinv_0_lt_compat, D]).
  apply (Rmult_le_reg_r (IZR d)); [exact D|]. unfold Rdiv. rewrite Rmult_assoc, Rinv_l by lra. lra.
Qed.
Fixpoint psum (f : nat -> R) (n : nat) : R := match n with O => 0%R | S m => (psum f m + f m)%R end.
Lemma psum_ok f n : psum f (S n) = sum_f_R0 f n.
Proof. induction n as [|n IH]; [cbn; lra|]. change (psum f (S (S n))) with (psum f (S n) + f (S n))%R. rewrite IH. reflexivity. Qed.

Definition U : R := fx PP 1.
Lemma U_pos : (0 < U)%R. Proof. unfold U, fx. rewrite Rmult_1_l. apply bpow_gt_0. Qed.
Lemma div_err n d v e : 0 < d -> (Rabs (fx PP n - v) <= e -> Rabs (fx PP (n / d) - v / IZR d) <= e / IZR d + U)%R.
Proof.
  intros Hd H. pose proof (div_fx n d Hd) as A. assert (D : (0 < IZR d)%R) by (apply IZR_lt; lia). fold U in A.
  replace (fx PP (n / d) - v / IZR d)%R with ((fx PP (n / d) - fx PP n / IZR d) + (fx PP n - v) / IZR d)%R by (field; lra).
  eapply Rle_trans; [apply Rabs_triang|]. unfold Rdiv at 2. rewrite Rabs_mult, (Rabs_pos_eq (/ IZR d)) by (left; apply Rinv_0_lt_compat, D).
  assert (Rabs (fx PP n - v) * / IZR d <= e * / IZR d)%R by (apply Rmult_le_compat_r; [left; apply Rinv_0_lt_compat, D|exact H]). unfold Rdiv. lra.
Qed.
Lemma mloop_ok : forall n i p3 p7 acc, (Rabs (fx PP p3 - (/ 3) ^ (2 * i + 1)) <= 2 * U)%R -> (Rabs (fx PP p7 - (/ 7) ^ (2 * i + 1)) <= 2 * U)%R ->
  (Rabs (fx PP acc - psum (tg_alt PI_2_3_7_tg) i) <= INR i * (8 * U))%R ->
  (Rabs (fx PP (mloop n (Z.of_nat (2 * i + 1)) p3 p7 acc (Nat.even i)) - psum (tg_alt PI_2_3_7_tg) (i + n)) <= INR (i + n) * (8 * U))%R.
Proof.
  pose proof U_pos as u0.
  induction n as [|n IH]; intros i p3 p7 acc H3 H7 HA; cbn [mloop]; [rewrite Nat.add_0_r; exact HA|].
  replace (i + S n)%nat with (S i + n)%nat by lia. replace (Z.of_nat (2 * i + 1) + 2) with (Z.of_nat (2 * S i + 1)) by lia.
  replace (negb (Nat.even i)) with (Nat.even (S i)) by (rewrite Nat.even_succ; symmetry; apply Nat.negb_even).
  assert (P2 : forall r, (r ^ (2 * S i + 1) = r ^ (2 * i + 1) * (r * r))%R) by (intros r; replace (2 * S i + 1)%nat with (2 * i + 1 + 2)%nat by lia; rewrite pow_add; ring).
  apply IH.
  - rewrite P2. replace ((/ 3) ^ (2 * i + 1) * (/ 3 * / 3))%R with ((/ 3) ^ (2 * i + 1) / 9)%R by field. eapply Rle_trans; [apply (div_err p3 9 _ (2 * U)); [lia|exact H3]|]. lra.
  - rewrite P2. replace ((/ 7) ^ (2 * i + 1) * (/ 7 * / 7))%R with ((/ 7) ^ (2 * i + 1) / 49)%R by field. eapply Rle_trans; [apply (div_err p7 49 _ (2 * U)); [lia|exact H7]|]. lra.
  - set (d := Z.of_nat (2 * i + 1)). assert (Hd : 1 <= d) by (unfold d; lia). assert (Rd : (1 <= IZR d)%R) by (apply IZR_le; exact Hd).
    assert (ID : (IZR d = INR (2 * i + 1))%R) by (unfold d; symmetry; apply INR_IZR_INZ).
    assert (i1 : (0 < / IZR d <= 1)%R) by (split; [apply Rinv_0_lt_compat; lra|rewrite <- Rinv_1; apply Rinv_le; lra]).
    assert (A3 : (Rabs (fx PP (2 * p3 / d) - 2 * (/ 3) ^ (2 * i + 1) / IZR d) <= 5 * U)%R).
    { eapply Rle_trans; [apply (div_err (2 * p3) d _ (4 * U)); [lia|]|].
      - replace (2 * p3) with (p3 + p3) by lia. rewrite fx_add. apply Rabs_le. apply Rabs_le_inv in H3. lra.
      - unfold Rdiv. nra. }
    assert (A7 : (Rabs (fx PP (p7 / d) - (/ 7) ^ (2 * i + 1) / IZR d) <= 3 * U)%R).
    { eapply Rle_trans; [apply (div_err p7 d _ (2 * U)); [lia|exact H7]|]. unfold Rdiv. nra. }
    assert (S : ((-1) ^ i = if Nat.even i then 1 else -1)%R).
    { clear. induction i as [|i IH]; [reflexivity|]. rewrite Nat.even_succ, <- Nat.negb_even. cbn [pow]. destruct (Nat.even i); cbn [negb]; lra. }
    change (psum (tg_alt PI_2_3_7_tg) (Datatypes.S i)) with (psum (tg_alt PI_2_3_7_tg) i + tg_alt PI_2_3_7_tg i)%R.
    unfold tg_alt at 2. unfold PI_2_3_7_tg at 2, Ratan_seq. rewrite <- ID, S, S_INR. apply Rabs_le_inv in A3, A7, HA. set (x3 := ((/ 3) ^ (2 * i + 1))%R) in *. set (x7 := ((/ 7) ^ (2 * i + 1))%R) in *.
    set (y := psum _ i) in *. unfold Rdiv in *. destruct (Nat.even i); [rewrite !fx_add|rewrite fx_sub, fx_add]; apply Rabs_le; lra.
Qed.
Definition msum (n : nat) : Z := mloop n 1 (2 ^ PP / 3) (2 ^ PP / 7) 0 true.
Lemma msum_ok n : (Rabs (fx PP (msum (S n)) - sum_f_R0 (tg_alt PI_2_3_7_tg) n) <= INR (S n) * (8 * U))%R.
Proof.
  pose proof U_pos. rewrite <- psum_ok. apply (mloop_ok (S n) 0).
  - cbn [Nat.mul Nat.add]. rewrite pow_1. pose proof (div_fx (2 ^ PP) 3 ltac:(lia)) as A. rewrite fx_pow in A by (unfold PP; lia). rewrite Z.sub_diag in A. change (bpow radix2 0) with 1%R in A. fold U in A.
    unfold Rdiv in A. rewrite Rmult_1_l in A. lra.
  - cbn [Nat.mul Nat.add]. rewrite pow_1. pose proof (div_fx (2 ^ PP) 7 ltac:(lia)) as A. rewrite fx_pow in A by (unfold PP; lia). rewrite Z.sub_diag in A. change (bpow radix2 0) with 1%R in A. fold U in A.
    unfold Rdiv in A. rewrite Rmult_1_l in A. lra.
  - cbn [psum INR]. rewrite fx_0, Rminus_0_r, Rabs_R0. lra.
Qed.
(** pi / 4 to about 1610 bits. *)
Definition qpi : Z := Eval vm_compute in msum 512.
Lemma qpi_eq : msum 512 = qpi. Proof. vm_compute. reflexivity. Qed.
Lemma last_term : (0 <= PI_2_3_7_tg 511 <= fx PP (2 ^ 88))%R.
Proof.
  unfold PI_2_3_7_tg, Ratan_seq. set (k := (2 * 511 + 1)%nat).
  assert (1 <= INR k)%R as K by (rewrite INR_IZR_INZ; apply IZR_le; vm_compute; discriminate).
  assert (0 < (/ 3) ^ k)%R as P3 by (apply pow_lt; lra). assert (0 < (/ 7) ^ k <= (/ 3) ^ k)%R as P7 by (split; [apply pow_lt; lra|apply pow_incr; lra]).
  assert (forall a, 0 < a -> 0 < a / INR k <= a)%R as DV.
  { intros a Ha. split; [apply Rmult_lt_0_compat; [exact Ha|apply Rinv_0_lt_compat; lra]|]. apply (Rmult_le_reg_r (INR k)); [lra|]. unfold Rdiv. rewrite Rmult_assoc, Rinv_l by lra. nra. }
  pose proof (DV _ P3). pose proof (DV _ (proj1 P7)). split; [lra|]. apply Rle_trans with (4 * (/ 3) ^ k)%R; [lra|].
  assert ((/ 3) ^ k <= bpow radix2 (-1614))%R as B.
  { rewrite pow_inv. apply Rle_trans with (/ IZR (2 ^ 1614))%R; [|apply Req_le; reflexivity]. apply Rinv_le; [apply IZR_lt; reflexivity|]. replace (3 ^ k)%R with (IZR (3 ^ Z.of_nat k)) by (symmetry; apply pow_IZR). apply IZR_le. vm_compute. discriminate. }
  rewrite fx_pow by (unfold PP; lia). change (88 - PP) with (2 + -1614). rewrite bpow_plus. change (bpow radix2 2) with 4%R. lra.
Qed.
Definition qpi_err : Z := 2 ^ 90.
Lemma qpi_ok : (fx PP (qpi - qpi_err) <= PI / 4 <= fx PP (qpi + qpi_err))%R.
Proof.
  destruct (PI_2_3_7_ineq 255) as [A B]. replace (S (2 * 255)) with 511%nat in A by lia. replace (2 * 255)%nat with 510%nat in B by lia.
  pose proof (msum_ok 511) as M. rewrite qpi_eq in M. apply Rabs_le_inv in M. rewrite tech5 in A. rewrite tech5 in M. set (S0 := sum_f_R0 _ 510) in *.
  assert (tg_alt PI_2_3_7_tg 511 = - PI_2_3_7_tg 511)%R as TA by (unfold tg_alt; replace 511%nat with (S (2 * 255)) at 1 by lia; rewrite pow_1_odd; ring). rewrite TA in A, M. pose proof last_term as LT.
  assert (E : forall k, (INR k * (8 * U))%R = fx PP (8 * Z.of_nat k)) by (intros k; unfold U, fx; rewrite mult_IZR, <- INR_IZR_INZ; ring).
  rewrite E in M.
  assert (F3 : (fx PP (8 * Z.of_nat 512) <= fx PP (2 ^ 88))%R) by (apply fx_le; vm_compute; discriminate).
  assert (F4 : fx PP qpi_err = (fx PP (2 ^ 88) + fx PP (2 ^ 88) + fx PP (2 ^ 88) + fx PP (2 ^ 88))%R) by (rewrite <- !fx_add; reflexivity).
  assert (F5 : (0 <= fx PP (2 ^ 88))%R) by (apply fx_nonneg; lia).
  rewrite fx_sub, fx_add. lra.
Qed.
