(** Accuracy of atan: the series and the polynomial. *)
From Coq Require Import ZArith Reals Bool List Lia Lra Psatz.
From Flocq Require Import Core.
From Coquelicot Require Import Coquelicot.
From Verif Require Import Base FloatModel FloatSpec LibmModel Elem FloatErr PolyBound ElemModel ElemSpec F64Lib TrigProofs AtanModel.
Import ListNotations.
Open Scope R_scope.

Fixpoint atan_taylor (n : nat) (s : R) : R :=
  match n with O => 0 | S m => atan_taylor m s + (-1) ^ m * s ^ (2 * m + 1) / INR (2 * m + 1) end.
Lemma atan_derive n s : is_derive (fun s => atan s - atan_taylor n s) s ((-1) ^ n * s ^ (2 * n) / (1 + s * s)).
Proof.
  assert (0 < 1 + s * s) as N by nra. induction n as [|n IH].
  - cbn [atan_taylor]. apply is_derive_ext with atan; [intros t; match goal with |- @eq _ ?a ?b => change (@eq R a b) end; ring|].
    replace ((-1) ^ 0 * s ^ (2 * 0) / (1 + s * s)) with (/ (1 + s ^ 2)) by (cbn; field; nra). apply is_derive_Reals, derivable_pt_lim_atan.
  - apply is_derive_ext with (fun s => (atan s - atan_taylor n s) - (-1) ^ n * s ^ (2 * n + 1) / INR (2 * n + 1)).
    { intros t. cbn [atan_taylor]. match goal with |- @eq _ ?a ?b => change (@eq R a b) end. ring. }
    assert (J : is_derive (fun s => (-1) ^ n * s ^ (2 * n + 1) / INR (2 * n + 1)) s ((-1) ^ n * s ^ (2 * n))).
    { auto_derive; [exact Logic.I|]. change (n + (n + 0) + 1)%nat with (2 * n + 1)%nat. replace (Init.Nat.pred (2 * n + 1)%nat) with (2 * n)%nat by lia. field. apply not_0_INR. lia. }
    replace ((-1) ^ S n * s ^ (2 * S n) / (1 + s * s)) with ((-1) ^ n * s ^ (2 * n) / (1 + s * s) - (-1) ^ n * s ^ (2 * n)).
    2:{ replace (2 * S n)%nat with (2 * n + 2)%nat by lia. rewrite pow_add. cbn [pow]. field. lra. }
    apply (is_derive_minus (V := R_NormedModule)); assumption.
Qed.
Lemma atan_taylor_0 n : atan_taylor n 0 = 0.
Proof. induction n as [|n IH]; [reflexivity|]. cbn [atan_taylor]. rewrite IH. replace (2 * n + 1)%nat with (S (2 * n)) at 1 by lia. cbn [pow]. unfold Rdiv. ring. Qed.
Lemma atan_taylor_ok n s : Rabs (atan s - atan_taylor n s) <= Rabs s ^ (2 * n + 1).
Proof.
  destruct (MVT_gen (fun s => atan s - atan_taylor n s) 0 s (fun s => (-1) ^ n * s ^ (2 * n) / (1 + s * s))) as (c & Hc & E).
  - intros x _. apply atan_derive.
  - intros x _. apply continuity_pt_filterlim, (ex_derive_continuous (fun s => atan s - atan_taylor n s)). eexists. apply atan_derive.
  - rewrite atan_0, atan_taylor_0 in E. replace (atan s - atan_taylor n s) with ((-1) ^ n * c ^ (2 * n) / (1 + c * c) * s) by lra.
    replace (2 * n + 1)%nat with (S (2 * n)) by lia. cbn [pow]. rewrite Rabs_mult, (Rmult_comm (Rabs s)). apply Rmult_le_compat_r; [apply Rabs_pos|].
    unfold Rdiv. rewrite !Rabs_mult, pow_1_abs, Rmult_1_l. assert (0 < / (1 + c * c) <= 1) as [A B]. { split; [apply Rinv_0_lt_compat; nra|]. rewrite <- Rinv_1. apply Rinv_le; nra. }
    rewrite (Rabs_pos_eq (/ _)) by lra. assert (Rabs c <= Rabs s) as C. { unfold Rmin, Rmax in Hc. destruct (Rle_dec 0 s); unfold Rabs; destruct (Rcase_abs c), (Rcase_abs s); lra. }
    rewrite <- RPow_abs. assert (0 <= Rabs c ^ (2 * n) <= Rabs s ^ (2 * n)) by (split; [apply pow_le, Rabs_pos|apply pow_incr; split; [apply Rabs_pos|exact C]]). nra.
Qed.
Open Scope Z_scope.

(** The polynomial of atan.rs:121-122 as a function of z = x^2, and the series it stands for. *)
Definition pAt : pe :=
  let w := PMul PX PX in
  PAdd (PMul PX (PAdd (PK AT0) (PMul w (PAdd (PK AT2) (PMul w (PAdd (PK AT4) (PMul w (PAdd (PK AT6) (PMul w (PAdd (PK AT8) (PMul w (PK AT10))))))))))))
       (PMul w (PAdd (PK AT1) (PMul w (PAdd (PK AT3) (PMul w (PAdd (PK AT5) (PMul w (PAdd (PK AT7) (PMul w (PK AT9)))))))))).
Definition pAtT (n : nat) : pe := PMul PX (phorn (fun i => (sgn i, Z.of_nat (2 * i + 3))) PX 0 n).
Definition pAtD : pe := PSub pAt (pAtT 24).
Lemma chk_at1 : pcheck 76 F64 pAtD 0 (1569 * 2 ^ 56) 4 (- (6 * 2 ^ 17)) (6 * 2 ^ 17) = true. Proof. vm_compute. reflexivity. Qed.
Lemma chk_at2 : pcheck 76 F64 pAtD (2 * (1569 * 2 ^ 58)) (1569 * 2 ^ 58) 14 (- (6 * 2 ^ 17)) (6 * 2 ^ 17) = true. Proof. vm_compute. reflexivity. Qed.
Lemma chk_at3 : pcheck 76 F64 pAtD (30 * (1569 * 2 ^ 58)) (1569 * 2 ^ 56) 4 (- (6 * 2 ^ 17)) (6 * 2 ^ 17) = true. Proof. vm_compute. reflexivity. Qed.
Lemma pAt_ok z : (0 <= z <= 0.1915)%R -> (Rabs (pev F64 z pAt - pev F64 z (pAtT 24)) <= 6 * bpow radix2 (-59))%R.
Proof.
  intros H. apply Rabs_le. rewrite <- (fx_scale 76 (-59) 6) by lia. rewrite <- fx_opp. change (76 + -59) with 17.
  change (pev F64 z pAt - pev F64 z (pAtT 24))%R with (pev F64 z pAtD).
  assert (forall n e, 0 <= 76 + e -> fx 76 (n * 2 ^ (76 + e)) = (IZR n * bpow radix2 e)%R) as FX by (intros; apply fx_scale; assumption).
  destruct (Rle_lt_dec z (1569 / 131072)) as [L|L].
  - apply (pcheck_ok 76 ltac:(lia) F64 pAtD _ _ _ _ _ chk_at1); [lia| |discriminate].
    replace (0 + 2 * (1569 * 2 ^ 56) * Z.of_nat 4) with (1569 * 2 ^ (76 + -17)) by reflexivity. rewrite FX, fx_0 by lia. change (bpow radix2 (-17)) with (/ 131072)%R. lra.
  - destruct (Rle_lt_dec z (1569 * 15 / 131072)) as [L2|L2].
    + apply (pcheck_ok 76 ltac:(lia) F64 pAtD _ _ _ _ _ chk_at2); [lia| |discriminate].
      replace (2 * (1569 * 2 ^ 58) + 2 * (1569 * 2 ^ 58) * Z.of_nat 14) with (23535 * 2 ^ (76 + -17)) by reflexivity. replace (2 * (1569 * 2 ^ 58)) with (1569 * 2 ^ (76 + -17)) by reflexivity. rewrite !FX by lia. change (bpow radix2 (-17)) with (/ 131072)%R. lra.
    + apply (pcheck_ok 76 ltac:(lia) F64 pAtD _ _ _ _ _ chk_at3); [lia| |discriminate].
      replace (30 * (1569 * 2 ^ 58) + 2 * (1569 * 2 ^ 56) * Z.of_nat 4) with (25104 * 2 ^ (76 + -17)) by reflexivity. replace (30 * (1569 * 2 ^ 58)) with (23535 * 2 ^ (76 + -17)) by reflexivity. rewrite !FX by lia. change (bpow radix2 (-17)) with (/ 131072)%R. lra.
Qed.
Lemma pAtT_ok n s : (s - s * pev F64 (s * s) (pAtT n) = atan_taylor (n + 2) s)%R.
Proof.
  unfold pAtT. cbn [pev]. rewrite pev_horn. cbn [pev]. induction n as [|n IH].
  - cbn. field.
  - rewrite tech5. replace (S n + 2)%nat with (S (n + 2)) by lia. cbn [atan_taylor]. rewrite <- IH. cbn [fst snd Nat.add]. rewrite sgn_ok.
    replace (2 * (n + 2) + 1)%nat with (2 * S n + 3)%nat by lia. replace (s ^ (2 * S n + 3))%R with (s * (s * s) * (s * s) ^ S n)%R by (rewrite pow_add, pow_mult; replace (s ^ 2)%R with (s * s)%R by ring; ring).
    rewrite <- INR_IZR_INZ. replace ((-1) ^ (n + 2))%R with (- (-1) ^ S n)%R by (rewrite pow_add; cbn; ring). cbn [Nat.add]. field. apply not_0_INR. lia.
Qed.
Lemma atan_R s : (Rabs s <= 0.4376 -> Rabs (s - s * pev F64 (s * s) pAt - atan s) <= Rabs s * (7 * bpow radix2 (-59)))%R.
Proof.
  intros H. assert (H' := Rabs_le_inv _ _ H). assert (0 <= s * s <= 0.1915)%R as Z by nra. pose proof (pAt_ok _ Z) as A. pose proof (atan_taylor_ok 26 s) as T. change 26%nat with (24 + 2)%nat in T at 1. rewrite <- pAtT_ok in T.
  assert (Rabs s ^ (2 * 26 + 1) <= Rabs s * bpow radix2 (-59))%R as B.
  { change (2 * 26 + 1)%nat with (S (2 * 26)). cbn [pow]. apply Rmult_le_compat_l; [apply Rabs_pos|]. change (2 * 26)%nat with (4 * 13)%nat. rewrite pow_mult. assert (Rabs s ^ 4 <= / 27)%R as S4. { replace (Rabs s ^ 4)%R with ((s * s) * (s * s))%R by (rewrite RPow_abs; replace (s ^ 4)%R with ((s * s) * (s * s))%R by ring; symmetry; apply Rabs_pos_eq; nra). nra. }
    apply Rle_trans with ((/ 27) ^ 13)%R; [apply pow_incr; split; [apply pow_le, Rabs_pos|exact S4]|]. rewrite pow_inv. apply Rle_trans with (/ IZR (2 ^ 59))%R; [|apply Req_le; reflexivity]. apply Rinv_le; [apply IZR_lt; reflexivity|]. replace (27 ^ 13)%R with (IZR (27 ^ 13)) by (rewrite <- (Z2Nat.id 13) by lia; symmetry; apply (pow_IZR 27 13)). apply IZR_le. vm_compute. discriminate. }
  replace (s - s * pev F64 (s * s) pAt - atan s)%R with (- (s * (pev F64 (s * s) pAt - pev F64 (s * s) (pAtT 24))) - (atan s - (s - s * pev F64 (s * s) (pAtT 24))))%R by ring.
  unfold Rminus at 1. eapply Rle_trans; [apply Rabs_triang|]. rewrite !Rabs_Ropp, Rabs_mult.
  assert (Rabs s * Rabs (pev F64 (s * s) pAt - pev F64 (s * s) (pAtT 24)) <= Rabs s * (6 * bpow radix2 (-59)))%R by (apply Rmult_le_compat_l; [apply Rabs_pos|exact A]). lra.
Qed.

(** Sums of angles. *)
Lemma atan_diff a x : (0 <= a)%R -> (0 <= x)%R -> (atan x = atan a + atan ((x - a) / (1 + a * x)))%R.
Proof.
  intros A X. assert (0 < 1 + a * x)%R as D by nra. pose proof (atan_bound a) as Ba. pose proof (atan_bound x) as Bx.
  assert (0 <= atan a)%R as A0 by (rewrite <- atan_0; destruct A as [A| <-]; [left; apply atan_increasing, A|lra]). assert (0 <= atan x)%R as X0 by (rewrite <- atan_0; destruct X as [X| <-]; [left; apply atan_increasing, X|lra]).
  replace ((x - a) / (1 + a * x))%R with (tan (atan x - atan a)).
  - rewrite atan_tan; [ring|]. lra.
  - rewrite tan_minus; rewrite ?tan_atan.
    + f_equal. ring.
    + apply Rgt_not_eq, cos_gt_0; lra.
    + apply Rgt_not_eq, cos_gt_0; lra.
    + apply Rgt_not_eq, cos_gt_0; lra.
    + nra.
Qed.
