(** The polynomials of k_sin and k_cos against sine and cosine. *)
From Coq Require Import ZArith Reals Bool List Lia Lra Psatz.
From Flocq Require Import Core.
From Verif Require Import Base FloatModel FloatSpec LibmModel LibmSpec Elem FloatErr PolyBound ElemModel ElemSpec TrigModel F64Lib ExpProofs3 ExpProofs4.
Import ListNotations.
Open Scope Z_scope.

Definition sgn (i : nat) : Z := if Nat.even i then 1 else -1.
Lemma sgn_ok i : IZR (sgn i) = ((-1) ^ i)%R.
Proof.
  unfold sgn. induction i as [|i IH]; [reflexivity|]. rewrite Nat.even_succ, <- Nat.negb_even. cbn [pow]. destruct (Nat.even i); cbn [negb]; lra.
Qed.
Lemma fact_ok n : IZR (Zfact n) = INR (fact n).
Proof. rewrite Zfact_ok, <- INR_IZR_INZ. reflexivity. Qed.

(** Taylor polynomials in z = x^2. *)
Definition pSinT (n : nat) : pe := phorn (fun i => (sgn i, Zfact (2 * i + 1))) PX 0 n.
Definition pCosT (n : nat) : pe := phorn (fun i => (sgn i, Zfact (2 * i))) PX 0 n.
Lemma pSinT_ok n x : (x * pev F64 (x * x) (pSinT n) = sin_approx x n)%R.
Proof.
  unfold pSinT. rewrite pev_horn. unfold sin_approx. rewrite scal_sum. apply sum_eq. intros i _. unfold sin_term. cbn [fst snd Nat.add pev].
  rewrite sgn_ok, fact_ok, pow_add, pow_mult. replace (x ^ 2)%R with (x * x)%R by ring. unfold Rdiv. ring.
Qed.
Lemma pCosT_ok n x : (pev F64 (x * x) (pCosT n) = cos_approx x n)%R.
Proof.
  unfold pCosT. rewrite pev_horn. unfold cos_approx. apply sum_eq. intros i _. unfold cos_term. cbn [fst snd Nat.add pev].
  rewrite sgn_ok, fact_ok, pow_mult. replace (x ^ 2)%R with (x * x)%R by ring. unfold Rdiv. ring.
Qed.

Lemma PI_gt : (3 < PI)%R. Proof. pose proof PI_2_3_7_ineq 0%nat. pose proof (PI2_3_2). unfold PI2 in *. lra. Qed.
Lemma sin_taylor x : (Rabs x <= 0.7856 -> Rabs (sin x - x * pev F64 (x * x) (pSinT 9)) <= Rabs x * bpow radix2 (-70))%R.
Proof.
  assert (P : forall x, (0 <= x <= 0.7856 -> Rabs (sin x - sin_approx x 9) <= x * bpow radix2 (-70))%R).
  { clear x. intros x H. pose proof PI_gt. destruct (sin_bound x 4 ltac:(lra) ltac:(lra)) as [A B]. cbn [Nat.mul Nat.add] in A, B.
    change (sin_approx x 10) with (sin_approx x 9 + sin_term x 10)%R in B. apply Rabs_le.
    assert (T : (0 <= sin_term x 10 <= x * bpow radix2 (-70))%R).
    { unfold sin_term. replace ((-1) ^ 10)%R with 1%R by ring. rewrite Rmult_1_l. cbn [Nat.mul Nat.add]. rewrite <- fact_ok.
      change (x ^ 21)%R with (x * x ^ 20)%R. assert (Q : (0 <= x ^ 20 <= 1)%R) by (split; [apply pow_le; lra|rewrite <- (pow1 20); apply pow_incr; lra]).
      set (q := (x ^ 20)%R) in *.
      assert (E : (x ^ 20 <= / 64)%R). { replace (x ^ 20)%R with ((x ^ 5) ^ 4)%R by ring. replace (/ 64)%R with (((/ 8) ^ 2))%R by field. 
        apply Rle_trans with ((0.7856 ^ 5) ^ 4)%R; [|lra]. apply pow_incr. split; [apply pow_le; lra|]. apply pow_incr. lra. }
      fold q in E. replace (IZR (Zfact 21)) with (51090942171709440000)%R by (vm_compute; reflexivity).
      change (-70) with (-35 + -35). rewrite bpow_plus. change (bpow radix2 (-35)) with (/ 34359738368)%R.
      split; [apply Rmult_le_pos; [apply Rmult_le_pos; lra|left; apply Rinv_0_lt_compat; lra]|].
      unfold Rdiv. rewrite Rmult_assoc. apply Rmult_le_compat_l; lra. }
    lra. }
  intros H. destruct (Rle_lt_dec 0 x) as [p|p].
  - rewrite Rabs_pos_eq in H by exact p. rewrite pSinT_ok, (Rabs_pos_eq x) by exact p. apply P. lra.
  - rewrite Rabs_left in H by exact p. specialize (P (- x)%R ltac:(lra)). rewrite sin_neg, <- pSinT_ok in P. rewrite (Rabs_left x) by exact p.
    replace (- x * - x)%R with (x * x)%R in P by ring. rewrite <- Rabs_Ropp. replace (- (sin x - x * pev F64 (x * x) (pSinT 9)))%R with (- sin x - - x * pev F64 (x * x) (pSinT 9))%R by ring. exact P.
Qed.
Lemma cos_taylor x : (Rabs x <= 0.7856 -> Rabs (cos x - pev F64 (x * x) (pCosT 9)) <= bpow radix2 (-66))%R.
Proof.
  intros H. apply Rabs_le_inv in H. pose proof PI_gt. destruct (cos_bound x 4 ltac:(lra) ltac:(lra)) as [A B]. cbn [Nat.mul Nat.add] in A, B. rewrite pCosT_ok.
  change (cos_approx x 10) with (cos_approx x 9 + cos_term x 10)%R in B. apply Rabs_le.
  assert (T : (0 <= cos_term x 10 <= bpow radix2 (-66))%R).
  { unfold cos_term. replace ((-1) ^ 10)%R with 1%R by ring. rewrite Rmult_1_l. cbn [Nat.mul Nat.add]. rewrite <- fact_ok.
    assert (E : (0 <= x ^ 20 <= / 64)%R).
    { replace (x ^ 20)%R with (((x * x) ^ 5) ^ 2)%R by ring. split; [apply pow_le, pow_le; nra|].
      apply Rle_trans with (((0.7856 * 0.7856) ^ 5) ^ 2)%R; [|lra]. apply pow_incr. split; [apply pow_le; nra|]. apply pow_incr. nra. }
    set (q := (x ^ 20)%R) in *. replace (IZR (Zfact 20)) with (2432902008176640000)%R by (vm_compute; reflexivity).
    change (-66) with (-33 + -33). rewrite bpow_plus. change (bpow radix2 (-33)) with (/ 8589934592)%R.
    split; [apply Rmult_le_pos; [lra|left; apply Rinv_0_lt_compat; lra]|]. lra. }
  lra.
Qed.

(** The polynomials of the code. *)
Definition pw : pe := PMul PX PX.
Definition pSr : pe := PAdd (PAdd (PK S2) (PMul PX (PAdd (PK S3) (PMul PX (PK S4))))) (PMul (PMul PX pw) (PAdd (PK S5) (PMul PX (PK S6)))).
Definition pSin : pe := PAdd (PQ 1 1) (PMul PX (PAdd (PK S1) (PMul PX pSr))).
Definition pCr : pe := PAdd (PMul PX (PAdd (PK C1) (PMul PX (PAdd (PK C2) (PMul PX (PK C3)))))) (PMul (PMul pw pw) (PAdd (PK C4) (PMul PX (PAdd (PK C5) (PMul PX (PK C6)))))).
Definition pCos : pe := PAdd (PSub (PQ 1 1) (PMul (PQ 1 2) PX)) (PMul PX pCr).
Lemma pSin_ok z : (0 <= z <= 0.61718)%R -> (Rabs (pev F64 z pSin - pev F64 z (pSinT 9)) <= 5 * bpow radix2 (-60))%R.
Proof.
  intros H. apply Rabs_le. rewrite <- (fx_scale 80 (-60) 5) by lia. rewrite <- fx_opp.
  change (pev F64 z pSin - pev F64 z (pSinT 9))%R with (pev F64 z (PSub pSin (pSinT 9))).
  apply (pcheck_ok 80 ltac:(lia) F64 (PSub pSin (pSinT 9)) 0 (2528 * 2 ^ 61) 64); [vm_compute; reflexivity|lia| |discriminate].
  replace (0 + 2 * (2528 * 2 ^ 61) * Z.of_nat 64) with (2528 * 2 ^ (80 + -12)) by reflexivity. rewrite fx_scale, fx_0 by lia.
  change (bpow radix2 (-12)) with (/ 4096)%R. lra.
Qed.
Lemma pCos_ok z : (0 <= z <= 0.61718)%R -> (Rabs (pev F64 z pCos - pev F64 z (pCosT 9)) <= 4 * bpow radix2 (-60))%R.
Proof.
  intros H. apply Rabs_le. rewrite <- (fx_scale 80 (-60) 4) by lia. rewrite <- fx_opp.
  change (pev F64 z pCos - pev F64 z (pCosT 9))%R with (pev F64 z (PSub pCos (pCosT 9))).
  apply (pcheck_ok 80 ltac:(lia) F64 (PSub pCos (pCosT 9)) 0 (2528 * 2 ^ 64) 8); [vm_compute; reflexivity|lia| |discriminate].
  replace (0 + 2 * (2528 * 2 ^ 64) * Z.of_nat 8) with (2528 * 2 ^ (80 + -12)) by reflexivity. rewrite fx_scale, fx_0 by lia.
  change (bpow radix2 (-12)) with (/ 4096)%R. lra.
Qed.
(** sin x = x (1 + z S(z)) up to 6 2^-60 relative, cos x up to 4.1 2^-60. *)
Lemma sin_poly x : (Rabs x <= 0.7856 -> Rabs (x * pev F64 (x * x) pSin - sin x) <= Rabs x * (6 * bpow radix2 (-60)))%R.
Proof.
  intros H. pose proof (sin_taylor x H) as T. assert (Z : (0 <= x * x <= 0.61718)%R) by (apply Rabs_le_inv in H; nra). pose proof (pSin_ok _ Z) as Q.
  replace (x * pev F64 (x * x) pSin - sin x)%R with (x * (pev F64 (x * x) pSin - pev F64 (x * x) (pSinT 9)) - (sin x - x * pev F64 (x * x) (pSinT 9)))%R by ring.
  unfold Rminus at 1. eapply Rle_trans; [apply Rabs_triang|]. rewrite Rabs_Ropp, Rabs_mult.
  assert (bpow radix2 (-70) <= bpow radix2 (-60))%R by (apply bpow_le; lia). pose proof (Rabs_pos x). nra.
Qed.
Lemma cos_poly x : (Rabs x <= 0.7856 -> Rabs (pev F64 (x * x) pCos - cos x) <= 4.1 * bpow radix2 (-60))%R.
Proof.
  intros H. pose proof (cos_taylor x H) as T. assert (Z : (0 <= x * x <= 0.61718)%R) by (apply Rabs_le_inv in H; nra). pose proof (pCos_ok _ Z) as Q.
  replace (pev F64 (x * x) pCos - cos x)%R with ((pev F64 (x * x) pCos - pev F64 (x * x) (pCosT 9)) - (cos x - pev F64 (x * x) (pCosT 9)))%R by ring.
  unfold Rminus at 1. eapply Rle_trans; [apply Rabs_triang|]. rewrite Rabs_Ropp.
  assert (bpow radix2 (-66) <= / 64 * bpow radix2 (-60))%R by (change (/ 64)%R with (bpow radix2 (-6)); rewrite <- bpow_plus; apply Rle_refl). pose proof (bpow_gt_0 radix2 (-60)). lra.
Qed.
