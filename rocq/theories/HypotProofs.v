(** hypot: doubles as integers scaled by powers of two, and rounding between neighbours. *)
From Coq Require Import ZArith Reals Bool Lia Lra Psatz.
From Flocq Require Import Core.
From Verif Require Import Base BaseLemmas FloatModel FloatSpec FloatProofs FloatProofs2 FloatProofs3 FloatConvProofs FloatLib LibmProofs3 LibmModel LibmSpec LibmProofs LibmProofs4 F64Lib FmaProofs FmaProofs2 FloatErr ExpProofs4 TrigRed.
Open Scope Z_scope.

(** The value of a bit pattern read as that of a normal number, with any exponent. *)
Definition xval (b : Z) : R := (IZR (2 ^ 52 + b mod 2 ^ 52) * bpow radix2 (b / 2 ^ 52 - 1075))%R.

Lemma xval_mag n : 2 ^ 52 <= n -> mag64 n = xval n.
Proof.
  intros H. unfold mag64, xval, V. change (fs F64) with 52. assert (1 <= n / 2 ^ 52) by (apply Z.div_le_lower_bound; lia).
  destruct (Z.eqb_spec (n / 2 ^ 52) 0); [lia|]. rewrite mult_IZR, (IZR_pow (n / 2 ^ 52 - 1)) by lia. rewrite Rmult_assoc, <- bpow_plus. f_equal. f_equal. lia.
Qed.
Lemma xval_shift b k : xval (b + k * 2 ^ 52) = (xval b * bpow radix2 k)%R.
Proof. unfold xval. rewrite Z_mod_plus_full, Z_div_plus_full by lia. rewrite Rmult_assoc, <- bpow_plus. f_equal. f_equal. lia. Qed.
Lemma xval_range b : (bpow radix2 (b / 2 ^ 52 - 1023) <= xval b < bpow radix2 (b / 2 ^ 52 - 1022))%R.
Proof.
  unfold xval. pose proof (Z.mod_pos_bound b (2 ^ 52) ltac:(lia)) as M. set (m := b mod 2 ^ 52) in *. set (E := b / 2 ^ 52).
  replace (E - 1023) with (52 + (E - 1075)) by lia. replace (E - 1022) with (53 + (E - 1075)) by lia. rewrite !bpow_plus.
  pose proof (bpow_gt_0 radix2 (E - 1075)). change (bpow radix2 52) with (IZR (2 ^ 52)). change (bpow radix2 53) with (IZR (2 ^ 53)).
  split; [apply Rmult_le_compat_r; [lra|]; apply IZR_le; lia|apply Rmult_lt_compat_r; [lra|]; apply IZR_lt; lia].
Qed.
Lemma xval_pos b : (0 < xval b)%R.
Proof. pose proof (xval_range b). pose proof (bpow_gt_0 radix2 (b / 2 ^ 52 - 1023)). lra. Qed.
(** The next pattern is one unit up. *)
Lemma xval_succ b : xval (b + 1) = (xval b + bpow radix2 (b / 2 ^ 52 - 1075))%R.
Proof.
  unfold xval. pose proof (Z.mod_pos_bound b (2 ^ 52) ltac:(lia)) as M. pose proof (Z.div_mod b (2 ^ 52) ltac:(lia)) as DM. destruct (Z.eq_dec (b mod 2 ^ 52) (2 ^ 52 - 1)) as [E|E].
  - assert ((b + 1) mod 2 ^ 52 = 0) as -> by (symmetry; apply Z.mod_unique with (b / 2 ^ 52 + 1); lia).
    assert ((b + 1) / 2 ^ 52 = b / 2 ^ 52 + 1) as -> by (symmetry; apply Z.div_unique with 0; lia).
    rewrite E. replace (b / 2 ^ 52 + 1 - 1075) with (1 + (b / 2 ^ 52 - 1075)) by lia. rewrite bpow_plus. change (bpow radix2 1) with 2%R.
    replace (2 ^ 52 + (2 ^ 52 - 1)) with (2 * 2 ^ 52 - 1) by lia. rewrite minus_IZR, mult_IZR, plus_IZR. lra.
  - assert ((b + 1) mod 2 ^ 52 = b mod 2 ^ 52 + 1) as -> by (symmetry; apply Z.mod_unique with (b / 2 ^ 52); lia).
    assert ((b + 1) / 2 ^ 52 = b / 2 ^ 52) as -> by (symmetry; apply Z.div_unique with (b mod 2 ^ 52 + 1); lia).
    rewrite !plus_IZR. lra.
Qed.
Lemma xval_lt a b : a < b -> (xval a < xval b)%R.
Proof.
  intros H. replace b with (a + Z.of_nat (Z.to_nat (b - a))) by lia. assert (0 < Z.to_nat (b - a))%nat as P by lia. revert P. generalize (Z.to_nat (b - a)). intros n. induction n as [|n IH]; [lia|].
  intros _. replace (a + Z.of_nat (S n)) with (a + Z.of_nat n + 1) by lia. rewrite xval_succ. pose proof (bpow_gt_0 radix2 ((a + Z.of_nat n) / 2 ^ 52 - 1075)).
  destruct n; [rewrite Z.add_0_r in *; lra|]. specialize (IH ltac:(lia)). lra.
Qed.
Lemma xval_le a b : a <= b -> (xval a <= xval b)%R.
Proof. intros H. destruct (Z.eq_dec a b) as [->|E]; [lra|]. pose proof (xval_lt a b). lra || (assert (xval a < xval b)%R by (apply xval_lt; lia); lra). Qed.
Lemma xval_lt_inv a b : (xval a < xval b)%R -> a < b.
Proof. intros H. destruct (Z_lt_le_dec a b); [assumption|]. pose proof (xval_le b a). assert (xval b <= xval a)%R by (apply xval_le; lia). lra. Qed.
Lemma xval_ulp a b : a <= b -> (bpow radix2 (a / 2 ^ 52 - 1075) <= bpow radix2 (b / 2 ^ 52 - 1075))%R.
Proof. intros H. apply bpow_le. assert (a / 2 ^ 52 <= b / 2 ^ 52) by (apply Z.div_le_mono; lia). lia. Qed.

(** Rounding a real between two neighbours. *)
Lemma near_E N v : 2 ^ 52 <= N -> (xval N <= v < xval (N + 1))%R ->
  rne F64 v = (IZR (ZnearestE (v * bpow radix2 (- (N / 2 ^ 52 - 1075)))) * bpow radix2 (N / 2 ^ 52 - 1075))%R /\
  (v * bpow radix2 (- (N / 2 ^ 52 - 1075)) = IZR (2 ^ 52 + N mod 2 ^ 52) + (v - xval N) * bpow radix2 (- (N / 2 ^ 52 - 1075)))%R.
Proof.
  intros HN [H1 H2]. assert (1 <= N / 2 ^ 52) by (apply Z.div_le_lower_bound; lia). set (E := N / 2 ^ 52) in *. pose proof (xval_range N) as [R1 R2]. fold E in R1, R2.
  assert (xval (N + 1) <= bpow radix2 (E - 1022))%R as U.
  { rewrite xval_succ. fold E. unfold xval. fold E. replace (E - 1022) with (53 + (E - 1075)) by lia. rewrite bpow_plus. change (bpow radix2 53) with (IZR (2 ^ 53)).
    replace (IZR (2 ^ 52 + N mod 2 ^ 52) * bpow radix2 (E - 1075) + bpow radix2 (E - 1075))%R with (IZR (2 ^ 52 + N mod 2 ^ 52 + 1) * bpow radix2 (E - 1075))%R by (rewrite (plus_IZR _ 1); ring).
    apply Rmult_le_compat_r; [apply bpow_ge_0|]. apply IZR_le. pose proof (Z.mod_pos_bound N (2 ^ 52) ltac:(lia)). lia. }
  split.
  - rewrite (rne_eq F64 (E - 1022)) by (replace (E - 1022 - 1) with (E - 1023) by lia; lra).
    replace (FLT_exp (emin F64) (prec F64) (E - 1022)) with (E - 1075); [reflexivity|]. unfold FLT_exp. change (prec F64) with 53. change (emin F64) with (-1074). lia.
  - unfold xval. fold E. set (m := IZR _). assert (bpow radix2 (E - 1075) * bpow radix2 (- (E - 1075)) = 1)%R as B by (rewrite <- bpow_plus; replace (E - 1075 + - (E - 1075)) with 0 by lia; reflexivity).
    rewrite Rmult_minus_distr_r, Rmult_assoc, B. ring.
Qed.
Lemma rne_down N v : 2 ^ 52 <= N -> (xval N <= v)%R -> (v < (xval N + xval (N + 1)) / 2)%R -> rne F64 v = xval N.
Proof.
  intros HN H1 H2. rewrite xval_succ in H2. set (u := bpow radix2 (N / 2 ^ 52 - 1075)) in *. assert (0 < u)%R as Pu by apply bpow_gt_0.
  destruct (near_E N v HN) as [E1 E2]. { rewrite xval_succ. fold u. lra. } rewrite E1. unfold xval. f_equal. f_equal. apply ZnearestE_int_near. rewrite E2.
  assert (0 <= (v - xval N) * bpow radix2 (- (N / 2 ^ 52 - 1075)) < / 2)%R; [|lra]. set (w := bpow radix2 (- _)). assert (u * w = 1)%R as B by (unfold u, w; rewrite <- bpow_plus, Z.add_opp_diag_r; reflexivity). assert (0 < w)%R by apply bpow_gt_0.
  split; [apply Rmult_le_pos; lra|]. apply Rlt_le_trans with (u / 2 * w)%R; [apply Rmult_lt_compat_r; lra|]. lra.
Qed.
Lemma rne_up N v : 2 ^ 52 <= N -> ((xval N + xval (N + 1)) / 2 < v)%R -> (v <= xval (N + 1))%R -> N + 1 < INF -> rne F64 v = xval (N + 1).
Proof.
  intros HN H1 H2 HI. destruct (Req_dec v (xval (N + 1))) as [->|NE]. { rewrite <- xval_mag by lia. apply rne_mag64. lia. }
  set (u := bpow radix2 (N / 2 ^ 52 - 1075)) in *. assert (0 < u)%R as Pu by apply bpow_gt_0. assert (xval (N + 1) = xval N + u)%R as Eu by apply xval_succ.
  destruct (near_E N v HN) as [E1 E2]; [lra|]. rewrite E1, Eu. unfold xval. fold u. assert (ZnearestE (v * bpow radix2 (- (N / 2 ^ 52 - 1075))) = 2 ^ 52 + N mod 2 ^ 52 + 1) as ->.
  2: { rewrite (plus_IZR _ 1). ring. }
  apply ZnearestE_int_near. rewrite E2, (plus_IZR _ 1). assert (/ 2 < (v - xval N) * bpow radix2 (- (N / 2 ^ 52 - 1075)) <= 1)%R; [|lra].
  set (w := bpow radix2 (- _)). assert (u * w = 1)%R as B by (unfold u, w; rewrite <- bpow_plus, Z.add_opp_diag_r; reflexivity). assert (0 < w)%R by apply bpow_gt_0.
  split.
  - apply Rle_lt_trans with (u / 2 * w)%R; [lra|]. apply Rmult_lt_compat_r; lra.
  - apply Rle_trans with (u * w)%R; [|lra]. apply Rmult_le_compat_r; lra.
Qed.
