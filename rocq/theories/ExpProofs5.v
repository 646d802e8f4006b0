(** Accuracy of exp: scaling, special cases and the final result. *)
From Coq Require Import ZArith Reals Bool List Lia Lra Psatz.
From Flocq Require Import Core Mult_error.
From Verif Require Import Base FloatModel FloatSpec FloatConvSpec LibmModel LibmSpec LibmProps Elem FloatErr PolyBound ElemModel ElemSpec F64Lib ExpProofs ExpProofs2 ExpProofs3 ExpProofs4.
Import ListNotations.
Open Scope Z_scope.

Lemma ulp64_ge n y : (bpow radix2 (n - 1) <= Rabs y)%R -> (bpow radix2 (n - 53) <= ulp64 y)%R.
Proof.
  intros H. unfold ulp64. rewrite ulp_neq_0.
  2:{ intros E. rewrite E, Rabs_R0 in H. pose proof (bpow_gt_0 radix2 (n - 1)). lra. }
  apply bpow_le. unfold cexp, FLT_exp. change (prec F64) with 53. change (emin F64) with (-1074).
  pose proof (mag_gt_bpow radix2 y (n - 1) H). lia.
Qed.
Lemma ulp64_min y : (bpow radix2 (-1074) <= ulp64 y)%R.
Proof.
  unfold ulp64. assert (PG : Prec_gt_0 (prec F64)) by exact Hp64.
  destruct (Req_dec y 0) as [->|N].
  - rewrite (ulp_FLT_small radix2 (emin F64) (prec F64)); [apply Rle_refl|rewrite Rabs_R0; apply bpow_gt_0].
  - rewrite ulp_neq_0 by exact N. apply bpow_le. unfold cexp, FLT_exp. change (emin F64) with (-1074). lia.
Qed.

(** The unit in the last place of a number in [1/2, 2). *)
Definition u12 (E : R) : R := if Rlt_bool E 1 then bpow radix2 (-53) else bpow radix2 (-52).
Definition rounded (v : R) (r : Z) : Prop :=
  is_float F64 r /\ if Rlt_bool (Rabs (rne F64 v)) (bpow radix2 1024) then is_finite F64 r /\ value F64 r = rne F64 v else is_inf F64 r.

Lemma u12_le E k : (/ 2 <= E)%R -> (u12 E * bpow radix2 k <= ulp64 (E * bpow radix2 k))%R.
Proof.
  intros H. unfold u12. assert (p := bpow_gt_0 radix2 k).
  destruct (Rlt_bool_spec E 1) as [L|G]; rewrite <- bpow_plus.
  - replace (-53 + k) with (k - 53) by lia. apply ulp64_ge. rewrite Rabs_pos_eq by nra.
    replace (k - 1) with (-1 + k) by lia. rewrite bpow_plus. change (bpow radix2 (-1)) with (/ 2)%R. nra.
  - replace (-52 + k) with (k + 1 - 53) by lia. apply ulp64_ge. rewrite Rabs_pos_eq by nra.
    replace (k + 1 - 1) with k by lia. nra.
Qed.

Lemma scale_ok y k r E (v := value F64 y) : good y -> (0.6 <= E <= 1.6)%R -> (Rabs (v - E) <= 17 / 16 * u12 E)%R ->
  k <= 1024 -> (k = -1022 -> (1 <= E)%R -> (1 <= v)%R) -> (k = 1024 -> (v < 1)%R) ->
  rounded (v * bpow radix2 k) r -> within (17 / 16) r (E * bpow radix2 k).
Proof.
  intros [Fy Ny] HE Hv Hk C1 C2 [Fr R]. unfold within.
  assert (p := bpow_gt_0 radix2 k). assert (U : (u12 E <= / 1000000000000000)%R) by (unfold u12; destruct (Rlt_bool E 1); apply small64; lia).
  assert (U0 : (0 < u12 E)%R) by (unfold u12; destruct (Rlt_bool E 1); apply bpow_gt_0).
  assert (Hv2 := Rabs_le_inv _ _ Hv). assert (V : (/ 2 <= v < 2)%R) by lra.
  assert (U2 : (u12 E <= bpow radix2 (-52))%R) by (unfold u12; destruct (Rlt_bool E 1); apply bpow_le; lia).
  assert (UL := u12_le E k ltac:(lra)).
  assert (D : (Rabs (v * bpow radix2 k - E * bpow radix2 k) <= 17 / 16 * (u12 E * bpow radix2 k))%R).
  { rewrite <- Rmult_minus_distr_r, Rabs_mult, (Rabs_pos_eq (bpow _ _)) by lra. nra. }
  assert (CASES : (-1021 <= k \/ (k = -1022 /\ (1 <= v)%R)) \/ (k <= -1022 /\ (v * bpow radix2 k < bpow radix2 (-1022))%R /\ (u12 E * bpow radix2 k <= bpow radix2 (-1075))%R)).
  { destruct (Z_le_gt_dec (-1021) k) as [a|a]; [left; left; exact a|]. destruct (Z.eq_dec k (-1022)) as [->|n].
    - destruct (Rle_lt_dec 1 v) as [q|q]; [left; right; split; [reflexivity|exact q]|right]. split; [lia|]. split; [nra|].
      unfold u12. destruct (Rlt_bool_spec E 1) as [L|G]; [rewrite <- bpow_plus; apply bpow_le; lia|]. specialize (C1 eq_refl G). lra.
    - right. split; [lia|]. split.
      + apply Rlt_le_trans with (2 * bpow radix2 k)%R; [nra|]. change 2%R with (bpow radix2 1). rewrite <- bpow_plus. apply bpow_le. lia.
      + apply Rle_trans with (bpow radix2 (-52) * bpow radix2 k)%R; [nra|]. rewrite <- bpow_plus. apply bpow_le. lia. }
  destruct CASES as [EX|(K & V' & U')].
  - (* exact *)
    assert (X : rne F64 (v * bpow radix2 k) = (v * bpow radix2 k)%R).
    { unfold rne. apply round_generic; [auto with typeclass_instances|]. change (emin F64) with (-1074). change (prec F64) with 53.
      apply mult_bpow_exact_FLT; [apply (format64 y Fy Ny)|]. destruct EX as [a|[-> a]].
      - pose proof (mag_gt_bpow radix2 v (-1)) as M. rewrite Rabs_pos_eq in M by lra. change (bpow radix2 (-1)) with (/ 2)%R in M. specialize (M (proj1 V)). lia.
      - pose proof (mag_gt_bpow radix2 v 0) as M. rewrite Rabs_pos_eq in M by lra. specialize (M a). lia. }
    rewrite X in R. rewrite Rlt_bool_true in R.
    + destruct R as [Nr Vr]. split; [exact Fr|split; [exact Nr|]]. rewrite Vr. nra.
    + rewrite Rabs_pos_eq by nra. destruct (Z.eq_dec k 1024) as [->|n]; [specialize (C2 eq_refl); nra|].
      apply Rlt_le_trans with (2 * bpow radix2 k)%R; [nra|]. change 2%R with (bpow radix2 1). rewrite <- bpow_plus. apply bpow_le. lia.
  - assert (RE : (Rabs (rne F64 (v * bpow radix2 k) - v * bpow radix2 k) <= / 2 * bpow radix2 (-1074))%R).
    { apply (rne_error F64 Hp64 (-1022)). rewrite Rabs_pos_eq by nra. exact V'. }
    assert (b1 : bpow radix2 (-1074) = (2 * bpow radix2 (-1075))%R) by (change (-1074) with (1 + -1075); rewrite (bpow_plus _ 1); reflexivity).
    assert (p2 := bpow_gt_0 radix2 (-1075)). pose proof (ulp64_min (E * bpow radix2 k)) as UM.
    rewrite Rlt_bool_true in R.
    + destruct R as [Nr Vr]. split; [exact Fr|split; [exact Nr|]]. rewrite Vr.
      replace (rne F64 (v * bpow radix2 k) - E * bpow radix2 k)%R with ((rne F64 (v * bpow radix2 k) - v * bpow radix2 k) + (v * bpow radix2 k - E * bpow radix2 k))%R by ring.
      eapply Rle_trans; [apply Rabs_triang|]. lra.
    + replace (rne F64 (v * bpow radix2 k)) with ((rne F64 (v * bpow radix2 k) - v * bpow radix2 k) + v * bpow radix2 k)%R by ring.
      eapply Rle_lt_trans; [apply Rabs_triang|]. rewrite (Rabs_pos_eq (v * _)) by nra.
      assert (bpow radix2 (-1022) <= / 1000000000000000)%R by (apply small64; lia).
      assert (bpow radix2 (-1074) <= / 1000000000000000)%R by (apply small64; lia).
      assert (1 <= bpow radix2 1024)%R by (change 1%R with (bpow radix2 0); apply bpow_le; lia). lra.
Qed.
