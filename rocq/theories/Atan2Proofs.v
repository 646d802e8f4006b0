(** The two-argument arc tangent: facts about the reals. *)
From Coq Require Import ZArith Reals Bool List Lia Lra Psatz.
From Flocq Require Import Core.
From Verif Require Import Base FloatModel FloatSpec FloatErr ElemSpec F64Lib ExpProofs4 ExpProofs5 TrigRed AtanProofs.
Open Scope R_scope.

(** * The angle of a point *)
Definition is_angle (X Y t : R) : Prop :=
  - PI <= t <= PI /\ X = sqrt (X * X + Y * Y) * cos t /\ Y = sqrt (X * X + Y * Y) * sin t.

Section Quadrant.
Variables N K : R.
Hypothesis HN : 0 < N.
Hypothesis HK : 0 <= K.
Let q := K / N.
Lemma norm_q : sqrt (N * N + K * K) = N * sqrt (1 + q²).
Proof using HN HK.
  replace (N * N + K * K) with ((N * N) * (1 + q²)) by (unfold q, Rsqr; field; lra).
  rewrite sqrt_mult; [|nra|pose proof (Rle_0_sqr q); lra]. rewrite sqrt_square by lra. reflexivity.
Qed.
Lemma sqrt_q : 0 < sqrt (1 + q²).
Proof using. apply sqrt_lt_R0. pose proof (Rle_0_sqr q). lra. Qed.
Lemma q_cos : N = sqrt (N * N + K * K) * cos (atan q).
Proof using HN HK. rewrite norm_q, cos_atan. pose proof sqrt_q. field. lra. Qed.
Lemma q_sin : K = sqrt (N * N + K * K) * sin (atan q).
Proof using HN HK. rewrite norm_q, sin_atan. pose proof sqrt_q. unfold q at 2. field. split; lra. Qed.
Lemma q_range : 0 <= atan q < PI / 2.
Proof using HN HK.
  split; [|apply atan_bound]. rewrite <- atan_0. assert (0 <= q) by (unfold q; apply Rmult_le_pos; [exact HK|left; apply Rinv_0_lt_compat, HN]).
  destruct (Req_dec 0 q) as [<-|]; [lra|]. left. apply atan_increasing. lra.
Qed.
(** All four quadrants *)
Lemma angle_all (s t : bool) :
  is_angle (if s then - N else N) (if t then - K else K) (let a := if s then PI - atan q else atan q in if t then - a else a).
Proof using HN HK.
  pose proof q_range as B. pose proof q_cos as C. pose proof q_sin as S. cbv zeta. pose proof PI_RGT_0.
  assert (forall u v : R, (- u) * (- u) = u * u) as SQ by (intros; ring).
  unfold is_angle. destruct s, t; rewrite ?(SQ N 0), ?(SQ K 0), ?cos_neg, ?sin_neg; rewrite ?Rtrigo_facts.cos_pi_minus, ?Rtrigo_facts.sin_pi_minus;
  (split; [lra|]); (split; [first [exact C|lra]|first [exact S|lra]]).
Qed.
End Quadrant.

(** * The arc tangent of a rounded quotient *)
Lemma atan_ge x : 0 <= x -> x / (1 + x * x) <= atan x.
Proof.
  intros H. destruct (Req_dec x 0) as [->|Nz]; [rewrite atan_0; lra|].
  assert (0 < atan x) as P by (rewrite <- atan_0; apply atan_increasing; lra).
  pose proof (sin_lt_x (2 * atan x) ltac:(lra)) as S. rewrite sin_2a, sin_atan, cos_atan in S.
  assert (0 < 1 + x²) as Q by (pose proof (Rle_0_sqr x); lra). pose proof (sqrt_lt_R0 _ Q) as R0. pose proof (sqrt_sqrt _ (Rlt_le _ _ Q)) as SS.
  replace (2 * (x / sqrt (1 + x²)) * (1 / sqrt (1 + x²))) with (2 * (x / (sqrt (1 + x²) * sqrt (1 + x²)))) in S by (field; lra). rewrite SS in S. unfold Rsqr in S. lra.
Qed.
Lemma atan_le x : 0 <= x -> atan x <= x.
Proof.
  intros H. destruct (Req_dec x 0) as [->|Nz]; [rewrite atan_0; lra|]. 
  destruct (MVT_cor2 atan (fun u => / (1 + u ^ 2)) 0 x ltac:(lra)) as (c & E & Hc); [intros u _; apply derivable_pt_lim_atan|].
  rewrite atan_0 in E. assert (/ (1 + c ^ 2) <= 1). { rewrite <- Rinv_1. apply Rinv_le_contravar; [lra|]. pose proof (pow2_ge_0 c). lra. } nra.
Qed.
Lemma atan_abs x : Rabs (atan x) <= Rabs x.
Proof.
  destruct (Rle_lt_dec 0 x) as [H|H].
  - rewrite (Rabs_pos_eq x H). pose proof (atan_ge x H). pose proof (atan_le x H). assert (0 <= x / (1 + x * x)) by (apply Rmult_le_pos; [exact H|left; apply Rinv_0_lt_compat; nra]). rewrite Rabs_pos_eq; lra.
  - rewrite <- (Rabs_Ropp x), <- (Rabs_Ropp (atan x)), <- atan_opp. assert (0 <= - x) as H' by lra. pose proof (atan_ge _ H'). pose proof (atan_le _ H').
    assert (0 <= - x / (1 + - x * - x)) by (apply Rmult_le_pos; [exact H'|left; apply Rinv_0_lt_compat; nra]). rewrite !Rabs_pos_eq; lra.
Qed.
Notation U := (bpow radix2 (-53)).
Lemma U_small : 0 < U <= / 1000.
Proof. split; [apply bpow_gt_0|]. apply Rle_trans with (bpow radix2 (-10)); [apply bpow_le; lia|]. change (bpow radix2 (-10)) with (/ 1024). lra. Qed.
(** The relative error of a rounding, sharp *)
Lemma rne_sharp v : bpow radix2 (-1022) <= v -> Rabs (rne F64 v - v) <= v * U / (1 + U).
Proof.
  intros H. pose proof U_small as HU. pose proof (bpow_gt_0 radix2 (-1022)) as B0. destruct (mag radix2 v) as (E & M). specialize (M ltac:(lra)). rewrite Rabs_pos_eq in M by lra.
  assert (-1022 < E)%Z as HE by (apply (lt_bpow radix2); lra). set (b := bpow radix2 (E - 1)) in *.
  assert (bpow radix2 (E - 54) = b * U) as HE54 by (unfold b; rewrite <- bpow_plus; f_equal; lia).
  destruct (Rle_lt_dec (b * (1 + U)) v) as [L|L].
  - eapply Rle_trans; [apply (rne_error64 E); [rewrite Rabs_pos_eq by lra; apply M|lia]|]. rewrite HE54. apply (Rmult_le_reg_r (1 + U)); [lra|]. replace (v * U / (1 + U) * (1 + U)) with (v * U) by (field; lra).
    replace (b * U * (1 + U)) with (b * (1 + U) * U) by ring. apply Rmult_le_compat_r; lra.
  - assert (Rabs (rne F64 v - v) <= Rabs (b - v)) as Q.
    { pose proof valid_e as VE. destruct (round_N_pt radix2 (FLT_exp (emin F64) (prec F64)) (fun x => negb (Z.even x)) v) as [_ P]. apply P. unfold b. apply generic_format_bpow. unfold FLT_exp. change (emin F64) with (-1074)%Z. change (prec F64) with 53%Z. lia. }
    eapply Rle_trans; [exact Q|]. rewrite Rabs_minus_sym, Rabs_pos_eq by lra. apply (Rmult_le_reg_r (1 + U)); [lra|]. replace (v * U / (1 + U) * (1 + U)) with (v * U) by (field; lra). nra.
Qed.
Lemma atan_round q : bpow radix2 (-1022) <= q -> Rabs (atan (rne F64 q) - atan q) <= U * (q / (1 + q * q)) /\ q / (1 + U) <= rne F64 q <= 2 * q.
Proof.
  intros H. pose proof (rne_sharp q H) as S. pose proof U_small as HU. pose proof (bpow_gt_0 radix2 (-1022)) as B0. set (p := rne F64 q) in *. assert (q - q * U / (1 + U) = q / (1 + U)) as E1 by (field; lra).
  assert (0 <= q * U / (1 + U) <= q) as E2. { split; [apply Rmult_le_pos; [nra|left; apply Rinv_0_lt_compat; lra]|]. apply (Rmult_le_reg_r (1 + U)); [lra|]. replace (q * U / (1 + U) * (1 + U)) with (q * U) by (field; lra). nra. }
  pose proof (Rabs_le_inv _ _ S) as S'. split; [|lra].
  assert (0 <= q / (1 + U)) as E3 by (apply Rmult_le_pos; [lra|left; apply Rinv_0_lt_compat; lra]).
  rewrite (atan_diff q p) by lra. replace (atan q + atan ((p - q) / (1 + q * p)) - atan q) with (atan ((p - q) / (1 + q * p))) by ring. eapply Rle_trans; [apply atan_abs|].
  assert (0 < 1 + q * p) as E4 by nra. unfold Rdiv at 1. rewrite Rabs_mult, (Rabs_pos_eq (/ _)) by (left; apply Rinv_0_lt_compat, E4).
  apply (Rmult_le_reg_r (1 + q * p)); [exact E4|]. rewrite Rmult_assoc, Rinv_l, Rmult_1_r by lra. eapply Rle_trans; [exact S|].
  assert (1 + q * (q / (1 + U)) <= 1 + q * p) as E5 by (apply Rplus_le_compat_l, Rmult_le_compat_l; lra).
  apply Rle_trans with (U * (q / (1 + q * q)) * (1 + q * (q / (1 + U)))).
  - replace (1 + q * (q / (1 + U))) with ((1 + U + q * q) / (1 + U)) by (field; lra).
    replace (U * (q / (1 + q * q)) * ((1 + U + q * q) / (1 + U))) with (q * U / (1 + U) * ((1 + U + q * q) / (1 + q * q))) by (field; repeat split; apply Rgt_not_eq; nra).
    rewrite <- (Rmult_1_r (q * U / (1 + U))) at 1. apply Rmult_le_compat_l; [lra|]. apply (Rmult_le_reg_r (1 + q * q)); [nra|]. replace ((1 + U + q * q) / (1 + q * q) * (1 + q * q)) with (1 + U + q * q) by (field; apply Rgt_not_eq; nra). lra.
  - apply Rmult_le_compat_l; [|exact E5]. apply Rmult_le_pos; [lra|]. apply Rmult_le_pos; [lra|left; apply Rinv_0_lt_compat; nra].
Qed.
(** * Units in the last place *)
Lemma ulp64_twice x y : 0 <= x <= 2 * y -> ulp64 x <= 2 * ulp64 y.
Proof.
  intros H. unfold ulp64. destruct (Req_dec x 0) as [->|Nz].
  - pose proof (ulp64_min y) as M. unfold ulp64 in M. assert (Prec_gt_0 (prec F64)) as PG by reflexivity. rewrite (ulp_FLT_small radix2 (emin F64) (prec F64)) by (rewrite Rabs_R0; apply bpow_gt_0). change (bpow radix2 (emin F64)) with (bpow radix2 (-1074)). pose proof (bpow_gt_0 radix2 (-1074)). lra.
  - rewrite !ulp_neq_0 by lra. change 2 with (bpow radix2 1) at 1. rewrite <- bpow_plus. apply bpow_le. unfold cexp, FLT_exp. change (emin F64) with (-1074)%Z. change (prec F64) with 53%Z.
    assert (mag radix2 x <= mag radix2 (y * bpow radix2 1))%Z as M by (apply mag_le; [lra|]; change (bpow radix2 1) with 2; lra). rewrite mag_mult_bpow in M by lra. lia.
Qed.
Lemma ulp64_small x : 0 <= x <= bpow radix2 (-1022) -> ulp64 x <= bpow radix2 (-1074).
Proof.
  intros H. unfold ulp64. assert (Prec_gt_0 (prec F64)) as PG by reflexivity. rewrite (ulp_FLT_small radix2 (emin F64) (prec F64)); [apply Rle_refl|]. rewrite Rabs_pos_eq by lra. eapply Rle_lt_trans; [apply H|]. apply bpow_lt. reflexivity.
Qed.
Lemma ulp64_ub E x : Rabs x < bpow radix2 E -> (-1021 <= E)%Z -> ulp64 x <= bpow radix2 (E - 53).
Proof.
  intros H HE. unfold ulp64. destruct (Req_dec x 0) as [->|Nz].
  - assert (Prec_gt_0 (prec F64)) as PG by reflexivity. rewrite (ulp_FLT_small radix2 (emin F64) (prec F64)) by (rewrite Rabs_R0; apply bpow_gt_0). apply bpow_le. change (emin F64) with (-1074)%Z. lia.
  - rewrite ulp_neq_0 by exact Nz. apply bpow_le. unfold cexp, FLT_exp. change (emin F64) with (-1074)%Z. change (prec F64) with 53%Z. pose proof (mag_le_bpow radix2 x E Nz H). lia.
Qed.
(** * The error of the first step *)
Lemma first_small q z : bpow radix2 (-1022) <= q -> Rabs (z - atan (rne F64 q)) <= ulp64 (atan (rne F64 q)) -> Rabs (z - atan q) <= 3 * ulp64 (atan q).
Proof.
  intros H Hz. destruct (atan_round q H) as [A P]. pose proof U_small as HU. pose proof (bpow_gt_0 radix2 (-1022)) as B0. pose proof (atan_ge q ltac:(lra)) as G.
  assert (0 < atan q) as P0 by (rewrite <- atan_0; apply atan_increasing; lra).
  assert (U * (q / (1 + q * q)) <= U * atan q) as L1 by (apply Rmult_le_compat_l; lra).
  assert (0 <= rne F64 q) as P1. { apply Rle_trans with (q / (1 + U)); [apply Rmult_le_pos; [lra|left; apply Rinv_0_lt_compat; lra]|lra]. }
  assert (0 <= atan (rne F64 q)) as P2. { rewrite <- atan_0. destruct P1 as [P1|<-]; [left; apply atan_increasing, P1|lra]. }
  assert (U * atan q <= ulp64 (atan q)) as L2.
  { destruct (mag radix2 (atan q)) as (E & M). specialize (M ltac:(lra)). pose proof (ulp64_ge E (atan q) (proj1 M)) as G2. rewrite Rabs_pos_eq in M by lra. apply Rle_trans with (bpow radix2 (E - 53)); [|exact G2].
    replace (E - 53)%Z with (-53 + E)%Z by lia. rewrite bpow_plus. apply Rmult_le_compat_l; lra. }
  assert (ulp64 (atan (rne F64 q)) <= 2 * ulp64 (atan q)) as L3. { apply ulp64_twice. apply Rabs_le_inv in A. split; [exact P2|]. nra. }
  replace (z - atan q) with ((z - atan (rne F64 q)) + (atan (rne F64 q) - atan q)) by ring. eapply Rle_trans; [apply Rabs_triang|]. lra.
Qed.
Lemma rne_le_min q : 0 <= q < bpow radix2 (-1022) -> 0 <= rne F64 q <= bpow radix2 (-1022) /\ Rabs (rne F64 q - q) <= bpow radix2 (-1075).
Proof.
  intros H. pose proof valid_e as VE. assert (generic_format radix2 (FLT_exp (emin F64) (prec F64)) (bpow radix2 (-1022))) as FM by (apply generic_format_bpow; unfold FLT_exp; change (emin F64) with (-1074)%Z; change (prec F64) with 53%Z; lia).
  split; [split|].
  - unfold rne. apply round_ge_generic; [exact VE|auto with typeclass_instances|apply generic_format_0|apply H].
  - unfold rne. apply round_le_generic; [exact VE|auto with typeclass_instances|exact FM|lra].
  - apply (rne_error64 (-1021)); [|lia]. rewrite Rabs_pos_eq by lra. eapply Rlt_trans; [apply H|apply bpow_lt; lia].
Qed.
Lemma first_tiny q z : 0 <= q < bpow radix2 (-1022) -> Rabs (z - atan (rne F64 q)) <= ulp64 (atan (rne F64 q)) -> Rabs (z - atan q) <= 3 * ulp64 (atan q).
Proof.
  intros H Hz. destruct (rne_le_min q H) as [P D]. pose proof (ulp64_min (atan q)) as M. set (p := rne F64 q) in *.
  assert (0 <= atan p) as P2. { rewrite <- atan_0. destruct (proj1 P) as [P1|<-]; [left; apply atan_increasing, P1|lra]. }
  pose proof (atan_le p (proj1 P)) as L. pose proof (ulp64_small (atan p) ltac:(lra)) as S.
  assert (Rabs (atan p - atan q) <= bpow radix2 (-1075)) as A.
  { rewrite (atan_diff q p) by lra. replace (atan q + atan ((p - q) / (1 + q * p)) - atan q) with (atan ((p - q) / (1 + q * p))) by ring. eapply Rle_trans; [apply atan_abs|].
    assert (1 <= 1 + q * p) by nra. unfold Rdiv. rewrite Rabs_mult, (Rabs_pos_eq (/ _)) by (left; apply Rinv_0_lt_compat; lra). eapply Rle_trans; [|exact D]. rewrite <- (Rmult_1_r (Rabs (p - q))) at 2. apply Rmult_le_compat_l; [apply Rabs_pos|]. rewrite <- Rinv_1. apply Rinv_le_contravar; lra. }
  replace (bpow radix2 (-1075)) with (bpow radix2 (-1074) * / 2) in A by (change (/ 2) with (bpow radix2 (-1)); rewrite <- bpow_plus; reflexivity). pose proof (bpow_gt_0 radix2 (-1074)).
  replace (z - atan q) with ((z - atan p) + (atan p - atan q)) by ring. eapply Rle_trans; [apply Rabs_triang|]. lra.
Qed.
Lemma first_ok q z : 0 <= q -> Rabs (z - atan (rne F64 q)) <= ulp64 (atan (rne F64 q)) -> Rabs (z - atan q) <= 3 * ulp64 (atan q).
Proof. intros H. destruct (Rle_lt_dec (bpow radix2 (-1022)) q); [apply first_small; assumption|apply first_tiny; lra]. Qed.
(** The same error in absolute terms *)
Lemma first_abs q z : 0 <= q -> Rabs (z - atan (rne F64 q)) <= ulp64 (atan (rne F64 q)) -> Rabs (z - atan q) <= 5 * bpow radix2 (-54).
Proof.
  intros H Hz. pose proof (atan_bound (rne F64 q)) as B. pose proof PI_4 as P4.
  assert (ulp64 (atan (rne F64 q)) <= bpow radix2 (-52)) as L. { apply (ulp64_ub 1); [|lia]. change (bpow radix2 1) with 2. apply Rabs_lt. lra. }
  replace (bpow radix2 (-52)) with (4 * bpow radix2 (-54)) in L by (change 4 with (bpow radix2 2); rewrite <- bpow_plus; reflexivity).
  assert (Rabs (atan (rne F64 q) - atan q) <= bpow radix2 (-54)) as A.
  { destruct (Rle_lt_dec (bpow radix2 (-1022)) q) as [G|G].
    - destruct (atan_round q G) as [A _]. eapply Rle_trans; [exact A|]. assert (q / (1 + q * q) <= / 2) as Q. { apply (Rmult_le_reg_r (1 + q * q)); [nra|]. replace (q / (1 + q * q) * (1 + q * q)) with q by (field; apply Rgt_not_eq; nra). pose proof (Rle_0_sqr (q - 1)) as S. unfold Rsqr in S. lra. }
      replace (bpow radix2 (-54)) with (U * / 2) by (change (/ 2) with (bpow radix2 (-1)); rewrite <- bpow_plus; reflexivity). apply Rmult_le_compat_l; [apply bpow_ge_0|exact Q].
    - destruct (rne_le_min q (conj H G)) as [P D]. rewrite (atan_diff q (rne F64 q)) by lra. replace (atan q + atan ((rne F64 q - q) / (1 + q * rne F64 q)) - atan q) with (atan ((rne F64 q - q) / (1 + q * rne F64 q))) by ring. eapply Rle_trans; [apply atan_abs|].
      assert (1 <= 1 + q * rne F64 q) by nra. unfold Rdiv. rewrite Rabs_mult, (Rabs_pos_eq (/ _)) by (left; apply Rinv_0_lt_compat; lra). apply Rle_trans with (bpow radix2 (-1075)); [|apply bpow_le; lia]. eapply Rle_trans; [|exact D]. rewrite <- (Rmult_1_r (Rabs (rne F64 q - q))) at 2. apply Rmult_le_compat_l; [apply Rabs_pos|]. rewrite <- Rinv_1. apply Rinv_le_contravar; lra. }
  replace (z - atan q) with ((z - atan (rne F64 q)) + (atan (rne F64 q) - atan q)) by ring. eapply Rle_trans; [apply Rabs_triang|]. lra.
Qed.
