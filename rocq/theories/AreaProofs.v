(** Inverse hyperbolic functions: relative errors of chains of operations. *)
From Coq Require Import ZArith Reals Bool Lia Lra Psatz.
From Flocq Require Import Core Mult_error.
From Verif Require Import Base BaseLemmas FloatModel FloatSpec FloatProofs FloatConvSpec LibmModel LibmSpec LibmProofs SqrtModel SqrtSpec SqrtProps Elem FloatErr ElemModel ElemSpec F64Lib
  ExpProofs3 ExpProofs4 ExpProofs5 ExpProofs7 ExpProofs8 LogProofs LogProofs2 LogProofs4 HypotModel HypotProofs3 TrigRed TrigLg11 AsinProofs2 AsinProofs4 Atan2Proofs Log1pModel Log1pProofs Log1pProofs2 LogProps AreaModel.
Open Scope Z_scope.

(** Reals for which no operation overflows or underflows. *)
Definition rg (v : R) : Prop := (bpow radix2 (-200) <= v <= bpow radix2 90)%R.
(** [x] is a double that differs from [v] by at most [k] half-units, relatively. *)
Definition apx (x : Z) (v k : R) : Prop := good x /\ (Rabs (value F64 x - v) <= k * u53 * v)%R.

Lemma apx_round x w v k : good x -> value F64 x = rne F64 w -> rg v -> (0 <= k <= 100 -> Rabs (w - v) <= k * u53 * v -> apx x v (k + 1.01))%R.
Proof.
  intros G V [R1 R2] K E. split; [exact G|]. rewrite V. pose proof u53_small as US. pose proof (bpow_gt_0 radix2 (-200)) as P. apply Rabs_le_inv in E.
  assert (KU : (k * u53 <= / 100000000000)%R) by nra. assert (W1 : (v / 2 <= w <= 1.001 * v)%R) by nra.
  assert (B : (bpow radix2 (-1022) <= Rabs w)%R).
  { rewrite Rabs_pos_eq by lra. apply Rle_trans with (bpow radix2 (-201)); [apply bpow_le; lia|]. replace (bpow radix2 (-201)) with (bpow radix2 (-200) / 2)%R; [lra|]. change (-200) with (-201 + 1). rewrite bpow_plus. change (bpow radix2 1) with 2%R. field. }
  pose proof (rne_rel w B) as Q. change (bpow radix2 (-53)) with u53 in Q. rewrite (Rabs_pos_eq w) in Q by lra. apply Rabs_le_inv in Q. apply Rabs_le. nra.
Qed.
Lemma rg_pos v : rg v -> (0 < v)%R. Proof. intros [H _]. pose proof (bpow_gt_0 radix2 (-200)). lra. Qed.
Lemma apx_fit v w : rg v -> (Rabs w <= 2 * v -> Rabs w <= bpow radix2 100)%R.
Proof. intros [_ H] L. apply Rle_trans with (bpow radix2 91); [|apply bpow_le; lia]. change 91 with (90 + 1). rewrite bpow_plus. change (bpow radix2 1) with 2%R. lra. Qed.
Lemma apx_bounds x v k : rg v -> apx x v k -> (0 <= k <= 100 -> v * (1 - / 100000000000) <= value F64 x <= v * (1 + / 100000000000))%R.
Proof. intros R [_ E] K. apply rg_pos in R. pose proof u53_small. apply Rabs_le_inv in E. assert (k * u53 <= / 100000000000)%R by nra. nra. Qed.
Lemma apx_refl x : good x -> (0 <= value F64 x)%R -> apx x (value F64 x) 0.
Proof. intros G P. split; [exact G|]. rewrite Rminus_eq_0, Rabs_R0. lra. Qed.
Lemma apx_weak x v k k' : (0 <= v)%R -> apx x v k -> (k <= k')%R -> apx x v k'.
Proof. intros P [G E] L. split; [exact G|]. pose proof u53_small. eapply Rle_trans; [exact E|]. apply Rmult_le_compat_r; [exact P|]. apply Rmult_le_compat_r; lra. Qed.

Section Ops.
Context (o : fops) (Ho : ieee_ops F64 o).

Lemma apx_add a b A B j k m : apx a A j -> apx b B k -> (0 <= A)%R -> (0 <= B)%R -> rg (A + B) -> (0 <= m <= 100)%R -> (j * A + k * B <= m * (A + B))%R ->
  apx (o_add o a b) (A + B) (m + 1.01).
Proof using Ho.
  intros [Ga Ea] [Gb Eb] PA PB R M H. pose proof u53_small as US. pose proof (rg_pos _ R) as P.
  assert (E : (Rabs (value F64 a + value F64 b - (A + B)) <= m * u53 * (A + B))%R).
  { replace (value F64 a + value F64 b - (A + B))%R with ((value F64 a - A) + (value F64 b - B))%R by ring. eapply Rle_trans; [apply Rabs_triang|]. nra. }
  destruct (add64 o Ho a b Ga Gb) as [G V].
  { apply (apx_fit (A + B)); [exact R|]. apply Rabs_le_inv in E. assert (m * u53 <= / 100000000000)%R by nra. apply Rabs_le. nra. }
  exact (apx_round _ _ _ _ G V R M E).
Qed.
Lemma apx_sub a b A B j k m : apx a A j -> apx b B k -> (0 <= A)%R -> (0 <= B)%R -> rg (A - B) -> (0 <= m <= 100)%R -> (j * A + k * B <= m * (A - B))%R ->
  apx (o_sub o a b) (A - B) (m + 1.01).
Proof using Ho.
  intros [Ga Ea] [Gb Eb] PA PB R M H. pose proof u53_small as US. pose proof (rg_pos _ R) as P.
  assert (E : (Rabs (value F64 a - value F64 b - (A - B)) <= m * u53 * (A - B))%R).
  { replace (value F64 a - value F64 b - (A - B))%R with ((value F64 a - A) + - (value F64 b - B))%R by ring. eapply Rle_trans; [apply Rabs_triang|]. rewrite Rabs_Ropp. nra. }
  destruct (sub64 o Ho a b Ga Gb) as [G V].
  { apply (apx_fit (A - B)); [exact R|]. apply Rabs_le_inv in E. assert (m * u53 <= / 100000000000)%R by nra. apply Rabs_le. nra. }
  exact (apx_round _ _ _ _ G V R M E).
Qed.
(** Products and quotients of factors 1 + d with a small d. *)
Lemma small_mul d e j k : (0 <= j <= 20 -> 0 <= k <= 20 -> Rabs d <= j * u53 -> Rabs e <= k * u53 -> Rabs ((1 + d) * (1 + e) - 1) <= (j + k + 0.001) * u53)%R.
Proof using.
  clear. intros J K D E. pose proof u53_small as US. replace ((1 + d) * (1 + e) - 1)%R with (d + (e + d * e))%R by ring. eapply Rle_trans; [apply Rabs_triang|]. pose proof (Rabs_triang e (d * e)) as T. rewrite Rabs_mult in T.
  pose proof (Rabs_pos d). pose proof (Rabs_pos e). assert (Rabs d * Rabs e <= (j * u53) * (k * u53))%R by (apply Rmult_le_compat; lra). assert (j * k * u53 <= 0.001)%R by nra. assert ((j * u53) * (k * u53) <= 0.001 * u53)%R by nra. lra.
Qed.
Lemma small_div d e j k : (0 <= j <= 20 -> 0 <= k <= 20 -> Rabs d <= j * u53 -> Rabs e <= k * u53 -> Rabs ((1 + d) / (1 + e) - 1) <= (j + k + 0.001) * u53)%R.
Proof using.
  clear. intros J K D E. pose proof u53_small as US. pose proof (Rabs_pos d). pose proof (Rabs_pos e).
  assert (Q : (k * u53 <= / 1000000000)%R) by nra. assert (E' := Rabs_le_inv _ _ E). replace ((1 + d) / (1 + e) - 1)%R with ((d - e) / (1 + e))%R by (field; lra).
  unfold Rdiv. rewrite Rabs_mult. assert (I1 : (0 < / (1 + e) <= 1 + 2 * (k * u53))%R).
  { split; [apply Rinv_0_lt_compat; lra|]. apply Rmult_le_reg_r with (1 + e)%R; [lra|]. rewrite Rinv_l by lra. set (t := (k * u53)%R) in *. assert (0 <= t)%R by lra. assert ((1 + 2 * t) * (1 - t) <= (1 + 2 * t) * (1 + e))%R by (apply Rmult_le_compat_l; lra). nra. }
  rewrite (Rabs_pos_eq (/ (1 + e))) by lra. assert (T : (Rabs (d - e) <= (j + k) * u53)%R) by (eapply Rle_trans; [apply Rabs_triang|]; rewrite Rabs_Ropp; lra).
  eapply Rle_trans; [apply Rmult_le_compat; [apply Rabs_pos|lra|exact T|apply I1]|]. assert ((j + k) * (2 * (k * u53)) <= 0.001)%R by nra. nra.
Qed.
Lemma apx_factor x A j : (0 < A)%R -> apx x A j -> exists d, value F64 x = (A * (1 + d))%R /\ (Rabs d <= j * u53)%R.
Proof using.
  clear. intros P [_ E]. exists ((value F64 x - A) / A)%R. split; [field; lra|]. unfold Rdiv. rewrite Rabs_mult, (Rabs_pos_eq (/ A)) by (left; apply Rinv_0_lt_compat; lra).
  apply Rmult_le_reg_r with A; [exact P|]. rewrite Rmult_assoc, Rinv_l by lra. lra.
Qed.
Lemma apx_factor' A V d k : (0 < A -> V = A * (1 + d) -> Rabs d <= k * u53 -> Rabs (V - A) <= k * u53 * A)%R.
Proof using. clear. intros P -> D. replace (A * (1 + d) - A)%R with (d * A)%R by ring. rewrite Rabs_mult, (Rabs_pos_eq A) by lra. apply Rmult_le_compat_r; lra. Qed.
Lemma apx_near A V k : rg A -> (0 <= k <= 100 -> Rabs (V - A) <= k * u53 * A -> Rabs V <= bpow radix2 100)%R.
Proof using. clear. intros R K E. apply (apx_fit A); [exact R|]. apply rg_pos in R. pose proof u53_small. apply Rabs_le_inv in E. assert (k * u53 <= / 100000000000)%R by nra. apply Rabs_le. nra. Qed.

Lemma apx_mul a b A B j k : apx a A j -> apx b B k -> (0 < A)%R -> (0 < B)%R -> rg (A * B) -> (0 <= j <= 20)%R -> (0 <= k <= 20)%R ->
  apx (o_mul o a b) (A * B) (j + k + 1.011).
Proof using Ho.
  intros Ha Hb PA PB R J K. destruct (apx_factor a A j PA Ha) as (d & Va & Da). destruct (apx_factor b B k PB Hb) as (e & Vb & De). destruct Ha as [Ga _], Hb as [Gb _].
  pose proof (small_mul d e j k J K Da De) as S. assert (E := apx_factor' (A * B) (value F64 a * value F64 b) ((1 + d) * (1 + e) - 1) _ ltac:(nra) ltac:(rewrite Va, Vb; ring) S).
  destruct (mul64 o Ho a b Ga Gb) as [G V]; [apply (apx_near (A * B) _ (j + k + 0.001)); [exact R|lra|exact E]|].
  replace (j + k + 1.011)%R with (j + k + 0.001 + 1.01)%R by lra. apply (apx_round _ _ _ _ G V R); [lra|exact E].
Qed.
Lemma apx_div a b A B j k : apx a A j -> apx b B k -> (0 < A)%R -> (0 < B)%R -> rg (A / B) -> (0 <= j <= 20)%R -> (0 <= k <= 20)%R ->
  apx (o_div o a b) (A / B) (j + k + 1.011).
Proof using Ho.
  intros Ha Hb PA PB R J K. destruct (apx_factor a A j PA Ha) as (d & Va & Da). destruct (apx_factor b B k PB Hb) as (e & Vb & De). destruct Ha as [Ga _], Hb as [Gb _]. pose proof u53_small as US.
  assert (1 + e > 0)%R by (apply Rabs_le_inv in De; nra).
  pose proof (small_div d e j k J K Da De) as S. assert (E := apx_factor' (A / B) (value F64 a / value F64 b) ((1 + d) / (1 + e) - 1) _ ltac:(apply Rdiv_lt_0_compat; lra) ltac:(rewrite Va, Vb; field; lra) S).
  destruct (div64 o Ho a b Ga Gb) as [G V]; [rewrite Vb; nra|apply (apx_near (A / B) _ (j + k + 0.001)); [exact R|lra|exact E]|].
  replace (j + k + 1.011)%R with (j + k + 0.001 + 1.01)%R by lra. apply (apx_round _ _ _ _ G V R); [lra|exact E].
Qed.
Lemma hsqrt_gen a : good a -> (0 < value F64 a <= bpow radix2 91)%R -> exists r, hsqrt o a = Ok r /\ good r /\ value F64 r = rne F64 (sqrt (value F64 a)).
Proof using Ho.
  intros G H. destruct (good_pos a G ltac:(lra)) as (S & Z & _). destruct G as [F N].
  destruct (C41_sqrt F64 o 64 a ltac:(unfold std; tauto) Ho ltac:(tauto) F) as (r & E & Fr & _ & _ & _ & _ & R). specialize (R N Z S). exists r. split; [exact E|].
  destruct (rounds_val F64 Hp64 He64 Hm64 _ _ _ R) as (F' & N' & V); [|split; [split; assumption|exact V]].
  rewrite Rabs_pos_eq by apply sqrt_pos. apply Rle_trans with (bpow radix2 100); [|apply big64]. apply Rle_trans with (sqrt (bpow radix2 50 * bpow radix2 50)); [|rewrite sqrt_square by apply bpow_ge_0; apply bpow_le; lia].
  apply sqrt_le_1_alt. eapply Rle_trans; [apply H|]. rewrite <- bpow_plus. apply bpow_le. lia.
Qed.
Lemma sqrt_rel d j : (0 <= j <= 20 -> Rabs d <= j * u53 -> Rabs (sqrt (1 + d) - 1) <= (j / 2 + 0.001) * u53)%R.
Proof using.
  clear. intros J D. pose proof u53_small as US. assert (D' := Rabs_le_inv _ _ D). assert (Q : (j * u53 <= / 1000000000)%R) by nra.
  pose proof (sqrt_sqrt (1 + d) ltac:(lra)) as SS. pose proof (sqrt_pos (1 + d)) as SP. set (s := sqrt (1 + d)) in *. apply Rabs_le.
  assert (j * u53 * j <= 0.0001)%R by nra. split; [|nra].
  destruct (Rle_lt_dec (- ((j / 2 + 0.001) * u53)) (s - 1)) as [l|l]; [exact l|]. exfalso. set (t := ((j / 2 + 0.001) * u53)%R) in *.
  assert (0 < t <= / 100000000)%R by (unfold t; nra). assert (s * s < (1 - t) * (1 - t))%R by nra. assert (t * t <= 0.001 * u53)%R by (unfold t; nra). unfold t in *. nra.
Qed.
Lemma apx_sqrt a A j : apx a A j -> rg A -> rg (sqrt A) -> (0 <= j <= 20)%R -> exists s, hsqrt o a = Ok s /\ apx s (sqrt A) (j / 2 + 1.011).
Proof using Ho.
  intros Ha R0 R J. pose proof (rg_pos _ R0) as PA. destruct (apx_factor a A j PA Ha) as (d & Va & Da). destruct Ha as [Ga Ea]. pose proof u53_small as US.
  assert (D' := Rabs_le_inv _ _ Da). assert (Q : (j * u53 <= / 1000000000)%R) by nra.
  destruct (hsqrt_gen a Ga) as (s & Es & Gs & Vs).
  { rewrite Va. split; [nra|]. change 91 with (90 + 1). rewrite bpow_plus. change (bpow radix2 1) with 2%R. destruct R0. nra. }
  exists s. split; [exact Es|]. rewrite Va, sqrt_mult in Vs by lra. pose proof (sqrt_rel d j J Da) as S. pose proof (rg_pos _ R) as PS.
  assert (E := apx_factor' (sqrt A) (sqrt A * sqrt (1 + d)) (sqrt (1 + d) - 1) _ PS ltac:(ring) S).
  replace (j / 2 + 1.011)%R with (j / 2 + 0.001 + 1.01)%R by lra. apply (apx_round _ _ _ _ Gs Vs R); [lra|exact E].
Qed.

(** Doubling and halving are exact. *)
Lemma two_exact a : good a -> (Rabs (value F64 a) <= bpow radix2 95)%R -> good (o_mul o two a) /\ value F64 (o_mul o two a) = (2 * value F64 a)%R.
Proof using Ho.
  intros G B. assert (G2 : good two) by const_good. destruct (mul64 o Ho two a G2 G) as [Gr V].
  { rewrite value_two, Rabs_mult, (Rabs_pos_eq 2) by lra. apply Rle_trans with (bpow radix2 96); [|apply bpow_le; lia]. change 96 with (95 + 1). rewrite bpow_plus. change (bpow radix2 1) with 2%R. lra. }
  split; [exact Gr|]. rewrite V, value_two. apply fmt_rne. rewrite Rmult_comm. change 2%R with (bpow radix2 1). assert (Prec_gt_0 (prec F64)) by exact Hp64. apply mult_bpow_pos_exact_FLT; [apply format64; apply G|lia].
Qed.
Lemma apx_two a A j : apx a A j -> rg A -> (0 <= j <= 20)%R -> apx (o_mul o two a) (2 * A) j.
Proof using Ho.
  intros H R J. pose proof (apx_bounds a A j R H ltac:(lra)) as B. pose proof (rg_pos _ R) as P. destruct H as [G E].
  destruct (two_exact a G) as [G2 V2].
  { apply Rle_trans with (bpow radix2 91); [|apply bpow_le; lia]. change 91 with (90 + 1). rewrite bpow_plus. change (bpow radix2 1) with 2%R. destruct R. apply Rabs_le. lra. }
  split; [exact G2|]. rewrite V2. replace (2 * value F64 a - 2 * A)%R with (2 * (value F64 a - A))%R by ring. rewrite Rabs_mult, (Rabs_pos_eq 2) by lra. lra.
Qed.
Lemma half_within k r y : (bpow radix2 (-400) <= y)%R -> (y <= bpow radix2 90)%R -> (0 <= k <= 100)%R -> (Rabs (value F64 r - y) <= k * ulp64 y)%R -> good r -> within k (o_mul o half r) (y / 2).
Proof using Ho.
  intros Y1 Y2 K E G. pose proof (bpow_gt_0 radix2 (-400)) as P.
  assert (U : (ulp64 y <= y * bpow radix2 (-52))%R). { unfold ulp64. assert (Prec_gt_0 (prec F64)) by exact Hp64. rewrite <- (Rabs_pos_eq y) at 2 by lra. apply (ulp_FLT_le radix2 (emin F64) (prec F64)). rewrite Rabs_pos_eq by lra. eapply Rle_trans; [|exact Y1]. apply bpow_le. vm_compute. discriminate. }
  assert (S52 : (0 < bpow radix2 (-52) <= / 1000000000000000)%R) by (split; [apply bpow_gt_0|apply small64; lia]).
  assert (EV : (Rabs (value F64 r - y) <= y / 2)%R). { eapply Rle_trans; [exact E|]. apply Rle_trans with (100 * (y * bpow radix2 (-52)))%R; [apply Rmult_le_compat; try lra; apply ulp_ge_0|nra]. }
  apply Rabs_le_inv in EV. assert (V0 : (bpow radix2 (-401) <= value F64 r)%R). { replace (bpow radix2 (-401)) with (bpow radix2 (-400) / 2)%R; [lra|]. change (-400) with (-401 + 1). rewrite bpow_plus. change (bpow radix2 1) with 2%R. field. }
  assert (GH : good half) by const_good. assert (VH : value F64 half = (/ 2)%R) by exact val_half.
  destruct (mul64 o Ho half r GH G) as [Gr V]. { rewrite VH. apply Rle_trans with (bpow radix2 90); [|apply bpow_le; lia]. apply Rabs_le. lra. }
  assert (VV : value F64 (o_mul o half r) = (value F64 r / 2)%R).
  { rewrite V, VH. replace (value F64 r / 2)%R with (/ 2 * value F64 r)%R by field. apply fmt_rne. rewrite Rmult_comm. change (/ 2)%R with (bpow radix2 (-1)). apply mult_bpow_exact_FLT; [apply format64; apply G|].
    assert (-400 <= mag radix2 (value F64 r))%Z by (apply mag_ge_bpow; rewrite Rabs_pos_eq by lra; exact V0). change (emin F64) with (-1074). change (prec F64) with 53. lia. }
  split; [apply Gr|]. split; [apply Gr|]. rewrite VV. replace (value F64 r / 2 - y / 2)%R with (/ 2 * (value F64 r - y))%R by field. rewrite Rabs_mult, (Rabs_pos_eq (/ 2)) by lra.
  assert (D : ulp64 y = (2 * ulp64 (y / 2))%R).
  { rewrite <- ulp64_double; [f_equal; field|]. rewrite Rabs_pos_eq by lra. apply Rle_trans with (bpow radix2 (-401)); [apply bpow_le; lia|]. replace (bpow radix2 (-401)) with (bpow radix2 (-400) / 2)%R; [lra|]. change (-400) with (-401 + 1). rewrite bpow_plus. change (bpow radix2 1) with 2%R. field. }
  rewrite D in E. lra.
Qed.
End Ops.

(** The logarithms of an argument with a relative error. *)
Lemma ln_shift B B' k : (0 < B -> 0 <= k <= 20 -> Rabs (B' - B) <= k * u53 * B -> 0 < B' /\ Rabs (ln B' - ln B) <= 1.001 * (Rabs (B' - B) / B))%R.
Proof.
  intros P K E. pose proof u53_small as US. set (q := ((B' - B) / B)%R).
  assert (Q : (Rabs q = Rabs (B' - B) / B)%R). { unfold q, Rdiv. rewrite Rabs_mult, (Rabs_pos_eq (/ B)); [reflexivity|left; apply Rinv_0_lt_compat; lra]. }
  assert (QB : (Rabs q <= / 100000)%R). { rewrite Q. apply Rmult_le_reg_r with B; [exact P|]. unfold Rdiv. rewrite Rmult_assoc, Rinv_l by lra. assert (k * u53 <= / 100000)%R by nra. nra. }
  assert (QB' := Rabs_le_inv _ _ QB). assert (BE : (B' = B * (1 + q))%R) by (unfold q; field; lra). split; [rewrite BE; apply Rmult_lt_0_compat; lra|].
  rewrite BE, ln_mult by lra. replace (ln B + ln (1 + q) - ln B)%R with (ln (1 + q)) by ring.
  pose proof (ln_near q ltac:(lra)) as L. replace (Rabs (B * (1 + q) - B) / B)%R with (Rabs q) by (rewrite Q, BE; reflexivity).
  pose proof (Rabs_triang (ln (1 + q) - q) q) as T. replace (ln (1 + q) - q + q)%R with (ln (1 + q)) in T by ring. rewrite <- (Rabs_pos_eq (q * q)) in L by nra. rewrite Rabs_mult in L. pose proof (Rabs_pos q). nra.
Qed.
Lemma ln1p_lower A : (0 <= A -> A / (1 + A) <= ln (1 + A))%R.
Proof.
  intros P. assert (0 < / (1 + A))%R by (apply Rinv_0_lt_compat; lra). pose proof (ln_upper (- (A / (1 + A)))) as U. replace (1 + - (A / (1 + A)))%R with (/ (1 + A))%R in U by (field; lra).
  rewrite ln_Rinv in U by lra. replace (/ (1 + A))%R with (1 - A / (1 + A))%R in H by (field; lra). specialize (U ltac:(lra)). lra.
Qed.
Section Logs.
Context (o : fops) (Ho : ieee_ops F64 o) (c : icast) (Hc : icast_ok c).
Lemma close_ulp r y y' k e : (0 < y -> 0 <= e <= y / 2 -> e <= k * ulp64 y -> Rabs (y' - y) <= e -> Rabs (value F64 r - y') <= 3 / 2 * ulp64 y' -> Rabs (value F64 r - y) <= (3 + k) * ulp64 y)%R.
Proof using.
  clear. intros P E0 E1 D H. assert (D' := Rabs_le_inv _ _ D). pose proof (ulp64_twice y' y ltac:(lra)) as U. replace (value F64 r - y)%R with ((value F64 r - y') + (y' - y))%R by ring. eapply Rle_trans; [apply Rabs_triang|]. lra.
Qed.
Lemma log1p_apx a A k : apx a A k -> rg A -> (0 <= k <= 20)%R -> exists r, libm_log1p o c a = Ok r /\ good r /\ (Rabs (value F64 r - ln (1 + A)) <= (3 + 1.001 * k) * ulp64 (ln (1 + A)))%R.
Proof using Ho Hc.
  intros H R K. pose proof (apx_bounds a A k R H ltac:(lra)) as B. pose proof (rg_pos _ R) as P. destruct H as [G E]. pose proof u53_small as US.
  destruct (log1p_all o Ho c Hc a (proj1 G)) as (r & Er & Fr & _ & _ & _ & _ & _ & W). specialize (W (proj2 G) ltac:(lra)). destruct W as (_ & Nr & W). exists r. split; [exact Er|]. split; [split; assumption|].
  pose proof (ln1p_lower A ltac:(lra)) as L. assert (A0 : (0 < A / (1 + A))%R) by (apply Rdiv_lt_0_compat; lra).
  assert (EQ : (1 + value F64 a - (1 + A) = value F64 a - A)%R) by ring.
  destruct (ln_shift (1 + A) (1 + value F64 a) k) as [_ D]; [lra|lra|rewrite EQ; eapply Rle_trans; [exact E|apply Rmult_le_compat_l; [apply Rmult_le_pos; lra|lra]]|]. rewrite EQ in D.
  assert (E2 : (Rabs (value F64 a - A) / (1 + A) <= k * u53 * (A / (1 + A)))%R). { unfold Rdiv. rewrite <- Rmult_assoc. apply Rmult_le_compat_r; [left; apply Rinv_0_lt_compat; lra|exact E]. }
  set (Y := ln (1 + A)) in *. assert (KU : (0 <= k * u53 <= / 10000000)%R) by nra.
  assert (E3 : (k * u53 * (A / (1 + A)) <= k * u53 * Y)%R) by (apply Rmult_le_compat_l; lra).
  pose proof (ulp64_rel Y) as U. rewrite Rabs_pos_eq in U by lra. change (bpow radix2 (-53)) with u53 in U.
  apply (close_ulp r Y (ln (1 + value F64 a)) (1.001 * k) (1.001 * (k * u53 * Y))); [lra|nra|nra|lra|exact W].
Qed.
Lemma log_apx a A k m : apx a A k -> rg A -> (0 <= k <= 20)%R -> (2 <= A)%R -> (k <= m * ln A)%R -> exists r, libm_log o c a = Ok r /\ good r /\ (Rabs (value F64 r - ln A) <= (3 + 1.001 * m) * ulp64 (ln A))%R.
Proof using Ho Hc.
  intros H R K A2 M. pose proof (apx_bounds a A k R H ltac:(lra)) as B. destruct H as [G E]. pose proof u53_small as US.
  destruct (C54_log o c a Ho Hc (proj1 G)) as (r & Er & Fr & _ & _ & _ & _ & W & _). specialize (W (proj2 G) ltac:(lra)). destruct W as (_ & Nr & W). exists r. split; [exact Er|]. split; [split; assumption|].
  destruct (ln_shift A (value F64 a) k) as [_ D]; [lra|lra|exact E|].
  assert (E2 : (Rabs (value F64 a - A) / A <= k * u53)%R). { apply Rmult_le_reg_r with A; [lra|]. unfold Rdiv. rewrite Rmult_assoc, Rinv_l by lra. lra. }
  pose proof ln2_num as L2. assert (LA : (ln 2 <= ln A)%R) by (apply ln_le'; lra). set (Y := ln A) in *. assert (KU : (0 <= k * u53 <= / 10000000)%R) by nra.
  pose proof (ulp64_rel Y) as U. rewrite Rabs_pos_eq in U by lra. change (bpow radix2 (-53)) with u53 in U. assert (M0 : (0 <= m)%R) by nra.
  apply (close_ulp r Y (ln (value F64 a)) (1.001 * m) (1.001 * (k * u53))); [lra|nra|nra|lra|exact W].
Qed.
End Logs.
