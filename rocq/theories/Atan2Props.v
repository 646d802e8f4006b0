(** Theorems about the two-argument arc tangent of libm. *)
From Coq Require Import ZArith Reals Bool Lia Lra.
From Flocq Require Import Core.
From Verif Require Import Base FloatModel FloatSpec FloatProps LibmModel LibmSpec LibmProps F64Lib ElemModel ElemSpec TrigModel AtanModel AtanProofs2 AtanProofs3 AtanProps Atan2Model Atan2Proofs Atan2Proofs3.
Open Scope Z_scope.

(** [t] is the angle of the point [(X, Y)]: its polar angle in [- PI, PI]. *)
Definition polar_angle (X Y t : R) : Prop :=
  (- PI <= t <= PI /\ X = sqrt (X * X + Y * Y) * cos t /\ Y = sqrt (X * X + Y * Y) * sin t)%R.
(** the doubles nearest to pi, 3 pi / 4 and pi / 4, and their opposites *)
Definition with_sign (s : bool) (n : Z) : Z := if s then n + 2 ^ 63 else n.
Definition WHOLE_PI : Z := 0x400921FB54442D18.
Definition THREE_QUARTER_PI : Z := 0x4002d97c7f3321d2.
Definition QUARTER_PI : Z := 0x3fe921fb54442d18.

(** * C59 *)
(** For every two nonzero finite doubles the result differs from the angle of the point (x, y)
    by at most three units in the last place; zeros, infinities and NaNs give the results of
    the C standard. *)
Theorem C59_atan2 : forall o x y, ieee_ops F64 o -> is_float F64 x -> is_float F64 y ->
  exists r, libm_atan2 o y x = Ok r /\ is_float F64 r /\
  (is_nan F64 x \/ is_nan F64 y -> is_qnan F64 r) /\
  (is_finite F64 x -> is_finite F64 y -> ~ is_zero F64 x -> ~ is_zero F64 y ->
     exists t, polar_angle (value F64 x) (value F64 y) t /\ within 3 r t) /\
  (~ is_nan F64 x -> is_zero F64 y -> r = with_sign (sign_of F64 y) (if sign_of F64 x then WHOLE_PI else 0)) /\
  (is_zero F64 x -> ~ is_nan F64 y -> ~ is_zero F64 y -> r = with_sign (sign_of F64 y) HALF_PI) /\
  (is_finite F64 x -> is_inf F64 y -> r = with_sign (sign_of F64 y) HALF_PI) /\
  (is_inf F64 x -> is_finite F64 y -> r = with_sign (sign_of F64 y) (if sign_of F64 x then WHOLE_PI else 0)) /\
  (is_inf F64 x -> is_inf F64 y -> r = with_sign (sign_of F64 y) (if sign_of F64 x then THREE_QUARTER_PI else QUARTER_PI)).
Proof.
  intros o x y Ho Fx Fy. destruct (split64 x Fx) as (s & n & -> & Hn). destruct (split64 y Fy) as (t & k & -> & Hk).
  destruct (ops_add F64 o Ho (mk64 s n) (mk64 t k) Fx Fy) as [Fs [Qs _]]. rewrite !nan64 in Qs by assumption.
  destruct (atan2_special o Ho s n t k Hn Hk) as (A & B & C & D & E & G).
  cut (exists r, libm_atan2 o (mk64 t k) (mk64 s n) = Ok r /\ is_float F64 r /\
    (INF < n \/ INF < k -> is_qnan F64 r) /\
    (n < INF -> k < INF -> n <> 0 -> k <> 0 -> exists u, polar_angle (value F64 (mk64 s n)) (value F64 (mk64 t k)) u /\ within 3 r u) /\
    (~ INF < n -> k = 0 -> r = with_sign t (if s then WHOLE_PI else 0)) /\ (n = 0 -> ~ INF < k -> k <> 0 -> r = with_sign t HALF_PI) /\
    (n < INF -> k = INF -> r = with_sign t HALF_PI) /\ (n = INF -> k < INF -> r = with_sign t (if s then WHOLE_PI else 0)) /\
    (n = INF -> k = INF -> r = with_sign t (if s then THREE_QUARTER_PI else QUARTER_PI))).
  { intros (r & Er & Fr & R). exists r. split; [exact Er|]. split; [exact Fr|]. rewrite !sign64, !nan64, !zero64, !isinf64, !finite64 by assumption. exact R. }
  assert (forall m, 0 <= m < 2 ^ 63 -> flip t m = with_sign t m) as FS.
  { intros m Hm. unfold flip, with_sign. destruct t; [|reflexivity]. change m with (mk64 false m) at 1. rewrite TrigRed5.fneg_mk by exact Hm. unfold mk64. cbn [negb b2z]. lia. }
  assert (forall m, 0 <= m < 2 ^ 63 -> is_float F64 (with_sign t m)) as FF.
  { intros m Hm. assert (with_sign t m = mk64 t m) as -> by (unfold with_sign, mk64; destruct t; cbn [b2z]; lia). apply float64, Hm. }
  assert (0 <= (if s then PI64 else 0) < 2 ^ 63) as L1 by (unfold PI64; destruct s; lia). assert (0 <= HI3 < 2 ^ 63) as L2 by (unfold HI3; lia).
  assert (0 <= (if s then 0x4002d97c7f3321d2 else 0x3fe921fb54442d18) < 2 ^ 63) as L3 by (destruct s; lia).
  rewrite FS in B, E by exact L1. rewrite FS in C, D by exact L2. rewrite FS in G by exact L3.
  destruct (Z_lt_le_dec INF n) as [Nn|Nn]; [eexists; split; [apply A; tauto|]; split; [exact Fs|]; split; [intros _; apply Qs; tauto|]; repeat split; intros; lia|].
  destruct (Z_lt_le_dec INF k) as [Nk|Nk]; [eexists; split; [apply A; tauto|]; split; [exact Fs|]; split; [intros _; apply Qs; tauto|]; repeat split; intros; lia|].
  destruct (Z.eq_dec k 0) as [Zk|Zk].
  { destruct (B Nn Zk) as (r & -> & ->). eexists; split; [reflexivity|]. split; [apply FF, L1|]. split; [lia|]. split; [lia|]. split; [reflexivity|]. split; [lia|]. split; [lia|]. split; [reflexivity|lia]. }
  destruct (Z.eq_dec n 0) as [Zn|Zn].
  { rewrite (C Zn) by lia. eexists; split; [reflexivity|]. split; [apply FF, L2|]. split; [lia|]. split; [lia|]. split; [lia|]. split; [reflexivity|]. split; [reflexivity|]. split; lia. }
  destruct (Z.eq_dec n INF) as [In|In].
  { destruct (Z.eq_dec k INF) as [Ik|Ik].
    - rewrite (G In Ik). eexists; split; [reflexivity|]. split; [apply FF, L3|]. split; [lia|]. split; [lia|]. split; [lia|]. split; [lia|]. split; [lia|]. split; [lia|reflexivity].
    - rewrite (E In) by lia. eexists; split; [reflexivity|]. split; [apply FF, L1|]. split; [lia|]. split; [lia|]. split; [lia|]. split; [lia|]. split; [lia|]. split; [reflexivity|lia]. }
  destruct (Z.eq_dec k INF) as [Ik|Ik].
  { rewrite (D ltac:(lia) Ik). eexists; split; [reflexivity|]. split; [apply FF, L2|]. split; [lia|]. split; [lia|]. split; [lia|]. split; [lia|]. split; [reflexivity|]. split; lia. }
  destruct (atan2_finite o Ho s n t k ltac:(lia) ltac:(lia)) as (r & Er & W). exists r. split; [exact Er|]. split; [apply W|]. split; [lia|]. split; [|repeat split; intros; lia].
  intros _ _ _ _. eexists. split; [|exact W]. rewrite !value64 by assumption. pose proof (mag_lt64 0 n ltac:(lia)) as Pn. pose proof (mag_nonneg64 k ltac:(lia)) as Pk. rewrite mag0_64 in Pn. exact (angle_all (mag64 n) (mag64 k) Pn Pk s t).
Qed.
(** The polar angle is determined by the point, except on the half line where - PI and PI meet. *)
Theorem C59_angle_unique : forall X Y t u, polar_angle X Y t -> polar_angle X Y u -> (Y <> 0)%R -> t = u.
Proof.
  intros X Y t u (Bt & Ct & St) (Bu & Cu & Su) Nz. assert (0 < sqrt (X * X + Y * Y))%R as P. { apply sqrt_lt_R0. pose proof (Rsqr_pos_lt Y Nz) as Q1. pose proof (Rle_0_sqr X) as Q2. unfold Rsqr in Q1, Q2. lra. }
  set (h := sqrt (X * X + Y * Y)) in *. assert (cos t = cos u) as Ec by (apply (Rmult_eq_reg_l h); lra). assert (sin t = sin u) as Es by (apply (Rmult_eq_reg_l h); lra).
  assert (sin (t - u) = 0)%R as Z by (rewrite sin_minus, Ec, Es; ring). assert (cos (t - u) = 1)%R as O by (rewrite cos_minus, Ec, Es; pose proof (sin2_cos2 u) as Q; unfold Rsqr in Q; clear - Q; lra).
  assert (t <> PI /\ t <> - PI /\ u <> PI /\ u <> - PI)%R as (N1 & N2 & N3 & N4). { assert (sin t <> 0)%R as Nt by (intros H0; apply Nz; rewrite St, H0; ring). assert (sin u <> 0)%R as Nu by (rewrite <- Es; exact Nt). clear - Nt Nu. repeat split; intros ->; [apply Nt|apply Nt|apply Nu|apply Nu]; rewrite ?sin_neg, ?sin_PI; ring. }
  pose proof PI_RGT_0. destruct (Rtotal_order t u) as [L|[L|L]]; [|exact L|].
  - destruct (Rle_lt_dec (u - t) PI) as [G|G].
    + assert (cos (t - u) < cos 0)%R as Q by (rewrite <- (cos_neg (t - u)); apply cos_decreasing_1; lra). rewrite cos_0 in Q. lra.
    + assert (cos (t - u + 2 * PI) < cos 0)%R as Q by (apply cos_decreasing_1; lra). rewrite cos_plus, cos_2PI, sin_2PI, cos_0 in Q. lra.
  - destruct (Rle_lt_dec (t - u) PI) as [G|G].
    + assert (cos (t - u) < cos 0)%R as Q by (apply cos_decreasing_1; lra). rewrite cos_0 in Q. lra.
    + assert (cos (2 * PI - (t - u)) < cos 0)%R as Q by (apply cos_decreasing_1; lra). rewrite cos_minus, cos_2PI, sin_2PI, cos_0 in Q. lra.
Qed.
(** The constants are within one unit in the last place of pi, 3 pi / 4 and pi / 4. *)
Theorem C59_constants : within 1 WHOLE_PI PI /\ within 1 THREE_QUARTER_PI (3 * PI / 4) /\ within 1 QUARTER_PI (PI / 4).
Proof.
  destruct pi_num as (P1 & P2 & P3). assert (P2' := Rabs_le_inv _ _ P2). assert (P3' := Rabs_le_inv _ _ P3). pose proof PI_num as PN.
  assert (0 <= value F64 PI_LO64 <= bpow radix2 (-52))%R as V0. { split; [|lra]. rewrite <- mag_value by (unfold PI_LO64; lia). apply mag_nonneg64. unfold PI_LO64. lia. }
  assert (forall e, bpow radix2 e = 2 * bpow radix2 (e - 1))%R as BP. { intros e. replace e with (1 + (e - 1)) at 1 by lia. rewrite bpow_plus. reflexivity. }
  pose proof (bpow_le radix2 (-69) (-55) ltac:(lia)) as L69. pose proof (bpow_gt_0 radix2 (-55)) as B55.
  pose proof (BP (-51)) as E51. pose proof (BP (-52)) as E52. pose proof (BP (-53)) as E53. pose proof (BP (-54)) as E54. cbn [Z.sub Z.add Z.opp Z.pos_sub Pos.pred_double Pos.succ Pos.add] in E51, E52, E53, E54.
  split; [|split].
  - split; [vm_compute; intuition discriminate|]. split; [vm_compute; discriminate|]. change WHOLE_PI with PI64.
    assert (bpow radix2 (2 - 53) <= ulp64 PI)%R as U by (apply ExpProofs5.ulp64_ge; change (bpow radix2 (2 - 1)) with 2%R; rewrite Rabs_pos_eq; lra). change (2 - 53) with (-51) in U. apply Rabs_le. lra.
  - split; [vm_compute; intuition discriminate|]. split; [vm_compute; discriminate|].
    assert (value F64 THREE_QUARTER_PI = 3 * value F64 PI64 / 4)%R as V.
    { rewrite (ExpProofs4.kb_val 53 PI64 28296951008113760) by (vm_compute; reflexivity). rewrite (ExpProofs4.kb_val 53 THREE_QUARTER_PI 21222713256085320) by (vm_compute; reflexivity). unfold FloatErr.fx. lra. }
    assert (bpow radix2 (2 - 53) <= ulp64 (3 * PI / 4))%R as U by (apply ExpProofs5.ulp64_ge; change (bpow radix2 (2 - 1)) with 2%R; rewrite Rabs_pos_eq; lra). change (2 - 53) with (-51) in U. rewrite V. apply Rabs_le. lra.
  - split; [vm_compute; intuition discriminate|]. split; [vm_compute; discriminate|].
    assert (value F64 QUARTER_PI = value F64 PI64 / 4)%R as V.
    { rewrite (ExpProofs4.kb_val 53 PI64 28296951008113760) by (vm_compute; reflexivity). rewrite (ExpProofs4.kb_val 53 QUARTER_PI 7074237752028440) by (vm_compute; reflexivity). unfold FloatErr.fx. lra. }
    assert (bpow radix2 (0 - 53) <= ulp64 (PI / 4))%R as U by (apply ExpProofs5.ulp64_ge; change (bpow radix2 (0 - 1)) with (/ 2)%R; rewrite Rabs_pos_eq; lra). change (0 - 53) with (-53) in U. rewrite V. apply Rabs_le. lra.
Qed.
(** atan2(1, 2), atan2(1, -2), atan2(-1, -2), atan2(-1, 1), atan2(1, tiny), atan2(tiny, -1) and special arguments *)
Definition soft_atan2 (y x : Z) : res Z := libm_atan2 (soft_ops F64 8) y x.
Example C59_example : soft_atan2 0x3ff0000000000000 0x4000000000000000 = Ok 0x3fddac670561bb4f /\
  soft_atan2 0x3ff0000000000000 0xc000000000000000 = Ok 0x40056c6e7397f5ae /\
  soft_atan2 0xbff0000000000000 0xc000000000000000 = Ok 0xc0056c6e7397f5ae /\
  soft_atan2 0xbff0000000000000 0x3ff0000000000000 = Ok 0xbfe921fb54442d18 /\
  soft_atan2 0x3ff0000000000000 0x0000000000000001 = Ok HALF_PI /\
  soft_atan2 0x0000000000000001 0xbff0000000000000 = Ok WHOLE_PI /\
  soft_atan2 0x8000000000000000 0x8000000000000000 = Ok 0xc00921fb54442d18 /\
  soft_atan2 0xfff0000000000000 0xfff0000000000000 = Ok 0xc002d97c7f3321d2 /\
  ieee_ops F64 (soft_ops F64 8) /\ is_finite F64 0x3ff0000000000000 /\ ~ is_zero F64 0x3ff0000000000000.
Proof. do 8 (split; [vm_compute; reflexivity|]). split; [apply soft_ops_ieee; [tauto|lia]|]. split; [vm_compute; discriminate|vm_compute; intuition discriminate]. Qed.
Definition atan2_theorems := (C59_atan2, C59_angle_unique, C59_constants).
Print Assumptions atan2_theorems.
