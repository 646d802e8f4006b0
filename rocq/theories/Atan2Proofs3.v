(** Accuracy of the two-argument arc tangent. *)
From Coq Require Import ZArith Reals Bool List Lia Lra Psatz.
From Flocq Require Import Core.
From Verif Require Import Base BaseLemmas FloatModel FloatSpec FloatProofs FloatLib FloatProps LibmModel LibmSpec LibmProps Elem FloatErr PolyBound ElemModel ElemSpec TrigModel F64Lib ExpProofs3 ExpProofs4 ExpProofs5 ExpProofs7 ExpProofs8 LogProofs LogProofs2 TrigRed TrigRed5 TrigLg11 HypotProofs3 HypotProofs10 AtanModel AtanProofs AtanProofs2 AtanProofs3 Atan2Model Atan2Proofs Atan2Proofs2.
Open Scope Z_scope.

Lemma pi_num : (3.14 <= value F64 PI64 <= 3.15)%R /\ (Rabs (value F64 PI_LO64) <= bpow radix2 (-52))%R /\ (Rabs (value F64 PI64 + value F64 PI_LO64 - PI) <= bpow radix2 (-69))%R.
Proof.
  assert (value F64 PI64 = 2 * value F64 HI3)%R as E1.
  { rewrite (kb_val 52 HI3 7074237752028440) by (vm_compute; reflexivity). rewrite (kb_val 51 PI64 7074237752028440) by (vm_compute; reflexivity). unfold fx. change (- (51)) with (1 + - (52)). rewrite bpow_plus. change (bpow radix2 1) with 2%R. ring. }
  assert (value F64 PI_LO64 = 2 * value F64 LO3)%R as E2.
  { rewrite (kb_val 119 LO3 40695870259376218112) by (vm_compute; reflexivity). rewrite (kb_val 119 PI_LO64 (2 * 40695870259376218112)) by (vm_compute; reflexivity). unfold fx. rewrite mult_IZR. ring. }
  assert (0 <= value F64 LO3 <= bpow radix2 (-53))%R as V.
  { rewrite (kb_val 119 LO3 40695870259376218112) by (vm_compute; reflexivity). replace (bpow radix2 (-53)) with (fx 119 (2 ^ 66)) by (rewrite fx_pow by lia; reflexivity). split; [apply fx_nonneg; lia|apply fx_le; lia]. }
  pose proof sum3 as S. rewrite E1, E2. split; [|split].
  - rewrite (kb_val 52 HI3 7074237752028440) by (vm_compute; reflexivity). unfold fx. change (bpow radix2 (- (52))) with (/ 4503599627370496)%R. lra.
  - rewrite Rabs_pos_eq by lra. change (-52) with (1 + -53). rewrite bpow_plus. change (bpow radix2 1) with 2%R. lra.
  - replace (_ - _)%R with (2 * (value F64 HI3 + value F64 LO3 - PI / 2))%R by field. rewrite Rabs_mult, (Rabs_pos_eq 2) by lra. change (-69) with (1 + -70). rewrite bpow_plus. change (bpow radix2 1) with 2%R. lra.
Qed.
Lemma good_PI : good PI64. Proof. apply (good_mk false PI64). unfold PI64. lia. Qed.
Lemma good_PI_LO : good PI_LO64. Proof. apply (good_mk false PI_LO64). unfold PI_LO64. lia. Qed.
Lemma PI_num : (3.1 < PI < 3.2)%R.
Proof.
  destruct pi_num as (A & B & C). pose proof (small64 (-52) ltac:(lia)). pose proof (small64 (-69) ltac:(lia)). apply Rabs_le_inv in B. apply Rabs_le_inv in C. lra.
Qed.
(** A result near pi / 2 *)
Lemma within_half th : (Rabs (th - PI / 2) <= bpow radix2 (-63))%R -> within 3 HI3 th.
Proof.
  intros H. assert (good HI3) as [F N] by (apply (good_mk false HI3); unfold HI3; lia). split; [exact F|]. split; [exact N|].
  pose proof sum3 as S. pose proof PI_num as P. pose proof (small64 (-63) ltac:(lia)) as S63.
  assert (0 <= value F64 LO3 <= bpow radix2 (-53))%R as V.
  { rewrite (kb_val 119 LO3 40695870259376218112) by (vm_compute; reflexivity). replace (bpow radix2 (-53)) with (fx 119 (2 ^ 66)) by (rewrite fx_pow by lia; reflexivity). split; [apply fx_nonneg; lia|apply fx_le; lia]. }
  assert (bpow radix2 (-52) <= ulp64 th)%R as U0. { apply Rabs_le_inv in H. apply (ulp64_ge 1). change (bpow radix2 (1 - 1)) with 1%R. rewrite Rabs_pos_eq; lra. }
  pose proof (bpow_le radix2 (-53) (-52) ltac:(lia)). pose proof (bpow_le radix2 (-70) (-53) ltac:(lia)). pose proof (bpow_le radix2 (-63) (-53) ltac:(lia)).
  apply Rabs_le_inv in H. apply Rabs_le_inv in S. apply Rabs_le. lra.
Qed.
Section Atan2.
Context (o : fops) (Ho : ieee_ops F64 o).
(** The left half plane *)
Lemma last_step z a : good z -> (0 <= a <= PI / 2)%R -> (Rabs (value F64 z - a) <= 5 * bpow radix2 (-54))%R ->
  within 3 (o_sub o PI64 (o_sub o z PI_LO64)) (PI - a) /\ within 3 (o_sub o (o_sub o z PI_LO64) PI64) (- (PI - a)).
Proof using Ho.
  intros Gz Ha Hz. destruct pi_num as (B1 & B2 & B3). pose proof PI_num as P. set (w := o_sub o z PI_LO64).
  pose proof (small64 (-52) ltac:(lia)) as S52. pose proof (small64 (-54) ltac:(lia)) as S54. pose proof (small64 (-69) ltac:(lia)) as S69. pose proof (small64 (-53) ltac:(lia)) as S53. pose proof (bpow_gt_0 radix2 (-54)).
  assert (B2' := Rabs_le_inv _ _ B2). assert (Hz' := Rabs_le_inv _ _ Hz).
  destruct (sub64 o Ho z PI_LO64 Gz good_PI_LO) as [Gw Ew]; [apply (small_ok _ 1); [lia|change (bpow radix2 1) with 2%R; apply Rabs_le; lra]|]. fold w in Gw, Ew.
  pose proof (rne_error64 1 (value F64 z - value F64 PI_LO64) ltac:(change (bpow radix2 1) with 2%R; apply Rabs_lt; lra) ltac:(lia)) as Q1. change (1 - 54) with (-53) in Q1. rewrite <- Ew in Q1. assert (Q1' := Rabs_le_inv _ _ Q1).
  assert (bpow radix2 (-52) <= ulp64 (PI - a))%R as U0. { apply (ulp64_ge 1). change (bpow radix2 (1 - 1)) with 1%R. rewrite Rabs_pos_eq; lra. }
  assert (bpow radix2 (-69) <= bpow radix2 (-54))%R as L69 by (apply bpow_le; lia).
  replace (bpow radix2 (-52)) with (4 * bpow radix2 (-54))%R in U0 by (change 4%R with (bpow radix2 2); rewrite <- bpow_plus; reflexivity).
  replace (bpow radix2 (-53)) with (2 * bpow radix2 (-54))%R in Q1' by (change 2%R with (bpow radix2 1); rewrite <- bpow_plus; reflexivity).
  assert (B3' := Rabs_le_inv _ _ B3).
  pose proof (rne_error64 2 (value F64 PI64 - value F64 w) ltac:(change (bpow radix2 2) with 4%R; apply Rabs_lt; lra) ltac:(lia)) as Q2. change (2 - 54) with (-52) in Q2.
  replace (bpow radix2 (-52)) with (4 * bpow radix2 (-54))%R in Q2 by (change 4%R with (bpow radix2 2); rewrite <- bpow_plus; reflexivity).
  assert (Q2' := Rabs_le_inv _ _ Q2).
  split.
  - destruct (sub64 o Ho PI64 w good_PI Gw) as [[F N] E]; [apply (small_ok _ 2); [lia|change (bpow radix2 2) with 4%R; apply Rabs_le; lra]|].
    split; [exact F|]. split; [exact N|]. rewrite E. apply Rabs_le. lra.
  - destruct (sub64 o Ho w PI64 Gw good_PI) as [[F N] E]; [apply (small_ok _ 2); [lia|change (bpow radix2 2) with 4%R; apply Rabs_le; lra]|].
    split; [exact F|]. split; [exact N|]. rewrite E. replace (value F64 w - value F64 PI64)%R with (- (value F64 PI64 - value F64 w))%R by ring. rewrite rne_opp. unfold ulp64. rewrite ulp_opp. fold (ulp64 (PI - a)). apply Rabs_le. lra.
Qed.
(** The arc tangent of the quotient *)
Lemma quotient s n t k : 0 < n < INF -> 0 < k < INF -> k / 2 ^ 32 <= n / 2 ^ 32 + 2 ^ 26 ->
  exists z, libm_atan o (atan_fabs (o_div o (mk64 t k) (mk64 s n))) = Ok z /\ good z /\
  (Rabs (value F64 z - atan (rne F64 (mag64 k / mag64 n))) <= ulp64 (atan (rne F64 (mag64 k / mag64 n))))%R.
Proof using Ho.
  intros Hn Hk G. pose proof (mag_near n k ltac:(lia) ltac:(lia) G) as M. pose proof (mag_lt64 0 n ltac:(lia)) as Pn. pose proof (mag_lt64 0 k ltac:(lia)) as Pk. rewrite mag0_64 in Pn, Pk.
  set (q := (mag64 k / mag64 n)%R). assert (0 < q)%R as Pq by (apply Rdiv_lt_0_compat; assumption).
  assert (q <= bpow radix2 118)%R as Bq. { apply (Rmult_le_reg_r (mag64 n)); [exact Pn|]. unfold q, Rdiv. rewrite Rmult_assoc, Rinv_l, Rmult_1_r by lra. exact M. }
  destruct (good_mk t k ltac:(lia)) as [Fk Nk]. destruct (good_mk s n ltac:(lia)) as [Fn Nn].
  assert (value F64 (mk64 t k) / value F64 (mk64 s n) = if xorb s t then - q else q)%R as Eq. { rewrite !value64 by lia. unfold q. destruct s, t; cbn [xorb]; field; lra. }
  assert (Rabs (value F64 (mk64 t k) / value F64 (mk64 s n)) = q)%R as Aq. { rewrite Eq. destruct (xorb s t); [rewrite Rabs_Ropp|]; apply Rabs_pos_eq; lra. }
  destruct (div_val F64 o Ho Hp64 He64 Hm64 (mk64 t k) (mk64 s n) Fk Fn Nk Nn) as (F & N & E).
  { rewrite zero64 by lia. lia. } { rewrite Aq. eapply Rle_trans; [exact Bq|]. apply bpow_le. vm_compute. discriminate. }
  set (d := o_div o (mk64 t k) (mk64 s n)) in *. destruct (good_split d (conj F N)) as (sd & j & Ed & Hj). rewrite Ed. rewrite fabs_mk by lia.
  assert (mag64 j = rne F64 q) as Ej.
  { assert (Rabs (value F64 d) = mag64 j) as A1 by (rewrite Ed, value64 by lia; destruct sd; [rewrite Rabs_Ropp|]; apply Rabs_pos_eq, mag_nonneg64; lia). rewrite <- A1, E, Eq. pose proof valid_e as VE.
    assert (0 <= rne F64 q)%R as R0 by (unfold rne; apply round_ge_generic; [exact VE|auto with typeclass_instances|apply generic_format_0|lra]).
    destruct (xorb s t); [rewrite rne_opp, Rabs_Ropp|]; apply Rabs_pos_eq; exact R0. }
  destruct (atan_mk_all o Ho false j ltac:(lia)) as (z & Ez & _ & _ & _ & _ & W). destruct (W ltac:(lia)) as (Fz & Nz & Bz). exists z. split; [exact Ez|]. split; [split; assumption|]. rewrite <- Ej. lra.
Qed.
Definition theta (s t : bool) (a : R) : R := (let b := if s then PI - a else a in if t then - b else b)%R.
Lemma within_mono k k' r y : (k <= k')%R -> within k r y -> within k' r y.
Proof using.
  clear. intros H (F & N & B). split; [exact F|]. split; [exact N|]. eapply Rle_trans; [exact B|]. apply Rmult_le_compat_r; [|exact H]. unfold ulp64. apply ulp_ge_0.
Qed.
Lemma atan2_finite s n t k : 0 < n < INF -> 0 < k < INF ->
  exists r, libm_atan2 o (mk64 t k) (mk64 s n) = Ok r /\ within 3 r (theta s t (atan (mag64 k / mag64 n))).
Proof using Ho.
  intros Hn Hk. unfold libm_atan2. cbv zeta. rewrite !is_nanb64 by lia. destruct (Z.ltb_spec INF n); [lia|]. destruct (Z.ltb_spec INF k); [lia|]. cbn [orb].
  pose proof (mag_lt64 0 n ltac:(lia)) as Pn. pose proof (mag_lt64 0 k ltac:(lia)) as Pk. rewrite mag0_64 in Pn, Pk. set (q := (mag64 k / mag64 n)%R). assert (0 < q)%R as Pq by (apply Rdiv_lt_0_compat; assumption).
  rewrite words_one by lia. destruct (negb s && (n =? 0x3ff0000000000000)) eqn:E1.
  { apply andb_true_iff in E1. destruct E1 as [Es En]. apply negb_true_iff in Es. apply Z.eqb_eq in En. subst s n. destruct (atan_mk_all o Ho t k ltac:(lia)) as (z & Ez & _ & _ & _ & _ & W). exists z. split; [exact Ez|].
    assert (q = mag64 k) as ->. { unfold q. rewrite (mag_value 0x3ff0000000000000) by lia. change 0x3ff0000000000000 with one. rewrite value_one. field. }
    unfold theta. cbv zeta. apply (within_mono 1); [lra|]. apply W. lia. }
  rewrite quadrant, !high_abs, !low_mk, !words_zero, !inf_word, !words_gap by lia. destruct (Z.eqb_spec k 0); [lia|]. destruct (Z.eqb_spec n 0); [lia|]. destruct (Z.eqb_spec n INF); [lia|]. destruct (Z.eqb_spec k INF); [lia|]. rewrite orb_false_r.
  destruct (Z.ltb_spec (n / 2 ^ 32 + 2 ^ 26) (k / 2 ^ 32)) as [L|L].
  { exists (flip t HI3). split; [rewrite c_half, c_mhalf by exact Ho; destruct s, t; reflexivity|]. unfold theta. cbv zeta. apply within_flip. apply within_half.
    assert (atan q = PI / 2 - atan (/ q))%R as A by (rewrite (atan_inv q Pq); ring). pose proof (mag_gap n k ltac:(lia) ltac:(lia) L) as M.
    assert (0 < / q <= bpow radix2 (-63))%R as B.
    { split; [apply Rinv_0_lt_compat, Pq|]. apply Rle_trans with (bpow radix2 (-64)); [|apply bpow_le; lia]. replace (bpow radix2 (-64)) with (/ bpow radix2 64)%R by (rewrite <- bpow_opp; reflexivity). apply Rinv_le_contravar; [apply bpow_gt_0|].
      apply (Rmult_le_reg_r (mag64 n)); [exact Pn|]. unfold q, Rdiv. rewrite Rmult_assoc, Rinv_l, Rmult_1_r by lra. exact M. }
    assert (0 <= atan (/ q) <= bpow radix2 (-63))%R as B'. { pose proof (atan_ge (/ q) ltac:(lra)). pose proof (atan_le (/ q) ltac:(lra)). assert (0 <= / q / (1 + / q * / q))%R by (apply Rmult_le_pos; [lra|left; apply Rinv_0_lt_compat; nra]). lra. }
    apply Rabs_le. destruct s; lra. }
  destruct (quotient s n t k Hn Hk L) as (z & Ez & Gz & Bz). fold q in Bz.
  destruct s.
  2:{ exists (flip t z). replace (negb (Z.land (b2z t + 2 * b2z false) 2 =? 0)) with false by (destruct t; reflexivity). cbn [andb]. rewrite Ez. cbn [bind]. split; [destruct t; reflexivity|].
      unfold theta. cbv zeta. apply within_flip. split; [apply Gz|]. split; [apply Gz|]. apply first_ok; [lra|exact Bz]. }
  assert (exists z', (if negb (Z.land (b2z t + 2 * b2z true) 2 =? 0) && (k / 2 ^ 32 + 2 ^ 26 <? n / 2 ^ 32) then Ok 0 else libm_atan o (atan_fabs (o_div o (mk64 t k) (mk64 true n)))) = Ok z' /\ good z' /\ (Rabs (value F64 z' - atan q) <= 5 * bpow radix2 (-54))%R) as (z' & Ez' & Gz' & Bz').
  { clear E1. destruct (_ && _) eqn:C.
    - apply andb_true_iff in C. destruct C as [_ C]. apply Z.ltb_lt in C. exists 0. split; [reflexivity|]. split; [apply (good_mk false 0); lia|]. rewrite value_zero. rewrite Rminus_0_l, Rabs_Ropp.
      pose proof (mag_gap k n ltac:(lia) ltac:(lia) C) as M. eapply Rle_trans; [apply atan_abs|]. rewrite Rabs_pos_eq by lra.
      apply Rle_trans with (bpow radix2 (-64)); [|pose proof (bpow_le radix2 (-64) (-54) ltac:(lia)); pose proof (bpow_gt_0 radix2 (-54)); lra].
      apply (Rmult_le_reg_r (mag64 n)); [exact Pn|]. unfold q, Rdiv. rewrite Rmult_assoc, Rinv_l, Rmult_1_r by lra. apply (Rmult_le_reg_l (bpow radix2 64)); [apply bpow_gt_0|]. rewrite <- Rmult_assoc, <- bpow_plus. change (64 + -64) with 0. change (bpow radix2 0) with 1%R. lra.
    - exists z. split; [exact Ez|]. split; [exact Gz|]. apply first_abs; [lra|exact Bz]. }
  rewrite Ez'. cbn [bind]. destruct (last_step z' (atan q) Gz') as [W1 W2]; [|exact Bz'|].
  { pose proof (atan_bound q). pose proof (atan_ge q ltac:(lra)). assert (0 <= q / (1 + q * q))%R by (apply Rmult_le_pos; [lra|left; apply Rinv_0_lt_compat; nra]). lra. }
  eexists. split; [reflexivity|]. unfold theta. cbv zeta. destruct t; assumption.
Qed.
(** Everything else *)
Lemma atan2_special s n t k : 0 <= n < 2 ^ 63 -> 0 <= k < 2 ^ 63 ->
  (INF < n \/ INF < k -> libm_atan2 o (mk64 t k) (mk64 s n) = Ok (o_add o (mk64 s n) (mk64 t k))) /\
  (n <= INF -> k = 0 -> exists r, libm_atan2 o (mk64 t k) (mk64 s n) = Ok r /\ r = flip t (if s then PI64 else 0)) /\
  (n = 0 -> 0 < k <= INF -> libm_atan2 o (mk64 t k) (mk64 s n) = Ok (flip t HI3)) /\
  (n < INF -> k = INF -> libm_atan2 o (mk64 t k) (mk64 s n) = Ok (flip t HI3)) /\
  (n = INF -> 0 < k < INF -> libm_atan2 o (mk64 t k) (mk64 s n) = Ok (flip t (if s then PI64 else 0))) /\
  (n = INF -> k = INF -> libm_atan2 o (mk64 t k) (mk64 s n) = Ok (flip t (if s then 0x4002d97c7f3321d2 else 0x3fe921fb54442d18))).
Proof using Ho.
  intros Hn Hk.
  assert (INF < n \/ INF < k \/ libm_atan2 o (mk64 t k) (mk64 s n) =
    if negb s && (n =? 0x3ff0000000000000) then libm_atan o (mk64 t k)
    else if k =? 0 then Ok (flip t (if s then PI64 else 0)) else if n =? 0 then Ok (flip t HI3)
    else if n =? INF then if k =? INF then Ok (flip t (if s then 0x4002d97c7f3321d2 else 0x3fe921fb54442d18)) else Ok (flip t (if s then PI64 else 0))
    else if (n / 2 ^ 32 + 2 ^ 26 <? k / 2 ^ 32) || (k =? INF) then Ok (flip t HI3)
    else libm_atan2 o (mk64 t k) (mk64 s n)) as EQ.
  { destruct (Z_lt_le_dec INF n) as [|Ln]; [tauto|]. destruct (Z_lt_le_dec INF k) as [|Lk]; [tauto|]. right. right. unfold libm_atan2 at 1. cbv zeta. rewrite !is_nanb64 by lia. destruct (Z.ltb_spec INF n); [lia|]. destruct (Z.ltb_spec INF k); [lia|]. cbn [orb].
    rewrite words_one by lia. destruct (negb s && (n =? 0x3ff0000000000000)) eqn:E1; [reflexivity|]. rewrite quadrant, !high_abs, !low_mk, !words_zero, !inf_word, !words_gap by lia.
    destruct (Z.eqb_spec k 0) as [->|Nk]; [destruct s, t; reflexivity|]. destruct (c_quarter o Ho) as (Q1 & Q2 & Q3 & Q4). rewrite c_half, c_mhalf, Q1, Q2, Q3, Q4 by exact Ho.
    destruct (Z.eqb_spec n 0) as [->|Nn]; [destruct s, t; reflexivity|]. destruct (Z.eqb_spec n INF) as [->|Ni]; [destruct (k =? INF); destruct s, t; reflexivity|].
    destruct (_ || _) eqn:C; [destruct s, t; reflexivity|].
    unfold libm_atan2. cbv zeta. rewrite !is_nanb64 by lia. destruct (Z.ltb_spec INF n); [lia|]. destruct (Z.ltb_spec INF k); [lia|]. cbn [orb]. rewrite words_one, E1 by lia. rewrite quadrant, !high_abs, !low_mk, !words_zero, !inf_word, !words_gap by lia.
    destruct (Z.eqb_spec k 0); [lia|]. destruct (Z.eqb_spec n 0); [lia|]. destruct (Z.eqb_spec n INF); [lia|]. rewrite C. reflexivity. }
  assert (n <= INF -> k <= INF -> n = 0 \/ n = INF -> negb s && (n =? 0x3ff0000000000000) = false) as NO. { intros _ _ [-> | ->]; apply andb_false_r. }
  split; [|split; [|split; [|split; [|split]]]].
  - intros H. unfold libm_atan2. rewrite !is_nanb64 by lia. destruct H as [H|H]; apply Z.ltb_lt in H; rewrite H; [|rewrite orb_true_r]; reflexivity.
  - intros A ->. destruct EQ as [|[|EQ]]; [lia|lia|]. rewrite EQ. destruct (negb s && (n =? 0x3ff0000000000000)) eqn:E1; [|eexists; split; reflexivity].
    apply andb_true_iff in E1. destruct E1 as [Es _]. apply negb_true_iff in Es. subst s. destruct (atan_mk_all o Ho t 0 ltac:(lia)) as (z & Ez & _ & _ & Z & _ & _). exists z. split; [exact Ez|]. rewrite (Z eq_refl). destruct t; reflexivity.
  - intros -> A. destruct EQ as [|[|EQ]]; [lia|lia|]. rewrite EQ, NO by lia. destruct (Z.eqb_spec k 0); [lia|]. reflexivity.
  - intros A ->. destruct EQ as [|[|EQ]]; [lia|lia|]. rewrite EQ. destruct (negb s && (n =? 0x3ff0000000000000)) eqn:E1.
    + destruct (atan_mk_all o Ho t INF ltac:(lia)) as (z & Ez & _ & _ & _ & Z & _). rewrite Ez, (Z eq_refl). reflexivity.
    + destruct (Z.eqb_spec INF 0); [lia|]. destruct (Z.eqb_spec n 0); [reflexivity|]. destruct (Z.eqb_spec n INF); [lia|]. rewrite Z.eqb_refl, orb_true_r. reflexivity.
  - intros -> A. destruct EQ as [|[|EQ]]; [lia|lia|]. rewrite EQ, NO by lia. destruct (Z.eqb_spec k 0); [lia|]. destruct (Z.eqb_spec INF 0); [lia|]. rewrite Z.eqb_refl. destruct (Z.eqb_spec k INF); [lia|]. reflexivity.
  - intros -> ->. destruct EQ as [|[|EQ]]; [lia|lia|]. rewrite EQ, NO by lia. destruct (Z.eqb_spec INF 0); [lia|]. rewrite Z.eqb_refl. reflexivity.
Qed.
End Atan2.
