(** Accuracy of asin and acos: the remaining cases. *)
From Coq Require Import ZArith Reals Bool List Lia Lra Psatz.
From Flocq Require Import Core.
From Verif Require Import Base FloatModel FloatSpec FloatProofs FloatLib LibmModel LibmSpec Elem FloatErr PolyBound ElemModel ElemSpec TrigModel F64Lib ExpProofs3 ExpProofs4 ExpProofs5 ExpProofs6 ExpProofs7 ExpProofs8 LogProofs LogProofs2 TrigProofs TrigRed TrigRed5 TrigLg8 TrigLg11 HypotModel HypotProofs3 AtanModel AtanProofs AtanProofs2 AtanProofs3 Atan2Model Atan2Proofs Atan2Proofs2 Atan2Proofs3 AsinModel AsinProofs AsinProofs2 AsinProofs3.
Import ListNotations.
Open Scope Z_scope.

Section Cases.
Context (o : fops) (Ho : ieee_ops F64 o).
(** The result is the rounding of a number near [y]. *)
Lemma near_one a b y : good a -> good b -> (1 <= y <= 10)%R -> (Rabs (value F64 a - value F64 b - y) <= 1.5 * u53)%R -> within (5 / 4) (o_sub o a b) y.
Proof using Ho.
  intros Ga Gb Hy E. pose proof u53_small as US. assert (E' := Rabs_le_inv _ _ E). destruct (sub64 o Ho a b Ga Gb) as [[G1 G2] V]; [apply (small_ok _ 4); [lia|change (bpow radix2 4) with 16%R; apply Rabs_le; lra]|].
  split; [exact G1|]. split; [exact G2|]. rewrite V. replace (5 / 4)%R with (3 / 4 + / 2)%R by lra. apply final_round; [|pose proof (ulp64_ge 1 y) as U; change (1 - 53) with (1 + -53) in U; rewrite bpow_plus in U; change (bpow radix2 1) with 2%R in U; fold u53 in U; rewrite Rabs_pos_eq in U by lra; change (bpow radix2 (1 - 1)) with 1%R in U; specialize (U (proj1 Hy)); lra|lra].
  rewrite Rabs_pos_eq by lra. apply Rle_trans with (bpow radix2 0); [apply bpow_le; lia|apply Hy].
Qed.
Lemma rr_bound z : good z -> (0 <= value F64 z <= / 4)%R -> (- / 255 <= Rr (value F64 z) <= 0.056)%R.
Proof using Ho.
  intros G B. destruct (comp_ok o Ho z (value F64 z) G B) as (_ & E & R); [rewrite Rminus_eq_0, Rabs_R0; apply bpow_ge_0|]. apply Rabs_le_inv in E. pose proof u53_small. lra.
Qed.
Lemma asin_big z (Z0 := value F64 z) : good z -> (bpow radix2 (-54) <= Z0 < / 64)%R -> exists s, hsqrt o z = Ok s /\
  within (5 / 4) (o_sub o PIO2_HI (o_sub o (o_mul o two (o_add o s (o_mul o s (comp_r o z)))) PIO2_LO)) (PI / 2 - 2 * asin (sqrt Z0)).
Proof using Ho.
  intros G B. pose proof u53_small as US. pose proof (bpow_gt_0 radix2 (-54)) as P54. destruct (root_ok o Ho z G ltac:(fold Z0; lra)) as (s & Es & Gs & Vs & _). fold Z0 in Vs. exists s. split; [exact Es|].
  destruct (sqrt_bounds Z0 ltac:(lra)) as [T TT]. destruct (root_half _ T) as [_ BS]. rewrite <- Vs in BS. set (t := sqrt Z0) in *. assert (t < / 8)%R as T8 by nra.
  assert (Rabs (value F64 s - t) <= bpow radix2 (-57))%R as ES. { rewrite Vs. apply (rne_error64 (-3)); [rewrite Rabs_pos_eq by lra; exact T8|lia]. }
  assert (value F64 s <= / 8)%R as S8. { rewrite Vs. assert (VE := valid_e). assert (rne F64 (/ 8) = / 8)%R as E by (replace (/ 8)%R with (IZR 1 * bpow radix2 (-3))%R by (change (bpow radix2 (-3)) with (/ 8)%R; ring); apply rne_exact64; lia). rewrite <- E. unfold rne. apply round_le; auto with typeclass_instances; lra. }
  assert (rel AP envB [z; s] [Z0; t]) as RL.
  { apply (rel_app AP [_] [z] [Z0]); [apply (rel_app AP [] [] []); [apply rel_nil|]|].
    - apply okv_exact; [exact G|]. fold Z0. rewrite fx_0, fx_80 by lia. change (bpow radix2 (74 - 80)) with (/ 64)%R. lra.
    - apply okv_of; [exact Gs| |rewrite fx_80 by lia; exact ES]. rewrite fx_0, fx_80 by lia. change (bpow radix2 (77 - 80)) with (/ 8)%R. lra. }
  pose proof (chk_ok o Ho _ _ _ pgB _ _ _ scanB RL) as Q. cbv zeta in Q. change (length envB + length pgB - 1)%nat with 3%nat in Q.
  change (nth 3 (fprog o [z; s] pgB) 0) with (o_sub o (o_mul o two (o_add o s (o_mul o s (comp_r o z)))) PIO2_LO) in Q.
  change (nth 3 (rprog [Z0; t] pgB) 0%R) with (value F64 two * (t + t * Rr Z0) - value F64 PIO2_LO)%R in Q. rewrite value_two in Q. set (A := o_sub o (o_mul o two _) PIO2_LO) in *. destruct Q as (GA & BA & EA).
  pose proof (asin_root Z0 ltac:(lra)) as AR. fold t in AR. pose proof pi_parts as PP. destruct hh_val as (EH & BH & BL). pose proof (rr_bound z G ltac:(fold Z0; lra)) as RB. fold Z0 in RB.
  assert (fx AP 161000000 <= 1.2 * u53)%R as E5 by (apply fx_u; lra). assert (t * (0.094 * u53) <= / 8 * (0.094 * u53))%R by (apply Rmult_le_compat_r; lra). assert (t * Rr Z0 <= t * 0.056)%R by (apply Rmult_le_compat_l; lra).
  apply Rabs_le_inv in EA, AR, PP. apply near_one; [exact good_HI|exact GA| |apply Rabs_le; lra]. split; [lra|]. assert (- t <= t * Rr Z0)%R by nra. lra.
Qed.
Lemma double_val v : good v -> (Rabs (value F64 v) <= 2)%R -> (bpow radix2 (-500) <= Rabs (value F64 v))%R -> good (o_mul o two v) /\ value F64 (o_mul o two v) = (2 * value F64 v)%R.
Proof using Ho.
  intros G B L. destruct (mul64 o Ho two v) as [G2 V2]; [apply (good_mk false two); unfold two; lia|exact G|rewrite value_two; apply (small_ok _ 2); [lia|rewrite Rabs_mult, (Rabs_pos_eq 2) by lra; change (bpow radix2 2) with 4%R; lra]|]. split; [exact G2|]. rewrite V2, value_two.
  destruct (mag radix2 (value F64 v)) as (e & M). specialize (M ltac:(intros Z1; rewrite Z1, Rabs_R0 in L; pose proof (bpow_gt_0 radix2 (-500)); lra)).
  assert (-500 < e) by (apply (lt_bpow radix2); lra). destruct (grid64 v (e - 1) G ltac:(lra)) as (m & Em).
  apply (grid_exact (e - 1 - 52 + 1)); [lia|exists m; rewrite Em, bpow_plus; change (bpow radix2 1) with 2%R; ring|]. rewrite Rabs_mult, (Rabs_pos_eq 2) by lra. replace (e - 1 - 52 + 1 + 53) with (1 + e) by lia. rewrite bpow_plus. change (bpow radix2 1) with 2%R. lra.
Qed.
Lemma acos_neg z (Z0 := value F64 z) : good z -> (bpow radix2 (-54) <= Z0 <= / 4)%R -> exists s, hsqrt o z = Ok s /\
  within (5 / 4) (o_mul o two (o_sub o PIO2_HI (o_add o s (o_sub o (o_mul o (comp_r o z) s) PIO2_LO)))) (PI - 2 * asin (sqrt Z0)).
Proof using Ho.
  intros G B. pose proof u53_small as US. pose proof (bpow_gt_0 radix2 (-54)) as P54. destruct (root_ok o Ho z G B) as (s & Es & Gs & Vs & _). fold Z0 in Vs. exists s. split; [exact Es|].
  destruct (sqrt_bounds Z0 ltac:(lra)) as [T TT]. set (t := sqrt Z0) in *.
  destruct (scan_ok AP chkN 0 (2 ^ 76) 4 Z0 scanN ltac:(discriminate)) as (a & b & CN & Hab). { change (0 + 2 ^ 76 * Z.of_nat 4) with (2 ^ 78). rewrite fx_0, fx_80 by lia. change (bpow radix2 (78 - 80)) with (/ 4)%R. lra. }
  apply andb_prop in CN. destruct CN as [Ha CN]. apply Z.leb_le in Ha. destruct (root_env a b z s Ha G Gs ltac:(fold Z0; lra) Hab Vs) as [RL _]. fold Z0 t in RL.
  pose proof (chk_ok o Ho _ _ _ pgN _ _ _ CN RL) as Q. cbv zeta in Q. change (length (env2 a b) + length pgN - 1)%nat with 3%nat in Q.
  change (nth 3 (fprog o [z; s] pgN) 0) with (o_add o s (o_sub o (o_mul o (comp_r o z) s) PIO2_LO)) in Q.
  change (nth 3 (rprog [Z0; t] pgN) 0%R) with (t + (Rr Z0 * t - value F64 PIO2_LO))%R in Q. set (A := o_add o s _) in *. destruct Q as (GA & BA & EA).
  pose proof (asin_root Z0 ltac:(lra)) as AR. fold t in AR. pose proof pi_parts as PP. destruct hh_val as (EH & BH & BL). pose proof (rr_bound z G ltac:(fold Z0; lra)) as RB. fold Z0 in RB.
  assert (fx AP 161000000 <= 1.2 * u53)%R as E5 by (apply fx_u; lra). assert (t * (0.094 * u53) <= / 2 * (0.094 * u53))%R by (apply Rmult_le_compat_r; lra). assert (t * Rr Z0 <= t * 0.056)%R by (apply Rmult_le_compat_l; lra). assert (- (/ 255 * t) <= t * Rr Z0)%R by nra.
  apply Rabs_le_inv in EA, AR, PP. set (y := (PI / 2 - asin t)%R). assert (Rabs (value F64 PIO2_HI - value F64 A - y) <= 1.5 * u53)%R as E by (unfold y; apply Rabs_le; lra). assert (1 <= y <= 1.6)%R as Hy by (unfold y; lra).
  assert (E' := Rabs_le_inv _ _ E). destruct (sub64 o Ho PIO2_HI A good_HI GA) as [Gv Vv]; [apply (small_ok _ 1); [lia|change (bpow radix2 1) with 2%R; apply Rabs_le; lra]|]. set (v := o_sub o PIO2_HI A) in *.
  assert (Rabs (value F64 v - (value F64 PIO2_HI - value F64 A)) <= u53)%R as R1. { rewrite Vv. apply (rne_error64 1); [change (bpow radix2 1) with 2%R; apply Rabs_lt; lra|lia]. } apply Rabs_le_inv in R1.
  destruct (double_val v Gv) as [[D1 D2] D3]; [apply Rabs_le; lra|rewrite Rabs_pos_eq by lra; apply Rle_trans with (bpow radix2 (-1)); [apply bpow_le; lia|change (bpow radix2 (-1)) with (/ 2)%R; lra]|].
  split; [exact D1|]. split; [exact D2|]. rewrite D3. replace (PI - 2 * asin t)%R with (2 * y)%R by (unfold y; field).
  pose proof (ulp64_ge 2 (2 * y)) as U. change (2 - 53) with (2 + -53) in U. rewrite bpow_plus in U. change (bpow radix2 2) with 4%R in U. fold u53 in U. rewrite Rabs_pos_eq in U by lra. change (bpow radix2 (2 - 1)) with 2%R in U. specialize (U ltac:(lra)). apply Rabs_le. lra.
Qed.
Lemma acos_small x (X := value F64 x) : good x -> (Rabs X <= / 2)%R -> within (5 / 4) (o_sub o PIO2_HI (o_sub o x (o_sub o PIO2_LO (o_mul o x (comp_r o (o_mul o x x)))))) (acos X).
Proof using Ho.
  intros G B. pose proof u53_small as US. assert (B' := Rabs_le_inv _ _ B). assert (0 <= X * X <= / 4)%R as Z by nra.
  destruct (mul64 o Ho x x G G) as [Gz Vz]; [fold X; apply (small_ok _ 0); [lia|rewrite Rabs_pos_eq by lra; change (bpow radix2 0) with 1%R; lra]|]. fold X in Vz. set (z := o_mul o x x) in *.
  assert (Rabs (value F64 z - X * X) <= bpow radix2 (-56) /\ 0 <= value F64 z <= / 4)%R as [Ez Bz].
  { assert (VE := valid_e). assert (rne F64 (/ 4) = / 4)%R as E4 by (replace (/ 4)%R with (IZR 1 * bpow radix2 (-2))%R by (change (bpow radix2 (-2)) with (/ 4)%R; ring); apply rne_exact64; lia).
    assert (rne F64 0 <= rne F64 (X * X) <= rne F64 (/ 4))%R as L by (unfold rne; split; apply round_le; auto with typeclass_instances; lra). rewrite E4, FloatErr.rne_0, <- Vz in L. split; [|exact L]. rewrite Vz.
    destruct (Rlt_le_dec (X * X) (/ 4)) as [l|l]; [apply (rne_error64 (-2)); [rewrite Rabs_pos_eq by lra; exact l|lia]|]. assert (X * X = / 4)%R as -> by lra. rewrite E4, Rminus_eq_0, Rabs_R0. apply bpow_ge_0. }
  assert (rel AP envC [z; x] [(X * X)%R; X]) as RL.
  { apply (rel_app AP [_] [z] [(X * X)%R]); [apply (rel_app AP [] [] []); [apply rel_nil|]|].
    - apply okv_of; [exact Gz| |rewrite fx_80 by lia; exact Ez]. rewrite fx_0, fx_80 by lia. change (bpow radix2 (78 - 80)) with (/ 4)%R. exact Bz.
    - apply okv_exact; [exact G|]. fold X. rewrite fx_opp, fx_80 by lia. change (bpow radix2 (79 - 80)) with (/ 2)%R. lra. }
  pose proof (chk_ok o Ho _ _ _ pgC _ _ _ scanC RL) as Q. cbv zeta in Q. change (length envC + length pgC - 1)%nat with 3%nat in Q.
  change (nth 3 (fprog o [z; x] pgC) 0) with (o_sub o x (o_sub o PIO2_LO (o_mul o x (comp_r o z)))) in Q.
  change (nth 3 (rprog [(X * X)%R; X] pgC) 0%R) with (X - (value F64 PIO2_LO - X * Rr (X * X)))%R in Q. set (A := o_sub o x _) in *. destruct Q as (GA & BA & EA). rewrite fx_opp, fx_80 in BA by lia. change (bpow radix2 (80 - 80)) with 1%R in BA.
  pose proof (asin_R X B) as AR. pose proof pi_parts as PP. destruct hh_val as (EH & BH & BL).
  destruct (comp_ok o Ho z (X * X) Gz Bz Ez) as (_ & Er & Br). apply Rabs_le_inv in Er.
  assert (bpow radix2 (-57) = / 16 * u53)%R as E57 by (unfold u53; change (-57) with (-4 + -53); rewrite bpow_plus; reflexivity). rewrite E57 in AR.
  assert (fx AP 161000000 <= 1.2 * u53)%R as E5 by (apply fx_u; lra). assert (Rabs X * (3 / 2 * (/ 16 * u53)) <= / 2 * (3 / 2 * (/ 16 * u53)))%R by (apply Rmult_le_compat_r; lra).
  assert (Rabs (X * Rr (X * X)) <= / 2 * 0.056)%R as XR. { rewrite Rabs_mult. apply Rmult_le_compat; [apply Rabs_pos|apply Rabs_pos|exact B|apply Rabs_le; lra]. } apply Rabs_le_inv in XR.
  rewrite acos_asin by lra. apply Rabs_le_inv in EA, AR, PP. apply near_one; [exact good_HI|exact GA| |apply Rabs_le; lra]. lra.
Qed.
Lemma ulp64_double y : (bpow radix2 (-500) <= Rabs y)%R -> ulp64 (2 * y) = (2 * ulp64 y)%R.
Proof using.
  clear. intros H. assert (y <> 0)%R as N by (intros E; rewrite E, Rabs_R0 in H; pose proof (bpow_gt_0 radix2 (-500)); lra). unfold ulp64. rewrite !ulp_neq_0 by lra. unfold cexp, FLT_exp. rewrite (Rmult_comm 2). change 2%R with (bpow radix2 1) at 1. rewrite mag_mult_bpow by exact N.
  assert (-500 < mag radix2 y) as M by (apply mag_gt_bpow; exact H). change (prec F64) with 53. change (emin F64) with (-1074). rewrite !Z.max_l by lia. replace (mag radix2 y + 1 - 53) with (1 + (mag radix2 y - 53)) by lia. rewrite bpow_plus. reflexivity.
Qed.
Lemma acos_pos z (Z0 := value F64 z) : good z -> (bpow radix2 (-54) <= Z0 <= / 4)%R -> exists s, hsqrt o z = Ok s /\
  let f := Z.land s 0xffffffff00000000 in let c := o_div o (o_sub o z (o_mul o f f)) (o_add o s f) in let w := o_add o (o_mul o (comp_r o z) s) c in
  within (5 / 4) (o_mul o two (o_add o f w)) (2 * asin (sqrt Z0)).
Proof using Ho.
  intros G B. pose proof u53_small as US. pose proof (bpow_gt_0 radix2 (-54)) as P54. destruct (root_ok o Ho z G B) as (s & Es & Gs & Vs & Gf & MF & Bf). fold Z0 in Vs. exists s. split; [exact Es|]. cbv zeta. set (f := Z.land s 0xffffffff00000000) in *.
  assert (bpow radix2 (-60) <= Z0)%R as Z60 by (pose proof (bpow_le radix2 (-60) (-54) ltac:(lia)); lra).
  destruct (correction o Ho z s f G Gs Gf ltac:(fold Z0; lra) Vs MF Bf) as (Gc & Ec & Bc). fold Z0 in Ec, Bc. set (c := o_div o (o_sub o z (o_mul o f f)) (o_add o s f)) in *.
  destruct (sqrt_bounds Z0 ltac:(lra)) as [T TT]. set (S := value F64 s) in *. set (F := value F64 f) in *. set (t := sqrt Z0) in *.
  assert (bpow radix2 (-30) <= t)%R as T2. { unfold t. replace (bpow radix2 (-30)) with (sqrt (bpow radix2 (-60))); [apply sqrt_le_1; pose proof (bpow_gt_0 radix2 (-60)); lra|]. change (-60) with (-30 + -30). rewrite bpow_plus. apply sqrt_square. apply bpow_ge_0. }
  assert (Rabs (S - t) <= u53 * t)%R as DS. { rewrite Vs. pose proof (rne_rel t) as Q. rewrite (Rabs_pos_eq t) in Q by lra. apply Q. eapply Rle_trans; [|exact T2]. apply bpow_le. lia. }
  assert (DS' := Rabs_le_inv _ _ DS). assert (0 <= u53 * t <= / 1000000000000000 * t)%R as UT by (split; [nra|apply Rmult_le_compat_r; lra]).
  destruct (comp_ok o Ho z Z0 G ltac:(fold Z0; lra)) as (Gr & Er & Br); [fold Z0; rewrite Rminus_eq_0, Rabs_R0; apply bpow_ge_0|]. set (r := value F64 (comp_r o z)) in *. pose proof (rr_bound z G ltac:(fold Z0; lra)) as RB. fold Z0 in RB. set (R1 := Rr Z0) in *.
  set (k := bpow radix2 (-1075)). assert (0 < k)%R as K0 by apply bpow_gt_0.
  assert (k <= / 1000000 * (u53 * t))%R as K1. { unfold k. apply Rle_trans with (bpow radix2 (-20) * (bpow radix2 (-53) * bpow radix2 (-30)))%R; [rewrite <- !bpow_plus; apply bpow_le; lia|]. fold u53. change (bpow radix2 (-20)) with (/ 1048576)%R. assert (u53 * bpow radix2 (-30) <= u53 * t)%R by (apply Rmult_le_compat_l; lra). pose proof (bpow_gt_0 radix2 (-30)). nra. }
  assert (Rabs (r * S - R1 * t) <= 0.43 * (u53 * t))%R as E1.
  { replace (r * S - R1 * t)%R with ((r - R1) * S + R1 * (S - t))%R by ring. eapply Rle_trans; [apply Rabs_triang|]. rewrite !Rabs_mult. assert (Rabs (r - R1) * Rabs S <= 0.373 * u53 * (1.001 * t))%R by (apply Rmult_le_compat; [apply Rabs_pos|apply Rabs_pos|exact Er|rewrite Rabs_pos_eq; lra]). assert (Rabs R1 * Rabs (S - t) <= 0.056 * (u53 * t))%R by (apply Rmult_le_compat; [apply Rabs_pos|apply Rabs_pos|apply Rabs_le; lra|exact DS]). lra. }
  assert (Rabs (r * S) <= 0.0551 * t)%R as BrS. { rewrite Rabs_mult. apply Rle_trans with (0.055 * (1.001 * t))%R; [|lra]. apply Rmult_le_compat; [apply Rabs_pos|apply Rabs_pos|apply Rabs_le; lra|rewrite Rabs_pos_eq; lra]. }
  destruct (mul64 o Ho (comp_r o z) s Gr Gs) as [Gm Vm]; [fold r S; apply (small_ok _ 0); [lia|change (bpow radix2 0) with 1%R; lra]|]. fold r S in Vm. set (m := o_mul o (comp_r o z) s) in *.
  pose proof (rne_abs (r * S)) as A1. rewrite <- Vm in A1. fold u53 k in A1. assert (u53 * Rabs (r * S) <= u53 * (0.0551 * t))%R by (apply Rmult_le_compat_l; lra).
  assert (bpow radix2 (-69) = / 65536 * u53)%R as E69 by (unfold u53; change (-69) with (-16 + -53); rewrite bpow_plus; reflexivity). rewrite E69 in Ec. change (bpow radix2 (-19)) with (/ 524288)%R in Bc. apply Rabs_le_inv in A1, Ec, Bc, E1, BrS.
  destruct (add64 o Ho m c Gm Gc) as [Gw Vw]; [apply (small_ok _ 0); [lia|change (bpow radix2 0) with 1%R; apply Rabs_le; lra]|]. set (w := o_add o m c) in *.
  pose proof (rne_abs (value F64 m + value F64 c)) as A2. rewrite <- Vw in A2. fold u53 k in A2. assert (Rabs (value F64 m + value F64 c) <= 0.0552 * t)%R as Bmc by (apply Rabs_le; lra). assert (u53 * Rabs (value F64 m + value F64 c) <= u53 * (0.0552 * t))%R by (apply Rmult_le_compat_l; lra). apply Rabs_le_inv in A2.
  pose proof (asin_root Z0 ltac:(lra)) as AR. fold t R1 in AR. set (y := asin t) in *. apply Rabs_le_inv in AR.
  assert (Rabs (F + value F64 w - y) <= 0.66 * (u53 * t))%R as E by (apply Rabs_le; lra). assert (- (/ 255 * t) <= t * R1 <= 0.056 * t)%R as TR by (clear - T RB; clearbody R1 t; nra). assert (0.99 * t <= y <= 1.1 * t)%R as Hy by lra. assert (E' := Rabs_le_inv _ _ E).
  destruct (add64 o Ho f w Gf Gw) as [Gv Vv]; [fold F; apply (small_ok _ 0); [lia|change (bpow radix2 0) with 1%R; apply Rabs_le; lra]|]. fold F in Vv. set (v := o_add o f w) in *.
  assert (bpow radix2 (-500) <= / 4 * t)%R as TL. { apply Rle_trans with (bpow radix2 (-2) * bpow radix2 (-30))%R; [rewrite <- bpow_plus; apply bpow_le; lia|]. change (bpow radix2 (-2)) with (/ 4)%R. lra. }
  assert (Rabs (value F64 v - y) <= 5 / 4 * ulp64 y)%R as W.
  { rewrite Vv. replace (5 / 4)%R with (3 / 4 + / 2)%R by lra. apply final_round; [rewrite Rabs_pos_eq by lra; pose proof (bpow_le radix2 (-1022) (-500) ltac:(lia)); lra| |lra]. pose proof (ulp64_rel y) as U. fold u53 in U. rewrite Rabs_pos_eq in U by lra. assert (u53 * (0.99 * t) <= u53 * y)%R by (apply Rmult_le_compat_l; lra). lra. }
  assert (Rabs (value F64 v - (F + value F64 w)) <= 2 * (u53 * t))%R as RV. { rewrite Vv. eapply Rle_trans; [apply rne_abs|]. fold u53 k. assert (u53 * Rabs (F + value F64 w) <= u53 * (1.2 * t))%R by (apply Rmult_le_compat_l; [lra|apply Rabs_le; lra]). lra. } apply Rabs_le_inv in RV.
  destruct (double_val v Gv) as [[D1 D2] D3]; [apply Rabs_le; lra|rewrite Rabs_pos_eq by lra; lra|]. split; [exact D1|]. split; [exact D2|]. rewrite D3, ulp64_double by (rewrite Rabs_pos_eq by lra; lra). replace (2 * value F64 v - 2 * y)%R with (2 * (value F64 v - y))%R by ring. rewrite Rabs_mult, (Rabs_pos_eq 2) by lra. lra.
Qed.
(** Arguments below 1/2 *)
Lemma asin_small x (X := value F64 x) : good x -> (bpow radix2 (-27) <= Rabs X <= / 2)%R -> within (5 / 4) (o_add o x (o_mul o x (comp_r o (o_mul o x x)))) (asin X).
Proof using Ho.
  intros G [L B]. pose proof u53_small as US. assert (B' := Rabs_le_inv _ _ B). assert (0 <= X * X <= / 4)%R as Z by nra.
  destruct (mul64 o Ho x x G G) as [Gz Vz]; [fold X; apply (small_ok _ 0); [lia|rewrite Rabs_pos_eq by lra; change (bpow radix2 0) with 1%R; lra]|]. fold X in Vz. set (z := o_mul o x x) in *.
  assert (Rabs (value F64 z - X * X) <= bpow radix2 (-56) /\ 0 <= value F64 z <= / 4)%R as [Ez Bz].
  { assert (VE := valid_e). assert (rne F64 (/ 4) = / 4)%R as E4 by (replace (/ 4)%R with (IZR 1 * bpow radix2 (-2))%R by (change (bpow radix2 (-2)) with (/ 4)%R; ring); apply rne_exact64; lia).
    assert (rne F64 0 <= rne F64 (X * X) <= rne F64 (/ 4))%R as L' by (unfold rne; split; apply round_le; auto with typeclass_instances; lra). rewrite E4, FloatErr.rne_0, <- Vz in L'. split; [|exact L']. rewrite Vz.
    destruct (Rlt_le_dec (X * X) (/ 4)) as [l|l]; [apply (rne_error64 (-2)); [rewrite Rabs_pos_eq by lra; exact l|lia]|]. assert (X * X = / 4)%R as -> by lra. rewrite E4, Rminus_eq_0, Rabs_R0. apply bpow_ge_0. }
  destruct (comp_ok o Ho z (X * X) Gz Bz Ez) as (Gr & Er & Br). set (r := value F64 (comp_r o z)) in *. set (R1 := Rr (X * X)) in *.
  set (a := Rabs X) in *. assert (0 < a)%R as A0 by (pose proof (bpow_gt_0 radix2 (-27)); lra).
  set (k := bpow radix2 (-1075)). assert (0 < k)%R as K0 by apply bpow_gt_0.
  assert (k <= / 1000000 * (u53 * a))%R as K1. { unfold k. apply Rle_trans with (bpow radix2 (-20) * (bpow radix2 (-53) * bpow radix2 (-27)))%R; [rewrite <- !bpow_plus; apply bpow_le; lia|]. fold u53. change (bpow radix2 (-20)) with (/ 1048576)%R. assert (u53 * bpow radix2 (-27) <= u53 * a)%R by (apply Rmult_le_compat_l; lra). pose proof (bpow_gt_0 radix2 (-27)). nra. }
  assert (Rabs (X * r) <= 0.055 * a)%R as BX. { rewrite Rabs_mult. fold a. rewrite (Rmult_comm a). apply Rmult_le_compat_r; [lra|apply Rabs_le; lra]. }
  destruct (mul64 o Ho x (comp_r o z) G Gr) as [Gm Vm]; [fold X r; apply (small_ok _ 0); [lia|change (bpow radix2 0) with 1%R; lra]|]. fold X r in Vm. set (m := o_mul o x (comp_r o z)) in *.
  pose proof (rne_abs (X * r)) as A1. rewrite <- Vm in A1. fold u53 k in A1. assert (u53 * Rabs (X * r) <= u53 * (0.055 * a))%R by (apply Rmult_le_compat_l; lra).
  pose proof (asin_R X B) as AR. fold R1 a in AR. assert (bpow radix2 (-57) = / 16 * u53)%R as E57 by (unfold u53; change (-57) with (-4 + -53); rewrite bpow_plus; reflexivity). rewrite E57 in AR.
  assert (Rabs (X * r - X * R1) <= 0.373 * (u53 * a))%R as E1. { replace (X * r - X * R1)%R with (X * (r - R1))%R by ring. rewrite Rabs_mult. fold a. replace (0.373 * (u53 * a))%R with (a * (0.373 * u53))%R by ring. apply Rmult_le_compat_l; lra. }
  set (y := asin X) in *. assert (Rabs (X + value F64 m - y) <= 0.6 * (u53 * a))%R as E. { apply Rabs_le_inv in A1, AR, E1. apply Rabs_le. lra. }
  assert (0.9 * a <= Rabs y)%R as Hy. { assert (Rabs (X + value F64 m) >= 0.94 * a)%R as Q. { pose proof (Rabs_triang_inv X (- value F64 m)) as T. rewrite Rabs_Ropp in T. unfold Rminus in T. rewrite Ropp_involutive in T. fold a in T. pose proof (Rabs_triang (value F64 m - X * r) (X * r)) as T2. replace (value F64 m - X * r + X * r)%R with (value F64 m) in T2 by ring. assert (u53 * a <= / 1000000000000000 * a)%R by (apply Rmult_le_compat_r; lra). lra. }
    pose proof (Rabs_triang (X + value F64 m - y) y) as T3. replace (X + value F64 m - y + y)%R with (X + value F64 m)%R in T3 by ring. assert (u53 * a <= / 1000000000000000 * a)%R by (apply Rmult_le_compat_r; lra). lra. }
  destruct (add64 o Ho x m G Gm) as [[G1 G2] V]. { fold X. apply (small_ok _ 1); [lia|]. change (bpow radix2 1) with 2%R. assert (u53 * a <= / 1000000000000000 * a)%R by (apply Rmult_le_compat_r; lra). apply Rabs_le_inv in A1, BX. apply Rabs_le. lra. }
  split; [exact G1|]. split; [exact G2|]. rewrite V. fold X. replace (5 / 4)%R with (3 / 4 + / 2)%R by lra. apply final_round; [| |lra].
  - apply Rle_trans with (bpow radix2 (-1 + -27)); [apply bpow_le; lia|]. rewrite bpow_plus. change (bpow radix2 (-1)) with (/ 2)%R. lra.
  - pose proof (ulp64_rel y) as U. fold u53 in U. assert (u53 * (0.9 * a) <= u53 * Rabs y)%R by (apply Rmult_le_compat_l; lra). lra.
Qed.
End Cases.
