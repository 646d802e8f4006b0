(** Accuracy of log1p: the final sum and the correction term. *)
From Coq Require Import ZArith Reals Bool List Lia Lra Psatz.
From Flocq Require Import Core Sterbenz Plus_error Mult_error.
From Verif Require Import Base BaseLemmas FloatModel FloatSpec FloatProofs FloatConvSpec LibmModel LibmSpec Elem FloatErr PolyBound ElemModel ElemSpec F64Lib
  ExpProofs3 ExpProofs4 ExpProofs5 ExpProofs6 ExpProofs7 ExpProofs8 LogProofs LogProofs2 LogProofs3 LogProofs4 HypotProofs3 TrigRed TrigLg11 Log1pModel.
Import ListNotations.
Open Scope Z_scope.

Local Instance valid64 : Valid_exp (FLT_exp (emin F64) (prec F64)).
Proof. apply FLT_exp_valid. exact Hp64. Qed.

(** ln (1 + q) = q up to 2 q^2. *)
Lemma ln_near q : (Rabs q <= / 2 -> Rabs (ln (1 + q) - q) <= 2 * (q * q))%R.
Proof.
  intros H. apply Rabs_le_inv in H. pose proof (ln_upper q ltac:(lra)) as U.
  assert (L : (q - 2 * (q * q) <= ln (1 + q))%R).
  { assert (E : (ln (/ (1 + q)) = - ln (1 + q))%R) by (apply ln_Rinv; lra).
    pose proof (ln_upper (- (q / (1 + q)))) as U2. replace (1 + - (q / (1 + q)))%R with (/ (1 + q))%R in U2 by (field; lra).
    assert (P : (-1 < - (q / (1 + q)))%R).
    { assert (0 < / (1 + q))%R by (apply Rinv_0_lt_compat; lra). replace (/ (1 + q))%R with (1 - q / (1 + q))%R in H0 by (field; lra). lra. }
    specialize (U2 P). rewrite E in U2. enough (q - 2 * (q * q) <= q / (1 + q))%R by lra.
    apply Rmult_le_reg_r with (1 + q)%R; [lra|]. replace (q / (1 + q) * (1 + q))%R with q by (field; lra). assert (0 <= q * q)%R by nra. assert (0 <= q * q * (1 + 2 * q))%R by (apply Rmult_le_pos; lra). lra. }
  apply Rabs_le. nra.
Qed.

Section Main.
Context (o : fops) (Ho : ieee_ops F64 o) (c : icast) (Hc : icast_ok c).

Lemma log1p_main_eq f cc k : log1p_main o c f cc k = o_add o (nth 9 (lprog o f (o_mul o half f) (o_add o (o_mul o (c_ofi c k) LN2LO) cc)) 0) (o_mul o (c_ofi c k) LN2HI).
Proof. reflexivity. Qed.

(** The low part of k ln 2 with the correction added. *)
Lemma log1p_low k cc q (l := o_add o (o_mul o (c_ofi c k) LN2LO) cc) : Z.abs k <= 1100 -> good cc -> (Rabs q <= bpow radix2 (-52))%R -> (Rabs (value F64 cc - ln (1 + q)) <= bpow radix2 (-103))%R ->
  good l /\ (Rabs (value F64 l) <= bpow radix2 (-22))%R /\ (Rabs (value F64 l - (IZR k * (ln 2 - value F64 LN2HI) + ln (1 + q))) <= bpow radix2 (-74))%R.
Proof using Ho Hc.
  intros Hk Gc Bq Ec. destruct (ofi64 c Hc k ltac:(lia)) as [Gk Vk]. destruct (log_k o Ho c Hc k Hk) as (_ & _ & G2 & _).
  assert (K1 : (Rabs (IZR k) <= 1100)%R) by (rewrite <- abs_IZR; apply IZR_le; exact Hk).
  pose proof ln2_split as SP. pose proof LN2HI_num as VH. pose proof LN2LO_num as VL.
  set (HI := value F64 LN2HI) in *. set (LO := value F64 LN2LO) in *.
  assert (KL : (Rabs (IZR k * LO) <= 1100 * 0.00000000019083)%R) by (rewrite Rabs_mult, (Rabs_pos_eq LO) by lra; apply Rmult_le_compat; try apply Rabs_pos; lra).
  assert (p22 : bpow radix2 (-22) = (/ 4194304)%R) by reflexivity.
  assert (KL' : (Rabs (IZR k * LO) < bpow radix2 (-22))%R) by (rewrite p22; lra).
  assert (KD : (Rabs (IZR k * (ln 2 - (HI + LO))) <= 1100 * bpow radix2 (-86))%R) by (rewrite Rabs_mult; apply Rmult_le_compat; try apply Rabs_pos; assumption).
  destruct (mul64 o Ho (c_ofi c k) LN2LO Gk good_LN2LO) as [_ V2].
  { rewrite Vk. fold LO. left. eapply Rlt_le_trans; [exact KL'|]. apply bpow_le. lia. }
  rewrite Vk in V2. fold LO in V2. pose proof (rne_error64 (-22) _ KL' ltac:(lia)) as E1. rewrite <- V2 in E1. change (-22 - 54) with (-76) in E1.
  set (l1 := o_mul o (c_ofi c k) LN2LO) in *.
  assert (Bn : (Rabs (ln (1 + q)) <= bpow radix2 (-51))%R).
  { pose proof (small64 (-52) ltac:(lia)). pose proof (ln_near q ltac:(lra)) as N. apply Rabs_le_inv in N, Bq.
    assert (q * q <= bpow radix2 (-52) / 4)%R by nra. change (-51) with (1 + -52). rewrite bpow_plus. change (bpow radix2 1) with 2%R. apply Rabs_le. lra. }
  pose proof (small64 (-51) ltac:(lia)) as s51. pose proof (small64 (-76) ltac:(lia)) as s76. pose proof (small64 (-103) ltac:(lia)) as s103.
  apply Rabs_le_inv in Bn. apply Rabs_le_inv in Ec as Ec'. apply Rabs_le_inv in E1 as E1'. apply Rabs_le_inv in KL as KL2.
  assert (BS : (Rabs (value F64 l1 + value F64 cc) < bpow radix2 (-22))%R) by (rewrite p22; apply Rabs_lt; lra).
  destruct (add64 o Ho l1 cc G2 Gc) as [Gl Vl]; [left; eapply Rlt_le_trans; [exact BS|]; apply bpow_le; lia|]. fold l in Gl, Vl.
  split; [exact Gl|]. split.
  - rewrite Vl. apply abs_round_le_generic; [auto with typeclass_instances..|apply generic_format_bpow; vm_compute; discriminate|left; exact BS].
  - pose proof (rne_error64 (-22) _ BS ltac:(lia)) as R. rewrite <- Vl in R. change (-22 - 54) with (-76) in R.
    apply Rabs_le_inv in R. apply Rabs_le_inv in KD.
    assert (q1 : bpow radix2 (-74) = (4 * bpow radix2 (-76))%R) by (change (-74) with (2 + -76); rewrite bpow_plus; reflexivity).
    assert (q2 : bpow radix2 (-76) = (1024 * bpow radix2 (-86))%R) by (change (-76) with (10 + -86); rewrite bpow_plus; reflexivity).
    assert (q3 : (bpow radix2 (-103) <= bpow radix2 (-86))%R) by (apply bpow_le; lia). pose proof (bpow_gt_0 radix2 (-86)).
    replace (IZR k * (ln 2 - HI) + ln (1 + q))%R with (IZR k * LO + IZR k * (ln 2 - (HI + LO)) + ln (1 + q))%R by ring. apply Rabs_le. lra.
Qed.

(** The sum before its last rounding, for a nonzero exponent. *)
Lemma log1p_sum x cc k q (X := value F64 x) (r := log1p_main o c (o_sub o x one) cc k) (Y := (ln X + IZR k * ln 2 + ln (1 + q))%R) :
  0x3fe6a09e00000000 <= x < 0x3ff6a09e00000000 -> Z.abs k <= 1100 -> k <> 0 -> good cc -> (Rabs q <= bpow radix2 (-52))%R -> (Rabs (value F64 cc - ln (1 + q)) <= bpow radix2 (-103))%R ->
  good r /\ (0.34 <= Rabs Y)%R /\ exists v, value F64 r = rne F64 v /\ (Rabs (v - Y) <= bpow radix2 (-54))%R.
Proof using Ho Hc.
  intros Hx Hk nk Gc Bq Ec. destruct (log_x_range x Hx) as [G B]. fold X in B. destruct (log_f o Ho x G B) as (Gf & Vf & Gh & Vh & NZ). fold X in Vf, Vh, NZ.
  destruct (log_k o Ho c Hc k Hk) as (G1 & V1 & _). destruct (log1p_low k cc q Hk Gc Bq Ec) as (G2 & V2 & V3). unfold r. rewrite log1p_main_eq.
  set (f := o_sub o x one) in *. set (hf := o_mul o half f) in *. set (l := o_add o (o_mul o (c_ofi c k) LN2LO) cc) in *. set (h := o_mul o (c_ofi c k) LN2HI) in *.
  pose proof (lnX_bounds X B) as BL.
  assert (Bn : (Rabs (ln (1 + q)) <= / 1000000000)%R).
  { pose proof (small64 (-52) ltac:(lia)). pose proof (ln_near q ltac:(lra)) as N. apply Rabs_le_inv in N, Bq.
    assert (q * q <= / 1000000000000000)%R by nra. apply Rabs_le. lra. }
  destruct (log_coreT o Ho f hf l (IZR k * (ln 2 - value F64 LN2HI) + ln (1 + q)) Gf Gh G2) as [GT ET]; rewrite ?Vf; try assumption; [lra|].
  rewrite Vf in ET. replace (1 + (X - 1))%R with X in ET by ring. set (T := nth 9 (lprog o f hf l) 0) in *.
  assert (YB : (0.34 <= Rabs Y <= 1000)%R).
  { apply Rabs_le_inv in Bn. assert (K2 : (Rabs (IZR k) <= 1100)%R) by (rewrite <- abs_IZR; apply IZR_le; exact Hk). apply Rabs_le_inv in K2. pose proof ln2_num as L2.
    assert (D : (IZR k <= -1 \/ 1 <= IZR k)%R) by (destruct (Z_lt_ge_dec k 0); [left|right]; apply IZR_le; lia). unfold Y.
    split; [|apply Rabs_le; split; nra]. destruct D; [rewrite Rabs_left|rewrite Rabs_pos_eq]; nra. }
  assert (E2 : (Rabs (value F64 T + value F64 h - Y) <= bpow radix2 (-54))%R).
  { rewrite V1. unfold Y. replace (value F64 T + IZR k * value F64 LN2HI - (ln X + IZR k * ln 2 + ln (1 + q)))%R with (value F64 T - (ln X + (IZR k * (ln 2 - value F64 LN2HI) + ln (1 + q))))%R by ring. exact ET. }
  destruct (add64 o Ho T h GT G1) as [GR VR].
  { apply Rle_trans with (bpow radix2 11); [change (bpow radix2 11) with 2048%R|apply bpow_le; lia]. apply Rabs_le. pose proof (small64 (-54) ltac:(lia)). destruct YB as [_ YB]. apply Rabs_le_inv in E2. apply Rabs_le_inv in YB. lra. }
  split; [exact GR|]. split; [apply YB|]. exists (value F64 T + value F64 h)%R. split; [exact VR|exact E2].
Qed.

(** Without reduction: 1 + x between sqrt(2)/2 and sqrt(2). *)
Lemma log1p_direct x (X := value F64 x) (r := log1p_main o c x 0 0) : good x -> (-0.293 <= X <= 0.4144)%R -> (bpow radix2 (-53) <= Rabs X)%R ->
  within (3 / 2) r (ln (1 + X)).
Proof using Ho Hc.
  intros G B NZ. destruct (log_k o Ho c Hc 0 ltac:(lia)) as (G1 & V1 & G2 & _ & _ & V4). specialize (V4 eq_refl). rewrite Rmult_0_l in V1.
  assert (S : forall y, (Rabs y <= 2000 -> Rabs y <= bpow radix2 100)%R).
  { intros y H. apply Rle_trans with (bpow radix2 11); [change (bpow radix2 11) with 2048%R; lra|]. apply bpow_le. lia. }
  assert (Bh : (Rabs (/ 2 * X) <= 1)%R) by (apply Rabs_le; lra).
  destruct (mul64 o Ho half x good_half G) as [Gh Vh]; [rewrite value_half; apply S; fold X; lra|]. rewrite value_half in Vh. fold X in Vh.
  assert (EH : rne F64 (/ 2 * X) = (X / 2)%R).
  { unfold rne. replace (/ 2 * X)%R with (X * bpow radix2 (-1))%R by (change (bpow radix2 (-1)) with (/ 2)%R; ring). rewrite round_generic; [change (bpow radix2 (-1)) with (/ 2)%R; reflexivity|auto with typeclass_instances|].
    apply mult_bpow_exact_FLT; [apply format64; apply G|]. change (emin F64) with (-1074). change (prec F64) with 53.
    assert (-53 < mag radix2 X); [|lia]. apply mag_gt_bpow. exact NZ. }
  rewrite EH in Vh.
  destruct (add64 o Ho _ 0 G2 good_zero) as [Gl Vl]; [rewrite V4, value_zero; apply S; rewrite Rplus_0_r, Rabs_R0; lra|].
  rewrite V4, value_zero, Rplus_0_r in Vl. replace (rne F64 0) with 0%R in Vl by (symmetry; apply round_0; auto with typeclass_instances).
  unfold r. rewrite log1p_main_eq.
  set (hf := o_mul o half x) in *. set (l := o_add o (o_mul o (c_ofi c 0) LN2LO) 0) in *. set (h := o_mul o (c_ofi c 0) LN2HI) in *.
  destruct (log_core0 o Ho x hf l G Gh Gl) as [GA EA]; try assumption. fold X in EA.
  rewrite lprog_9. set (A := nth 8 (lprog o x hf l) 0) in *.
  assert (BL : (-0.5 <= ln (1 + X) <= 0.5)%R).
  { split; [|pose proof (ln_upper X ltac:(lra)); lra]. pose proof (ln_near X ltac:(apply Rabs_le; lra)) as N. apply Rabs_le_inv in N. nra. }
  assert (U : (ulp64 (ln (1 + X)) <= 1)%R).
  { apply Rle_trans with (ulp64 (bpow radix2 0)).
    - apply ulp_le; [auto with typeclass_instances..|]. change (bpow radix2 0) with 1%R. rewrite (Rabs_pos_eq 1) by lra. apply Rabs_le. lra.
    - unfold ulp64. rewrite ulp_bpow. change 1%R with (bpow radix2 0). apply bpow_le. vm_compute. discriminate. }
  apply Rabs_le_inv in EA as EA2.
  destruct (add64 o Ho A x GA G) as [GT VT]; [fold X; apply S, Rabs_le; lra|]. fold X in VT.
  assert (R1 : (Rabs (rne F64 (value F64 A + X) - ln (1 + X)) <= 3 / 2 * ulp64 (ln (1 + X)))%R).
  { replace (3 / 2)%R with (1 + / 2)%R by field. apply final_round; [|lra|lra]. apply Rle_trans with (bpow radix2 (-53) * / 2)%R; [change (/ 2)%R with (bpow radix2 (-1)); rewrite <- bpow_plus; apply bpow_le; lia|].
    destruct (Rle_lt_dec 0 X) as [p|p].
    - rewrite (Rabs_pos_eq X) in NZ by exact p. pose proof (ln_lower X ltac:(lra)). rewrite Rabs_pos_eq; lra.
    - rewrite (Rabs_left X) in NZ by exact p. pose proof (ln_upper X ltac:(lra)). rewrite Rabs_left; [|lra]. pose proof (bpow_gt_0 radix2 (-53)). lra. }
  destruct (add64 o Ho (o_add o A x) h GT G1) as [GR VR]; [rewrite V1, VT, Rplus_0_r; apply S, Rabs_le; apply Rabs_le_inv in R1; lra|].
  split; [apply GR|]. split; [apply GR|]. rewrite VR, V1, Rplus_0_r, (rne_value _ (proj1 GT) (proj2 GT)), VT. exact R1.
Qed.

(** 1 + x does not overflow. *)
Lemma add_one x (X := value F64 x) (u := o_add o one x) : good x -> (-1 <= X)%R -> good u /\ value F64 u = rne F64 (1 + X).
Proof using Ho.
  intros G B. pose proof (format64 x (proj1 G) (proj2 G)) as FX. fold X in FX.
  assert (M : (X <= bpow radix2 1024 - bpow radix2 971)%R).
  { assert (L : (X < bpow radix2 1024)%R).
    { destruct (good_split x G) as (s & n & E & Hn). pose proof (mag_nonneg64 n ltac:(lia)). pose proof (mag_lt64 n INF ltac:(lia)).
      replace (bpow radix2 1024) with (mag64 INF). 2:{ unfold mag64. change (V F64 INF) with (2 ^ 2098). rewrite (IZR_Zpower radix2) by lia. rewrite <- bpow_plus. reflexivity. }
      unfold X. rewrite E, value64 by lia. destruct s; lra. }
    eapply Rle_trans; [apply (pred_ge_gt radix2 (FLT_exp (emin F64) (prec F64)) X (bpow radix2 1024)); [exact FX|apply generic_format_bpow; vm_compute; discriminate|exact L]|].
    rewrite pred_bpow. apply Rle_refl. }
  assert (B1 : (Rabs (1 + X) < bpow radix2 1024)%R).
  { assert (bpow radix2 1 <= bpow radix2 971)%R by (apply bpow_le; lia). change (bpow radix2 1) with 2%R in H. rewrite Rabs_pos_eq; lra. }
  assert (B2 : (Rabs (rne F64 (1 + X)) < bpow radix2 1024)%R).
  { pose proof (rne_error64 1024 _ B1 ltac:(lia)) as E. change (1024 - 54) with 970 in E. apply Rabs_le_inv in E.
    assert (q : bpow radix2 971 = (2 * bpow radix2 970)%R) by (change 971 with (1 + 970); rewrite bpow_plus; reflexivity).
    assert (bpow radix2 0 < bpow radix2 970)%R by (apply bpow_lt; lia). change (bpow radix2 0) with 1%R in H.
    assert (bpow radix2 970 < bpow radix2 1024)%R by (apply bpow_lt; lia). apply Rabs_lt. lra. }
  destruct (ops_add F64 o Ho one x (proj1 good_one) (proj1 G)) as (Fr & _ & _ & _ & _ & C). specialize (C (proj2 good_one) (proj2 G)). rewrite value_one in C. fold X u in C.
  destruct C as (_ & _ & V). rewrite Rlt_bool_true in V by exact B2. fold u in Fr. split; [split; [exact Fr|apply V]|apply V].
Qed.

Lemma fmt_rne v : generic_format radix2 (FLT_exp (emin F64) (prec F64)) v -> rne F64 v = v.
Proof. intros H. unfold rne. apply round_generic; [auto with typeclass_instances|exact H]. Qed.

(** The rounding error of 1 + x is a float, and is computed exactly. *)
Lemma add_err x (X := value F64 x) (U := rne F64 (1 + X)) : good x -> generic_format radix2 (FLT_exp (emin F64) (prec F64)) (1 + X - U).
Proof.
  intros G. pose proof (format64 x (proj1 G) (proj2 G)) as FX. fold X in FX. pose proof (format64 one (proj1 good_one) (proj2 good_one)) as F1. rewrite value_one in F1.
  replace (1 + X - U)%R with (- (U - (1 + X)))%R by ring. apply generic_format_opp. unfold U, rne. apply plus_error; auto with typeclass_instances.
Qed.

Lemma log1p_corr_ok x u k (X := value F64 x) (U := value F64 u) (d := (1 + X - U)%R) : good x -> good u -> U = rne F64 (1 + X) -> k < 54 ->
  (bpow radix2 (-60) <= 1 + X)%R -> (U <= bpow radix2 60)%R -> ((X <= - / 4)%R /\ k <= 1 \/ (1 <= U < 3)%R /\ k <= 1 \/ (1.5 <= X)%R /\ 2 <= k) ->
  good (log1p_corr o x u k) /\ (Rabs (d / U) <= bpow radix2 (-52))%R /\ (Rabs (value F64 (log1p_corr o x u k) - ln (1 + d / U)) <= bpow radix2 (-103))%R.
Proof using Ho.
  intros G Gu EU Hk B1 B2 HB.
  assert (V1 : (bpow radix2 (-1022) <= Rabs (1 + X))%R) by (rewrite Rabs_pos_eq by (pose proof (bpow_gt_0 radix2 (-60)); lra); eapply Rle_trans; [|exact B1]; apply bpow_le; lia).
  pose proof (rne_rel (1 + X) V1) as RD. rewrite <- EU in RD. rewrite (Rabs_pos_eq (1 + X)) in RD by (pose proof (bpow_gt_0 radix2 (-60)); lra).
  pose proof (bpow_gt_0 radix2 (-60)) as p60. assert (u53 : bpow radix2 (-53) = (/ 9007199254740992)%R) by reflexivity.
  apply Rabs_le_inv in RD as RD'. rewrite u53 in RD'.
  assert (UP : (0 < U)%R) by lra.
  assert (s60 : (bpow radix2 60 <= bpow radix2 90)%R) by (apply bpow_le; lia). assert (s1 : (4 <= bpow radix2 60)%R) by (change 4%R with (bpow radix2 2); apply bpow_le; lia).
  assert (sm : forall y, (Rabs y <= 4 * bpow radix2 60 -> Rabs y <= bpow radix2 100)%R).
  { intros y H. eapply Rle_trans; [exact H|]. change 4%R with (bpow radix2 2). rewrite <- bpow_plus. apply bpow_le. lia. }
  assert (EE : good (if 2 <=? k then o_sub o one (o_sub o u x) else o_sub o x (o_sub o u one)) /\ value F64 (if 2 <=? k then o_sub o one (o_sub o u x) else o_sub o x (o_sub o u one)) = d).
  { pose proof (add_err x G) as AE. fold X in AE. rewrite <- EU in AE. fold d in AE.
    pose proof (format64 x (proj1 G) (proj2 G)) as FX. fold X in FX. pose proof (format64 u (proj1 Gu) (proj2 Gu)) as FU. fold U in FU.
    destruct (Z.leb_spec 2 k) as [K2|K2].
    - assert (HX : (1.5 <= X)%R) by (destruct HB as [[_ ?]|[[_ ?]|[? _]]]; [lia|lia|assumption]).
      assert (FS : generic_format radix2 (FLT_exp (emin F64) (prec F64)) (U - X)) by (apply sterbenz; auto with typeclass_instances; lra).
      destruct (sub64 o Ho u x Gu G) as [Ga Va]; [fold X U; apply sm, Rabs_le; lra|]. fold X U in Va. rewrite fmt_rne in Va by exact FS.
      destruct (sub64 o Ho one (o_sub o u x) good_one Ga) as [Gb Vb]; [rewrite Va, value_one; apply sm, Rabs_le; lra|]. rewrite Va, value_one in Vb.
      replace (1 - (U - X))%R with d in Vb by (unfold d; ring). rewrite fmt_rne in Vb by exact AE. split; assumption.
    - assert (FS : rne F64 (U - 1) = (U - 1)%R).
      { destruct HB as [[HX _]|[[HU _]|[_ ?]]]; [| |lia].
        - destruct (Rle_lt_dec (- / 2) X) as [L|L].
          + assert (U2 : (bpow radix2 (-1) <= U)%R).
            { rewrite EU. unfold rne. apply round_ge_generic; [auto with typeclass_instances..|apply generic_format_bpow; vm_compute; discriminate|change (bpow radix2 (-1)) with (/ 2)%R; lra]. }
            change (bpow radix2 (-1)) with (/ 2)%R in U2. apply fmt_rne. apply sterbenz; auto with typeclass_instances; [|lra]. pose proof (format64 one (proj1 good_one) (proj2 good_one)) as F1. rewrite value_one in F1. exact F1.
          + assert (generic_format radix2 (FLT_exp (emin F64) (prec F64)) (1 + X)).
            { replace (1 + X)%R with (1 - - X)%R by ring. apply sterbenz; auto with typeclass_instances; [|apply generic_format_opp, FX|lra].
              pose proof (format64 one (proj1 good_one) (proj2 good_one)) as F1. rewrite value_one in F1. exact F1. }
            rewrite fmt_rne in EU by exact H. rewrite EU. replace (1 + X - 1)%R with X by ring. apply fmt_rne, FX.
        - destruct (multiple64 u 0 Gu) as (m & Em); [fold U; rewrite Rabs_pos_eq by lra; apply HU|]. fold U in Em. change (0 - 52) with (-52) in Em.
          assert (E1 : (U - 1 = IZR (m - 2 ^ 52) * bpow radix2 (-52))%R).
          { rewrite minus_IZR, Rmult_minus_distr_r, <- Em, (IZR_Zpower radix2) by lia. rewrite <- bpow_plus. reflexivity. }
          rewrite E1. apply rne_exact64; [|lia]. apply le_IZR. rewrite abs_IZR. apply Rmult_le_reg_r with (bpow radix2 (-52)); [apply bpow_gt_0|].
          rewrite <- (Rabs_pos_eq (bpow radix2 (-52))) at 1 by apply bpow_ge_0. rewrite <- Rabs_mult, <- E1, (IZR_Zpower radix2) by lia. rewrite <- bpow_plus.
          change (bpow radix2 (53 + -52)) with 2%R. apply Rabs_le. lra. }
      assert (HX : (-1 <= X <= 4)%R) by (destruct HB as [[? _]|[[? _]|[_ ?]]]; [lra|lra|lia]).
      destruct (sub64 o Ho u one Gu good_one) as [Ga Va]; [fold U; rewrite value_one; apply sm, Rabs_le; lra|]. fold U in Va. rewrite value_one, FS in Va.
      destruct (sub64 o Ho x (o_sub o u one) G Ga) as [Gb Vb]; [rewrite Va; fold X; apply sm, Rabs_le; lra|]. rewrite Va in Vb. fold X in Vb.
      replace (X - (U - 1))%R with d in Vb by (unfold d; ring). rewrite fmt_rne in Vb by exact AE. split; assumption. }
  unfold log1p_corr. destruct (Z.ltb_spec k 54); [|lia]. destruct EE as [Ge Ve].
  set (ee := if 2 <=? k then o_sub o one (o_sub o u x) else o_sub o x (o_sub o u one)) in *.
  assert (Q : (Rabs (d / U) <= 1.5 * bpow radix2 (-53))%R).
  { unfold Rdiv. rewrite Rabs_mult, (Rabs_pos_eq (/ U)) by (left; apply Rinv_0_lt_compat; lra). apply Rmult_le_reg_r with U; [exact UP|]. rewrite Rmult_assoc, Rinv_l, Rmult_1_r by lra.
    replace d with (- (U - (1 + X)))%R by (unfold d; ring). rewrite Rabs_Ropp. eapply Rle_trans; [exact RD|]. rewrite u53. lra. }
  assert (q52 : bpow radix2 (-52) = (2 * bpow radix2 (-53))%R) by (change (-52) with (1 + -53); rewrite bpow_plus; reflexivity). pose proof (bpow_gt_0 radix2 (-53)) as p53.
  assert (Q1 : (Rabs (d / U) < bpow radix2 (-52))%R) by lra.
  destruct (div64 o Ho ee u Ge Gu) as [Gr Vr]; [fold U; lra|rewrite Ve; fold U; eapply Rle_trans; [left; exact Q1|]; apply bpow_le; lia|]. rewrite Ve in Vr. fold U in Vr.
  split; [exact Gr|]. split; [lra|]. pose proof (rne_error64 (-52) _ Q1 ltac:(lia)) as E1. rewrite <- Vr in E1. change (-52 - 54) with (-106) in E1.
  pose proof (small64 (-52) ltac:(lia)) as s52. pose proof (ln_near (d / U) ltac:(lra)) as N.
  assert (QQ : (d / U * (d / U) <= 2.25 * bpow radix2 (-106))%R).
  { replace (2.25 * bpow radix2 (-106))%R with (1.5 * bpow radix2 (-53) * (1.5 * bpow radix2 (-53)))%R by (change (-106) with (-53 + -53); rewrite bpow_plus; lra). rewrite <- (Rabs_pos_eq (d / U * (d / U))) by nra. rewrite Rabs_mult.
    apply Rmult_le_compat; try apply Rabs_pos; lra. }
  assert (q3 : bpow radix2 (-103) = (8 * bpow radix2 (-106))%R) by (change (-103) with (3 + -106); rewrite bpow_plus; reflexivity).
  pose proof (bpow_gt_0 radix2 (-106)) as p106.
  apply Rabs_le_inv in N, E1. apply Rabs_le. lra.
Qed.
End Main.
