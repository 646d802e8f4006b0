(** log1p: argument reduction on the bits, and the special cases. *)
From Coq Require Import ZArith Reals Bool List Lia Lra Psatz.
From Flocq Require Import Core.
From Verif Require Import Base BaseLemmas FloatModel FloatSpec FloatProofs FloatConvSpec LibmModel LibmSpec Elem FloatErr PolyBound ElemModel ElemSpec F64Lib
  ExpProofs3 ExpProofs4 ExpProofs5 ExpProofs6 ExpProofs7 ExpProofs8 LogProofs LogProofs2 LogProofs3 LogProofs4 HypotProofs3 TrigRed TrigLg11 Log1pModel Log1pProofs.
Open Scope Z_scope.

Lemma ln_tiny q : (Rabs q <= / 100 -> Rabs (ln (1 + q) - q) <= 1.02 * (q * q))%R.
Proof.
  intros H. apply Rabs_le_inv in H. pose proof (ln_upper q ltac:(lra)) as U.
  assert (L : (q - 1.02 * (q * q) <= ln (1 + q))%R).
  { assert (E : (ln (/ (1 + q)) = - ln (1 + q))%R) by (apply ln_Rinv; lra).
    pose proof (ln_upper (- (q / (1 + q)))) as U2. replace (1 + - (q / (1 + q)))%R with (/ (1 + q))%R in U2 by (field; lra).
    assert (P : (-1 < - (q / (1 + q)))%R).
    { assert (0 < / (1 + q))%R by (apply Rinv_0_lt_compat; lra). replace (/ (1 + q))%R with (1 - q / (1 + q))%R in H0 by (field; lra). lra. }
    specialize (U2 P). rewrite E in U2. enough (q - 1.02 * (q * q) <= q / (1 + q))%R by lra.
    apply Rmult_le_reg_r with (1 + q)%R; [lra|]. replace (q / (1 + q) * (1 + q))%R with q by (field; lra). assert (0 <= q * q)%R by nra. assert (0 <= q * q * (0.02 + 1.02 * q))%R by (apply Rmult_le_pos; lra). lra. }
  assert (0 <= q * q)%R by nra. apply Rabs_le. lra.
Qed.

Section Log1p.
Context (o : fops) (Ho : ieee_ops F64 o) (c : icast) (Hc : icast_ok c).

Lemma log1p_reduce_eq x (n := o_add o one x) (N := n + 0x95f62 * 2 ^ 32) (y := N mod 2 ^ 52 + 0x3fe6a09e * 2 ^ 32) (e := N / 2 ^ 52 - 0x3ff) : 0 <= n < INF ->
  log1p_reduce o c x = Ok (log1p_main o c (o_sub o y one) (log1p_corr o x n e) e).
Proof.
  intros H. destruct (log_bits n H) as (_ & Hx & He). fold N in Hx, He. fold e in He. fold y in Hx.
  assert (HW : high_word n = n / 2 ^ 32) by (replace n with (mk64 false n) at 1 by (unfold mk64; cbn [b2z]; lia); rewrite high_mk by lia; cbn [b2z]; lia).
  assert (HN : n / 2 ^ 32 + 0x95f62 = N / 2 ^ 32) by (unfold N; rewrite Z.div_add by lia; reflexivity).
  assert (B : 0 <= N / 2 ^ 32 < 2 ^ 31) by (split; [apply Z.div_pos; unfold N; lia|apply Z.div_lt_upper_bound; unfold N; lia]).
  assert (E1 : N / 2 ^ 32 / 2 ^ 20 = N / 2 ^ 52) by (rewrite Z.div_div by lia; reflexivity).
  assert (L : Z.land (N / 2 ^ 32) 0x000fffff = (N / 2 ^ 32) mod 2 ^ 20) by (change 0xfffff with (Z.ones 20); apply Z.land_ones; lia).
  assert (L2 : Z.land n 0xffffffff = n mod 2 ^ 32) by (change 0xffffffff with (Z.ones 32); apply Z.land_ones; lia).
  pose proof (Z.mod_pos_bound (N / 2 ^ 32) (2 ^ 20) ltac:(lia)) as M20. pose proof (Z.mod_pos_bound n (2 ^ 32) ltac:(lia)) as M32.
  assert (X : N mod 2 ^ 52 = (N / 2 ^ 32) mod 2 ^ 20 * 2 ^ 32 + n mod 2 ^ 32).
  { assert (Q : n mod 2 ^ 32 = N mod 2 ^ 32) by (unfold N; rewrite Z.mod_add by lia; reflexivity). rewrite Q.
    pose proof (Z.div_mod N (2 ^ 32) ltac:(lia)). pose proof (Z.div_mod N (2 ^ 52) ltac:(lia)). pose proof (Z.div_mod (N / 2 ^ 32) (2 ^ 20) ltac:(lia)). lia. }
  unfold log1p_reduce. cbv zeta. fold n. rewrite HW. change (0x3ff00000 - 0x3fe6a09e) with 0x95f62.
  rewrite cadd_u by (rewrite HN; lia). cbn [bind]. rewrite HN, Z.shiftr_div_pow2, E1, L, L2 by lia.
  rewrite norm_id by (cbn [bits SI]; lia || (apply fits_s; unfold e in He; lia)).
  replace (csub (SI 32) (N / 2 ^ 52) 0x3ff) with (Ok e) by (symmetry; apply chk_ok, fits_s; fold e; lia). cbn [bind]. rewrite cadd_u by lia. cbn [bind].
  rewrite cshl_u_exact by lia. cbn [bind]. f_equal. f_equal.
  unfold y. rewrite X. rewrite Z.lor_comm, lor_add_low by lia. f_equal. lia.
Qed.

Lemma log1p_reduce_ok x (X := value F64 x) : good x -> (-1 < X <= -0.2928936 \/ 0.4142136 <= X)%R ->
  exists r, log1p_reduce o c x = Ok r /\ within (3 / 2) r (ln (1 + X)).
Proof using Ho Hc.
  intros G HX. destruct (add_one o Ho x G ltac:(fold X; lra)) as [Gu EU]. fold X in EU. set (u := o_add o one x) in *. set (U := value F64 u) in *.
  assert (B1 : (bpow radix2 (-53) <= 1 + X)%R).
  { destruct (Rle_lt_dec X (- / 2)) as [L|L].
    - destruct (multiple64 x (-1) G) as (m & Em); [fold X; rewrite Rabs_left by lra; change (bpow radix2 (-1)) with (/ 2)%R; lra|]. fold X in Em. change (-1 - 52) with (-53) in Em.
      assert (E1 : (1 + X = IZR (m + 2 ^ 53) * bpow radix2 (-53))%R).
      { rewrite plus_IZR, Rmult_plus_distr_r, <- Em, (IZR_Zpower radix2) by lia. rewrite <- bpow_plus. change (bpow radix2 (53 + -53)) with 1%R. ring. }
      rewrite E1. pose proof (bpow_gt_0 radix2 (-53)) as p. assert (M : 0 < m + 2 ^ 53).
      { apply lt_IZR. apply Rmult_lt_reg_r with (bpow radix2 (-53)); [exact p|]. rewrite <- E1. lra. }
      rewrite <- (Rmult_1_l (bpow radix2 (-53))) at 1. apply Rmult_le_compat_r; [lra|]. apply IZR_le. lia.
    - pose proof (small64 (-53) ltac:(lia)). lra. }
  assert (u53 : bpow radix2 (-53) = (/ 9007199254740992)%R) by reflexivity.
  assert (V1 : (bpow radix2 (-1022) <= Rabs (1 + X))%R) by (rewrite Rabs_pos_eq by (pose proof (bpow_gt_0 radix2 (-53)); lra); eapply Rle_trans; [|exact B1]; apply bpow_le; lia).
  pose proof (rne_rel (1 + X) V1) as RD. rewrite <- EU in RD. rewrite (Rabs_pos_eq (1 + X)) in RD by (pose proof (bpow_gt_0 radix2 (-53)); lra).
  apply Rabs_le_inv in RD as RD'. rewrite u53 in RD', B1. assert (UP : (/ 9007199254740992 / 2 <= U)%R) by lra.
  destruct (good_split u Gu) as (s & n & En & Hn).
  assert (EV : u = n /\ mag64 n = U).
  { unfold U. rewrite En, value64 by lia. pose proof (mag_nonneg64 n ltac:(lia)). assert (Q := UP). unfold U in Q. rewrite En, value64 in Q by lia. destruct s; [lra|]. split; [unfold mk64; cbn [b2z]; lia|reflexivity]. }
  destruct EV as [Eu EM]. clear s En.
  assert (N52 : 2 ^ 52 <= n).
  { destruct (Z_le_gt_dec (2 ^ 52) n) as [L|L]; [exact L|]. pose proof (mag_lt64 n (2 ^ 52) ltac:(lia)) as Q.
    assert (E : mag64 (2 ^ 52) = bpow radix2 (-1022)).
    { unfold mag64. change (V F64 (2 ^ 52)) with (2 ^ 52). rewrite (IZR_Zpower radix2) by lia. rewrite <- bpow_plus. reflexivity. }
    assert (bpow radix2 (-1022) <= bpow radix2 (-54))%R by (apply bpow_le; lia). change (bpow radix2 (-54)) with (/ 18014398509481984)%R in *. lra. }
  rewrite log1p_reduce_eq by (fold u; lia). fold u. rewrite !Eu. eexists. split; [reflexivity|].
  destruct (log_bits n ltac:(lia)) as (Ex & Hx & He). set (NN := n + 0x95f62 * 2 ^ 32) in *.
  set (y := NN mod 2 ^ 52 + 0x3fe6a09e * 2 ^ 32) in *. set (e := NN / 2 ^ 52 - 0x3ff) in *.
  destruct (log_x_range y Hx) as [Gy By]. set (W := value F64 y) in *.
  assert (EW : U = (W * bpow radix2 e)%R) by (rewrite <- EM, Ex, mag_shift by lia; unfold W; rewrite <- mag_value by lia; reflexivity).
  assert (LU : (ln U = ln W + IZR e * ln 2)%R) by (rewrite EW, ln_mult by (lra || apply bpow_gt_0); rewrite ln_bpow; ring).
  assert (CE : (X <= -0.2928936)%R /\ e <= -1 \/ (0.4142136 <= X)%R /\ 1 <= e).
  { destruct HX as [HX|HX]; [left|right]; (split; [lra|]).
    - assert (n < 0x3fe6a09e00000000).
      { destruct (Z_lt_ge_dec n 0x3fe6a09e00000000) as [L|L]; [exact L|exfalso]. pose proof (mag_ge 0x3fe6a09e00000000 0x16a09e00000000 53 n ltac:(vm_compute; reflexivity) ltac:(lia) ltac:(lia)) as Q.
        unfold fx in Q. change (bpow radix2 (- (53))) with (/ 9007199254740992)%R in Q. rewrite EM in Q. lra. }
      assert (NN / 2 ^ 52 < 0x3ff) by (apply Z.div_lt_upper_bound; unfold NN; lia). unfold e. lia.
    - assert (0x3ff6a09e00000000 <= n).
      { destruct (Z_le_gt_dec 0x3ff6a09e00000000 n) as [L|L]; [exact L|exfalso]. pose proof (mag_lt 0x3ff6a09e00000000 0x16a09e00000000 52 n ltac:(vm_compute; reflexivity) ltac:(lia) ltac:(lia)) as Q.
        unfold fx in Q. change (bpow radix2 (- (52))) with (/ 4503599627370496)%R in Q. rewrite EM in Q. lra. }
      assert (0x400 <= NN / 2 ^ 52) by (apply Z.div_le_lower_bound; unfold NN; lia). unfold e. lia. }
  set (d := (1 + X - U)%R).
  assert (Q : (Rabs (d / U) <= 1.5 * bpow radix2 (-53))%R).
  { unfold Rdiv. rewrite Rabs_mult, (Rabs_pos_eq (/ U)) by (left; apply Rinv_0_lt_compat; lra). apply Rmult_le_reg_r with U; [lra|]. rewrite Rmult_assoc, Rinv_l, Rmult_1_r by lra.
    replace d with (- (U - (1 + X)))%R by (unfold d; ring). rewrite Rabs_Ropp. eapply Rle_trans; [exact RD|]. rewrite u53. lra. }
  assert (EL : (ln (1 + X) = ln W + IZR e * ln 2 + ln (1 + d / U))%R).
  { rewrite <- LU, <- ln_mult; [f_equal; unfold d; field; lra|lra|]. rewrite u53 in Q. apply Rabs_le_inv in Q. lra. }
  destruct (Z_lt_ge_dec e 54) as [Le|Ge].
  - destruct (log1p_corr_ok o Ho x n e) as (Gc & Bq & Ec); rewrite <- ?Eu; try assumption; fold X U.
    + rewrite <- u53 in B1. eapply Rle_trans; [|exact B1]. apply bpow_le. lia.
    + destruct CE as [[CX Ce]|[CX Ce]].
      * change 4%R with (bpow radix2 2). apply Rle_trans with 1%R; [lra|]. change 1%R with (bpow radix2 0). apply bpow_le. lia.
      * rewrite EW. apply Rle_trans with (bpow radix2 1 * bpow radix2 53)%R; [|rewrite <- bpow_plus; apply bpow_le; lia]. apply Rmult_le_compat; [lra|apply bpow_ge_0|change (bpow radix2 1) with 2%R; lra|apply bpow_le; lia].
    + destruct CE as [[CX Ce]|[CX Ce]]; [left; split; [lra|lia]|right]. destruct (Z.eq_dec e 1) as [E1|E1].
      * left. split; [|lia]. rewrite E1 in EW. change (bpow radix2 1) with 2%R in EW. lra.
      * right. split; [|lia]. assert (bpow radix2 2 <= bpow radix2 e)%R by (apply bpow_le; lia). change (bpow radix2 2) with 4%R in H. assert (2.8 <= U)%R by (rewrite EW; nra). lra.
    + assert (VU : value F64 n = U) by (rewrite <- Eu; reflexivity). rewrite VU in Bq, Ec. fold X d in Bq, Ec. rewrite Eu. set (cc := log1p_corr o x n e) in *.
      destruct (log1p_sum o Ho c Hc y cc e (d / U) Hx ltac:(lia) ltac:(lia) Gc Bq Ec) as (Gr & YB & v & Vr & Ev). fold W in YB, Ev. rewrite <- EL in YB, Ev.
      split; [apply Gr|]. split; [apply Gr|]. rewrite Vr. replace (3 / 2)%R with (1 + / 2)%R by field. apply final_round; [| |lra].
      * apply Rle_trans with (bpow radix2 (-2)); [apply bpow_le; lia|]. change (bpow radix2 (-2)) with (/ 4)%R. lra.
      * assert (T : (bpow radix2 (-54) <= ulp64 (ln (1 + X)))%R) by (apply (ulp64_ge (-1)); change (bpow radix2 (-1 - 1)) with (/ 4)%R; lra). lra.
  - assert (C0 : log1p_corr o x n e = 0) by (unfold log1p_corr; destruct (Z.ltb_spec e 54); [lia|reflexivity]). rewrite C0.
    assert (L1 : ln (1 + 0) = 0%R) by (rewrite Rplus_0_r; apply ln_1).
    destruct (log1p_sum o Ho c Hc y 0 e 0 Hx ltac:(lia) ltac:(lia) good_zero) as (Gr & YB & v & Vr & Ev).
    { rewrite Rabs_R0. apply bpow_ge_0. } { rewrite value_zero, L1, Rminus_0_r, Rabs_R0. apply bpow_ge_0. }
    fold W in YB, Ev. rewrite L1, Rplus_0_r in YB, Ev.
    pose proof (ln_near (d / U)) as LN. assert (Q2 := Q). rewrite u53 in Q2. specialize (LN ltac:(lra)).
    assert (LB : (Rabs (ln (1 + d / U)) <= bpow radix2 (-52))%R).
    { assert (QQ : (d / U * (d / U) <= / 1000000000 * Rabs (d / U))%R).
      { rewrite <- (Rabs_pos_eq (d / U * (d / U))) by nra. rewrite Rabs_mult. apply Rmult_le_compat_r; [apply Rabs_pos|lra]. }
      assert (q52 : bpow radix2 (-52) = (2 * bpow radix2 (-53))%R) by (change (-52) with (1 + -53); rewrite bpow_plus; reflexivity). rewrite q52, u53. clear - QQ LN Q2.
      set (q := (d / U)%R) in *. apply Rabs_le_inv in LN. pose proof (Rle_abs q). pose proof (Rle_abs (- q)) as H1. rewrite Rabs_Ropp in H1. apply Rabs_le. lra. }
    assert (YL : (32 <= ln (1 + X))%R).
    { rewrite EL. pose proof (lnX_bounds W By). pose proof ln2_num. assert (54 <= IZR e)%R by (apply IZR_le; lia). pose proof (small64 (-52) ltac:(lia)). apply Rabs_le_inv in LB. nra. }
    assert (UL : (bpow radix2 (-47) <= ulp64 (ln (1 + X)))%R) by (apply (ulp64_ge 6); rewrite Rabs_pos_eq by lra; exact YL).
    split; [apply Gr|]. split; [apply Gr|]. rewrite Vr. replace (3 / 2)%R with (1 + / 2)%R by field. apply final_round; [| |lra].
    + apply Rle_trans with (bpow radix2 0); [apply bpow_le; lia|]. change (bpow radix2 0) with 1%R. rewrite Rabs_pos_eq; lra.
    + eapply Rle_trans; [|rewrite Rmult_1_l; exact UL]. rewrite EL. apply Rabs_le_inv in Ev, LB.
      assert (q1 : bpow radix2 (-52) = (4 * bpow radix2 (-54))%R) by (change (-52) with (2 + -54); rewrite bpow_plus; reflexivity).
      assert (q2 : bpow radix2 (-47) = (128 * bpow radix2 (-54))%R) by (change (-47) with (7 + -54); rewrite bpow_plus; reflexivity). pose proof (bpow_gt_0 radix2 (-54)). apply Rabs_le. lra.
Qed.

(** An argument below 2^-53 is its own logarithm. *)
Lemma log1p_tiny x (X := value F64 x) : good x -> (Rabs X <= bpow radix2 (-53))%R -> within (3 / 2) x (ln (1 + X)).
Proof.
  intros G B. split; [apply G|]. split; [apply G|]. fold X. assert (u53 : bpow radix2 (-53) = (/ 9007199254740992)%R) by reflexivity.
  pose proof (ln_tiny X ltac:(rewrite u53 in B; lra)) as T. pose proof (ulp64_rel (ln (1 + X))) as R.
  assert (XX : (X * X <= bpow radix2 (-53) * Rabs X)%R) by (rewrite <- (Rabs_pos_eq (X * X)) by nra; rewrite Rabs_mult; apply Rmult_le_compat_r; [apply Rabs_pos|exact B]).
  assert (L : (0.99 * Rabs X <= Rabs (ln (1 + X)))%R).
  { rewrite u53 in XX. pose proof (Rabs_triang (ln (1 + X)) (X - ln (1 + X))) as Q. replace (ln (1 + X) + (X - ln (1 + X)))%R with X in Q by ring. rewrite (Rabs_minus_sym X) in Q. pose proof (Rabs_pos X). lra. }
  rewrite Rabs_minus_sym. pose proof (Rabs_pos X). rewrite u53 in *. lra.
Qed.

Lemma log1p_all x : is_float F64 x -> exists r, libm_log1p o c x = Ok r /\ is_float F64 r /\
  (is_nan F64 x -> is_nan F64 r) /\ (is_zero F64 x -> r = x) /\
  (is_finite F64 x -> value F64 x = (-1)%R -> r = 0xfff0000000000000) /\
  (is_finite F64 x -> (value F64 x < -1)%R -> is_nan F64 r) /\
  (is_inf F64 x -> if sign_of F64 x then is_nan F64 r else r = x) /\
  (is_finite F64 x -> (-1 < value F64 x)%R -> within (3 / 2) r (ln (1 + value F64 x))).
Proof using Ho Hc.
  intros F. destruct (split64 x F) as (s & n & E & Hn).
  assert (Z0 : is_zero F64 0) by (change 0 with (mk64 false 0); apply zero64; lia). assert (F0 : is_float F64 0) by apply good_zero.
  assert (GX : n < INF -> good x) by (intros L; split; [exact F|rewrite E; apply finite64; lia]).
  assert (V1 : mag64 one = 1%R) by (rewrite mag_value by (change one with 0x3ff0000000000000; lia); apply value_one).
  assert (CL : cshl (UI 32) 0x3ca00000 1 = Ok 0x79400000) by reflexivity.
  assert (H31 : 0 <= n / 2 ^ 32 < 2 ^ 31) by (split; [apply Z.div_pos; lia|apply Z.div_lt_upper_bound; lia]).
  assert (H1 : cshl (UI 32) (high_word x) 1 = Ok (2 * (n / 2 ^ 32))).
  { rewrite cshl_ok by (cbn [bits UI]; lia). rewrite norm_u, E, high_mk by lia. f_equal. replace ((b2z s * 2 ^ 31 + n / 2 ^ 32) * 2 ^ 1) with (2 * (n / 2 ^ 32) + b2z s * 2 ^ 32) by ring.
    rewrite Z.mod_add by lia. apply Z.mod_small. lia. }
  assert (HT : (2 * (n / 2 ^ 32) <? 0x79400000) = (n <? 0x3ca00000 * 2 ^ 32)).
  { rewrite (Z.ltb_antisym (0x3ca00000 * 2 ^ 32)), <- hx_leb. destruct (Z.ltb_spec (2 * (n / 2 ^ 32)) 0x79400000), (Z.leb_spec 0x3ca00000 (n / 2 ^ 32)); try reflexivity; lia. }
  assert (TB : n < 0x3ca00000 * 2 ^ 32 -> (mag64 n < bpow radix2 (-53))%R).
  { intros L. pose proof (mag_lt 0x3ca0000000000000 1 53 n ltac:(vm_compute; reflexivity) ltac:(lia) ltac:(lia)) as Q. unfold fx in Q. rewrite Rmult_1_l in Q. exact Q. }
  assert (TG : 0x3ca00000 * 2 ^ 32 <= n -> (bpow radix2 (-53) <= mag64 n)%R).
  { intros L. pose proof (mag_ge 0x3ca0000000000000 1 53 n ltac:(vm_compute; reflexivity) ltac:(lia) ltac:(lia)) as Q. unfold fx in Q. rewrite Rmult_1_l in Q. exact Q. }
  pose proof (mag_nonneg64 n ltac:(lia)) as MN.
  assert (AX : Rabs (value F64 x) = mag64 n) by (rewrite E, Rabs64 by lia; reflexivity).
  assert (XN : is_nan F64 x <-> INF < n) by (rewrite E; apply nan64; lia). assert (XZ : is_zero F64 x <-> n = 0) by (rewrite E; apply zero64; lia). assert (XI : is_inf F64 x <-> n = INF) by (rewrite E; apply isinf64; lia).
  (* a result for an argument above -1 *)
  assert (MAIN : forall r, (n < INF -> (-1 < value F64 x)%R) -> n < INF -> libm_log1p o c x = Ok r -> within (3 / 2) r (ln (1 + value F64 x)) -> (n = 0 -> r = x) -> exists r, libm_log1p o c x = Ok r /\ is_float F64 r /\
  (is_nan F64 x -> is_nan F64 r) /\ (is_zero F64 x -> r = x) /\
  (is_finite F64 x -> value F64 x = (-1)%R -> r = 0xfff0000000000000) /\
  (is_finite F64 x -> (value F64 x < -1)%R -> is_nan F64 r) /\
  (is_inf F64 x -> if sign_of F64 x then is_nan F64 r else r = x) /\
  (is_finite F64 x -> (-1 < value F64 x)%R -> within (3 / 2) r (ln (1 + value F64 x)))).
  { intros r HV L ER W NZ. specialize (HV L). exists r. split; [exact ER|]. split; [apply W|]. rewrite XN, XZ, XI. split; [lia|]. split; [exact NZ|].
    split; [intros; lra|]. split; [intros; lra|]. split; [lia|]. intros _ _. exact W. }
  destruct s.
  - assert (VX : value F64 x = (- mag64 n)%R) by (rewrite E, value64 by lia; reflexivity).
    assert (S1 : ((high_word x <? 0x3fda827a) || (0 <? Z.shiftr (high_word x) 31)) = true) by (rewrite E, high_sign by lia; apply orb_true_r).
    assert (C1 : (0xbff00000 <=? high_word x) = (one <=? n)).
    { rewrite E, high_mk by lia. cbn [b2z]. change one with (0x3ff00000 * 2 ^ 32). rewrite <- hx_leb. destruct (Z.leb_spec 0xbff00000 (1 * 2 ^ 31 + n / 2 ^ 32)), (Z.leb_spec 0x3ff00000 (n / 2 ^ 32)); try reflexivity; lia. }
    assert (C2 : (high_word x <=? 0xbfd2bec4) = (n <? 0x3fd2bec5 * 2 ^ 32)).
    { rewrite (Z.ltb_antisym (0x3fd2bec5 * 2 ^ 32)), <- hx_leb, E, high_mk by lia. cbn [b2z]. destruct (Z.leb_spec (1 * 2 ^ 31 + n / 2 ^ 32) 0xbfd2bec4), (Z.leb_spec 0x3fd2bec5 (n / 2 ^ 32)); try reflexivity; lia. }
    destruct (Z_le_gt_dec one n) as [GE|LT].
    + assert (UN : libm_log1p o c x = if o_eq o x neg_one then Ok (o_div o x 0) else Ok (o_div o (o_sub o x x) 0)).
      { unfold libm_log1p. cbv zeta. rewrite S1, C1. replace (one <=? n) with true by (symmetry; apply Z.leb_le; lia). reflexivity. }
      assert (GN : good neg_one) by const_good.
      assert (VN : value F64 neg_one = (-1)%R) by (change neg_one with (mk64 true one); rewrite value64, V1 by (change one with 0x3ff0000000000000; lia); lra).
      destruct (Z.eq_dec n one) as [E1|N1].
      * assert (G : good x) by (apply GX; rewrite E1; reflexivity).
        assert (EQ : o_eq o x neg_one = true).
        { apply (ops_eq F64 o Ho); [exact F|apply GN|]. split; [split; [rewrite E, nan64|change neg_one with (mk64 true one); rewrite nan64]; change one with 0x3ff0000000000000 in *; lia|].
          left. split; [apply G|]. split; [apply GN|]. rewrite VX, E1, V1, VN. lra. }
        rewrite EQ in UN. destruct (ops_div F64 o Ho x 0 F F0) as (Fr & _ & _ & D & _).
        destruct D as [II S]; [right; split; [apply G|split; [rewrite E, zero64 by lia; change one with 0x3ff0000000000000 in *; lia|exact Z0]]|].
        assert (R : o_div o x 0 = 0xfff0000000000000) by (apply neg_inf_bits; [exact Fr|exact II|rewrite S, E, sign64 by lia; reflexivity]).
        exists (o_div o x 0). split; [exact UN|]. split; [exact Fr|]. rewrite R, XN, XZ, XI.
        split; [change one with 0x3ff0000000000000 in *; lia|]. split; [change one with 0x3ff0000000000000 in *; lia|]. split; [reflexivity|]. split; [intros; rewrite VX, E1, V1 in *; lra|].
        split; [change one with 0x3ff0000000000000 in *; lia|]. intros. rewrite VX, E1, V1 in *. lra.
      * assert (NEQ : o_eq o x neg_one = false).
        { destruct (o_eq o x neg_one) eqn:Q; [|reflexivity]. apply (ops_eq F64 o Ho) in Q; [|exact F|apply GN]. destruct Q as [_ [(Q1 & _ & Q3)|(_ & Q2 & _)]].
          - rewrite VX, VN in Q3. pose proof (mag_lt64 one n ltac:(change one with 0x3ff0000000000000 in *; lia)). lra.
          - exfalso. change neg_one with (mk64 true one) in Q2. rewrite isinf64 in Q2 by (change one with 0x3ff0000000000000; lia). discriminate. }
        rewrite NEQ in UN. exists (o_div o (o_sub o x x) 0). split; [exact UN|]. destruct (ops_sub F64 o Ho x x F F) as (Fs & _).
        destruct (ops_div F64 o Ho (o_sub o x x) 0 Fs F0) as (Fr & A & B & _). split; [exact Fr|].
        assert (NN : is_nan F64 (o_div o (o_sub o x x) 0)).
        { destruct (sub_self o Ho x F) as [[Q _]|[Q _]]; [apply A; left; exact Q|]. apply B. right. rewrite Q. split; exact Z0. }
        pose proof (mag_lt64 one n ltac:(change one with 0x3ff0000000000000 in *; lia)) as ML.
        split; [intros _; exact NN|]. split; [rewrite XZ; change one with 0x3ff0000000000000 in *; lia|]. split; [intros; lra|]. split; [intros; exact NN|].
        split; [replace (sign_of F64 x) with true by (rewrite E, sign64 by lia; reflexivity); intros _; exact NN|]. intros; lra.
    + change one with 0x3ff0000000000000 in *. assert (G : good x) by (apply GX; lia). pose proof (mag_lt64 n 0x3ff0000000000000 ltac:(lia)) as ML. rewrite V1 in ML.
      assert (UN : libm_log1p o c x = if n <? 0x3ca00000 * 2 ^ 32 then Ok x else if n <? 0x3fd2bec5 * 2 ^ 32 then Ok (log1p_main o c x 0 0) else log1p_reduce o c x).
      { unfold libm_log1p. cbv zeta. rewrite S1, C1, C2. replace (_ <=? n) with false by (symmetry; apply Z.leb_gt; lia). rewrite H1, CL. cbn [bind]. rewrite HT. reflexivity. }
      destruct (Z.ltb_spec n (0x3ca00000 * 2 ^ 32)) as [L1|L1].
      * apply (MAIN x); [intros; lra|lia|exact UN|apply log1p_tiny; [exact G|rewrite AX; specialize (TB L1); lra]|tauto].
      * specialize (TG L1). destruct (Z.ltb_spec n (0x3fd2bec5 * 2 ^ 32)) as [L2|L2].
        -- apply (MAIN (log1p_main o c x 0 0)); [intros; lra|lia|exact UN| |lia]. apply (log1p_direct o Ho c Hc x G); [|rewrite AX; exact TG].
           pose proof (mag_lt 0x3fd2bec500000000 0x12bec500000000 54 n ltac:(vm_compute; reflexivity) ltac:(lia) ltac:(lia)) as Q. unfold fx in Q. change (bpow radix2 (- (54))) with (/ 18014398509481984)%R in Q. rewrite VX. lra.
        -- destruct (log1p_reduce_ok x G) as (r & ER & W).
           { left. pose proof (mag_ge 0x3fd2bec500000000 0x12bec500000000 54 n ltac:(vm_compute; reflexivity) ltac:(lia) ltac:(lia)) as Q. unfold fx in Q. change (bpow radix2 (- (54))) with (/ 18014398509481984)%R in Q. rewrite VX.
lra. }
           apply (MAIN r); [intros; lra|lia|rewrite UN; exact ER|exact W|lia].
  - assert (VX : value F64 x = mag64 n) by (rewrite E, value64 by lia; reflexivity).
    assert (HW : high_word x = n / 2 ^ 32) by (rewrite E, high_mk by lia; cbn [b2z]; lia).
    assert (S0 : (0 <? Z.shiftr (high_word x) 31) = false) by (rewrite E, high_sign by lia; reflexivity).
    assert (C1 : (high_word x <? 0x3fda827a) = (n <? 0x3fda827a * 2 ^ 32)) by (rewrite HW, !Z.ltb_antisym, hx_leb; reflexivity).
    destruct (Z_lt_ge_dec n (0x3fda827a * 2 ^ 32)) as [L|L].
    + assert (G : good x) by (apply GX; lia).
      assert (UN : libm_log1p o c x = if n <? 0x3ca00000 * 2 ^ 32 then Ok x else Ok (log1p_main o c x 0 0)).
      { unfold libm_log1p. cbv zeta. rewrite S0, C1, H1, CL. replace (n <? 0x3fda827a * 2 ^ 32) with true by (symmetry; apply Z.ltb_lt; lia). cbn [orb bind]. rewrite HW.
        replace (0xbff00000 <=? n / 2 ^ 32) with false by (symmetry; apply Z.leb_gt; lia). replace (n / 2 ^ 32 <=? 0xbfd2bec4) with true by (symmetry; apply Z.leb_le; lia). rewrite HT. reflexivity. }
      destruct (Z.ltb_spec n (0x3ca00000 * 2 ^ 32)) as [L1|L1].
      * apply (MAIN x); [intros; lra|lia|exact UN|apply log1p_tiny; [exact G|rewrite AX; specialize (TB L1); lra]|tauto].
      * specialize (TG L1). apply (MAIN (log1p_main o c x 0 0)); [intros; lra|lia|exact UN| |lia]. apply (log1p_direct o Ho c Hc x G); [|rewrite AX; exact TG].
        pose proof (mag_lt 0x3fda827a00000000 0x1a827a00000000 54 n ltac:(vm_compute; reflexivity) ltac:(lia) ltac:(lia)) as Q. unfold fx in Q. change (bpow radix2 (- (54))) with (/ 18014398509481984)%R in Q. rewrite VX. lra.
    + assert (UN : libm_log1p o c x = if INF <=? n then Ok x else log1p_reduce o c x).
      { unfold libm_log1p. cbv zeta. rewrite S0, C1. replace (n <? 0x3fda827a * 2 ^ 32) with false by (symmetry; apply Z.ltb_ge; lia). cbn [orb]. rewrite HW, hx_leb. reflexivity. }
      destruct (Z.leb_spec INF n) as [LI|LI].
      * exists x. split; [exact UN|]. split; [exact F|]. split; [tauto|]. split; [tauto|]. split; [intros; lra|]. split; [intros; lra|].
        split; [intros _; replace (sign_of F64 x) with false by (rewrite E, sign64 by lia; reflexivity); reflexivity|]. intros Q. rewrite E, finite64 in Q by lia. lia.
      * assert (G : good x) by (apply GX; lia). destruct (log1p_reduce_ok x G) as (r & ER & W).
        { right. pose proof (mag_ge 0x3fda827a00000000 0x1a827a00000000 54 n ltac:(vm_compute; reflexivity) ltac:(lia) ltac:(lia)) as Q. unfold fx in Q. change (bpow radix2 (- (54))) with (/ 18014398509481984)%R in Q. rewrite VX. lra. }
        apply (MAIN r); [intros; lra|lia|rewrite UN; exact ER|exact W|lia].
Qed.
End Log1p.
