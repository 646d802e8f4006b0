(** Accuracy of exp: the final result. *)
From Coq Require Import ZArith Reals Bool List Lia Lra Psatz.
From Flocq Require Import Core.
From Verif Require Import Base BaseLemmas FloatModel FloatSpec FloatProofs FloatConvSpec LibmModel LibmSpec LibmProps Elem FloatErr PolyBound ElemModel ElemSpec F64Lib ExpProofs ExpProofs2 ExpProofs3 ExpProofs4 ExpProofs5 ExpProofs6 ExpProofs7.
Import ListNotations.
Open Scope Z_scope.

Lemma value_pos_inj a b : good a -> good b -> (0 < value F64 a)%R -> value F64 a = value F64 b -> a = b.
Proof.
  intros Ga Gb P E. destruct (good_split a Ga) as (s & n & -> & Hn), (good_split b Gb) as (t & m & -> & Hm).
  rewrite !value64 in * by lia. pose proof (mag_nonneg64 n ltac:(lia)). pose proof (mag_nonneg64 m ltac:(lia)).
  assert (s = false) as -> by (destruct s; [lra|reflexivity]). assert (t = false) as -> by (destruct t; [lra|reflexivity]).
  f_equal. destruct (Z.lt_trichotomy n m) as [L|[L|L]]; [|exact L|].
  - pose proof (mag_lt64 n m ltac:(lia)). lra.
  - pose proof (mag_lt64 m n ltac:(lia)). lra.
Qed.
Lemma pos_inf_bits r : is_float F64 r -> is_inf F64 r -> sign_of F64 r = false -> r = INF.
Proof. intros F I S. destruct (split64 r F) as (s & n & -> & Hn). rewrite isinf64 in I by exact Hn. rewrite sign64 in S by exact Hn. subst. reflexivity. Qed.
Lemma good_one : good one. Proof. const_good. Qed.
Lemma value_one : value F64 one = 1%R. Proof. rewrite (kb_val 0 one 1) by (vm_compute; reflexivity). unfold fx. cbn. lra. Qed.
Lemma good_x1p1023 : good x1p1023. Proof. const_good. Qed.
Lemma value_x1p1023 : value F64 x1p1023 = bpow radix2 1023.
Proof.
  unfold value. replace (exp_field F64 x1p1023) with 2046 by reflexivity. replace (frac_field F64 x1p1023) with 0 by reflexivity.
  replace (sign_of F64 x1p1023) with false by reflexivity. change (2046 =? 0) with false. cbv iota.
  change (2 ^ fs F64 + 0) with (2 ^ 52). rewrite (IZR_Zpower radix2) by lia. rewrite <- bpow_plus. reflexivity.
Qed.
Lemma good_zero : good 0. Proof. const_good. Qed.
Lemma value_zero : value F64 0 = 0%R. Proof. rewrite (kb_val 0 0 0) by (vm_compute; reflexivity). apply fx_0. Qed.

Lemma good_over : good exp_over. Proof. const_good. Qed.
Lemma good_sub : good exp_sub. Proof. const_good. Qed.
Lemma good_under : good exp_under. Proof. const_good. Qed.

Section Final.
Context (o : fops) (Ho : ieee_ops F64 o) (c : icast) (Hc : icast_ok c).

(** |x| <= 0.3466, without reduction. *)
Lemma exp_mid x (X := value F64 x) : good x -> (Rabs X <= 0.3466)%R ->
  exists r, exp_primary o x x 0 0 = Ok r /\ within (17 / 16) r (exp X).
Proof using Ho.
  intros Gx HX. assert (b10 := bpow_gt_0 radix2 (-21)).
  destruct (exp_core o Ho x x 0 0%R 0%R Gx Gx good_zero) as (Gy & A1 & A2); try (rewrite ?value_zero, ?Rabs_R0; unfold DX; fold X; try apply bpow_ge_0; lra).
  fold X in A1, A2. rewrite !Rplus_0_r in A1, A2. set (v := value F64 (exp_y o x x 0)) in *.
  destruct (primary_scale o Ho x x 0 0 Gy ltac:(lia)) as (q & Q1 & Q2). exists q. split; [exact Q1|].
  replace (exp X) with (exp X * bpow radix2 0)%R by (cbn; ring).
  apply scale_ok with (y := exp_y o x x 0); [exact Gy|apply exp_range, HX| |lia|lia|lia|exact Q2]. fold v.
  assert (u53 : bpow radix2 (-52) = (2 * U53)%R) by (unfold U53; change (-52) with (1 + -53); rewrite (bpow_plus _ 1); reflexivity).
  unfold u12. destruct (Rlt_bool_spec (exp X) 1) as [L|G].
  - apply A1. assert (X < 0)%R by (apply exp_lt_inv; rewrite exp_0; exact L). pose proof (bpow_ge_0 radix2 (-10)). lra.
  - assert (0 <= X)%R by (apply exp_le_inv; rewrite exp_0; exact G). specialize (A2 H). lra.
Qed.
(** |x| <= 2^-27 *)
Lemma exp_tiny x (X := value F64 x) : good x -> (Rabs X <= bpow radix2 (-27) * / 2 * 1.0001)%R ->
  within (17 / 16) (o_add o one x) (exp X) /\ (X = 0%R -> o_add o one x = one).
Proof using Ho.
  intros Gx HX. change (bpow radix2 (-27)) with (/ 134217728)%R in HX. assert (HX' := Rabs_le_inv _ _ HX).
  destruct (add64 o Ho one x good_one Gx) as [Gr Vr].
  { rewrite value_one. fold X. apply Rle_trans with (bpow radix2 1); [apply Rabs_le; change (bpow radix2 1) with 2%R; lra|apply bpow_le; lia]. }
  rewrite value_one in Vr. fold X in Vr. set (r := o_add o one x) in *. split.
  - split; [apply Gr|]. split; [apply Gr|]. rewrite Vr.
    assert (TY : (Rabs (exp X - (1 + X)) <= X * X)%R).
    { pose proof (exp_lin X ltac:(apply Rabs_le; lra)) as Q. replace (exp X - (1 + X))%R with (exp X - 1 - X)%R by ring. exact Q. }
    assert (SQ : (X * X <= bpow radix2 (-53) * / 2)%R).
    { change (-53) with (-27 + -26). rewrite bpow_plus. change (bpow radix2 (-27)) with (/ 134217728)%R. change (bpow radix2 (-26)) with (/ 67108864)%R.
      assert (X * X <= (/ 134217728 * / 2 * 1.0001) * (/ 134217728 * / 2 * 1.0001))%R by (replace (X * X)%R with (Rabs X * Rabs X)%R by (rewrite <- Rabs_mult; apply Rabs_pos_eq, Rle_0_sqr); apply Rmult_le_compat; try apply Rabs_pos; exact HX). lra. }
    assert (UL := u12_le (exp X) 0 ltac:(pose proof (exp_ineq1_le X); lra)). change (bpow radix2 0) with 1%R in UL. rewrite !Rmult_1_r in UL.
    assert (RR : (Rabs (rne F64 (1 + X) - (1 + X)) <= / 2 * u12 (exp X))%R).
    { unfold u12. destruct (Rlt_bool_spec (exp X) 1) as [L|G].
      - assert (X < 0)%R by (apply exp_lt_inv; rewrite exp_0; exact L).
        apply Rle_trans with (bpow radix2 (0 - 54)); [apply rne_error64; [apply Rabs_lt; change (bpow radix2 0) with 1%R; lra|lia]|].
        change (/ 2)%R with (bpow radix2 (-1)). rewrite <- bpow_plus. apply Rle_refl.
      - apply Rle_trans with (bpow radix2 (1 - 54)); [apply rne_error64; [apply Rabs_lt; change (bpow radix2 1) with 2%R; lra|lia]|].
        change (/ 2)%R with (bpow radix2 (-1)). rewrite <- bpow_plus. apply Rle_refl. }
    assert (U1 : (bpow radix2 (-53) <= u12 (exp X))%R) by (unfold u12; destruct (Rlt_bool (exp X) 1); apply bpow_le; lia).
    replace (rne F64 (1 + X) - exp X)%R with ((rne F64 (1 + X) - (1 + X)) - (exp X - (1 + X)))%R by ring.
    unfold Rminus at 1. eapply Rle_trans; [apply Rabs_triang|]. rewrite Rabs_Ropp. pose proof (bpow_gt_0 radix2 (-53)). lra.
  - intros Z0. rewrite Z0, Rplus_0_r in Vr. rewrite <- value_one, rne_value in Vr by apply good_one.
    apply value_pos_inj; [exact Gr|exact good_one|rewrite Vr, value_one; lra|exact Vr].
Qed.

Lemma exp_finite x (X := value F64 x) : good x ->
  exists r, libm_exp o c x = Ok r /\ is_float F64 r /\
  ((exp X < bpow radix2 1024)%R -> within (17 / 16) r (exp X)) /\ ((bpow radix2 1024 <= exp X)%R -> r = INF) /\ (X = 0%R -> r = one).
Proof using Ho Hc.
  intros Gx. destruct (good_split x Gx) as (s & n & E & Hn). pose proof over_lt as OV. pose proof ln2_num as L2.
  assert (AX : Rabs X = mag64 n) by (unfold X; rewrite E; apply Rabs64; lia).
  assert (SX : X = (if s then - mag64 n else mag64 n)%R) by (unfold X; rewrite E; apply value64; lia).
  assert (LT : (X <= value F64 exp_over -> exp X < bpow radix2 1024)%R).
  { intros H. rewrite <- exp_kln2. apply exp_increasing. lra. }
  assert (W : forall m, (X <= value F64 exp_over)%R -> (0 < Rabs X)%R -> (exists r, m = Ok r /\ within (17 / 16) r (exp X)) -> exists r, m = Ok r /\ is_float F64 r /\
    ((exp X < bpow radix2 1024)%R -> within (17 / 16) r (exp X)) /\ ((bpow radix2 1024 <= exp X)%R -> r = INF) /\ (X = 0%R -> r = one)).
  { intros m H0 HP (r & H & Wr). exists r. split; [exact H|]. split; [apply Wr|]. split; [intros _; exact Wr|]. split; [intros; specialize (LT H0); lra|].
    intros Z0. rewrite Z0, Rabs_R0 in HP. lra. }
  assert (OVN : (709.7 <= value F64 exp_over <= 709.8)%R) by (clear - OV L2; change (bpow radix2 (-43)) with (/ 8796093022208)%R in OV; lra).
  unfold libm_exp. cbv zeta. replace (high_word x) with (high_word (mk64 s n)) by (rewrite E; reflexivity). rewrite high_sign, high_abs by lia.
  unfold exp_special. rewrite hx_leb, hx_ltb, hx_ltb. replace (is_nanb F64 x) with (INF <? n) by (rewrite E, is_nanb64 by lia; reflexivity).
  destruct (Z.leb_spec (0x4086232b * 2 ^ 32) n) as [H1|H1].
  - replace (INF <? n) with false by (symmetry; apply Z.ltb_ge; lia).
    assert (M1 : (708 <= mag64 n)%R).
    { eapply Rle_trans; [|apply (mag_ge 0x4086232b00000000 0x16232b 11 n); [vm_compute; reflexivity|lia|lia]]. unfold fx. cbn. lra. }
    assert (GO : good exp_over) by exact good_over. assert (GS : good exp_sub) by exact good_sub. assert (GU : good exp_under) by exact good_under.
    rewrite (lt_val o Ho) by (apply GO || apply Gx). fold X. destruct (Rlt_bool_spec (value F64 exp_over) X) as [O1|O1].
    + (* overflow *)
      assert (BX : (bpow radix2 1024 <= exp X)%R).
      { rewrite <- exp_kln2. apply exp_mono. destruct (multiple64 x 9 Gx ltac:(fold X; rewrite AX; change (bpow radix2 9) with 512%R; lra)) as (m & Em). fold X in Em. change (9 - 52) with (-43) in Em.
        rewrite value_over, Em in O1. apply Rmult_lt_reg_r in O1; [|apply bpow_gt_0]. apply lt_IZR in O1.
        assert (over_z + 1 <= m) by lia. apply IZR_le in H. rewrite plus_IZR in H. rewrite Em. rewrite value_over in OV. pose proof (bpow_gt_0 radix2 (-43)). nra. }
      exists (o_mul o x x1p1023). split; [reflexivity|].
      destruct (ops_mul F64 o Ho x x1p1023 (proj1 Gx) (proj1 good_x1p1023)) as (F & _ & _ & _ & R). specialize (R (proj2 Gx) (proj2 good_x1p1023)).
      split; [exact F|]. split; [intros; lra|]. split; [|intros; lra]. intros _. destruct R as (_ & S & R). rewrite value_x1p1023 in S, R. fold X in S, R.
      assert (XP : (2 < X)%R) by lra. assert (p := bpow_gt_0 radix2 1023).
      rewrite Rcompare_Gt in S by nra. rewrite Rlt_bool_false in R; [apply pos_inf_bits; assumption|].
      assert (B : (bpow radix2 1024 <= X * bpow radix2 1023)%R). { change 1024 with (1 + 1023). rewrite bpow_plus. change (bpow radix2 1) with 2%R. nra. }
      change (emax F64) with 1024. unfold rne. apply abs_round_ge_generic; [apply FLT_exp_valid; exact Hp64|auto with typeclass_instances| |rewrite Rabs_pos_eq by nra; exact B].
      apply generic_format_bpow. vm_compute. discriminate.
    + rewrite (lt_val o Ho) by (apply GS || apply Gx). fold X.
      assert (UN : (-745.1333 <= value F64 exp_under <= -745.133)%R).
      { rewrite (kb_val 43 exp_under (-6554261109157969)) by (vm_compute; reflexivity). unfold fx. change (bpow radix2 (- (43))) with (/ 8796093022208)%R. lra. }
      assert (CONT : (-746 <= X)%R -> exists r, (if (0x3fd62e42 + 1) * 2 ^ 32 <=? n then let* k := exp_k o c x (n / 2 ^ 32) (norm (SI 32) (b2z s)) in
         exp_primary o (o_sub o (o_sub o x (o_mul o (c_ofi c k) LN2HI)) (o_mul o (c_ofi c k) LN2LO)) (o_sub o x (o_mul o (c_ofi c k) LN2HI)) (o_mul o (c_ofi c k) LN2LO) k
         else if (0x3e300000 + 1) * 2 ^ 32 <=? n then exp_primary o x x 0 0 else Ok (o_add o one x)) = Ok r /\ within (17 / 16) r (exp X)).
      { intros XL. replace ((0x3fd62e42 + 1) * 2 ^ 32 <=? n) with true by (symmetry; apply Z.leb_le; lia).
        unfold exp_k. rewrite hx_leb. replace (0x3ff0a2b2 * 2 ^ 32 <=? n) with true by (symmetry; apply Z.leb_le; lia).
        replace (tab exp_HALF (norm (SI 32) (b2z s))) with (Ok (if s then 0xbfe0000000000000 else 0x3fe0000000000000)) by (destruct s; reflexivity). cbn [bind].
        assert (HX : (-746 <= value F64 (mk64 s n) <= 746)%R) by (rewrite <- E; fold X; lra).
        destruct (exp_k_ok o Ho c Hc s n Hn ltac:(lia) HX) as (k & Ek & Bk). rewrite <- E in Ek, Bk. fold X in Bk. rewrite Ek.
        apply (red_main o Ho c Hc x k Gx); fold X; [rewrite AX; change (bpow radix2 (-2)) with (/ 4)%R; lra|lra|exact Bk]. }
      destruct (Rlt_bool_spec X (value F64 exp_sub)) as [S1|S1].
      * rewrite (lt_val o Ho) by (apply GU || apply Gx). fold X. destruct (Rlt_bool_spec X (value F64 exp_under)) as [U1|U1].
        -- apply W; [exact O1|rewrite AX; lra|]. exists 0. split; [reflexivity|]. split; [apply good_zero|]. split; [apply good_zero|]. rewrite value_zero.
           pose proof (exp_pos X). rewrite Rminus_0_l, Rabs_Ropp, Rabs_pos_eq by lra. pose proof (ulp64_min (exp X)) as U.
           assert (exp X <= bpow radix2 (-1074))%R by (rewrite <- exp_kln2; apply exp_mono; lra). lra.
        -- apply W; [exact O1|rewrite AX; lra|]. apply CONT. lra.
      * apply W; [exact O1|rewrite AX; lra|]. apply CONT.
        assert (-709 <= value F64 exp_sub)%R.
        { rewrite (kb_val 43 exp_sub (-6231120794008786)) by (vm_compute; reflexivity). unfold fx. change (bpow radix2 (- (43))) with (/ 8796093022208)%R. lra. }
        lra.
  - assert (M1 : (mag64 n < 709)%R).
    { eapply Rlt_le_trans; [apply (mag_lt 0x4086232b00000000 0x16232b 11 n); [vm_compute; reflexivity|lia|lia]|]. unfold fx. cbn. lra. }
    assert (XB : (-709 <= X <= 709)%R) by (apply Rabs_le_inv; lra).
    destruct (Z.leb_spec ((0x3fd62e42 + 1) * 2 ^ 32) n) as [H2|H2].
    + assert (M2 : (0.34657 <= mag64 n)%R).
      { eapply Rle_trans; [|apply (mag_ge 0x3fd62e4300000000 0x162e43 22 n); [vm_compute; reflexivity|lia|lia]]. unfold fx. cbn. lra. }
      apply W; [lra|rewrite AX; lra|].
      assert (exists k, exp_k o c x (n / 2 ^ 32) (norm (SI 32) (b2z s)) = Ok k /\ (Rabs (X - IZR k * ln 2) <= 0.3466)%R) as (k & Ek & Bk).
      { unfold exp_k. rewrite hx_leb. destruct (Z.leb_spec (0x3ff0a2b2 * 2 ^ 32) n) as [H3|H3].
        - replace (tab exp_HALF (norm (SI 32) (b2z s))) with (Ok (if s then 0xbfe0000000000000 else 0x3fe0000000000000)) by (destruct s; reflexivity). cbn [bind].
          assert (HX : (-746 <= value F64 (mk64 s n) <= 746)%R) by (rewrite <- E; fold X; lra).
          destruct (exp_k_ok o Ho c Hc s n Hn ltac:(lia) HX) as (k & Ek & Bk). rewrite <- E in Ek, Bk. fold X in Bk. rewrite Ek. exists k. split; [reflexivity|exact Bk].
        - assert (M3 : (mag64 n < 1.03973)%R).
          { eapply Rlt_le_trans; [apply (mag_lt 0x3ff0a2b200000000 0x10a2b2 20 n); [vm_compute; reflexivity|lia|lia]|]. unfold fx. cbn. lra. }
          exists (if s then -1 else 1). split; [destruct s; reflexivity|]. rewrite SX. apply Rabs_le. destruct s; lra. }
      rewrite Ek. cbn [bind]. apply (red_main o Ho c Hc x k Gx); fold X; [rewrite AX; change (bpow radix2 (-2)) with (/ 4)%R; lra|lra|exact Bk].
    + assert (M2 : (mag64 n < 0.34658)%R).
      { eapply Rlt_le_trans; [apply (mag_lt 0x3fd62e4300000000 0x162e43 22 n); [vm_compute; reflexivity|lia|lia]|]. unfold fx. cbn. lra. }
      destruct (Z.leb_spec ((0x3e300000 + 1) * 2 ^ 32) n) as [H3|H3].
      * apply W; [lra| |apply (exp_mid x Gx); fold X; lra]. rewrite AX. apply Rlt_le_trans with (mag64 1); [|apply mag_le64; lia].
        rewrite <- mag0_64. apply mag_lt64. lia.
      * assert (M3 : (mag64 n < bpow radix2 (-27) * / 2 * 1.0001)%R).
        { eapply Rlt_le_trans; [apply (mag_lt 0x3e30000100000000 0x100001 48 n); [vm_compute; reflexivity|lia|lia]|]. unfold fx. change (- (48)) with (-27 + -21). rewrite bpow_plus.
          change (bpow radix2 (-21)) with (/ 2097152)%R. pose proof (bpow_gt_0 radix2 (-27)). lra. }
        destruct (exp_tiny x Gx ltac:(fold X; lra)) as [T1 T2]. fold X in T1, T2.
        exists (o_add o one x). split; [reflexivity|]. split; [apply T1|]. split; [intros _; exact T1|]. split; [intros Q; pose proof (LT ltac:(lra)); lra|exact T2].
Qed.
End Final.
