(** asinh. *)
From Coq Require Import ZArith Reals Bool Lia Lra Psatz.
From Flocq Require Import Core.
From Coquelicot Require Import Coquelicot.
From Verif Require Import Base BaseLemmas FloatModel FloatSpec FloatProofs FloatProofs5 FloatConvSpec LibmModel LibmSpec LibmProofs Elem FloatErr ElemModel ElemSpec F64Lib
  PolyBound ExpProofs3 ExpProofs4 ExpProofs5 ExpProofs6 ExpProofs7 ExpProofs8 LogProofs LogProofs2 LogProofs4 LogProps TrigModel HypotModel HypotProofs3 TrigRed TrigLg11 AsinProofs2 Atan2Proofs Log1pModel Log1pProofs Log1pProofs2 Log2Proofs2 AreaModel AreaProofs AreaProofs2.
Open Scope Z_scope.

(** The real function. *)
Lemma arcsinh_opp x : arcsinh (- x) = (- arcsinh x)%R.
Proof. rewrite <- (sinh_arcsinh x) at 1. replace (- sinh (arcsinh x))%R with (sinh (- arcsinh x)) by (unfold sinh; rewrite Ropp_involutive; field). apply arcsinh_sinh. Qed.
Lemma arcsinh_near x : (0 <= x <= 1 -> Rabs (arcsinh x - x) <= x * x * x / 2)%R.
Proof.
  intros H. destruct (Req_dec x 0) as [->|N]; [rewrite arcsinh_0; rewrite Rminus_0_r, Rabs_R0; lra|].
  destruct (MVT_gen arcsinh 0 x (fun t => / sqrt (t ^ 2 + 1))%R) as (e & He & E).
  - intros t _. apply is_derive_Reals. apply derivable_pt_lim_arcsinh.
  - intros t _. apply continuity_pt_filterlim, (ex_derive_continuous arcsinh). exists (/ sqrt (t ^ 2 + 1))%R. apply is_derive_Reals. apply derivable_pt_lim_arcsinh.
  - rewrite Rmin_left, Rmax_right in He by lra. rewrite arcsinh_0, !Rminus_0_r in E. rewrite E.
    assert (S1 : (1 <= sqrt (e ^ 2 + 1))%R). { rewrite <- sqrt_1 at 1. apply sqrt_le_1_alt. nra. }
    pose proof (sqrt_sqrt (e ^ 2 + 1) ltac:(nra)) as SS. set (s := sqrt (e ^ 2 + 1)) in *. assert (S2 : (s <= 1 + e * e / 2)%R) by nra.
    assert (I1 : (/ s * s = 1)%R) by (apply Rinv_l; lra). assert (I2 : (0 < / s)%R) by (apply Rinv_0_lt_compat; lra). set (i := (/ s)%R) in *.
    assert (B : (1 - e * e / 2 <= i <= 1)%R) by nra. assert (EX : (e * e <= x * x)%R) by nra. replace (i * x - x)%R with (- ((1 - i) * x))%R by ring. rewrite Rabs_Ropp, Rabs_pos_eq by nra. nra.
Qed.
Lemma arcsinh_eq x : arcsinh x = ln (x + sqrt (x * x + 1)). Proof. unfold arcsinh. f_equal. f_equal. f_equal. ring. Qed.

Lemma good_LN2 : good LN2_64. Proof. const_good. Qed.
Lemma LN2_val : value F64 LN2_64 = fx 53 0x162e42fefa39ef.
Proof. apply kb_val. vm_compute. reflexivity. Qed.
Lemma LN2_err : (Rabs (value F64 LN2_64 - ln 2) <= u53)%R.
Proof.
  rewrite LN2_val. pose proof ln2_bounds as L. assert (E : forall m, fx 53 m = fx 160 (m * 2 ^ 107)).
  { intros m. unfold fx. rewrite mult_IZR. change (IZR (2 ^ 107)) with (bpow radix2 107). rewrite Rmult_assoc, <- bpow_plus. reflexivity. }
  assert (U : u53 = fx 160 (1 * 2 ^ 107)). { rewrite <- E. unfold fx, u53. rewrite Rmult_1_l. reflexivity. }
  rewrite E, U.
  assert (A : (fx 160 (0x162e42fefa39ef * 2 ^ 107) - fx 160 (1 * 2 ^ 107) <= fx 160 (ln2n - 2 ^ 20))%R) by (rewrite <- fx_sub; apply fx_le; vm_compute; discriminate).
  assert (B : (fx 160 (ln2n + 2 ^ 20) <= fx 160 (0x162e42fefa39ef * 2 ^ 107) + fx 160 (1 * 2 ^ 107))%R) by (rewrite <- fx_add; apply fx_le; vm_compute; discriminate).
  apply Rabs_le. lra.
Qed.

Section Asinh.
Context (o : fops) (Ho : ieee_ops F64 o) (c : icast) (Hc : icast_ok c).
Lemma log_huge x (X := value F64 x) Y : good x -> (bpow radix2 26 <= X)%R -> (Rabs (Y - ln (2 * X)) <= u53)%R ->
  exists l, libm_log o c x = Ok l /\ within 6 (o_add o l LN2_64) Y.
Proof using Ho Hc.
  intros G B E. pose proof u53_small as US. assert (B26 : bpow radix2 26 = 67108864%R) by reflexivity. rewrite B26 in B.
  destruct (C54_log o c x Ho Hc (proj1 G)) as (l & El & Fl & _ & _ & _ & _ & W & _). specialize (W (proj2 G) ltac:(fold X; lra)). destruct W as (_ & Nl & W). fold X in W. exists l. split; [exact El|].
  pose proof ln2_num as L2. rewrite ln_mult in E by lra.
  assert (LX1 : (26 * ln 2 <= ln X)%R) by (rewrite <- (ln_bpow 26), B26; apply ln_le'; lra).
  assert (LX2 : (ln X <= 1024 * ln 2)%R).
  { rewrite <- (ln_bpow 1024). apply ln_le'; [lra|]. left. destruct (good_pos x G ltac:(fold X; lra)) as (_ & _ & Hx & V). fold X in V. rewrite V, <- mag_inf64. apply mag_lt64. lia. }
  pose proof LN2_err as EL. set (L := ln X) in *. assert (E' := Rabs_le_inv _ _ E).
  assert (UL : (ulp64 L <= ulp64 Y)%R). { unfold ulp64. assert (PG : Prec_gt_0 (prec F64)) by exact Hp64. apply ulp_le; [auto with typeclass_instances|auto with typeclass_instances|]. rewrite !Rabs_pos_eq by lra. lra. }
  pose proof (ulp64_rel Y) as UY. rewrite Rabs_pos_eq in UY by lra. change (bpow radix2 (-53)) with u53 in UY.
  assert (U5 : (u53 <= / 18 * ulp64 Y)%R) by nra.
  assert (UB : (ulp64 L <= 1)%R). { apply Rle_trans with (bpow radix2 (10 - 53)); [apply ulp64_ub; [rewrite Rabs_pos_eq by lra; change (bpow radix2 10) with 1024%R; lra|lia]|]. change 1%R with (bpow radix2 0). apply bpow_le. lia. }
  set (S := (value F64 l + value F64 LN2_64)%R).
  assert (ES : (Rabs (S - Y) <= 3 / 2 * ulp64 Y + 2 * u53)%R).
  { replace (S - Y)%R with ((value F64 l - L) + ((value F64 LN2_64 - ln 2) + - (Y - (ln 2 + L))))%R by (unfold S; ring). eapply Rle_trans; [apply Rabs_triang|]. pose proof (Rabs_triang (value F64 LN2_64 - ln 2) (- (Y - (ln 2 + L)))) as T. rewrite (Rabs_Ropp (Y - (ln 2 + L))) in T. lra. }
  assert (SB : (0 <= S <= 2 * Y)%R). { apply Rabs_le_inv in W. apply Rabs_le_inv in EL. unfold S. lra. }
  destruct (add64 o Ho l LN2_64 (conj Fl Nl) good_LN2) as [[G1 G2] V].
  { fold S. apply Rle_trans with (bpow radix2 11); [change (bpow radix2 11) with 2048%R; rewrite Rabs_pos_eq by lra; lra|apply bpow_le; lia]. }
  fold S in V. split; [exact G1|]. split; [exact G2|]. rewrite V.
  assert (RE : (Rabs (rne F64 S - S) <= / 2 * ulp64 S)%R). { unfold rne, ulp64. assert (PG : Prec_gt_0 (prec F64)) by exact Hp64. apply error_le_half_ulp; auto with typeclass_instances. }
  pose proof (ulp64_twice S Y SB) as U2. replace (rne F64 S - Y)%R with ((rne F64 S - S) + (S - Y))%R by ring. eapply Rle_trans; [apply Rabs_triang|]. lra.
Qed.
Lemma rg_mid v : (/ 100000000000000000000000 <= v <= 100000000000000000)%R -> rg v.
Proof using.
  clear. intros H. split; [apply Rle_trans with (bpow radix2 (-80)); [apply bpow_le; lia|change (bpow radix2 (-80)) with (/ 1208925819614629174706176)%R; lra]|apply Rle_trans with (bpow radix2 60); [change (bpow radix2 60) with 1152921504606846976%R; lra|apply bpow_le; lia]].
Qed.
Lemma asinh_mid x (X := value F64 x) : good x -> (bpow radix2 (-26) <= X < 2)%R ->
  exists s l, hsqrt o (o_add o (o_mul o x x) one) = Ok s /\ libm_log1p o c (o_add o x (o_div o (o_mul o x x) (o_add o s one))) = Ok l /\ within 6 l (arcsinh X).
Proof using Ho Hc.
  intros G B. assert (B26 : bpow radix2 (-26) = (/ 67108864)%R) by reflexivity. rewrite B26 in B.
  assert (A0 : apx x X 0) by (apply apx_refl; [exact G|fold X; lra]). pose proof apx_one as A1.
  assert (XX : (/ 5000000000000000 <= X * X <= 4)%R) by nra.
  assert (A2 := apx_mul o Ho _ _ X X 0 0 A0 A0 ltac:(lra) ltac:(lra) (rg_mid (X * X) ltac:(lra)) ltac:(lra) ltac:(lra)).
  assert (A3 := apx_add o Ho _ _ (X * X) 1 _ _ 0.81 A2 A1 ltac:(lra) ltac:(lra) (rg_mid (X * X + 1) ltac:(lra)) ltac:(lra) ltac:(nra)).
  assert (S1 : (1 <= sqrt (X * X + 1))%R). { rewrite <- sqrt_1 at 1. apply sqrt_le_1_alt. lra. }
  pose proof (sqrt_sqrt (X * X + 1) ltac:(lra)) as SS. assert (S2 : (sqrt (X * X + 1) <= 2.237)%R) by nra.
  destruct (apx_sqrt o Ho _ _ _ A3 (rg_mid (X * X + 1) ltac:(lra)) (rg_mid (sqrt (X * X + 1)) ltac:(lra)) ltac:(lra)) as (s & Es & A4). exists s.
  set (S := sqrt (X * X + 1)) in *.
  assert (A5 := apx_add o Ho _ _ S 1 _ _ 1.34 A4 A1 ltac:(lra) ltac:(lra) (rg_mid (S + 1) ltac:(lra)) ltac:(lra) ltac:(lra)).
  assert (Q : (X * X / 4 <= X * X / (S + 1) <= X * X / 2)%R) by (apply div_bnd; nra).
  assert (A6 := apx_div o Ho _ _ (X * X) (S + 1) _ _ A2 A5 ltac:(lra) ltac:(lra) (rg_mid (X * X / (S + 1)) ltac:(lra)) ltac:(lra) ltac:(lra)).
  assert (SE : (X * X / (S + 1) = S - 1)%R). { replace (X * X)%R with ((S - 1) * (S + 1))%R by lra. field. lra. }
  assert (SX : (S - 1 <= 0.6181 * X)%R) by nra.
  assert (A7 := apx_add o Ho _ _ X (X * X / (S + 1)) _ _ 1.7 A0 A6 ltac:(lra) ltac:(lra) (rg_mid (X + X * X / (S + 1)) ltac:(lra)) ltac:(lra) ltac:(rewrite SE; lra)).
  destruct (log1p_apx o Ho c Hc _ _ _ A7 (rg_mid (X + X * X / (S + 1)) ltac:(lra)) ltac:(lra)) as (l & El & Gl & Wl). exists l. split; [exact Es|]. split; [exact El|].
  apply (within_le (3 + 1.001 * (1.7 + 1.01))); [|lra]. split; [apply Gl|]. split; [apply Gl|]. rewrite arcsinh_eq. fold S. rewrite SE in Wl. replace (1 + (X + (S - 1)))%R with (X + S)%R in Wl by ring. exact Wl.
Qed.
Lemma asinh_big x (X := value F64 x) : good x -> (2 <= X < bpow radix2 26)%R ->
  exists s l, hsqrt o (o_add o (o_mul o x x) one) = Ok s /\ libm_log o c (o_add o (o_mul o two x) (o_div o one (o_add o s x))) = Ok l /\ within 6 l (arcsinh X).
Proof using Ho Hc.
  intros G B. assert (B26 : bpow radix2 26 = 67108864%R) by reflexivity. rewrite B26 in B.
  assert (A0 : apx x X 0) by (apply apx_refl; [exact G|fold X; lra]). pose proof apx_one as A1.
  assert (XX : (4 <= X * X <= 5000000000000000)%R) by nra.
  assert (A2 := apx_mul o Ho _ _ X X 0 0 A0 A0 ltac:(lra) ltac:(lra) (rg_mid (X * X) ltac:(lra)) ltac:(lra) ltac:(lra)).
  assert (A3 := apx_add o Ho _ _ (X * X) 1 _ _ 1.1 A2 A1 ltac:(lra) ltac:(lra) (rg_mid (X * X + 1) ltac:(lra)) ltac:(lra) ltac:(nra)).
  pose proof (sqrt_sqrt (X * X + 1) ltac:(lra)) as SS. pose proof (sqrt_pos (X * X + 1)) as S0.
  assert (S1 : (X <= sqrt (X * X + 1))%R) by nra. assert (S2 : (sqrt (X * X + 1) <= X + 1)%R) by nra.
  destruct (apx_sqrt o Ho _ _ _ A3 (rg_mid (X * X + 1) ltac:(lra)) (rg_mid (sqrt (X * X + 1)) ltac:(lra)) ltac:(lra)) as (s & Es & A4). exists s.
  set (S := sqrt (X * X + 1)) in *.
  assert (A5 := apx_add o Ho _ _ S X _ _ 2.1 A4 A0 ltac:(lra) ltac:(lra) (rg_mid (S + X) ltac:(lra)) ltac:(lra) ltac:(lra)).
  assert (Q : (/ 1000000000 <= 1 / (S + X) <= / 4)%R) by (apply div_bnd; lra).
  assert (A6 := apx_div o Ho _ _ 1 (S + X) _ _ A1 A5 ltac:(lra) ltac:(lra) (rg_mid (1 / (S + X)) ltac:(lra)) ltac:(lra) ltac:(lra)).
  assert (A7 := apx_two o Ho _ _ _ A0 (rg_mid X ltac:(lra)) ltac:(lra)).
  assert (SE : (1 / (S + X) = S - X)%R). { replace 1%R with ((S - X) * (S + X))%R at 1 by lra. field. lra. }
  assert (A8 := apx_add o Ho _ _ (2 * X) (1 / (S + X)) _ _ 0.3 A7 A6 ltac:(lra) ltac:(lra) (rg_mid (2 * X + 1 / (S + X)) ltac:(lra)) ltac:(lra) ltac:(lra)).
  rewrite SE in A8. replace (2 * X + (S - X))%R with (X + S)%R in A8 by ring. pose proof ln2_num as L2. assert (LA : (ln 2 <= ln (X + S))%R) by (apply ln_le'; lra).
  destruct (log_apx o Ho c Hc _ _ _ 2 A8 (rg_mid (X + S) ltac:(lra)) ltac:(lra) ltac:(lra) ltac:(lra)) as (l & El & Gl & Wl). exists l. split; [exact Es|]. split; [exact El|].
  apply (within_le (3 + 1.001 * 2)); [|lra]. split; [apply Gl|]. split; [apply Gl|]. rewrite arcsinh_eq. fold S. exact Wl.
Qed.

(** The function on the magnitude of its argument. *)
Definition asinh_body (x : Z) : res Z :=
  if 0x3ff + 26 <=? x / 2 ^ 52 then let* l := libm_log o c x in Ok (o_add o l LN2_64)
  else if 0x3ff + 1 <=? x / 2 ^ 52 then let* s := hsqrt o (o_add o (o_mul o x x) one) in libm_log o c (o_add o (o_mul o two x) (o_div o one (o_add o s x)))
  else if 0x3ff - 26 <=? x / 2 ^ 52 then let* s := hsqrt o (o_add o (o_mul o x x) one) in libm_log1p o c (o_add o x (o_div o (o_mul o x x) (o_add o s one)))
  else Ok x.
Lemma asinh_sign s n : 0 <= n < 2 ^ 63 -> libm_asinh o c (mk64 s n) = let* y := asinh_body n in Ok (flip s y).
Proof using.
  intros H. destruct (area_fields s n H) as (E1 & E2 & E3). unfold libm_asinh, asinh_body. cbv zeta. change (Z.shiftr (2 ^ 64 - 1) 1) with 0x7fffffffffffffff. rewrite E1, E2, E3. reflexivity.
Qed.
Lemma exp_leb n k : 0 <= n -> (k <=? n / 2 ^ 52) = (k * 2 ^ 52 <=? n).
Proof using. clear. intros H. rewrite !Z.leb_antisym, exp_ltb by exact H. reflexivity. Qed.
(** Half a unit is more than the difference between asinh x and ln (2 x). *)
Lemma arcsinh_huge X : (bpow radix2 26 <= X -> Rabs (arcsinh X - ln (2 * X)) <= u53)%R.
Proof using.
  clear. intros H. change (bpow radix2 26) with 67108864%R in H. change u53 with (/ 9007199254740992)%R. rewrite arcsinh_eq. pose proof (sqrt_sqrt (X * X + 1) ltac:(nra)) as SS. pose proof (sqrt_pos (X * X + 1)) as S0.
  set (S := sqrt (X * X + 1)) in *. assert (S1 : (X <= S)%R) by nra. assert (S2 : (S - X <= / 2 / X)%R).
  { apply Rmult_le_reg_r with X; [lra|]. replace (/ 2 / X * X)%R with (/ 2)%R by (field; lra). nra. }
  assert (IX : (0 < / X <= / 67108864)%R) by (split; [apply Rinv_0_lt_compat|apply Rinv_le_contravar]; lra).
  replace (X + S)%R with (2 * X * (1 + (S - X) / (2 * X)))%R by (field; lra). assert (Q : (0 <= (S - X) / (2 * X) <= / 9007199254740992)%R).
  { replace ((S - X) / (2 * X))%R with ((S - X) * (/ 2 * / X))%R by (field; lra). unfold Rdiv in S2. set (i := (/ X)%R) in *. nra. }
  rewrite ln_mult by lra. pose proof (ln_upper ((S - X) / (2 * X)) ltac:(lra)) as U. pose proof (ln1p_lower ((S - X) / (2 * X)) ltac:(lra)) as L. assert (0 <= (S - X) / (2 * X) / (1 + (S - X) / (2 * X)))%R by (apply Rmult_le_pos; [lra|left; apply Rinv_0_lt_compat; lra]). apply Rabs_le. lra.
Qed.
Lemma huge_special n : 0 <= n < 2 ^ 63 -> INF <= n -> exists l, libm_log o c n = Ok l /\ is_float F64 (o_add o l LN2_64) /\ (n = INF -> o_add o l LN2_64 = INF) /\ (INF < n -> is_nan F64 (o_add o l LN2_64)).
Proof using Ho Hc.
  intros H L. assert (En : n = mk64 false n) by (unfold mk64; cbn [b2z]; lia). assert (Fn : is_float F64 n) by (rewrite En; apply float64; lia).
  destruct (C54_log o c n Ho Hc Fn) as (l & El & Fl & A & _ & _ & B & _). exists l. split; [exact El|]. destruct (ops_add F64 o Ho l LN2_64 Fl (proj1 good_LN2)) as (Fr & N & _ & I1 & _). split; [exact Fr|]. split.
  - intros E. assert (El' : l = INF) by (apply B; rewrite En; [rewrite isinf64; lia|rewrite sign64 by lia; reflexivity]). rewrite I1; [exact El'|rewrite El'; apply (isinf64 false INF); [lia|reflexivity]|apply good_LN2].
  - intros E. apply N. left. apply A. rewrite En, nan64; lia.
Qed.
Lemma asinh_mag n : 0 <= n < 2 ^ 63 -> exists r, asinh_body n = Ok r /\ is_float F64 r /\ (n = 0 -> r = 0) /\ (n = INF -> r = INF) /\ (INF < n -> is_nan F64 r) /\ (n < INF -> within 6 r (arcsinh (mag64 n))).
Proof using Ho Hc.
  intros H. assert (En : n = mk64 false n) by (unfold mk64; cbn [b2z]; lia). assert (Fn : is_float F64 n) by (rewrite En; apply float64; lia). assert (VN : mag64 n = value F64 n) by (apply mag_value; lia).
  assert (GN : n < INF -> good n) by (intros L; split; [exact Fn|rewrite En; apply finite64; lia]). pose proof (mag_nonneg64 n ltac:(lia)) as M0.
  unfold asinh_body. rewrite !exp_leb by lia. change ((0x3ff + 26) * 2 ^ 52) with 0x4190000000000000. change ((0x3ff + 1) * 2 ^ 52) with 0x4000000000000000. change ((0x3ff - 26) * 2 ^ 52) with 0x3e50000000000000.
  destruct (Z.leb_spec 0x4190000000000000 n) as [L1|L1].
  { destruct (Z_lt_ge_dec n INF) as [LI|LI].
    - destruct (log_huge n (arcsinh (value F64 n)) (GN LI)) as (l & El & W); [rewrite <- VN| |].
      { pose proof (mag_ge 0x4190000000000000 67108864 0 n ltac:(vm_compute; reflexivity) ltac:(lia) ltac:(lia)) as Q. unfold fx in Q. change (bpow radix2 (- (0))) with 1%R in Q. rewrite Rmult_1_r in Q. exact Q. }
      { apply arcsinh_huge. rewrite <- VN. pose proof (mag_ge 0x4190000000000000 67108864 0 n ltac:(vm_compute; reflexivity) ltac:(lia) ltac:(lia)) as Q. unfold fx in Q. change (bpow radix2 (- (0))) with 1%R in Q. rewrite Rmult_1_r in Q. exact Q. }
      rewrite El. cbn [bind]. eexists. split; [reflexivity|]. split; [apply W|]. split; [lia|]. split; [lia|]. split; [lia|]. intros _. rewrite VN. exact W.
    - destruct (huge_special n H ltac:(lia)) as (l & El & Fl & I1 & N1). rewrite El. cbn [bind]. eexists. split; [reflexivity|]. split; [exact Fl|]. split; [lia|]. split; [exact I1|]. split; [exact N1|lia]. }
  pose proof (mag_lt 0x4190000000000000 67108864 0 n ltac:(vm_compute; reflexivity) ltac:(lia) ltac:(lia)) as B1. unfold fx in B1. change (bpow radix2 (- (0))) with 1%R in B1. rewrite Rmult_1_r in B1. assert (G := GN ltac:(lia)).
  destruct (Z.leb_spec 0x4000000000000000 n) as [L2|L2].
  { pose proof (mag_ge 0x4000000000000000 2 0 n ltac:(vm_compute; reflexivity) ltac:(lia) ltac:(lia)) as B2. unfold fx in B2. change (bpow radix2 (- (0))) with 1%R in B2.
    destruct (asinh_big n G) as (s & l & Es & El & W); [rewrite <- VN; change (bpow radix2 26) with 67108864%R; lra|]. rewrite Es. cbn [bind]. rewrite El. exists l. split; [reflexivity|]. split; [apply W|]. split; [lia|]. split; [lia|]. split; [lia|]. intros _. rewrite VN. exact W. }
  pose proof (mag_lt 0x4000000000000000 2 0 n ltac:(vm_compute; reflexivity) ltac:(lia) ltac:(lia)) as B2. unfold fx in B2. change (bpow radix2 (- (0))) with 1%R in B2.
  destruct (Z.leb_spec 0x3e50000000000000 n) as [L3|L3].
  { pose proof (mag_ge 0x3e50000000000000 1 26 n ltac:(vm_compute; reflexivity) ltac:(lia) ltac:(lia)) as B3. unfold fx in B3. rewrite Rmult_1_l in B3.
    destruct (asinh_mid n G) as (s & l & Es & El & W); [rewrite <- VN; split; [exact B3|lra]|]. rewrite Es. cbn [bind]. rewrite El. exists l. split; [reflexivity|]. split; [apply W|]. split; [lia|]. split; [lia|]. split; [lia|]. intros _. rewrite VN. exact W. }
  exists n. split; [reflexivity|]. split; [exact Fn|]. split; [tauto|]. split; [lia|]. split; [lia|]. intros _. apply (within_le 2); [|lra]. rewrite VN in *.
  assert (S26 : (value F64 n < / 67108864)%R). { rewrite <- VN. pose proof (mag_lt 0x3e50000000000000 1 26 n ltac:(vm_compute; reflexivity) ltac:(lia) ltac:(lia)) as Q. unfold fx in Q. rewrite Rmult_1_l in Q. exact Q. }
  apply area_tiny; [exact G|lra|]. pose proof (arcsinh_near (value F64 n) ltac:(lra)) as Q. set (v := value F64 n) in *. change u53 with (/ 9007199254740992)%R. assert (v * v <= / 4503599627370496)%R by nra.
  eapply Rle_trans; [exact Q|]. replace (v * v * v / 2)%R with (v * v / 2 * v)%R by field. apply Rmult_le_compat_r; lra.
Qed.
Lemma asinh_all x : is_float F64 x -> exists r, libm_asinh o c x = Ok r /\ is_float F64 r /\
  (is_nan F64 x -> is_nan F64 r) /\ (is_zero F64 x -> r = x) /\ (is_inf F64 x -> r = x) /\
  (is_finite F64 x -> exists y, sinh y = value F64 x /\ within 6 r y).
Proof using Ho Hc.
  intros F. destruct (split64 x F) as (s & n & -> & Hn). rewrite asinh_sign by exact Hn. destruct (asinh_mag n Hn) as (t & Et & Ft & T0 & T1 & T2 & T3). rewrite Et. cbn [bind]. exists (flip s t). split; [reflexivity|].
  destruct (flip_float s t Ft) as (Ff & Nf & _ & _). split; [exact Ff|]. rewrite nan64, zero64, isinf64, finite64, value64 by lia.
  split; [intros L; apply Nf, T2, L|]. split; [intros ->; rewrite (T0 eq_refl); change 0 with (mk64 false 0) at 1; rewrite flip_mk by lia; destruct s; reflexivity|].
  split; [intros ->; rewrite (T1 eq_refl); change INF with (mk64 false INF) at 1; rewrite flip_mk by lia; destruct s; reflexivity|].
  intros L. exists (if s then - arcsinh (mag64 n) else arcsinh (mag64 n))%R. split; [|apply flip_within, T3, L]. destruct s; [rewrite <- arcsinh_opp|]; apply sinh_arcsinh.
Qed.
End Asinh.
