(** Accuracy of tan: the assembly. *)
From Coq Require Import ZArith Reals Bool List Lia Lra Psatz.
From Flocq Require Import Core.
From Verif Require Import Base FloatModel FloatSpec FloatProofs FloatLib LibmModel LibmSpec Elem FloatErr PolyBound ElemModel ElemSpec TrigModel F64Lib ExpProofs3 ExpProofs4 ExpProofs5 ExpProofs6 ExpProofs7 ExpProofs8 LogProofs LogProofs2 LogProofs4 TrigProofs TrigProofs2 TrigLg2 TrigRed TrigRed5 TrigLg TrigLg8 TrigLg10 TrigLg11 HypotProofs3 AtanModel AtanProofs AtanProofs2 AtanProofs3 AsinModel AsinProofs2 AsinProofs3 TanModel TanProofs TanProofs2 TanProofs3 TanProofs4.
Import ListNotations.
Open Scope Z_scope.

Lemma tan_period T q : (cos T <> 0 -> cos (T + IZR q * PI) <> 0 /\ tan (T + IZR q * PI) = tan T)%R.
Proof.
  intros N. destruct (Z.Even_or_Odd q) as [(k & ->)|(k & ->)].
  - rewrite mult_IZR. destruct (periodZ T k) as [A B]. unfold tan. rewrite A, B. split; [exact N|reflexivity].
  - rewrite plus_IZR, mult_IZR. replace (T + (2 * IZR k + 1) * PI)%R with (T + PI + 2 * IZR k * PI)%R by ring. destruct (periodZ (T + PI) k) as [A B]. unfold tan. rewrite A, B, neg_sin, neg_cos. split; [lra|field; exact N].
Qed.
Lemma tan_quarter T : (cos T <> 0 -> tan T <> 0 -> cos (T + PI / 2) <> 0 /\ tan (T + PI / 2) = - / tan T)%R.
Proof.
  intros N M. assert (sin T <> 0)%R as S by (intros E; apply M; unfold tan; rewrite E; field; exact N). unfold tan. rewrite sin_plus, cos_plus, sin_PI2, cos_PI2. split; [lra|]. field. repeat split; first [exact S|exact N|lra].
Qed.
Lemma land1 k : Z.land k 1 = k mod 2. Proof. exact (Z.land_ones k 1 ltac:(lia)). Qed.
Section Tan.
Context (o : fops) (Ho : ieee_ops F64 o) (c : icast) (Hc : icast_ok c) (tbl : list Z) (Ht : forall j, 0 <= j < 66 -> tab tbl j = Ok (tt j)).
Lemma sign_val odd : odd = 0 \/ odd = 1 -> let S := o_sub o one (o_mul o two (c_ofi c odd)) in good S /\ value F64 S = IZR (1 - 2 * odd).
Proof using Ho Hc.
  intros H S. destruct (ofi64 c Hc odd ltac:(lia)) as [G V]. assert (good two) as G2 by (apply (good_mk false two); unfold two; lia). assert (value F64 two = 2%R) as V2 by apply value_two.
  destruct (mul64 o Ho two (c_ofi c odd) G2 G) as [Gm Vm]; [rewrite V2, V; apply (small_ok _ 1); [lia|change (bpow radix2 1) with 2%R; destruct H as [-> | ->]; apply Rabs_le; lra]|]. rewrite V2, V, <- mult_IZR in Vm.
  assert (forall k, -10 <= k <= 10 -> rne F64 (IZR k) = IZR k) as EX by (intros k Hk; rewrite <- (Rmult_1_r (IZR k)); change 1%R with (bpow radix2 0); apply rne_exact64; lia). rewrite EX in Vm by lia.
  destruct (sub64 o Ho one _ good_one Gm) as [Gs Vs]; [rewrite value_one, Vm, <- minus_IZR; apply (small_ok _ 1); [lia|change (bpow radix2 1) with 2%R; rewrite <- abs_IZR; destruct H as [-> | ->]; apply IZR_le; cbn; lia]|]. rewrite value_one, Vm, <- minus_IZR, EX in Vs by lia. split; assumption.
Qed.
Lemma k_tan_ok x y odd T (X := value F64 x) (Y := value F64 y) : odd = 0 \/ odd = 1 -> good x -> good y -> (bpow radix2 (-70) <= Rabs X <= 0.7856)%R ->
  (Rabs Y <= 49 * bpow radix2 (-58) * Rabs X)%R -> (Rabs (T - (X + Y)) <= bpow radix2 (-62) * Rabs X)%R ->
  within (3 / 2) (k_tan o c x y odd) (if odd =? 0 then tan T else - / tan T) /\ (cos T <> 0)%R /\ (tan T <> 0)%R.
Proof using Ho Hc.
  intros Hodd Gx Gy HX HY HT. destruct (good_split x Gx) as (s & n & E & Hn). assert (Rabs X = mag64 n) as AX by (unfold X; rewrite E; apply Rabs64; lia). unfold k_tan.
  replace (Z.land (high_word x) 0x7fffffff) with (n / 2 ^ 32) by (rewrite E, high_abs by lia; reflexivity). replace (Z.shiftr (high_word x) 31) with (b2z s) by (rewrite E, high_sign by lia; reflexivity). rewrite hx_leb.
  assert (mag64 (0x3FE59428 * 2 ^ 32) = fx 53 (0x159428 * 2 ^ 32)) as MB by (rewrite mag_value by lia; apply kb_val; vm_compute; reflexivity). unfold fx in MB. change (bpow radix2 (- (53))) with (/ 9007199254740992)%R in MB.
  destruct (Z.leb_spec (0x3FE59428 * 2 ^ 32) n) as [L|L].
  - cbv zeta. rewrite !flip_sign. assert (flip s x = n) as FX by (rewrite E; unfold flip; destruct s; [rewrite fneg_mk by lia|]; unfold mk64; cbn; lia). rewrite FX.
    assert (good n) as Gn by (apply (good_mk false n); exact Hn). assert (value F64 n = mag64 n) as Vn by (symmetry; apply mag_value; lia).
    assert (good (flip s y) /\ value F64 (flip s y) = (if s then - Y else Y)%R) as [Gf Vf] by (destruct s; [apply fneg_val; exact Gy|split; [exact Gy|reflexivity]]).
    assert (X = if s then - mag64 n else mag64 n)%R as EX by (unfold X; rewrite E; apply value64; lia).
    assert (0 <= 0x3FE59428 * 2 ^ 32 <= n) as LB0 by lia. pose proof (mag_le64 _ _ LB0) as LB. rewrite MB in LB. destruct (sign_val odd Hodd) as [GS VS].
    set (T' := (if s then - T else T)%R). destruct (big_core o Ho n (flip s y) _ (1 - 2 * odd) T' Gn Gf GS) as (W & CT & NT); [lia|exact VS|rewrite Vn; split; [|rewrite <- AX; apply HX]| | |].
    + eapply Rle_trans; [|exact LB]. change (0x159428 * 2 ^ 32) with 6073874030526464. lra.
    + rewrite Vf, Vn, <- AX. destruct s; [rewrite Rabs_Ropp|]; exact HY.
    + rewrite Vf, Vn, <- AX. eapply Rle_trans; [right|exact HT]. unfold T'. destruct s; rewrite AX, EX; [|reflexivity]. rewrite <- Rabs_Ropp. f_equal. ring.
    + cbv zeta in W. assert (tan T = if s then - tan T' else tan T')%R as ET by (unfold T'; destruct s; [rewrite tan_neg; ring|reflexivity]).
      assert (cos T = cos T') as EC by (unfold T'; destruct s; [rewrite cos_neg; reflexivity|reflexivity]). split; [|split; [rewrite EC; lra|rewrite ET; destruct s; lra]].
      apply (within_flip s) in W. replace (if odd =? 0 then tan T else - / tan T)%R with (if s then - (if 1 - 2 * odd =? 1 then tan T' else - / tan T') else (if 1 - 2 * odd =? 1 then tan T' else - / tan T'))%R; [exact W|]. rewrite ET. destruct Hodd as [-> | ->]; [change (1 - 2 * 0 =? 1) with true; change (0 =? 0) with true|change (1 - 2 * 1 =? 1) with false; change (1 =? 0) with false]; destruct s; try reflexivity; field; lra.
  - assert (X * X <= 0.4548)%R as XX. { assert (mag64 n <= 0.67435)%R as Q. { left. eapply Rlt_le_trans; [apply (mag_lt64 n (0x3FE59428 * 2 ^ 32)); lia|]. rewrite MB. change (0x159428 * 2 ^ 32) with 6073874030526464. lra. } replace (X * X)%R with (Rabs X * Rabs X)%R by (rewrite <- Rabs_mult, Rabs_pos_eq; [reflexivity|nra]). rewrite AX. pose proof (mag_nonneg64 n ltac:(lia)). nra. }
    destruct (tan_r_ok o Ho x y T Gx Gy (proj1 HX) XX HY HT) as (_ & _ & _ & CT & _). destruct (k_odd o Ho x y T Gx Gy (proj1 HX) XX HY HT) as [W NT]. split; [|split; [lra|exact NT]]. cbv zeta.
    destruct Hodd as [-> | ->]; cbn [Z.eqb]; [|exact W]. apply (k_even o Ho x y T Gx Gy (proj1 HX) XX HY HT).
Qed.
Lemma tan_tiny x (X := value F64 x) : good x -> (Rabs X <= bpow radix2 (-27))%R -> within (3 / 2) x (tan X) /\ (cos X <> 0)%R.
Proof using.
  clear. intros [G1 G2] H. change (bpow radix2 (-27)) with (/ 134217728)%R in H. assert (0 <= Rabs X)%R as A0 by apply Rabs_pos. assert (X * X = Rabs X * Rabs X)%R as AA by (rewrite <- Rabs_mult, Rabs_pos_eq; [reflexivity|nra]). assert (0 <= X * X <= / 134217728 * / 134217728)%R as XX by (rewrite AA; split; [nra|apply Rmult_le_compat; lra]).
  destruct (tan_P X ltac:(lra)) as [TP CX]. split; [|lra]. split; [exact G1|]. split; [exact G2|]. fold X. pose proof u53_small as US.
  assert (/ 134217728 * / 134217728 = / 2 * u53)%R as EU by (unfold u53; change (-53) with (-27 + -26); rewrite bpow_plus; change (bpow radix2 (-27)) with (/ 134217728)%R; change (bpow radix2 (-26)) with (/ 67108864)%R; field).
  set (z := (X * X)%R) in *. assert (0 <= pev F64 z pTan - 1 <= 0.42 * z)%R as PB.
  { pose proof (pcheck_ok 30 ltac:(lia) F64 pTa _ _ _ _ _ chk_Ta ltac:(lia) z) as Q. assert (fx 30 0 <= z <= fx 30 (0 + 2 * (466 * 2 ^ 17) * Z.of_nat 4))%R as Hz. { rewrite fx_0. split; [lra|]. unfold fx. change (bpow radix2 (- (30))) with (/ 1073741824)%R. change (0 + 2 * (466 * 2 ^ 17) * Z.of_nat 4) with 488636416. lra. }
    specialize (Q Hz ltac:(discriminate)). unfold fx in Q. change (bpow radix2 (- (30))) with (/ 1073741824)%R in Q. change (pev F64 z pTan) with (1 / 1 + z * pev F64 z pTa)%R. nra. }
  assert (Rabs (X - tan X) <= 0.3 * (Rabs X * u53))%R as D. { replace (X - tan X)%R with ((X * pev F64 z pTan - tan X) + - (X * (pev F64 z pTan - 1)))%R by ring. eapply Rle_trans; [apply sum_le; [exact TP|rewrite Rabs_Ropp; apply (prod_le _ _ (Rabs X) (0.21 * u53)); [apply Rle_refl|rewrite Rabs_pos_eq; lra]]|]. assert (0 <= Rabs X * u53)%R by nra. lra. }
  pose proof (ulp64_rel (tan X)) as UL. fold u53 in UL. assert (0.9 * Rabs X <= Rabs (tan X))%R as LT. { pose proof (Rabs_triang_inv X (X - tan X)) as Q. replace (X - (X - tan X))%R with (tan X) in Q by ring. assert (Rabs X * u53 <= Rabs X * / 1000)%R by (apply Rmult_le_compat_l; lra). lra. }
  assert (0.9 * Rabs X * u53 <= Rabs (tan X) * u53)%R by (apply Rmult_le_compat_r; lra). assert (0 <= Rabs X * u53)%R by nra. lra.
Qed.
Lemma tan_all fuel x : (4 <= fuel)%nat -> is_float F64 x -> exists r, libm_tan o c tbl fuel x = Ok r /\ is_float F64 r /\
  (~ is_finite F64 x -> is_nan F64 r) /\ (is_finite F64 x -> within (3 / 2) r (tan (value F64 x)) /\ (cos (value F64 x) <> 0)%R) /\ (is_zero F64 x -> r = x).
Proof using Ho Hc Ht.
  intros Hf F. destruct (split64 x F) as (s & n & E & Hn). unfold libm_tan.
  replace (Z.land (high_word x) 0x7fffffff) with (n / 2 ^ 32) by (rewrite E, high_abs by lia; reflexivity). rewrite hx_div', hx_div, !ix_lt by lia.
  assert (FI : is_finite F64 x <-> n < INF) by (rewrite E; apply finite64; exact Hn). assert (ZE : is_zero F64 x <-> n = 0) by (rewrite E; apply zero64; exact Hn).
  destruct (Z.ltb_spec n ((0x3fe921fb + 1) * 2 ^ 32)) as [L|L].
  - assert (G : good x) by (rewrite E; apply good_mk; lia). assert (AX : Rabs (value F64 x) = mag64 n) by (rewrite E; apply Rabs64; lia).
    destruct (Z.ltb_spec n (0x3e400000 * 2 ^ 32)) as [L2|L2].
    + eexists. split; [reflexivity|]. split; [exact F|]. split; [no|]. split; [intros _; apply tan_tiny; [exact G|]|reflexivity]. rewrite AX. left. apply Rlt_le_trans with (fx 27 1). apply (mag_lt 0x3e40000000000000); [vm_compute; reflexivity|lia|lia]. unfold fx. rewrite Rmult_1_l. apply Rle_refl.
    + assert (V0 : value F64 0 = 0%R) by apply value_zero. assert (x0 := Rabs_pos (value F64 x)).
      destruct (k_tan_ok x 0 0 (value F64 x) (or_introl eq_refl) G (good_zero)) as (W & CN & _); rewrite ?V0.
      * rewrite AX. split; [|left; apply Rlt_le_trans with (fx 20 823550); [apply (mag_lt 0x3fe921fc00000000); [vm_compute; reflexivity|lia|lia]|unfold fx; change (bpow radix2 (- (20))) with (/ 1048576)%R; lra]].
        apply Rle_trans with (fx 70 1); [unfold fx; rewrite Rmult_1_l; apply Rle_refl|]. apply (mag_ge 0x3b90000000000000); [vm_compute; reflexivity|lia|lia].
      * rewrite Rabs_R0. pose proof (bpow_gt_0 radix2 (-58)). nra.
      * rewrite Rplus_0_r, Rminus_eq_0, Rabs_R0. pose proof (bpow_gt_0 radix2 (-62)). nra.
      * eexists. split; [reflexivity|]. split; [apply W|]. split; [no|]. split; [intros _; split; [exact W|exact CN]|no].
  - destruct (Z.leb_spec (0x7ff00000 * 2 ^ 32) n) as [G|G].
    + destruct (ops_sub F64 o Ho x x F F) as (Fs & _). assert (NN : is_nan F64 (o_sub o x x)) by (destruct (sub_self o Ho x F) as [[Q _]|[_ Q]]; [exact Q|apply FI in Q; lia]).
      eexists. split; [reflexivity|]. split; [exact Fs|]. split; [auto|]. split; [no|no].
    + destruct (rem_pio2_ok o Ho c Hc tbl Ht fuel s n Hf ltac:(lia)) as (k & y0 & y1 & j & ER & RD). rewrite <- E in ER, RD. rewrite ER. cbn [bind].
      destruct RD as (_ & G0 & G1 & B0 & B1 & B2 & B3). set (v := value F64 x) in *. set (T := (v - 2 * IZR j * PI - IZR k * (PI / 2))%R) in *. rewrite land1.
      assert (k mod 2 = 0 \/ k mod 2 = 1) as HB by (pose proof (Z.mod_pos_bound k 2 ltac:(lia)); lia). destruct (k_tan_ok y0 y1 (k mod 2) T HB G0 G1 (conj B1 B0) B2 B3) as (W & CT & NT).
      pose proof (Z_div_mod_eq_full k 2) as DM. set (q := k / 2) in *. eexists. split; [reflexivity|]. split; [apply W|]. split; [no|]. split; [intros _|no].
      destruct HB as [EB|EB]; rewrite EB in *; cbn [Z.eqb] in W.
      * destruct (tan_period T (2 * j + q) CT) as [A B]. replace (T + IZR (2 * j + q) * PI)%R with v in A, B; [rewrite B; split; [exact W|exact A]|]. unfold T. rewrite DM, !plus_IZR, !mult_IZR. change (IZR 0) with 0%R. field.
      * destruct (tan_quarter T CT NT) as [CQ TQ]. destruct (tan_period (T + PI / 2) (2 * j + q) CQ) as [A B]. replace (T + PI / 2 + IZR (2 * j + q) * PI)%R with v in A, B; [rewrite B, TQ; split; [exact W|exact A]|]. unfold T. rewrite DM, !plus_IZR, !mult_IZR. change (IZR 1) with 1%R. field.
Qed.
End Tan.
