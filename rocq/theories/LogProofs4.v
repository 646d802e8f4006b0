(** log: argument reduction on the bits, and the special cases. *)
From Coq Require Import ZArith Reals Bool List Lia Lra Psatz.
From Flocq Require Import Core.
From Verif Require Import Base BaseLemmas FloatModel FloatSpec FloatProofs FloatConvSpec LibmModel LibmSpec Elem FloatErr PolyBound ElemModel ElemSpec F64Lib
  ExpProofs3 ExpProofs4 ExpProofs5 ExpProofs6 ExpProofs7 ExpProofs8 LogProofs LogProofs2 LogProofs3.
Open Scope Z_scope.

Lemma ln_bpow e : ln (bpow radix2 e) = (IZR e * ln 2)%R.
Proof. rewrite bpow_exp, ln_exp. reflexivity. Qed.
Lemma mag_pos64 n : 0 < n -> (0 < mag64 n)%R.
Proof. intros H. rewrite <- mag0_64. apply mag_lt64. lia. Qed.

(** The reduction: n = x + e 2^52 with x between the bits of sqrt(2)/2 and sqrt(2). *)
Lemma log_bits n (N := n + 0x95f62 * 2 ^ 32) (x := N mod 2 ^ 52 + 0x3fe6a09e * 2 ^ 32) (e := N / 2 ^ 52 - 0x3ff) : 0 <= n < INF ->
  n = x + e * 2 ^ 52 /\ 0x3fe6a09e00000000 <= x < 0x3ff6a09e00000000 /\ -1023 <= e <= 1024.
Proof.
  intros H. pose proof (Z.div_mod N (2 ^ 52) ltac:(lia)) as D. pose proof (Z.mod_pos_bound N (2 ^ 52) ltac:(lia)) as M.
  assert (0 <= N / 2 ^ 52) by (apply Z.div_pos; unfold N; lia).
  assert (N / 2 ^ 52 <= 2047) by (apply Z.lt_succ_r, Z.div_lt_upper_bound; unfold N; lia).
  unfold x, e. lia.
Qed.
Section Log.
Context (o : fops) (Ho : ieee_ops F64 o) (c : icast) (Hc : icast_ok c).

Lemma log_reduce_eq n k (N := n + 0x95f62 * 2 ^ 32) (x := N mod 2 ^ 52 + 0x3fe6a09e * 2 ^ 32) (e := N / 2 ^ 52 - 0x3ff) : 0 <= n < INF -> Z.abs k <= 54 ->
  log_reduce o c n (n / 2 ^ 32) k = Ok (log_primary o x (c_ofi c (k + e))).
Proof.
  intros H Hk. destruct (log_bits n H) as (_ & Hx & He). fold N in Hx, He. fold e in He. fold x in Hx.
  assert (HN : n / 2 ^ 32 + 0x95f62 = N / 2 ^ 32) by (unfold N; rewrite Z.div_add by lia; reflexivity).
  assert (B : 0 <= N / 2 ^ 32 < 2 ^ 31) by (split; [apply Z.div_pos; unfold N; lia|apply Z.div_lt_upper_bound; unfold N; lia]).
  assert (E1 : N / 2 ^ 32 / 2 ^ 20 = N / 2 ^ 52) by (rewrite Z.div_div by lia; reflexivity).
  assert (L : Z.land (N / 2 ^ 32) 0x000fffff = (N / 2 ^ 32) mod 2 ^ 20) by (change 0xfffff with (Z.ones 20); apply Z.land_ones; lia).
  assert (L2 : Z.land n 0xffffffff = n mod 2 ^ 32) by (change 0xffffffff with (Z.ones 32); apply Z.land_ones; lia).
  pose proof (Z.mod_pos_bound (N / 2 ^ 32) (2 ^ 20) ltac:(lia)) as M20. pose proof (Z.mod_pos_bound n (2 ^ 32) ltac:(lia)) as M32.
  assert (X : N mod 2 ^ 52 = (N / 2 ^ 32) mod 2 ^ 20 * 2 ^ 32 + n mod 2 ^ 32).
  { assert (Q : n mod 2 ^ 32 = N mod 2 ^ 32) by (unfold N; rewrite Z.mod_add by lia; reflexivity). rewrite Q.
    pose proof (Z.div_mod N (2 ^ 32) ltac:(lia)). pose proof (Z.div_mod N (2 ^ 52) ltac:(lia)). pose proof (Z.div_mod (N / 2 ^ 32) (2 ^ 20) ltac:(lia)). lia. }
  unfold log_reduce. change (0x3ff00000 - 0x3fe6a09e) with 0x95f62.
  rewrite cadd_u by (rewrite HN; lia). cbn [bind]. rewrite HN, Z.shiftr_div_pow2, E1, L, L2 by lia.
  rewrite norm_id by (cbn [bits SI]; lia || (apply fits_s; unfold e in He; lia)).
  replace (csub (SI 32) (N / 2 ^ 52) 0x3ff) with (Ok e) by (symmetry; apply chk_ok, fits_s; fold e; lia). cbn [bind].
  replace (cadd (SI 32) k e) with (Ok (k + e)) by (symmetry; apply chk_ok, fits_s; lia). cbn [bind]. rewrite cadd_u by lia. cbn [bind].
  rewrite cshl_u_exact by lia. cbn [bind]. f_equal. f_equal.
  unfold x. rewrite X. rewrite Z.lor_comm, lor_add_low by lia. lia.
Qed.

Lemma log_reduce_ok n k (Y := (ln (mag64 n) + IZR k * ln 2)%R) : 2 ^ 52 <= n < INF -> k = 0 /\ n <> one \/ k = -54 /\ n < one ->
  exists r, log_reduce o c n (n / 2 ^ 32) k = Ok r /\ within (3 / 2) r Y.
Proof using Ho Hc.
  intros H Hk. rewrite log_reduce_eq by lia. eexists. split; [reflexivity|].
  destruct (log_bits n ltac:(lia)) as (En & Hx & He).
  set (x := (n + 0x95f62 * 2 ^ 32) mod 2 ^ 52 + 0x3fe6a09e * 2 ^ 32) in *. set (e := (n + 0x95f62 * 2 ^ 32) / 2 ^ 52 - 0x3ff) in *.
  destruct (log_primary_ok o Ho c Hc x (k + e) Hx ltac:(lia)) as [G E].
  - intros K0 V. assert (x = one) as X1.
    { apply value_pos_inj; [apply log_x_range, Hx|exact good_one|lra|rewrite V, value_one; reflexivity]. }
    change one with 0x3ff0000000000000 in *. lia.
  - assert (EY : (ln (value F64 x) + IZR (k + e) * ln 2 = Y)%R).
    { unfold Y. rewrite En, mag_shift by lia. rewrite <- mag_value by lia. rewrite ln_mult by (apply mag_pos64 || apply bpow_gt_0; lia).
      rewrite ln_bpow, plus_IZR. ring. }
    rewrite EY in E. split; [apply G|]. split; [apply G|exact E].
Qed.

(** A subnormal argument is scaled exactly. *)
Lemma log_subnormal n (m := o_mul o n x1p54) : 0 < n < 2 ^ 52 -> 2 ^ 52 <= m < one /\ mag64 m = (mag64 n * bpow radix2 54)%R.
Proof using Ho.
  intros H. assert (Gn : good n) by (replace n with (mk64 false n) by (unfold mk64; cbn [b2z]; lia); split; [apply float64; lia|apply finite64; lia]).
  assert (Gx : good x1p54) by const_good. assert (Vx : value F64 x1p54 = bpow radix2 54).
  { rewrite (kb_val 0 x1p54 (2 ^ 54)) by (vm_compute; reflexivity). unfold fx. change (bpow radix2 (- (0))) with 1%R. rewrite (IZR_Zpower radix2) by lia. ring. }
  assert (Vn : value F64 n = (IZR n * bpow radix2 (-1074))%R).
  { rewrite <- mag_value by lia. unfold mag64, V. change (fs F64) with 52. rewrite Z.div_small, Z.mod_small by lia. reflexivity. }
  assert (P : (value F64 n * value F64 x1p54 = IZR n * bpow radix2 (-1020))%R).
  { rewrite Vn, Vx, Rmult_assoc, <- bpow_plus. reflexivity. }
  assert (I1 : (1 <= IZR n)%R) by (apply IZR_le; lia).
  assert (I2 : (IZR n < bpow radix2 52)%R) by (change (bpow radix2 52) with (IZR (2 ^ 52)); apply IZR_lt; lia).
  pose proof (bpow_gt_0 radix2 (-1020)) as p.
  assert (B1 : (bpow radix2 (-1020) <= IZR n * bpow radix2 (-1020) < bpow radix2 (-968))%R).
  { replace (bpow radix2 (-968)) with (bpow radix2 52 * bpow radix2 (-1020))%R by (rewrite <- bpow_plus; reflexivity). nra. }
  destruct (mul64 o Ho n x1p54 Gn Gx) as [Gm Vm].
  { rewrite P. rewrite Rabs_pos_eq by lra. apply Rle_trans with (bpow radix2 (-968)); [lra|apply bpow_le; lia]. }
  rewrite P, rne_exact64 in Vm by lia. fold m in Gm, Vm.
  destruct (good_split m Gm) as (s & q & Eq & Hq). rewrite Eq, value64 in Vm by lia. pose proof (mag_nonneg64 q ltac:(lia)).
  destruct s; [lra|]. assert (q = m) by (rewrite Eq; unfold mk64; cbn [b2z]; lia). subst q. clear Eq. split.
  - split.
    + destruct (Z_le_gt_dec (2 ^ 52) m) as [L|L]; [exact L|]. pose proof (mag_lt64 m (2 ^ 52) ltac:(lia)) as Q.
      assert (E : mag64 (2 ^ 52) = bpow radix2 (-1022)).
      { unfold mag64. change (V F64 (2 ^ 52)) with (2 ^ 52). rewrite (IZR_Zpower radix2) by lia. rewrite <- bpow_plus. reflexivity. }
      assert (bpow radix2 (-1022) <= bpow radix2 (-1020))%R by (apply bpow_le; lia). lra.
    + destruct (Z_lt_ge_dec m one) as [L|L]; [exact L|]. pose proof (mag_le64 one m ltac:(change one with 0x3ff0000000000000 in *; lia)) as Q.
      rewrite mag_value, value_one in Q by (change one with 0x3ff0000000000000; lia).
      assert (bpow radix2 (-968) <= bpow radix2 0)%R by (apply bpow_le; lia). change (bpow radix2 0) with 1%R in *. lra.
  - rewrite Vm, (mag_value n), Vn, Rmult_assoc, <- bpow_plus by lia. reflexivity.
Qed.

(** The result of log for a positive finite argument. *)
Lemma log_positive n : 0 < n < INF -> exists r, libm_log o c n = Ok r /\ within (3 / 2) r (ln (mag64 n)) /\ (n = one -> r = 0).
Proof using Ho Hc.
  intros H. assert (Em : n = mk64 false n) by (unfold mk64; cbn [b2z]; lia).
  assert (HW : high_word n = n / 2 ^ 32) by (rewrite Em at 1; rewrite high_mk by lia; cbn [b2z]; lia).
  assert (HS : Z.shiftr (n / 2 ^ 32) 31 = 0) by (rewrite <- HW, Em, high_sign by lia; reflexivity).
  unfold libm_log. cbv zeta. rewrite HW, HS. change (negb (0 =? 0)) with false. rewrite orb_false_r.
  replace (n / 2 ^ 32 <? 0x00100000) with (n <? 2 ^ 52).
  2:{ rewrite !Z.ltb_antisym, hx_leb. reflexivity. }
  destruct (Z.ltb_spec n (2 ^ 52)) as [L|L].
  - rewrite cshl_u_exact by lia. cbn [bind]. replace (n * 2 ^ 1 =? 0) with false by (symmetry; apply Z.eqb_neq; lia).
    replace (csub (SI 32) 0 54) with (Ok (-54)) by reflexivity. cbn [bind].
    destruct (log_subnormal n ltac:(lia)) as [Hm Vm]. set (m := o_mul o n x1p54) in *.
    assert (HWm : high_word m = m / 2 ^ 32).
    { replace m with (mk64 false m) at 1 by (unfold mk64; cbn [b2z]; lia). rewrite high_mk by (change one with 0x3ff0000000000000 in *; lia). cbn [b2z]. lia. }
    rewrite HWm. destruct (log_reduce_ok m (-54)) as (r & E & W); [change one with 0x3ff0000000000000 in *; lia|right; lia|].
    exists r. split; [exact E|]. split; [|change one with 0x3ff0000000000000; lia].
    replace (ln (mag64 n)) with (ln (mag64 m) + -54 * ln 2)%R; [exact W|]. rewrite Vm, ln_mult by (apply mag_pos64 || apply bpow_gt_0; lia). rewrite ln_bpow. ring.
  - rewrite hx_leb. destruct (Z.leb_spec (0x7ff00000 * 2 ^ 32) n); [lia|].
    rewrite cshl_ok by (cbn [bits UI]; lia). cbn [bind]. rewrite norm_u.
    assert (ON : (n / 2 ^ 32 =? 0x3ff00000) && ((n * 2 ^ 32) mod 2 ^ 64 =? 0) = (n =? one)).
    { change (2 ^ 64) with (2 ^ 32 * 2 ^ 32). rewrite Z.mul_mod_distr_r by lia. pose proof (Z.div_mod n (2 ^ 32) ltac:(lia)). pose proof (Z.mod_pos_bound n (2 ^ 32) ltac:(lia)).
      change one with 0x3ff0000000000000. destruct (Z.eqb_spec (n / 2 ^ 32) 0x3ff00000), (Z.eqb_spec (n mod 2 ^ 32 * 2 ^ 32) 0), (Z.eqb_spec n 0x3ff0000000000000); try reflexivity; lia. }
    rewrite ON. destruct (Z.eqb_spec n one) as [->|N1].
    + exists 0. split; [reflexivity|]. split; [|reflexivity]. rewrite mag_value, value_one, ln_1 by (change one with 0x3ff0000000000000; lia).
      split; [apply good_zero|]. split; [apply good_zero|]. rewrite value_zero, Rminus_0_r, Rabs_R0. assert (0 <= ulp64 0)%R by apply ulp_ge_0. lra.
    + destruct (log_reduce_ok n 0 ltac:(lia) ltac:(left; lia)) as (r & E & W). exists r. split; [exact E|]. split; [|lia].
      rewrite Rmult_0_l, Rplus_0_r in W. exact W.
Qed.

Lemma neg_inf_bits r : is_float F64 r -> is_inf F64 r -> sign_of F64 r = true -> r = 0xfff0000000000000.
Proof. intros F I S. destruct (split64 r F) as (s & n & -> & Hn). rewrite isinf64 in I by exact Hn. rewrite sign64 in S by exact Hn. subst. reflexivity. Qed.
Lemma sub_self x : is_float F64 x -> is_nan F64 (o_sub o x x) /\ ~ is_finite F64 x \/ o_sub o x x = 0 /\ is_finite F64 x.
Proof using Ho.
  intros F. destruct (split64 x F) as (s & n & E & Hn). destruct (ops_sub F64 o Ho x x F F) as (Fr & A & B & _ & _ & C).
  destruct (Z.lt_trichotomy n INF) as [L|[L|L]].
  - right. assert (N : is_finite F64 x) by (rewrite E; apply finite64; assumption). split; [|exact N]. specialize (C N N).
    rewrite Rminus_eq_0, andb_negb_r in C. destruct C as (_ & S & V). rewrite Rcompare_Eq in S by reflexivity.
    replace (rne F64 0) with 0%R in V by (symmetry; apply round_0; auto with typeclass_instances). rewrite Rabs_R0, Rlt_bool_true in V by apply bpow_gt_0.
    destruct V as [N2 V]. destruct (split64 _ Fr) as (t & m & Em & Hm). rewrite Em in S, V, N2 |- *. rewrite sign64 in S by exact Hm. subst t. rewrite value64 in V by exact Hm.
    rewrite finite64 in N2 by exact Hm. destruct (Z.eq_dec m 0) as [->|M0]; [reflexivity|]. pose proof (mag_pos64 m ltac:(lia)). lra.
  - left. assert (I : is_inf F64 x) by (rewrite E; apply isinf64; assumption). specialize (B I I). rewrite Bool.eqb_reflx in B. split; [apply B|]. rewrite E, finite64 by exact Hn. lia.
  - left. split; [apply A; left; rewrite E; apply nan64; assumption|]. rewrite E, finite64 by exact Hn. lia.
Qed.

Lemma log_special x : is_float F64 x -> exists r, libm_log o c x = Ok r /\ is_float F64 r /\
  (is_nan F64 x -> is_nan F64 r) /\ (is_zero F64 x -> r = 0xfff0000000000000) /\
  (~ is_zero F64 x -> sign_of F64 x = true -> is_nan F64 r) /\
  (is_inf F64 x -> sign_of F64 x = false -> r = 0x7ff0000000000000) /\
  (is_finite F64 x -> (0 < value F64 x)%R -> within (3 / 2) r (ln (value F64 x))) /\ (value F64 x = 1%R -> is_finite F64 x -> r = 0).
Proof using Ho Hc.
  intros F. destruct (split64 x F) as (s & n & E & Hn).
  assert (NZ : ~ is_nan F64 one /\ good one /\ is_zero F64 0 /\ is_float F64 0).
  { split; [change one with (mk64 false one); rewrite nan64; change one with 0x3ff0000000000000; lia|]. split; [exact good_one|]. split; [change 0 with (mk64 false 0); apply zero64; lia|apply good_zero]. }
  destruct NZ as (_ & _ & Z0 & F0).
  destruct (Z.eq_dec n 0) as [->|N0].
  - assert (Z : is_zero F64 x) by (rewrite E; apply zero64; lia).
    assert (ER : libm_log o c x = Ok (o_div o neg_one (o_mul o x x))).
    { unfold libm_log. cbv zeta. rewrite E, high_sign, high_mk, <- E by lia.
      replace ((b2z s * 2 ^ 31 + 0 / 2 ^ 32 <? 0x00100000) || negb (b2z s =? 0)) with true by (destruct s; reflexivity).
      rewrite cshl_ok by (cbn [bits UI]; lia). cbn [bind]. replace (norm (UI 64) (x * 2 ^ 1)) with 0 by (rewrite E; destruct s; reflexivity). reflexivity. }
    assert (FX : is_finite F64 x) by (rewrite E; apply finite64; lia).
    assert (VX : value F64 x = 0%R) by (rewrite E, value64, mag0_64 by lia; destruct s; lra).
    assert (M : o_mul o x x = 0).
    { destruct (ops_mul F64 o Ho x x F F) as (Fr & _ & _ & _ & C). specialize (C FX FX). rewrite VX, Rmult_0_l, xorb_nilpotent in C. destruct C as (_ & S & V).
      rewrite Rcompare_Eq in S by reflexivity. replace (rne F64 0) with 0%R in V by (symmetry; apply round_0; auto with typeclass_instances).
      rewrite Rabs_R0, Rlt_bool_true in V by apply bpow_gt_0. destruct V as [N2 V]. destruct (split64 _ Fr) as (t & m & Em & Hm). rewrite Em in S, V, N2 |- *.
      rewrite sign64 in S by exact Hm. subst t. rewrite value64 in V by exact Hm. rewrite finite64 in N2 by exact Hm. destruct (Z.eq_dec m 0) as [->|M0]; [reflexivity|].
      pose proof (mag_pos64 m ltac:(lia)). lra. }
    rewrite M in ER. exists (o_div o neg_one 0). split; [exact ER|].
    assert (GN : good neg_one) by const_good.
    destruct (ops_div F64 o Ho neg_one 0 (proj1 GN) F0) as (Fr & _ & _ & D & _).
    destruct D as [I S]; [right; split; [apply GN|split; [change neg_one with (mk64 true 0x3ff0000000000000); rewrite zero64 by lia; lia|exact Z0]]|].
    assert (R : o_div o neg_one 0 = 0xfff0000000000000) by (apply neg_inf_bits; [exact Fr|exact I|rewrite S; reflexivity]).
    split; [exact Fr|]. rewrite R, VX. rewrite E, nan64, isinf64 by lia. rewrite <- E. split; [lia|]. split; [reflexivity|]. split; [tauto|]. split; [lia|]. split; intros; lra.
  - destruct s.
    + assert (ER : libm_log o c x = Ok (o_div o (o_sub o x x) 0)).
      { unfold libm_log. cbv zeta. rewrite E, high_sign, <- E by lia. cbn [b2z]. change (negb (1 =? 0)) with true. rewrite orb_true_r.
        rewrite cshl_ok by (cbn [bits UI]; lia). cbn [bind]. replace (norm (UI 64) (x * 2 ^ 1)) with (2 * n).
        2:{ rewrite norm_u, E. unfold mk64. cbn [b2z]. replace ((1 * 2 ^ 63 + n) * 2 ^ 1) with (2 * n + 1 * 2 ^ 64) by ring. rewrite Z.mod_add by lia. rewrite Z.mod_small; lia. }
        destruct (Z.eqb_spec (2 * n) 0); [lia|reflexivity]. }
      exists (o_div o (o_sub o x x) 0). split; [exact ER|]. destruct (ops_sub F64 o Ho x x F F) as (Fs & _).
      destruct (ops_div F64 o Ho (o_sub o x x) 0 Fs F0) as (Fr & A & B & _). split; [exact Fr|].
      assert (NN : is_nan F64 (o_div o (o_sub o x x) 0)).
      { destruct (sub_self x F) as [[Q _]|[Q _]]; [apply A; left; exact Q|]. apply B. right. rewrite Q. split; exact Z0. }
      split; [intros _; exact NN|]. split; [rewrite E, zero64 by lia; lia|]. split; [intros _ _; exact NN|]. split; [rewrite E, sign64 by lia; discriminate|].
      rewrite E, value64 by lia. pose proof (mag_nonneg64 n ltac:(lia)). split; intros; lra.
    + assert (x = n) as -> by (rewrite E; unfold mk64; cbn [b2z]; lia). assert (HW : high_word n = n / 2 ^ 32) by (rewrite E at 1; rewrite high_mk by lia; cbn [b2z]; lia).
      destruct (Z_lt_ge_dec n INF) as [L|G].
      * destruct (log_positive n ltac:(lia)) as (r & ER & W & O1). exists r. split; [exact ER|]. split; [apply W|].
        rewrite E at 1. rewrite nan64 by lia. split; [lia|]. rewrite E at 1. rewrite zero64 by lia. split; [lia|].
        rewrite E at 2. rewrite sign64 by lia. split; [discriminate|]. rewrite E at 1. rewrite isinf64 by lia. split; [lia|].
        rewrite <- mag_value by lia. split; [intros _ _; exact W|]. intros V1 FN. apply O1. apply value_pos_inj; [split; assumption|exact good_one| |]; rewrite <- mag_value, V1 by lia; [lra|rewrite value_one; reflexivity].
      * assert (ER : libm_log o c n = Ok n).
        { unfold libm_log. cbv zeta. rewrite HW. assert (HS : Z.shiftr (n / 2 ^ 32) 31 = 0) by (rewrite <- HW, E, high_sign by lia; reflexivity). rewrite HS.
          rewrite Z.ltb_antisym, !hx_leb. replace (0x00100000 * 2 ^ 32 <=? n) with true by (symmetry; apply Z.leb_le; lia). replace (0x7ff00000 * 2 ^ 32 <=? n) with true by (symmetry; apply Z.leb_le; lia). reflexivity. }
        exists n. split; [exact ER|]. split; [exact F|]. split; [tauto|]. split; [rewrite E, zero64 by lia; lia|]. split; [rewrite E, sign64 by lia; discriminate|].
        split; [rewrite E at 1; rewrite isinf64 by lia; tauto|]. rewrite E, finite64 by lia. split; intros; lia.
Qed.
End Log.
