(** atanh, and the parts of the three inverse hyperbolic functions that work on the sign. *)
From Coq Require Import ZArith Reals Bool Lia Lra Psatz.
From Flocq Require Import Core Mult_error.
From Verif Require Import Base BaseLemmas FloatModel FloatSpec FloatProofs FloatProofs5 FloatConvSpec LibmModel LibmSpec LibmProofs Elem FloatErr ElemModel ElemSpec F64Lib
  ExpProofs3 ExpProofs4 ExpProofs5 ExpProofs6 ExpProofs7 ExpProofs8 LogProofs LogProofs2 LogProofs4 TrigModel HypotModel HypotProofs3 TrigRed TrigLg11 AsinProofs2 Atan2Proofs Log1pModel Log1pProofs Log1pProofs2 Log2Proofs2 AreaModel AreaProofs.
Open Scope Z_scope.

Definition flip (s : bool) (z : Z) : Z := if s then fneg z else z.
Lemma area_fields s n : 0 <= n < 2 ^ 63 ->
  Z.land (Z.shiftr (mk64 s n) 52) 0x7ff = n / 2 ^ 52 /\ negb (Z.shiftr (mk64 s n) 63 =? 0) = s /\ Z.land (mk64 s n) 0x7fffffffffffffff = n.
Proof.
  intros H. unfold mk64. rewrite !Z.shiftr_div_pow2 by lia. change 0x7ff with (Z.ones 11). change 0x7fffffffffffffff with (Z.ones 63). rewrite !Z.land_ones by lia. split; [|split].
  - replace (b2z s * 2 ^ 63 + n) with (b2z s * 2 ^ 11 * 2 ^ 52 + n) by ring. rewrite Z.div_add_l by lia. rewrite Z.add_comm, Z.mod_add by lia. apply Z.mod_small. split; [apply Z.div_pos; lia|apply Z.div_lt_upper_bound; lia].
  - rewrite Z.div_add_l by lia. rewrite (Z.div_small n) by lia. destruct s; reflexivity.
  - rewrite Z.add_comm, Z.mod_add by lia. apply Z.mod_small. lia.
Qed.
Lemma flip_mk s t n : 0 <= n < 2 ^ 63 -> flip s (mk64 t n) = mk64 (xorb s t) n.
Proof. intros H. destruct s; [|destruct t; reflexivity]. cbn [flip]. unfold fneg, mk64. rewrite lxor_mk_top by lia. destruct t; reflexivity. Qed.
Lemma flip_float s r : is_float F64 r -> is_float F64 (flip s r) /\ (is_nan F64 r -> is_nan F64 (flip s r)) /\ (is_inf F64 r -> is_inf F64 (flip s r)) /\ sign_of F64 (flip s r) = xorb s (sign_of F64 r).
Proof.
  intros F. destruct (split64 r F) as (t & n & -> & Hn). rewrite flip_mk, !sign64, !nan64, !isinf64 by lia. repeat split; try tauto; apply float64; lia.
Qed.
Lemma flip_within s k r y : within k r y -> within k (flip s r) (if s then - y else y)%R.
Proof.
  intros (F & N & E). destruct s; [|split; [exact F|split; assumption]]. destruct (hneg_ok r (conj F N)) as [[G1 G2] V]. change (hneg r) with (flip true r) in *. split; [exact G1|]. split; [exact G2|]. rewrite V, ulp64_opp. replace (- value F64 r - - y)%R with (- (value F64 r - y))%R by ring. rewrite Rabs_Ropp. exact E.
Qed.
Lemma within_le k k' r y : within k r y -> (k <= k')%R -> within k' r y.
Proof. intros (F & N & E) H. split; [exact F|]. split; [exact N|]. eapply Rle_trans; [exact E|]. apply Rmult_le_compat_r; [apply ulp_ge_0|exact H]. Qed.

Lemma div_bnd a b e d : (0 < d -> a * d <= b -> b <= e * d -> a <= b / d <= e)%R.
Proof. intros D L U. split; apply Rmult_le_reg_r with d; try exact D; replace (b / d * d)%R with b by (field; lra); lra. Qed.
Lemma apx_one : apx one 1 0.
Proof. split; [apply good_one|]. rewrite value_one, Rminus_eq_0, Rabs_R0. lra. Qed.

(** The real function. *)
Definition artanh (x : R) : R := (ln ((1 + x) / (1 - x)) / 2)%R.
Lemma tanh_artanh x : (-1 < x < 1)%R -> tanh (artanh x) = x.
Proof.
  intros H. unfold tanh, sinh, cosh. rewrite exp_Ropp. set (a := exp (artanh x)). assert (P : (0 < a)%R) by apply exp_pos.
  assert (S : (a * a = (1 + x) / (1 - x))%R). { unfold a. rewrite <- exp_plus. unfold artanh. replace (ln ((1 + x) / (1 - x)) / 2 + ln ((1 + x) / (1 - x)) / 2)%R with (ln ((1 + x) / (1 - x))) by field. apply exp_ln. apply Rdiv_lt_0_compat; lra. }
  assert (Q : (a * a * (1 - x) = 1 + x)%R) by (rewrite S; field; lra).
  assert (D : (0 < a * a)%R) by nra. replace ((a - / a) / 2 / ((a + / a) / 2))%R with ((a * a - 1) / (a * a + 1))%R by (field; repeat split; nra). apply Rmult_eq_reg_r with (a * a + 1)%R; [|nra]. unfold Rdiv. rewrite Rmult_assoc, Rinv_l by nra. lra.
Qed.
Lemma artanh_opp x : (-1 < x < 1)%R -> artanh (- x) = (- artanh x)%R.
Proof.
  intros H. unfold artanh. replace ((1 + - x) / (1 - - x))%R with (/ ((1 + x) / (1 - x)))%R by (field; lra). rewrite ln_Rinv by (apply Rdiv_lt_0_compat; lra). field.
Qed.
Lemma artanh_near x : (0 <= x <= / 2 -> Rabs (artanh x - x) <= x * x * x)%R.
Proof.
  intros H. pose proof (atanh_taylor_ok 1 x (/ 2) ltac:(rewrite Rabs_pos_eq; lra) ltac:(lra)) as T. rewrite (Rabs_pos_eq x) in T by lra.
  change (2 * 1 + 1)%nat with 3%nat in T. cbn [atanh_taylor Nat.mul Nat.add] in T. replace (INR 3) with 3%R in T by (cbn; lra). replace (INR 1) with 1%R in T by reflexivity. cbn [pow] in T.
  unfold artanh. set (L := ln ((1 + x) / (1 - x))) in *. apply Rabs_le_inv in T. replace (0 + 2 * (x * 1) / 1)%R with (2 * x)%R in T by field. replace (2 * (x * (x * (x * 1))) / 3 / (1 - / 2 * / 2))%R with (8 / 9 * (x * x * x))%R in T by field.
  assert (0 <= x * x * x)%R by (apply Rmult_le_pos; nra). apply Rabs_le. lra.
Qed.

Section Atanh.
Context (o : fops) (Ho : ieee_ops F64 o) (c : icast) (Hc : icast_ok c).
Lemma area_tiny x y : good x -> (0 <= value F64 x)%R -> (Rabs (y - value F64 x) <= u53 * value F64 x)%R -> within 2 x y.
Proof using.
  clear. intros G P E. split; [apply G|]. split; [apply G|]. pose proof (ulp64_rel y) as U. change (bpow radix2 (-53)) with u53 in U. pose proof u53_small as US. rewrite Rabs_minus_sym. assert (E' := Rabs_le_inv _ _ E).
  set (v := value F64 x) in *. assert (u53 * v <= / 2 * v)%R by (apply Rmult_le_compat_r; lra). assert (v / 2 <= y)%R by lra. rewrite (Rabs_pos_eq y) in U by lra. assert (v / 2 * u53 <= y * u53)%R by (apply Rmult_le_compat_r; lra). lra.
Qed.
Lemma atanh_small x (X := value F64 x) : good x -> (bpow radix2 (-32) <= X < / 2)%R ->
  exists l, libm_log1p o c (o_add o (o_mul o two x) (o_div o (o_mul o (o_mul o two x) x) (o_sub o one x))) = Ok l /\ within 6 (o_mul o half l) (artanh X).
Proof using Ho Hc.
  intros G B. assert (B32 : bpow radix2 (-32) = (/ 4294967296)%R) by reflexivity. rewrite B32 in B.
  assert (RG : forall v, (/ 100000000000000000000000 <= v <= 1000)%R -> rg v).
  { intros v H. split; [apply Rle_trans with (bpow radix2 (-80)); [apply bpow_le; lia|change (bpow radix2 (-80)) with (/ 1208925819614629174706176)%R; lra]|apply Rle_trans with (bpow radix2 10); [change (bpow radix2 10) with 1024%R; lra|apply bpow_le; lia]]. }
  assert (A0 : apx x X 0) by (apply apx_refl; [exact G|fold X; lra]).
  pose proof apx_one as A1.
  assert (A2 : apx (o_mul o two x) (2 * X) 0) by (apply (apx_two o Ho); [exact A0|apply RG; lra|lra]).
  assert (XX : (/ 20000000000000000000 <= X * X <= / 4)%R) by nra.
  assert (A3 := apx_mul o Ho _ _ (2 * X) X 0 0 A2 A0 ltac:(lra) ltac:(lra) (RG (2 * X * X)%R ltac:(nra)) ltac:(lra) ltac:(lra)).
  assert (A4 := apx_sub o Ho one x 1 X 0 0 0 A1 A0 ltac:(lra) ltac:(lra) (RG (1 - X)%R ltac:(lra)) ltac:(lra) ltac:(lra)).
  assert (Q : (X * X <= X * X / (1 - X) <= 2 * (X * X))%R).
  { assert (0 <= X * X * (1 - 2 * X))%R by (apply Rmult_le_pos; lra). assert (0 <= X * X * X)%R by (apply Rmult_le_pos; lra). apply div_bnd; lra. }
  assert (Q2 : (2 * X * X / (1 - X) = 2 * (X * X / (1 - X)))%R) by (field; lra).
  assert (A5 := apx_div o Ho _ _ (2 * X * X) (1 - X) _ _ A3 A4 ltac:(nra) ltac:(lra) (RG (2 * X * X / (1 - X))%R ltac:(rewrite Q2; lra)) ltac:(lra) ltac:(lra)).
  assert (Q3 : (2 * X + 2 * X * X / (1 - X) = 2 * X / (1 - X))%R) by (field; lra).
  assert (Q4 : (2 * X * X / (1 - X) <= 2 * X)%R). { apply (div_bnd 0); nra. }
  assert (A6 := apx_add o Ho _ _ (2 * X) (2 * X * X / (1 - X)) _ _ 1.53 A2 A5 ltac:(lra) ltac:(rewrite Q2; lra) (RG (2 * X + 2 * X * X / (1 - X))%R ltac:(lra)) ltac:(lra) ltac:(lra)).
  rewrite Q3 in A6. assert (Q5 : (2 * X <= 2 * X / (1 - X) <= 4 * X)%R) by lra.
  destruct (log1p_apx o Ho c Hc _ _ _ A6 (RG (2 * X / (1 - X))%R ltac:(lra)) ltac:(lra)) as (l & El & Gl & Wl). exists l. split; [exact El|].
  replace (1 + 2 * X / (1 - X))%R with ((1 + X) / (1 - X))%R in Wl by (field; lra). unfold artanh. set (Y := ln ((1 + X) / (1 - X))) in *.
  pose proof (artanh_near X ltac:(lra)) as N. unfold artanh in N. fold Y in N. assert (X * X * X <= / 4 * X)%R by nra. apply Rabs_le_inv in N.
  apply (within_le (3 + 1.001 * (1.53 + 1.01))); [|lra]. apply (half_within o Ho); [| |lra|exact Wl|exact Gl].
  - apply Rle_trans with (bpow radix2 (-40)); [apply bpow_le; lia|]. change (bpow radix2 (-40)) with (/ 1099511627776)%R. lra.
  - apply Rle_trans with (bpow radix2 2); [change (bpow radix2 2) with 4%R; lra|apply bpow_le; lia].
Qed.
Lemma fmt_gap x (X := value F64 x) : good x -> (/ 2 <= X < 1)%R -> (bpow radix2 (-53) <= 1 - X)%R.
Proof using.
  clear. intros G B. assert (F : generic_format radix2 (FLT_exp (emin F64) (prec F64)) X) by (apply format64; apply G).
  assert (PG : Prec_gt_0 (prec F64)) by exact Hp64.
  assert (S : (succ radix2 (FLT_exp (emin F64) (prec F64)) X <= 1)%R).
  { apply succ_le_lt; [auto with typeclass_instances|exact F| |lra]. change 1%R with (bpow radix2 0). apply generic_format_bpow. vm_compute. discriminate. }
  rewrite succ_eq_pos in S by lra. pose proof (ulp64_rel X) as U. pose proof (ulp64_ge 0 X) as U2. change (bpow radix2 (0 - 1)) with (/ 2)%R in U2. rewrite Rabs_pos_eq in U2 by lra. specialize (U2 ltac:(lra)). change (0 - 53) with (-53) in U2. unfold ulp64 in U2. lra.
Qed.
Lemma atanh_large x (X := value F64 x) : good x -> (/ 2 <= X < 1)%R ->
  exists l, libm_log1p o c (o_mul o two (o_div o x (o_sub o one x))) = Ok l /\ within 6 (o_mul o half l) (artanh X).
Proof using Ho Hc.
  intros G B. pose proof (fmt_gap x G B) as GP. fold X in GP. assert (B53 : bpow radix2 (-53) = (/ 9007199254740992)%R) by reflexivity. rewrite B53 in GP.
  assert (RG : forall v, (/ 100000000000000000000000 <= v <= 100000000000000000)%R -> rg v).
  { intros v H. split; [apply Rle_trans with (bpow radix2 (-80)); [apply bpow_le; lia|change (bpow radix2 (-80)) with (/ 1208925819614629174706176)%R; lra]|apply Rle_trans with (bpow radix2 60); [change (bpow radix2 60) with 1152921504606846976%R; lra|apply bpow_le; lia]]. }
  assert (A0 : apx x X 0) by (apply apx_refl; [exact G|fold X; lra]).
  destruct (sub64 o Ho one x good_one G) as [GS VS]; [rewrite value_one; fold X; apply Rle_trans with (bpow radix2 0); [change (bpow radix2 0) with 1%R; apply Rabs_le; lra|apply bpow_le; lia]|].
  rewrite value_one in VS. fold X in VS. rewrite (sterb 1 X (/ X)) in VS; [|rewrite <- value_one; apply format64; apply good_one|apply format64; apply G|field; lra|].
  2:{ assert (J1 : (/ X * X = 1)%R) by (apply Rinv_l; lra). assert (J2 : (0 < / X)%R) by (apply Rinv_0_lt_compat; lra). set (w := (/ X)%R) in *. split; nra. }
  assert (A4 : apx (o_sub o one x) (1 - X) 0). { rewrite <- VS. apply apx_refl; [exact GS|rewrite VS; lra]. }
  assert (Q : (/ 2 <= X / (1 - X) <= 10000000000000000)%R). { apply div_bnd; lra. }
  assert (A5 := apx_div o Ho _ _ X (1 - X) _ _ A0 A4 ltac:(lra) ltac:(lra) (RG (X / (1 - X))%R ltac:(lra)) ltac:(lra) ltac:(lra)).
  assert (A6 := apx_two o Ho _ _ _ A5 (RG (X / (1 - X))%R ltac:(lra)) ltac:(lra)).
  destruct (log1p_apx o Ho c Hc _ _ _ A6 (RG (2 * (X / (1 - X)))%R ltac:(lra)) ltac:(lra)) as (l & El & Gl & Wl). exists l. split; [exact El|].
  assert (U : (ln (1 + 2 * (X / (1 - X))) <= 2 * (X / (1 - X)))%R) by (apply ln_upper; lra). assert (L : (ln 2 <= ln (1 + 2 * (X / (1 - X))))%R) by (apply ln_le'; lra). pose proof ln2_num as L2.
  replace (1 + 2 * (X / (1 - X)))%R with ((1 + X) / (1 - X))%R in * by (field; lra). unfold artanh. set (Y := ln ((1 + X) / (1 - X))) in *.
  apply (within_le (3 + 1.001 * (0 + 0 + 1.011))); [|lra]. apply (half_within o Ho); [| |lra|exact Wl|exact Gl].
  - apply Rle_trans with (bpow radix2 (-40)); [apply bpow_le; lia|]. change (bpow radix2 (-40)) with (/ 1099511627776)%R. lra.
  - apply Rle_trans with (bpow radix2 60); [change (bpow radix2 60) with 1152921504606846976%R; lra|apply bpow_le; lia].
Qed.

(** The function on the magnitude of its argument. *)
Definition atanh_body (y : Z) : res Z :=
  if y / 2 ^ 52 <? 0x3ff - 1 then
    if y / 2 ^ 52 <? 0x3ff - 32 then Ok y
    else let* l := libm_log1p o c (o_add o (o_mul o two y) (o_div o (o_mul o (o_mul o two y) y) (o_sub o one y))) in Ok (o_mul o half l)
  else let* l := libm_log1p o c (o_mul o two (o_div o y (o_sub o one y))) in Ok (o_mul o half l).
Lemma atanh_sign s n : 0 <= n < 2 ^ 63 -> libm_atanh o c (mk64 s n) = let* y := atanh_body n in Ok (flip s y).
Proof using.
  intros H. destruct (area_fields s n H) as (E1 & E2 & E3). unfold libm_atanh, atanh_body. cbv zeta. rewrite E1, E2, E3. reflexivity.
Qed.
Lemma exp_ltb n k : 0 <= n -> (n / 2 ^ 52 <? k) = (n <? k * 2 ^ 52).
Proof using.
  clear. intros H. destruct (Z.ltb_spec (n / 2 ^ 52) k) as [L|L], (Z.ltb_spec n (k * 2 ^ 52)) as [M|M]; try reflexivity; exfalso.
  - assert (k <= n / 2 ^ 52) by (apply Z.div_le_lower_bound; lia). lia.
  - assert (n / 2 ^ 52 < k) by (apply Z.div_lt_upper_bound; lia). lia.
Qed.
Lemma log1p_nan x : is_float F64 x -> is_nan F64 x -> exists l, libm_log1p o c x = Ok l /\ is_float F64 l /\ is_nan F64 l.
Proof using Ho Hc. intros F N. destruct (log1p_all o Ho c Hc x F) as (l & E & Fl & A & _). exists l. split; [exact E|]. split; [exact Fl|apply A, N]. Qed.
Lemma half_nan l : is_float F64 l -> is_nan F64 l -> is_float F64 (o_mul o half l) /\ is_nan F64 (o_mul o half l).
Proof using Ho. intros F N. destruct (ops_mul F64 o Ho half l ltac:(apply good_half) F) as (Fr & A & _). split; [exact Fr|]. apply A. right. exact N. Qed.

Lemma atanh_out n : 0 <= n < 2 ^ 63 -> one < n -> exists l, libm_log1p o c (o_mul o two (o_div o n (o_sub o one n))) = Ok l /\ is_float F64 l /\ is_nan F64 l.
Proof using Ho Hc.
  intros H L. assert (En : n = mk64 false n) by (unfold mk64; cbn [b2z]; lia). assert (Fn : is_float F64 n) by (rewrite En; apply float64; lia). assert (F1 : is_float F64 one) by apply good_one. assert (G2 : good two) by const_good.
  assert (VN : mag64 n = value F64 n) by (apply mag_value; lia).
  assert (NAN : is_nan F64 (o_div o n (o_sub o one n)) -> exists l, libm_log1p o c (o_mul o two (o_div o n (o_sub o one n))) = Ok l /\ is_float F64 l /\ is_nan F64 l).
  { intros N. destruct (ops_sub F64 o Ho one n F1 Fn) as [Fs _]. destruct (ops_div F64 o Ho n _ Fn Fs) as [Fd _]. destruct (ops_mul F64 o Ho two _ (proj1 G2) Fd) as (Fm & A & _). apply log1p_nan; [exact Fm|apply A; right; exact N]. }
  destruct (Z_lt_ge_dec n INF) as [LI|LI].
  - assert (G : good n) by (split; [exact Fn|rewrite En; apply finite64; lia]). pose proof (mag_ge 0x3ff0000000000001 0x10000000000001 52 n ltac:(vm_compute; reflexivity) ltac:(lia) ltac:(change one with 0x3ff0000000000000 in L; lia)) as X1. rewrite VN in X1. unfold fx in X1. change (bpow radix2 (- (52))) with (/ 4503599627370496)%R in X1.
    assert (XB : (value F64 n < bpow radix2 1024)%R) by (rewrite <- VN, <- mag_inf64; apply mag_lt64; lia). set (X := value F64 n) in *.
    assert (FX : generic_format radix2 (FLT_exp (emin F64) (prec F64)) X) by (apply format64; apply G).
    destruct (ops_sub F64 o Ho one n F1 Fn) as (Fs & _ & _ & _ & _ & R). specialize (R ltac:(apply good_one) (proj2 G)). rewrite value_one in R. fold X in R.
    assert (PG : Prec_gt_0 (prec F64)) by exact Hp64.
    assert (B1 : (- X <= rne F64 (1 - X))%R). { rewrite <- (fmt_rne (- X)) by (apply generic_format_opp; exact FX). apply round_le; [auto with typeclass_instances|auto with typeclass_instances|lra]. }
    assert (B2 : (rne F64 (1 - X) <= - (/ 4503599627370496))%R).
    { rewrite <- (fmt_rne (- / 4503599627370496)); [apply round_le; [auto with typeclass_instances|auto with typeclass_instances|lra]|]. apply generic_format_opp. change (/ 4503599627370496)%R with (bpow radix2 (-52)). apply generic_format_bpow. vm_compute. discriminate. }
    assert (B3 : (2 <= X -> rne F64 (1 - X) <= - (X / 2))%R).
    { intros X2. rewrite <- (fmt_rne (- (X / 2))); [apply round_le; [auto with typeclass_instances|auto with typeclass_instances|lra]|]. apply generic_format_opp. change (X / 2)%R with (X * bpow radix2 (-1))%R. apply mult_bpow_exact_FLT; [exact FX|].
      assert (1 < mag radix2 X)%Z by (apply mag_gt_bpow; rewrite Rabs_pos_eq by lra; change (bpow radix2 1) with 2%R; exact X2). change (emin F64) with (-1074). change (prec F64) with 53. lia. }
    destruct R as (_ & _ & R). rewrite Rlt_bool_true in R by (change (emax F64) with 1024; apply Rabs_lt; lra). destruct R as [Ns Vs]. set (d := o_sub o one n) in *. rewrite <- Vs in *. set (D := value F64 d) in *.
    assert (Q : (- 9007199254740993 <= X / D <= -1)%R).
    { replace (X / D)%R with (- (X / - D))%R by (field; lra). assert (1 <= X / - D <= 9007199254740993)%R; [|lra]. apply div_bnd; [lra|lra|]. destruct (Rle_lt_dec 2 X) as [x2|x2]; [specialize (B3 x2); lra|lra]. }
    destruct (div64 o Ho n d G (conj Fs Ns)) as [Gq Vq]; [fold D; lra|fold X; fold D; apply Rle_trans with (bpow radix2 60); [change (bpow radix2 60) with 1152921504606846976%R; apply Rabs_le; lra|apply bpow_le; lia]|]. fold X D in Vq.
    assert (Q1 : (value F64 (o_div o n d) <= -1)%R).
    { rewrite Vq, <- (fmt_rne (-1)); [apply round_le; [auto with typeclass_instances|auto with typeclass_instances|lra]|]. replace (-1)%R with (- bpow radix2 0)%R by (cbn; lra). apply generic_format_opp, generic_format_bpow. vm_compute. discriminate. }
    assert (Q2 : (- bpow radix2 60 <= value F64 (o_div o n d))%R).
    { rewrite Vq, <- (fmt_rne (- bpow radix2 60)); [apply round_le; [auto with typeclass_instances|auto with typeclass_instances|change (bpow radix2 60) with 1152921504606846976%R; lra]|]. apply generic_format_opp, generic_format_bpow. vm_compute. discriminate. }
    destruct (two_exact o Ho _ Gq) as [Gt Vt]; [apply Rle_trans with (bpow radix2 60); [apply Rabs_le; lra|apply bpow_le; lia]|].
    destruct (log1p_all o Ho c Hc _ (proj1 Gt)) as (l & El & Fl & _ & _ & _ & A & _). exists l. split; [exact El|]. split; [exact Fl|]. apply A; [apply Gt|]. rewrite Vt. lra.
  - apply NAN. destruct (ops_sub F64 o Ho one n F1 Fn) as (Fs & S1 & _ & _ & S2 & _). destruct (ops_div F64 o Ho n _ Fn Fs) as (Fd & D1 & D2 & _).
    destruct (Z.eq_dec n INF) as [EI|NI]; [|apply D1; left; rewrite En, nan64; lia].
    assert (II : is_inf F64 n) by (rewrite En, isinf64; lia). apply D2. left. split; [exact II|]. rewrite (S2 ltac:(apply good_one) II), EI. apply (isinf64 true INF); [lia|reflexivity].
Qed.
Lemma atanh_mag n : 0 <= n < 2 ^ 63 -> exists r, atanh_body n = Ok r /\ is_float F64 r /\ (n = 0 -> r = 0) /\ (n = one -> r = INF) /\ (one < n -> is_nan F64 r) /\ (n < one -> within 6 r (artanh (mag64 n))).
Proof using Ho Hc.
  intros H. assert (En : n = mk64 false n) by (unfold mk64; cbn [b2z]; lia). assert (Fn : is_float F64 n) by (rewrite En; apply float64; lia).
  assert (V1 : mag64 one = 1%R) by (rewrite mag_value by (change one with 0x3ff0000000000000; lia); apply value_one).
  assert (VH : mag64 half = (/ 2)%R) by (rewrite mag_value by (change half with 0x3fe0000000000000; lia); apply val_half).
  assert (VN : mag64 n = value F64 n) by (apply mag_value; lia).
  assert (GN : n < INF -> good n) by (intros L; split; [exact Fn|rewrite En; apply finite64; lia]).
  unfold atanh_body. rewrite !exp_ltb by lia. change ((0x3ff - 1) * 2 ^ 52) with half. change ((0x3ff - 32) * 2 ^ 52) with 0x3df0000000000000.
  change one with 0x3ff0000000000000 in *. change half with 0x3fe0000000000000 in *.
  destruct (Z.ltb_spec n 0x3fe0000000000000) as [L|L].
  - pose proof (mag_lt64 n 0x3fe0000000000000 ltac:(lia)) as B. rewrite VH in B. pose proof (mag_nonneg64 n ltac:(lia)) as B0. assert (G := GN ltac:(lia)).
    destruct (Z.ltb_spec n 0x3df0000000000000) as [S|S].
    + exists n. split; [reflexivity|]. split; [exact Fn|]. split; [tauto|]. split; [lia|]. split; [lia|]. intros _. apply (within_le 2); [|lra]. rewrite VN in *.
      assert (S32 : (value F64 n < / 4294967296)%R). { rewrite <- VN. pose proof (mag_lt 0x3df0000000000000 1 32 n ltac:(vm_compute; reflexivity) ltac:(lia) ltac:(lia)) as Q. unfold fx in Q. rewrite Rmult_1_l in Q. exact Q. }
      apply area_tiny; [exact G|lra|]. eapply Rle_trans; [apply artanh_near; lra|]. change u53 with (/ 9007199254740992)%R. set (v := value F64 n) in *. apply Rmult_le_compat_r; [lra|]. nra.
    + destruct (atanh_small n G) as (l & El & W). { rewrite <- VN. split; [|lra]. pose proof (mag_ge 0x3df0000000000000 1 32 n ltac:(vm_compute; reflexivity) ltac:(lia) ltac:(lia)) as Q. unfold fx in Q. rewrite Rmult_1_l in Q. exact Q. }
      change one with 0x3ff0000000000000 in El. rewrite El. cbn [bind]. eexists. split; [reflexivity|]. split; [apply W|]. split; [lia|]. split; [lia|]. split; [lia|]. intros _. rewrite VN. exact W.
  - destruct (Z_lt_ge_dec n 0x3ff0000000000000) as [L1|L1].
    + pose proof (mag_lt64 n 0x3ff0000000000000 ltac:(lia)) as B. rewrite V1 in B. pose proof (mag_le64 0x3fe0000000000000 n ltac:(lia)) as B0. rewrite VH in B0. assert (G := GN ltac:(lia)).
      destruct (atanh_large n G) as (l & El & W); [rewrite <- VN; lra|]. change one with 0x3ff0000000000000 in El. rewrite El. cbn [bind]. eexists. split; [reflexivity|]. split; [apply W|]. split; [lia|]. split; [lia|]. split; [lia|]. intros _. rewrite VN. exact W.
    + destruct (Z.eq_dec n 0x3ff0000000000000) as [->|N1].
      * destruct (sub_self o Ho 0x3ff0000000000000 Fn) as [[_ Q]|[Q _]]; [destruct Q; apply (GN ltac:(lia))|]. change ElemModel.one with 0x3ff0000000000000. rewrite Q.
        assert (FI : is_float F64 INF) by (apply (float64 false INF); lia). assert (II : is_inf F64 INF) by (apply (isinf64 false INF); [lia|reflexivity]).
        assert (Z0 : is_zero F64 0) by (change 0 with (mk64 false 0); apply zero64; lia).
        destruct (ops_div F64 o Ho 0x3ff0000000000000 0 Fn (proj1 good_zero)) as (Fd & _ & _ & D & _). destruct D as [D1 D2]; [right; split; [apply (GN ltac:(lia))|split; [|exact Z0]]; rewrite En, zero64 by lia; lia|].
        assert (D : o_div o 0x3ff0000000000000 0 = INF) by (apply pos_inf_bits; [exact Fd|exact D1|rewrite D2; reflexivity]). rewrite D.
        destruct (good_mk false 0x4000000000000000 ltac:(lia)) as [F2 N2]. change (mk64 false 0x4000000000000000) with two in *.
        assert (M : forall t, is_float F64 t -> ~ is_zero F64 t -> ~ is_nan F64 t -> sign_of F64 t = false -> o_mul o t INF = INF).
        { intros t Ft Zt Nt St. destruct (ops_mul F64 o Ho t INF Ft FI) as (Fm & _ & _ & M & _). destruct M as [M1 M2]; [right; tauto|]. apply pos_inf_bits; [exact Fm|exact M1|]. rewrite M2, St. reflexivity. }
        rewrite (M two F2); [|change two with (mk64 false 0x4000000000000000); rewrite zero64; lia|change two with (mk64 false 0x4000000000000000); rewrite nan64; lia|reflexivity].
        destruct (log1p_all o Ho c Hc INF FI) as (l & El & _ & _ & _ & _ & _ & A & _). specialize (A II). change (sign_of F64 INF) with false in A. cbn iota in A. subst l. rewrite El. cbn [bind].
        rewrite (M 0x3fe0000000000000); [|apply (float64 false 0x3fe0000000000000); lia|apply (not_iff_compat (zero64 false 0x3fe0000000000000 ltac:(lia))); lia|apply (not_iff_compat (nan64 false 0x3fe0000000000000 ltac:(lia))); lia|reflexivity].
        exists INF. split; [reflexivity|]. split; [exact FI|]. split; [lia|]. split; [reflexivity|]. split; lia.
      * enough (exists l, libm_log1p o c (o_mul o two (o_div o n (o_sub o one n))) = Ok l /\ is_float F64 l /\ is_nan F64 l) as (l & El & Fl & Nl).
        { change one with 0x3ff0000000000000 in El. rewrite El. cbn [bind]. destruct (half_nan l Fl Nl) as [F' N']. eexists. split; [reflexivity|]. split; [exact F'|]. split; [lia|]. split; [lia|]. split; [intros _; exact N'|lia]. }
        apply atanh_out; [exact H|]. change one with 0x3ff0000000000000. lia.
Qed.

Lemma atanh_all x : is_float F64 x -> exists r, libm_atanh o c x = Ok r /\ is_float F64 r /\
  (is_nan F64 x -> is_nan F64 r) /\ (is_zero F64 x -> r = x) /\
  (is_finite F64 x -> Rabs (value F64 x) = 1%R -> is_inf F64 r /\ sign_of F64 r = sign_of F64 x) /\
  (is_finite F64 x -> (1 < Rabs (value F64 x))%R -> is_nan F64 r) /\
  (is_inf F64 x -> is_nan F64 r) /\
  (is_finite F64 x -> (Rabs (value F64 x) < 1)%R -> exists y, tanh y = value F64 x /\ within 6 r y).
Proof using Ho Hc.
  intros F. destruct (split64 x F) as (s & n & -> & Hn). rewrite atanh_sign by exact Hn. destruct (atanh_mag n Hn) as (t & Et & Ft & T0 & T1 & T2 & T3). rewrite Et. cbn [bind]. exists (flip s t). split; [reflexivity|].
  destruct (flip_float s t Ft) as (Ff & Nf & If & Sf). split; [exact Ff|]. rewrite nan64, zero64, isinf64, sign64, finite64, Rabs64 by lia.
  assert (V1 : mag64 one = 1%R) by (rewrite mag_value by (change one with 0x3ff0000000000000; lia); apply value_one).
  assert (C1 : n < one -> (mag64 n < 1)%R) by (intros L; rewrite <- V1; apply mag_lt64; lia). assert (C2 : one < n -> (1 < mag64 n)%R) by (intros L; rewrite <- V1; apply mag_lt64; change one with 0x3ff0000000000000 in *; lia).
  assert (ONE : one = 0x3ff0000000000000) by reflexivity.
  split; [intros L; apply Nf, T2; lia|]. split; [intros ->; rewrite (T0 eq_refl); change 0 with (mk64 false 0) at 1; rewrite flip_mk by lia; destruct s; reflexivity|].
  split. { intros _ E. assert (n = one) as E1 by (destruct (Z_lt_ge_dec n one) as [l|l]; [specialize (C1 l); lra|destruct (Z.eq_dec n one); [assumption|specialize (C2 ltac:(lia)); lra]]).
    specialize (T1 E1). rewrite Sf. split; [apply If; rewrite T1; apply (isinf64 false INF); [lia|reflexivity]|rewrite T1; destruct s; reflexivity]. }
  split. { intros _ E. apply Nf, T2. destruct (Z_lt_ge_dec n one) as [l|l]; [specialize (C1 l); lra|destruct (Z.eq_dec n one) as [e|e]; [rewrite e, V1 in E; lra|lia]]. }
  split; [intros ->; apply Nf, T2; reflexivity|].
  intros _ E. assert (L : n < one) by (destruct (Z_lt_ge_dec n one) as [l|l]; [exact l|destruct (Z.eq_dec n one) as [e|e]; [rewrite e, V1 in E; lra|specialize (C2 ltac:(lia)); lra]]).
  pose proof (mag_nonneg64 n ltac:(lia)) as M. exists (if s then - artanh (mag64 n) else artanh (mag64 n))%R. rewrite value64 by lia. split; [|apply flip_within, T3, L].
  destruct s; [rewrite <- artanh_opp by lra|]; apply tanh_artanh; lra.
Qed.
End Atanh.
