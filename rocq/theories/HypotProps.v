(** Theorems about the Euclidean distance of libm. *)
From Coq Require Import ZArith Reals Bool Lia Lra.
From Flocq Require Import Core.
From Verif Require Import Base BaseLemmas FloatModel FloatSpec FloatProofs FloatProps FloatConvModel FloatConvSpec FloatConvProps LibmModel LibmSpec LibmProps LibmProofs3
  FmaModel FmaSpec FmaProps SqrtModel F64Lib ElemSpec TrigRed HypotModel HypotProofs HypotProofs7 HypotProofs8 HypotProofs10.
Open Scope Z_scope.

(** a conversion from f64 to u64 *)
Definition to_u64 (tou : Z -> Z) : Prop := forall a, is_float F64 a -> fix_spec F64 (UI 64) a (tou a).
(** the distance of the point (x, y) from the origin *)
Definition distance (x y : Z) : R := sqrt (value F64 x * value F64 x + value F64 y * value F64 y).

(** The conversions of this crate meet the hypotheses below. *)
Definition soft_tou (x : Z) : Z := ok_or_0 (float_to_unsigned_int F64 64 x).
Theorem soft_tou_ok : to_u64 soft_tou.
Proof. intros a F. destruct (C27_fix 64 F64 a (or_intror (or_introl eq_refl)) (or_intror (or_introl eq_refl)) F) as [(r & E & S) _]. unfold soft_tou. rewrite E. exact S. Qed.
Definition soft_hypot (checks : bool) (x y : Z) : res Z := hypot (soft_ops F64 8) (soft_conv F64) soft_tou checks 6 x y.

Lemma square_mk s n : 0 <= n < 2 ^ 63 -> (value F64 (mk64 s n) * value F64 (mk64 s n) = mag64 n * mag64 n)%R.
Proof. intros H. rewrite value64 by exact H. destruct s; ring. Qed.

(** * C56 *)
(** Without overflow checks the result is the correct rounding of a real that differs from the
    distance by less than one part in 2^97; no intermediate overflow or underflow. *)
Theorem C56_hypot_near : forall o conv tou fuel x y, ieee_ops F64 o -> int_conv F64 conv -> to_u64 tou -> (6 <= fuel)%nat ->
  is_float F64 x -> is_float F64 y -> is_finite F64 x -> is_finite F64 y ->
  exists r w, hypot o conv tou false fuel x y = Ok r /\ rounds_to F64 false w r /\ (Rabs (w - distance x y) <= distance x y * bpow radix2 (-97))%R.
Proof.
  intros o conv tou fuel x y Ho Hc Ht Hf Fx Fy Nx Ny. destruct (split64 x Fx) as (s & n & -> & Hn). destruct (split64 y Fy) as (t & m & -> & Hm). apply finite64 in Nx; [|exact Hn]. apply finite64 in Ny; [|exact Hm].
  rewrite (finite_eq o Ho) by lia. unfold distance. rewrite !square_mk by assumption.
  destruct (ordered_ok o Ho conv Hc tou Ht fuel (Z.max n m) (Z.min n m) Hf ltac:(lia) ltac:(lia)) as (r & w & E & R & B). exists r, w. split; [exact E|]. split; [exact R|].
  replace (mag64 n * mag64 n + mag64 m * mag64 m)%R with (mag64 (Z.max n m) * mag64 (Z.max n m) + mag64 (Z.min n m) * mag64 (Z.min n m))%R; [exact B|].
  destruct (Z_le_gt_dec n m); [rewrite Z.max_r, Z.min_l by lia; ring|rewrite Z.max_l, Z.min_r by lia; ring].
Qed.
(** A distance that is a double is returned exactly. *)
Theorem C56_hypot_exact : forall o conv tou fuel x y z, ieee_ops F64 o -> int_conv F64 conv -> to_u64 tou -> (6 <= fuel)%nat ->
  is_float F64 x -> is_float F64 y -> is_finite F64 x -> is_finite F64 y ->
  is_float F64 z -> is_finite F64 z -> sign_of F64 z = false -> value F64 z = distance x y ->
  hypot o conv tou false fuel x y = Ok z.
Proof.
  intros o conv tou fuel x y z Ho Hc Ht Hf Fx Fy Nx Ny Fz Nz Sz E. destruct (C56_hypot_near o conv tou fuel x y Ho Hc Ht Hf Fx Fy Nx Ny) as (r & w & -> & (Fr & Sr & R) & B). f_equal.
  destruct (split64 z Fz) as (sz & k & -> & Hk). rewrite sign64 in Sz by exact Hk. subst sz. apply finite64 in Nz; [|exact Hk]. rewrite value64 in E by exact Hk. rewrite <- E in B. pose proof (near_exact k w ltac:(lia) B) as RW.
  assert (0 <= w)%R as W0. { pose proof (mag_nonneg64 k ltac:(lia)). apply Rabs_le_inv in B. assert (bpow radix2 (-97) <= 1)%R by (change 1%R with (bpow radix2 0); apply bpow_le; lia). assert (mag64 k * bpow radix2 (-97) <= mag64 k * 1)%R by (apply Rmult_le_compat_l; lra). lra. }
  assert (sign_of F64 r = false) as Sf. { rewrite Sr. destruct (Rcompare_spec w 0); try reflexivity. lra. }
  rewrite RW, Rabs_pos_eq in R by (apply mag_nonneg64; lia). pose proof (self_rounds k ltac:(lia)) as (_ & _ & R2). rewrite rne_mag64, Rabs_pos_eq in R2 by (lia || (apply mag_nonneg64; lia)).
  assert (Rlt_bool (mag64 k) (bpow radix2 (emax F64)) = true) as T. { destruct (Rlt_bool (mag64 k) (bpow radix2 (emax F64))) eqn:Q; [reflexivity|]. exfalso. apply (isinf64 false k Hk) in R2. lia. } rewrite T in R.
  destruct R as [Nr Vr]. destruct (split64 r Fr) as (sr & j & -> & Hj). rewrite sign64 in Sf by exact Hj. subst sr. rewrite value64 in Vr by exact Hj. f_equal.
  destruct (Z.lt_total j k) as [L|[L|L]]; [|exact L|]; [pose proof (mag_lt64 j k ltac:(lia)); lra|pose proof (mag_lt64 k j ltac:(lia)); lra].
Qed.
(** An infinity dominates, even beside a NaN; otherwise a NaN gives a quiet NaN; with or without
    overflow checks. *)
Theorem C56_hypot_special : forall o conv tou checks fuel x y, ieee_ops F64 o -> is_float F64 x -> is_float F64 y -> ~ (is_finite F64 x /\ is_finite F64 y) ->
  exists r, hypot o conv tou checks fuel x y = Ok r /\
  (is_inf F64 x \/ is_inf F64 y -> r = 0x7ff0000000000000) /\ (~ is_inf F64 x -> ~ is_inf F64 y -> is_float F64 r /\ is_qnan F64 r).
Proof.
  intros o conv tou checks fuel x y Ho Fx Fy N. destruct (split64 x Fx) as (s & n & -> & Hn). destruct (split64 y Fy) as (t & m & -> & Hm). rewrite !finite64 in N by assumption.
  destruct (special_ok o Ho conv tou checks fuel s n t m Hn Hm ltac:(lia)) as (r & E & A & B). exists r. split; [exact E|]. rewrite !isinf64 by assumption. split; assumption.
Qed.
(** The signs of the operands do not matter, nor does the order of finite operands. *)
Theorem C56_hypot_symmetric : forall o conv tou checks fuel x x' y y', ieee_ops F64 o -> is_float F64 x -> is_float F64 x' -> is_float F64 y -> is_float F64 y' ->
  x mod 2 ^ 63 = x' mod 2 ^ 63 -> y mod 2 ^ 63 = y' mod 2 ^ 63 ->
  hypot o conv tou checks fuel x y = hypot o conv tou checks fuel x' y' /\
  (is_finite F64 x -> is_finite F64 y -> hypot o conv tou checks fuel y x = hypot o conv tou checks fuel x y).
Proof.
  intros o conv tou checks fuel x x' y y' Ho Fx Fx' Fy Fy' Ex Ey. destruct (split64 x Fx) as (s & n & -> & Hn). destruct (split64 y Fy) as (t & m & -> & Hm). destruct (split64 x' Fx') as (s' & n' & -> & Hn'). destruct (split64 y' Fy') as (t' & m' & -> & Hm').
  assert (forall c k, 0 <= k < 2 ^ 63 -> mk64 c k mod 2 ^ 63 = k) as M by (intros c k Hk; unfold mk64; rewrite Z.add_comm, Z.mod_add by lia; apply Z.mod_small; exact Hk). rewrite !M in Ex, Ey by assumption. subst n' m'. split.
  - unfold hypot. rewrite !habs_mk, !top_mk, !wide_mk by assumption. reflexivity.
  - rewrite !finite64 by assumption. intros A B. rewrite !(finite_eq o Ho) by lia. rewrite Z.max_comm, Z.min_comm. reflexivity.
Qed.

Lemma value_two : value F64 0x4000000000000000 = 2%R.
Proof. rewrite val_lit by lia. change 0x4000000000000000 with (1023 * 2 ^ 52 + 1 * 2 ^ 52). rewrite xval_shift, HypotProofs6.xval_one. cbn. lra. Qed.
Lemma value_over : value F64 0x4000000000000001 = (2 + 2 * bpow radix2 (-52))%R.
Proof. rewrite val_lit by lia. unfold xval. change (0x4000000000000001 mod 2 ^ 52) with 1. change (0x4000000000000001 / 2 ^ 52 - 1075) with (-51). cbn. lra. Qed.

(** hypot is documented as correctly rounded; it is not: this distance is exactly halfway
    between two doubles and the result is the odd one. *)
Theorem C56_hypot_refuted : exists x y r, is_float F64 x /\ is_float F64 y /\ is_finite F64 x /\ is_finite F64 y /\
  soft_hypot false x y = Ok r /\ ~ rounds_to F64 false (distance x y) r.
Proof.
  exists 0x3ffc8b5dbd5e4e60, 0x3fecedbea4c2a3fe, 0x4000000000000001. assert (forall n, 0 <= n < INF -> is_float F64 n /\ is_finite F64 n) as G by exact good_lit.
  destruct (G 0x3ffc8b5dbd5e4e60 ltac:(lia)) as [F1 N1]. destruct (G 0x3fecedbea4c2a3fe ltac:(lia)) as [F2 N2]. split; [exact F1|]. split; [exact F2|]. split; [exact N1|]. split; [exact N2|]. split; [vm_compute; reflexivity|].
  assert (distance 0x3ffc8b5dbd5e4e60 0x3fecedbea4c2a3fe = (IZR (2 ^ 52) + / 2) * bpow radix2 (1024 - 1 + emin F64))%R as D.
  { unfold distance. rewrite !val_lit by lia. unfold xval. change (2 ^ 52 + 0x3ffc8b5dbd5e4e60 mod 2 ^ 52) with 8034534073192032. change (0x3ffc8b5dbd5e4e60 / 2 ^ 52 - 1075) with (-52). change (2 ^ 52 + 0x3fecedbea4c2a3fe mod 2 ^ 52) with (4071351205843455 * 2). change (0x3fecedbea4c2a3fe / 2 ^ 52 - 1075) with (-53).
    rewrite mult_IZR. assert (IZR 4071351205843455 * 2 * bpow radix2 (-53) = IZR 4071351205843455 * bpow radix2 (-52))%R as ->. { rewrite Rmult_assoc. f_equal. change 2%R with (bpow radix2 1). rewrite <- bpow_plus. reflexivity. }
    rewrite sqrt_scale by (apply IZR_le; lia). rewrite <- !mult_IZR, <- plus_IZR. change (8034534073192032 * 8034534073192032 + 4071351205843455 * 4071351205843455) with (9007199254740993 * 9007199254740993). rewrite mult_IZR, sqrt_square by (apply IZR_le; lia).
    change (1024 - 1 + emin F64) with (1 + -52). rewrite bpow_plus. change (bpow radix2 1) with 2%R. change (2 ^ 52) with 4503599627370496. lra. }
  intros (_ & _ & R). assert (rne F64 (distance 0x3ffc8b5dbd5e4e60 0x3fecedbea4c2a3fe) = 2)%R as RN.
  { rewrite D. rewrite (rne_scaled F64 W64 1024 _ ltac:(lia)); [|change (2 * 2 ^ fs F64) with 9007199254740992; change (2 ^ 52) with 4503599627370496; lra|right; change (2 ^ fs F64) with (2 ^ 52); lra].
    rewrite ZnearestE_tie_down by (exists (2 ^ 51); reflexivity). change (1024 - 1 + emin F64) with (-51). replace (IZR (2 ^ 52)) with (bpow radix2 52) by reflexivity. rewrite <- bpow_plus. reflexivity. }
  rewrite RN, Rabs_pos_eq in R by lra. rewrite Rlt_bool_true in R by (change 2%R with (bpow radix2 1); apply bpow_lt; reflexivity). destruct R as [_ R]. rewrite value_over in R. pose proof (bpow_gt_0 radix2 (-52)). lra.
Qed.
(** With overflow checks compiled in, finite operands can make hypot panic. *)
Theorem C56_no_panic_refuted : exists x y, is_float F64 x /\ is_float F64 y /\ is_finite F64 x /\ is_finite F64 y /\ soft_hypot true x y = Err Panic.
Proof.
  exists 0x41c5a88cce800000, 0x41b1e55e64000000. destruct (good_lit 0x41c5a88cce800000 ltac:(lia)) as [F1 N1]. destruct (good_lit 0x41b1e55e64000000 ltac:(lia)) as [F2 N2].
  split; [exact F1|]. split; [exact F2|]. split; [exact N1|]. split; [exact N2|]. vm_compute. reflexivity.
Qed.

(** 3 and -4; the subnormals 3 and 4; overflow; 2^-1074 beside 1; the least normal beside a
    subnormal; infinity beside a NaN; two zeros; the operands of the panic, without checks. *)
Example C56_cases : ieee_ops F64 (soft_ops F64 8) /\ int_conv F64 (soft_conv F64) /\
  soft_hypot false 0x4008000000000000 0xc010000000000000 = Ok 0x4014000000000000 /\ soft_hypot false 3 4 = Ok 5 /\
  soft_hypot false 0x7fe0000000000000 0xffefffffffffffff = Ok 0x7ff0000000000000 /\ soft_hypot false 0x3ff0000000000000 1 = Ok 0x3ff0000000000000 /\
  soft_hypot false 0x0010000000000000 0x0005000000000000 = Ok 0x0010c3578c15393e /\ soft_hypot false 0x7ff8000000000000 0xfff0000000000000 = Ok 0x7ff0000000000000 /\
  soft_hypot false 0x8000000000000000 0 = Ok 0 /\ soft_hypot false 0x41c5a88cce800000 0x41b1e55e64000000 = Ok 0x41c76f1b12800000.
Proof. split; [apply soft_ops_ieee; [tauto|lia]|]. split; [apply soft_conv_ok; tauto|]. repeat match goal with |- _ /\ _ => split end; vm_compute; reflexivity. Qed.
Example C56_exact_hypotheses : let x := 0x4008000000000000 in let y := 0xc010000000000000 in let z := 0x4014000000000000 in
  is_float F64 z /\ is_finite F64 z /\ sign_of F64 z = false /\ value F64 z = distance x y.
Proof.
  intros x y z. destruct (good_lit z ltac:(unfold z; lia)) as [F N]. split; [exact F|]. split; [exact N|]. split; [reflexivity|]. unfold distance.
  assert (value F64 x = 3)%R as ->. { unfold x. rewrite val_lit by lia. unfold xval. change (0x4008000000000000 mod 2 ^ 52) with (2 ^ 51). change (0x4008000000000000 / 2 ^ 52 - 1075) with (-51). cbn. lra. }
  assert (value F64 y = - 4)%R as ->. { unfold y. change 0xc010000000000000 with (mk64 true 0x4010000000000000). rewrite value64 by lia. rewrite xval_mag by lia. unfold xval. change (0x4010000000000000 mod 2 ^ 52) with 0. change (0x4010000000000000 / 2 ^ 52 - 1075) with (-50). cbn. lra. }
  assert (value F64 z = 5)%R as ->. { unfold z. rewrite val_lit by lia. unfold xval. change (0x4014000000000000 mod 2 ^ 52) with (2 ^ 50). change (0x4014000000000000 / 2 ^ 52 - 1075) with (-50). cbn. lra. }
  symmetry. rewrite <- (sqrt_square 5) by lra. f_equal. lra.
Qed.

Definition hypot_theorems := (C56_hypot_near, C56_hypot_exact, C56_hypot_special, C56_hypot_symmetric, C56_hypot_refuted, C56_no_panic_refuted, soft_tou_ok).
Print Assumptions hypot_theorems.
