(** Property C51: arithmetic carried out by widening both operands, operating in the wider
    format and narrowing the result. Property C44: fmaf16. *)
From Coq Require Import ZArith Reals Bool Lia Lra.
From Flocq Require Import Core Double_rounding.
From Verif Require Import Base BaseLemmas FloatModel FloatSpec FloatConvSpec FloatConvModel FloatDivModel FloatProofs FloatProofs2 FloatProofs3 FloatConvProofs FloatLib FloatProps FloatConvProps FloatDivProps LibmModel LibmSpec LibmProofs LibmProps FmaModel FmaSpec FmaProofs FmaProofs6 FmaProofs7 PromoteProofs.
Open Scope Z_scope.

(** An operation of format [f] through the wider format [g]: __extendXfYf2 on both operands,
    the operation of [g], then __truncYfXf2 (compiler-builtins/src/float/extend.rs 73-138,
    trunc.rs 115-173; this is how a target without [f] arithmetic performs it). *)
Definition promoted (f g : fmt) (op : Z -> Z -> res Z) (a b : Z) : res Z :=
  let* x := extend f g a in
  let* y := extend f g b in
  let* w := op x y in
  trunc g f w.

(** * C51 *)
Section C51.
Context (f g : fmt) (CP : conv_pair f g).
Local Notation Wf := (proj1 (pair_wide f g CP)).
Local Notation Wg := (proj1 (proj2 (pair_wide f g CP))).

Local Ltac wide := destruct (pair_wide f g CP) as (W1 & W2 & H1 & H2 & H3 & H4);
  assert (0 < prec f) as H5 by (unfold prec; destruct W1; lia); assert (Prec_gt_0 (prec f)) by exact H5; assert (Prec_gt_0 (prec g)) by (unfold Prec_gt_0, prec; destruct W2; lia).

Lemma narrow_inf r b : is_float f r -> is_float f b -> is_inf f r -> is_inf f b -> sign_of f r = sign_of f b -> r = b.
Proof using CP. apply (inf_unique f Wf). Qed.

Local Lemma std_g : std g.
Proof using CP. unfold conv_pair in CP. cbn [List.In] in CP. unfold std. repeat (destruct CP as [H|H]; [injection H as <- <-; tauto|clear CP; rename H into CP]). destruct CP. Qed.

Lemma promoted_add a b : is_float f a -> is_float f b -> exists r, promoted f g (add g) a b = Ok r /\ is_float f r /\ ieee_add f a b r.
Proof using CP.
  intros Fa Fb. destruct (widen_class f g CP a Fa) as (u & E1 & Fu & Su & Nu & Iu & Hu & Zu & Vu). destruct (widen_class f g CP b Fb) as (v & E2 & Fv & Sv & Nv & Iv & Hv & Zv & Vv).
  destruct (C20_add g u v std_g Fu Fv) as (w & E3 & Fw & A1 & A2 & A3 & A4 & A5). destruct (narrow_class f g CP w Fw) as (r & E4 & Fr & Sr & R1 & R2 & R3 & R4).
  exists r. unfold promoted. rewrite E1; cbn [bind]. rewrite E2; cbn [bind]. rewrite E3; cbn [bind]. split; [exact E4|]. split; [exact Fr|]. rewrite Su, Sv in *.
  unfold ieee_add, ieee_sub. repeat match goal with |- _ /\ _ => split end.
  - intros K. apply R1, qnan_nan, A1. tauto.
  - intros K1 K2. apply Iu in K1 as L1. apply Iv in K2 as L2. specialize (A2 L1 L2). destruct (Bool.eqb _ _).
    + subst w. apply narrow_inf; auto. congruence.
    + apply R1, qnan_nan, A2.
  - intros K1 K2. apply Iu in K1 as L1. apply Hv in K2 as L2. specialize (A3 L1 L2). subst w. apply narrow_inf; auto. congruence.
  - intros K1 K2. apply Hu in K1 as L1. apply Iv in K2 as L2. specialize (A4 L1 L2). subst w. apply narrow_inf; auto. congruence.
  - intros K1 K2. apply Hu in K1 as L1. apply Hv in K2 as L2. specialize (A5 L1 L2). rewrite (Vu K1), (Vv K2) in A5. apply (R4 _ _ A5).
    wide. unfold rne. apply round_round_plus_FLT; try assumption; try lia; apply value_format; assumption.
Qed.

Lemma promoted_sub a b : is_float f a -> is_float f b -> exists r, promoted f g (sub g) a b = Ok r /\ is_float f r /\ ieee_sub f a b r.
Proof using CP.
  intros Fa Fb. destruct (widen_class f g CP a Fa) as (u & E1 & Fu & Su & Nu & Iu & Hu & Zu & Vu). destruct (widen_class f g CP b Fb) as (v & E2 & Fv & Sv & Nv & Iv & Hv & Zv & Vv).
  destruct (C20_sub g u v std_g Fu Fv) as (w & E3 & Fw & A1 & A2 & A3 & A4 & A5). destruct (narrow_class f g CP w Fw) as (r & E4 & Fr & Sr & R1 & R2 & R3 & R4).
  exists r. unfold promoted. rewrite E1; cbn [bind]. rewrite E2; cbn [bind]. rewrite E3; cbn [bind]. split; [exact E4|]. split; [exact Fr|]. rewrite Su, Sv in *.
  unfold ieee_add, ieee_sub. repeat match goal with |- _ /\ _ => split end.
  - intros K. apply R1, qnan_nan, A1. tauto.
  - intros K1 K2. apply Iu in K1 as L1. apply Iv in K2 as L2. specialize (A2 L1 L2). destruct (Bool.eqb _ _).
    + apply R1, qnan_nan, A2.
    + subst w. apply narrow_inf; auto. congruence.
  - intros K1 K2. apply Iu in K1 as L1. apply Hv in K2 as L2. specialize (A3 L1 L2). subst w. apply narrow_inf; auto. congruence.
  - intros K1 K2. apply Hu in K1 as L1. apply Iv in K2 as L2. specialize (A4 L1 L2). subst w.
    destruct (negate_inf g Wg v Fv L2) as (M1 & M2 & M3). destruct (negate_inf f Wf b Fb K2) as (M4 & M5 & M6). apply narrow_inf; auto. congruence.
  - intros K1 K2. apply Hu in K1 as L1. apply Hv in K2 as L2. specialize (A5 L1 L2). rewrite (Vu K1), (Vv K2) in A5. apply (R4 _ _ A5).
    wide. unfold rne. apply round_round_minus_FLT; try assumption; try lia; apply value_format; assumption.
Qed.

Lemma promoted_mul a b : is_float f a -> is_float f b -> exists r, promoted f g (mul g) a b = Ok r /\ is_float f r /\ ieee_mul f a b r.
Proof using CP.
  intros Fa Fb. destruct (widen_class f g CP a Fa) as (u & E1 & Fu & Su & Nu & Iu & Hu & Zu & Vu). destruct (widen_class f g CP b Fb) as (v & E2 & Fv & Sv & Nv & Iv & Hv & Zv & Vv).
  destruct (C21_mul g u v std_g Fu Fv) as (w & E3 & Fw & A1 & A2 & A3 & A5). destruct (narrow_class f g CP w Fw) as (r & E4 & Fr & Sr & R1 & R2 & R3 & R4).
  exists r. unfold promoted. rewrite E1; cbn [bind]. rewrite E2; cbn [bind]. rewrite E3; cbn [bind]. split; [exact E4|]. split; [exact Fr|]. rewrite Su, Sv in *.
  unfold ieee_mul. cbv zeta. repeat match goal with |- _ /\ _ => split end.
  - intros K. apply R1, qnan_nan, A1. tauto.
  - intros K. apply R1, qnan_nan, A2. tauto.
  - intros K. destruct A3 as (L1 & L2); [tauto|]. split; [apply R2, L1|congruence].
  - intros K1 K2. apply Hu in K1 as L1. apply Hv in K2 as L2. specialize (A5 L1 L2). rewrite (Vu K1), (Vv K2) in A5. apply (R4 _ _ A5).
    wide. unfold rne. apply round_round_mult_FLT; try assumption; try lia; try (apply valid_rnd_N); apply value_format; assumption.
Qed.

Lemma promoted_div p a b : 1 <= p <= 8 -> is_float f a -> is_float f b -> exists r, promoted f g (div g p) a b = Ok r /\ is_float f r /\ ieee_div f a b r.
Proof using CP.
  intros Hp Fa Fb. destruct (widen_class f g CP a Fa) as (u & E1 & Fu & Su & Nu & Iu & Hu & Zu & Vu). destruct (widen_class f g CP b Fb) as (v & E2 & Fv & Sv & Nv & Iv & Hv & Zv & Vv).
  assert (div_fmt g) as Dg. { unfold conv_pair in CP. cbn [List.In] in CP. unfold div_fmt. repeat (destruct CP as [H|H]; [injection H as <- <-; tauto|clear CP; rename H into CP]). destruct CP. }
  destruct (C22_div g p u v Dg Hp Fu Fv) as (w & E3 & Fw & A1 & A2 & A3 & A4 & A5). destruct (narrow_class f g CP w Fw) as (r & E4 & Fr & Sr & R1 & R2 & R3 & R4).
  exists r. unfold promoted. rewrite E1; cbn [bind]. rewrite E2; cbn [bind]. rewrite E3; cbn [bind]. split; [exact E4|]. split; [exact Fr|]. rewrite Su, Sv in *.
  unfold ieee_div. cbv zeta. repeat match goal with |- _ /\ _ => split end.
  - intros K. apply R1, qnan_nan, A1. tauto.
  - intros K. apply R1, qnan_nan, A2. tauto.
  - intros K. destruct A3 as (L1 & L2); [tauto|]. split; [apply R2, L1|congruence].
  - intros K. destruct A4 as (L1 & L2); [tauto|]. split; [apply R3, L1|congruence].
  - intros K1 K2 K3. apply Hu in K1 as L1. apply Hv in K2 as L2. specialize (A5 L1 L2 ltac:(tauto)). rewrite (Vu K1), (Vv K2) in A5. apply (R4 _ _ A5).
    assert (value f b <> 0%R) as B0. { intros K. apply K3. apply (value_zero f b Wf Fb K2). exact K. }
    wide. unfold rne. apply round_round_div_FLT; try assumption; try lia; [exists 1; reflexivity|..]; apply value_format; assumption.
Qed.
End C51.

(** Every operation of the narrow format obtained this way is the IEEE 754 operation of the
    narrow format: widening, operating, and narrowing never rounds wrongly. *)
Theorem C51_add : forall f g a b, conv_pair f g -> is_float f a -> is_float f b -> exists r, promoted f g (add g) a b = Ok r /\ is_float f r /\ ieee_add f a b r.
Proof. intros f g a b CP. exact (promoted_add f g CP a b). Qed.
Theorem C51_sub : forall f g a b, conv_pair f g -> is_float f a -> is_float f b -> exists r, promoted f g (sub g) a b = Ok r /\ is_float f r /\ ieee_sub f a b r.
Proof. intros f g a b CP. exact (promoted_sub f g CP a b). Qed.
Theorem C51_mul : forall f g a b, conv_pair f g -> is_float f a -> is_float f b -> exists r, promoted f g (mul g) a b = Ok r /\ is_float f r /\ ieee_mul f a b r.
Proof. intros f g a b CP. exact (promoted_mul f g CP a b). Qed.
Theorem C51_div : forall f g p a b, conv_pair f g -> 1 <= p <= 8 -> is_float f a -> is_float f b -> exists r, promoted f g (div g p) a b = Ok r /\ is_float f r /\ ieee_div f a b r.
Proof. intros f g p a b CP. exact (promoted_div f g CP p a b). Qed.

(** f16 through f32: 1/3, a subnormal quotient, a tie of the sum, an overflowing product, 0/0. *)
Example C51_cases : conv_pair F16 F32 /\
  promoted F16 F32 (div F32 8) 0x3c00 0x4200 = Ok 0x3555 /\ promoted F16 F32 (div F32 8) 0x0401 0x4000 = Ok 0x0200 /\
  promoted F16 F32 (add F32) 0x3c00 0x1000 = Ok 0x3c00 /\ promoted F16 F32 (add F32) 0x3c00 0x1001 = Ok 0x3c01 /\
  promoted F16 F32 (sub F32) 0x3c00 0x3c00 = Ok 0 /\ promoted F16 F32 (mul F32) 0x7bff 0x7bff = Ok 0x7c00 /\
  promoted F16 F32 (div F32 8) 0 0x8000 = Ok 0x7e00 /\ promoted F32 F64 (div F64 8) 0x3f800000 0x40400000 = Ok 0x3eaaaaab.
Proof. split; [right; left; reflexivity|]. repeat match goal with |- _ /\ _ => split end; vm_compute; reflexivity. Qed.

(** * C44 *)
(** The f16 operators of a target that promotes them to f32. *)
Definition f16_ops (p : Z) : fops := {|
  o_add := fun a b => ok_or_0 (promoted F16 F32 (add F32) a b);
  o_sub := fun a b => ok_or_0 (promoted F16 F32 (sub F32) a b);
  o_mul := fun a b => ok_or_0 (promoted F16 F32 (mul F32) a b);
  o_div := fun a b => ok_or_0 (promoted F16 F32 (div F32 p) a b);
  o_lt := o_lt (soft_ops F16 p); o_le := o_le (soft_ops F16 p); o_eq := o_eq (soft_ops F16 p) |}.
Theorem f16_ops_ieee : forall p, 1 <= p <= 8 -> ieee_ops F16 (f16_ops p).
Proof.
  intros p Hp. assert (std F16) as St by (unfold std; tauto). assert (conv_pair F16 F32) as CP by (right; left; reflexivity).
  split; intros a b Ha Hb; cbn [f16_ops soft_ops o_add o_sub o_mul o_div o_lt o_le o_eq].
  - destruct (C51_add F16 F32 a b CP Ha Hb) as (r & -> & H). exact H.
  - destruct (C51_sub F16 F32 a b CP Ha Hb) as (r & -> & H). exact H.
  - destruct (C51_mul F16 F32 a b CP Ha Hb) as (r & -> & H). exact H.
  - destruct (C51_div F16 F32 p a b CP Hp Ha Hb) as (r & -> & H). exact H.
  - destruct (C23_cmp F16 a b St Ha Hb) as (L & _). rewrite Z.ltb_lt. exact L.
  - destruct (C23_cmp F16 a b St Ha Hb) as (_ & L & _). rewrite Z.leb_le. exact L.
  - destruct (C23_cmp F16 a b St Ha Hb) as (_ & _ & _ & _ & L & _). rewrite Z.eqb_eq. exact L.
Qed.

(** fmaf16 is correctly rounded for all operands, with or without debug assertions, and
    never panics. *)
Theorem C44_fmaf16 : forall o dbg x y z, ieee_ops F16 o -> is_float F16 x -> is_float F16 y -> is_float F16 z ->
  exists r, fmaf16 o dbg x y z = Ok r /\ ieee_fma F16 x y z r.
Proof. intros o dbg x y z Ho. exact (fmaf16_ok o Ho dbg x y z). Qed.

(** 2 * 3 + 1; the f32 fma pitfalls at f16 scale: a tie broken by the smallest subnormal, a
    product far below the addend, cancellation, a subnormal result, overflow, an infinite
    product, zero times infinity. *)
Example C44_cases : let f := fmaf16 (f16_ops 8) true in
  f 0x4000 0x4200 0x3c00 = Ok 0x4700 /\ f 0x3c01 0x3c01 0xbc02 = Ok 0x0010 /\ f 0x1000 0x3c00 0x3c00 = Ok 0x3c00 /\ f 0x1000 0x3c01 0x3c00 = Ok 0x3c01 /\
  f 0x0001 0x0001 0x3c00 = Ok 0x3c00 /\ f 0x0401 0x3800 0x0001 = Ok 0x0202 /\ f 0x7bff 0x4000 0xfbff = Ok 0x7bff /\ f 0x7bff 0x7bff 0 = Ok 0x7c00 /\
  f 0x7c00 0xbc00 0x7bff = Ok 0xfc00 /\ f 0x3c00 0xbc00 0x3c00 = Ok 0 /\ f 0x7c00 0 0x3c00 = Ok 0x7e00.
Proof. repeat match goal with |- _ /\ _ => split | |- let _ := _ in _ => intro end; vm_compute; reflexivity. Qed.

Definition promote_theorems := (C51_add, C51_sub, C51_mul, C51_div, f16_ops_ieee, C44_fmaf16).
Print Assumptions promote_theorems.
