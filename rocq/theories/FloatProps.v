(** C20 (addition, subtraction) and C21 (multiplication) on all four formats. *)
From Coq Require Import ZArith Reals Bool Lia.
From Verif Require Import Base FloatModel FloatSpec FloatProofs FloatProofs5 FloatProofs7.
Open Scope Z_scope.

(** ** C20. For every format and all bit patterns [a], [b], the routine returns (it does
    not panic) a pattern which is the IEEE 754 sum [ieee_add] of FloatSpec.v. *)
Theorem C20_add : forall f a b, std f -> is_float f a -> is_float f b ->
  exists r, add f a b = Ok r /\ is_float f r /\ ieee_add f a b r.
Proof. intros f a b Hf. apply add_correct, std_wf, Hf. Qed.

Theorem C20_sub : forall f a b, std f -> is_float f a -> is_float f b ->
  exists r, sub f a b = Ok r /\ is_float f r /\ ieee_sub f a b r.
Proof. intros f a b Hf. apply sub_correct, std_wf, Hf. Qed.

(** 1.0 + 2^-53 (a tie, to even), 1.0 + 3*2^-54 (rounds up), max + max (overflow), a
    subnormal sum, x - x, -0 + -0, inf - inf. *)
Example C20_cases :
  is_float F64 0x3ff0000000000000 /\ is_float F64 0x3ca8000000000000 /\ is_finite F64 0x3ca8000000000000 /\
  add F64 0x3ff0000000000000 0x3ca0000000000000 = Ok 0x3ff0000000000000 /\
  add F64 0x3ff0000000000000 0x3ca8000000000000 = Ok 0x3ff0000000000001 /\
  add F64 0x7fefffffffffffff 0x7fefffffffffffff = Ok 0x7ff0000000000000 /\
  add F32 0x00000003 0x00000005 = Ok 0x00000008 /\
  sub F16 0x3c01 0x3c01 = Ok 0 /\
  add F128 (2 ^ 127) (2 ^ 127) = Ok (2 ^ 127) /\
  is_inf F32 0x7f800000 /\ sub F32 0x7f800000 0x7f800000 = Ok 0x7fc00000.
Proof.
  unfold is_float, is_finite, is_inf. repeat match goal with |- _ /\ _ => split end;
    first [vm_compute; reflexivity | vm_compute; congruence].
Qed.

(** ** C21. *)
Theorem C21_mul : forall f a b, std f -> is_float f a -> is_float f b ->
  exists r, mul f a b = Ok r /\ is_float f r /\ ieee_mul f a b r.
Proof. intros f a b Hf. apply mul_correct, std_wf, Hf. Qed.

(** A rounded product, a product rounded into the subnormal range (tie to even), overflow,
    a subnormal operand, zero times infinity. *)
Example C21_cases :
  mul F64 0x3ff0000000000001 0x3ff0000000000001 = Ok 0x3ff0000000000002 /\
  mul F32 0x00800001 0x3f000000 = Ok 0x00400000 /\
  mul F64 0x7fe0000000000000 0x4000000000000000 = Ok 0x7ff0000000000000 /\
  mul F16 0x0001 0xc000 = Ok 0x8002 /\
  mul F128 (2 ^ 112 * 0x3fff + 1) (2 ^ 112 * 0x3fff + 1) = Ok (2 ^ 112 * 0x3fff + 2) /\
  mul F64 0x0000000000000001 0x3fe0000000000000 = Ok 0 /\
  mul F32 0x7f800000 0x80000000 = Ok 0x7fc00000.
Proof. repeat match goal with |- _ /\ _ => split end; vm_compute; reflexivity. Qed.

Definition C20_C21_all := (C20_add, C20_sub, C21_mul).
Print Assumptions C20_C21_all.
