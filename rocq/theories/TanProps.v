(** Theorems about the tangent of libm. *)
From Coq Require Import ZArith Reals Bool Lia Lra.
From Flocq Require Import Core.
From Verif Require Import Base FloatModel FloatSpec FloatProps LibmModel LibmSpec LibmProps FloatConvModel FloatConvSpec ElemModel ElemSpec TrigModel TrigProps TanModel TanProofs5.
Open Scope Z_scope.

(** * C62 *)
(** tan does not panic, and four passes of the reduction loop are enough. No finite double is a
    pole, and the result differs from the tangent by at most one and a half units in the last
    place; a zero is returned unchanged; a NaN and an infinity give a NaN. *)
Theorem C62_tan : forall o c tbl fuel x, ieee_ops F64 o -> icast_ok c -> target_table tbl -> (4 <= fuel)%nat -> is_float F64 x ->
  exists r, libm_tan o c tbl fuel x = Ok r /\ is_float F64 r /\
  (is_nan F64 x \/ is_inf F64 x -> is_nan F64 r) /\
  (is_zero F64 x -> r = x) /\
  (is_finite F64 x -> cos (value F64 x) <> 0%R /\ within (3 / 2) r (tan (value F64 x))).
Proof.
  intros o c tbl fuel x Ho Hc Ht Hf F. destruct (tan_all o Ho c Hc tbl (target_words tbl Ht) fuel x Hf F) as (r & E & Fr & N & W & Z).
  exists r. split; [exact E|]. split; [exact Fr|]. split; [intros H; apply N; unfold is_nan, is_inf, is_finite in *; lia|]. split; [exact Z|]. intros Fx. destruct (W Fx). split; assumption.
Qed.
(** 1, -2, 0.3, -0.7, 0.78, the double nearest to pi/2, -4, 10^22, the double closest to a multiple
    of pi/2, 10^-10, the least subnormal, -0, infinity. *)
Example C62_cases : let t := libm_tan (soft_ops F64 8) soft_icast IPIO2_64 4 in
  ieee_ops F64 (soft_ops F64 8) /\
  t 0x3ff0000000000000 = Ok 0x3ff8eb245cbee3a6 /\ t 0xc000000000000000 = Ok 0x40017af62e0950f8 /\
  t 0x3fd3333333333333 = Ok 0x3fd3cc2a44e29998 /\ t 0xbfe6666666666666 = Ok 0xbfeaf406c2fc78ae /\
  t 0x3fe8f5c28f5c28f6 = Ok 0x3fefa807cf826c45 /\ t 0x3ff921fb54442d18 = Ok 0x434d02967c31cdb5 /\
  t 0xc010000000000000 = Ok 0xbff2866f9be4de14 /\ t 0x4480f0cf064dd592 = Ok 0xbffa0f79c1b6b258 /\
  t 0x7506ac5b262ca1ff = Ok 0xc3bd9ba9a7975636 /\ t 0x3ddb7cdfd9d7bdbb = Ok 0x3ddb7cdfd9d7bdbb /\
  t 1 = Ok 1 /\ t 0x8000000000000000 = Ok 0x8000000000000000 /\ t 0x7ff0000000000000 = Ok 0x7ff8000000000000.
Proof. split; [apply soft_ops_ieee; [tauto|lia]|]. vm_compute. repeat split. Qed.
Definition tan_theorems := C62_tan.
Print Assumptions tan_theorems.
