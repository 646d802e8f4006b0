(** Specification of the floating-point remainders. *)
From Coq Require Import ZArith Reals Bool.
From Flocq Require Import Core.
From Verif Require Import FloatModel FloatSpec.
Open Scope Z_scope.

(** [r] is exactly [x - n * y], where the integer [n] is the quotient rounded by [rnd];
    a zero remainder has the sign of [x]. *)
Definition exact_remainder (f : fmt) (rnd : R -> Z) (x y r : Z) : Prop :=
  is_float f r /\ is_finite f r /\
  value f r = (value f x - IZR (rnd (value f x / value f y)) * value f y)%R /\
  (is_zero f r -> sign_of f r = sign_of f x).

(** Operands without a remainder. *)
Definition no_remainder (f : fmt) (x y : Z) : Prop := is_nan f x \/ is_nan f y \/ is_inf f x \/ is_zero f y.
