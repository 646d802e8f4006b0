(** Specification of the square root (IEEE 754-2019, 5.4.1, 6.1-6.3, 7.2). *)
From Coq Require Import ZArith Reals Bool.
From Flocq Require Import Core.
From Verif Require Import FloatModel FloatSpec.
Open Scope Z_scope.

(** A quiet NaN for a NaN or for a negative argument other than -0; zeros and +inf are
    returned as they are; otherwise the real root, rounded once. *)
Definition ieee_sqrt (f : fmt) (x r : Z) : Prop :=
  (is_nan f x -> is_qnan f r) /\
  (sign_of f x = true -> ~ is_zero f x -> is_qnan f r) /\
  (is_zero f x -> r = x) /\
  (is_inf f x -> sign_of f x = false -> r = x) /\
  (is_finite f x -> ~ is_zero f x -> sign_of f x = false -> rounds_to f false (sqrt (value f x)) r).
