(** Specification vocabulary for integer powers, independent of the model. *)
From Coq Require Import ZArith Reals.
From Verif Require Import FloatModel FloatSpec.
Open Scope Z_scope.

(** The computation that square-and-multiply is meant to do for a positive exponent [n]:
    [sq k] are the repeated squares of [x], [pr k] the product of those whose bit is set
    among the low [k] bits of [n]. *)
Record binary_power (f : fmt) (x n : Z) (sq pr : nat -> Z) : Prop := {
  bp_sq0 : sq O = x;
  bp_pr0 : is_float f (pr O) /\ is_finite f (pr O) /\ sign_of f (pr O) = false /\ value f (pr O) = 1%R;
  bp_sq : forall k, Z.of_nat k < Z.log2 n -> is_float f (sq (S k)) /\ ieee_mul f (sq k) (sq k) (sq (S k));
  bp_pr : forall k, Z.of_nat k <= Z.log2 n ->
    if Z.testbit n (Z.of_nat k) then is_float f (pr (S k)) /\ ieee_mul f (pr k) (sq k) (pr (S k)) else pr (S k) = pr k }.

(** [v] is the value of some finite float. *)
Definition representable (f : fmt) (v : R) : Prop := exists y, is_float f y /\ is_finite f y /\ value f y = v.
