(** Specification vocabulary for the libm functions, on top of FloatSpec and FloatConvSpec. *)
From Coq Require Import ZArith Reals Bool.
From Flocq Require Import Core.
From Verif Require Import FloatModel FloatSpec FloatConvSpec LibmModel.
Open Scope Z_scope.

(** The float operators of the target behave as IEEE 754 requires (round to nearest, ties
    to even). Nothing is said about the payload or the sign of a NaN result. *)
Record ieee_ops (f : fmt) (o : fops) : Prop := IeeeOps {
  ops_add : forall a b, is_float f a -> is_float f b -> is_float f (o_add o a b) /\ ieee_add f a b (o_add o a b);
  ops_sub : forall a b, is_float f a -> is_float f b -> is_float f (o_sub o a b) /\ ieee_sub f a b (o_sub o a b);
  ops_mul : forall a b, is_float f a -> is_float f b -> is_float f (o_mul o a b) /\ ieee_mul f a b (o_mul o a b);
  ops_div : forall a b, is_float f a -> is_float f b -> is_float f (o_div o a b) /\ ieee_div f a b (o_div o a b);
  ops_lt : forall a b, is_float f a -> is_float f b -> (o_lt o a b = true <-> num_lt f a b);
  ops_le : forall a b, is_float f a -> is_float f b -> (o_le o a b = true <-> num_le f a b);
  ops_eq : forall a b, is_float f a -> is_float f b -> (o_eq o a b = true <-> num_eq f a b) }.

(** [r] is one of the operands and a lower (an upper) bound of both. *)
Definition lower_of (f : fmt) (x y r : Z) : Prop := (r = x \/ r = y) /\ num_le f r x /\ num_le f r y.
Definition upper_of (f : fmt) (x y r : Z) : Prop := (r = x \/ r = y) /\ num_le f x r /\ num_le f y r.

(** One NaN operand is ignored, two give a quiet NaN. *)
Definition nan_ignored (f : fmt) (x y r : Z) : Prop :=
  (is_nan f x -> is_nan f y -> is_qnan f r) /\ (is_nan f x -> ~ is_nan f y -> r = y) /\ (~ is_nan f x -> is_nan f y -> r = x).
Definition nan_propagated (f : fmt) (x y r : Z) : Prop := is_nan f x \/ is_nan f y -> is_qnan f r.

(** [r] is [x] rounded to an integer by [rnd], in the format, with the sign of [x]. *)
Definition rounded_to_integer (f : fmt) (rnd : R -> Z) (x r : Z) : Prop :=
  is_float f r /\ sign_of f r = sign_of f x /\ is_finite f r /\ value f r = IZR (rnd (value f x)).
