(** Specification vocabulary for the elementary functions. *)
From Coq Require Import ZArith Reals.
From Flocq Require Import Core.
From Verif Require Import Base FloatModel FloatSpec FloatConvSpec LibmModel LibmSpec ElemModel.
Open Scope Z_scope.

(** The unit in the last place of a real number: the distance between the doubles that
    surround it. *)
Definition ulp64 (y : R) : R := ulp radix2 (FLT_exp (emin F64) (prec F64)) y.

(** [r] is a finite double that differs from the real [y] by at most [k] units in the last place. *)
Definition within (k : R) (r : Z) (y : R) : Prop :=
  is_float F64 r /\ is_finite F64 r /\ (Rabs (value F64 r - y) <= k * ulp64 y)%R.

(** The casts between f64 and i32 behave as the language reference requires: truncation that
    saturates, and correct rounding. *)
Record icast_ok (c : icast) : Prop := IcastOk {
  cast_toi : forall x, is_float F64 x -> fix_spec F64 (SI 32) x (c_toi c x);
  cast_ofi : forall i, - 2 ^ 31 <= i < 2 ^ 31 -> rounds_to F64 false (IZR i) (c_ofi c i) }.
