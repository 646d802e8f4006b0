(** Specification vocabulary for floating point (IEEE 754 binary interchange formats),
    independent of the model's functions. [fmt] only carries the width [fb] and the
    number of stored fraction bits [fs]; rounding is Flocq's [round] to the format's
    grid, to nearest with ties to even. *)
From Coq Require Import ZArith Reals Bool Lia.
From Flocq Require Import Core.
From Verif Require Import FloatModel.
Open Scope Z_scope.

(** The four formats of the crate. *)
Definition std (f : fmt) : Prop := f = F16 \/ f = F32 \/ f = F64 \/ f = F128.

(** [x] is a bit pattern of the format. *)
Definition is_float (f : fmt) (x : Z) : Prop := 0 <= x < 2 ^ fb f.

(** Fields of the encoding. *)
Definition sign_of (f : fmt) (x : Z) : bool := Z.odd (x / 2 ^ (fb f - 1)).
Definition exp_field (f : fmt) (x : Z) : Z := (x / 2 ^ fs f) mod 2 ^ (fb f - 1 - fs f).
Definition frac_field (f : fmt) (x : Z) : Z := x mod 2 ^ fs f.
Definition exp_all_ones (f : fmt) : Z := 2 ^ (fb f - 1 - fs f) - 1.

(** Classes of values. *)
Definition is_nan (f : fmt) (x : Z) : Prop := exp_field f x = exp_all_ones f /\ frac_field f x <> 0.
Definition is_inf (f : fmt) (x : Z) : Prop := exp_field f x = exp_all_ones f /\ frac_field f x = 0.
Definition is_finite (f : fmt) (x : Z) : Prop := exp_field f x <> exp_all_ones f.
Definition is_zero (f : fmt) (x : Z) : Prop := exp_field f x = 0 /\ frac_field f x = 0.
(** A quiet NaN has the top fraction bit set (IEEE 754-2008, 6.2.1). *)
Definition is_qnan (f : fmt) (x : Z) : Prop := is_nan f x /\ 2 ^ (fs f - 1) <= frac_field f x.

(** Format parameters: precision, largest exponent, exponent of the least subnormal. *)
Definition bias (f : fmt) : Z := 2 ^ (fb f - 2 - fs f) - 1.
Definition prec (f : fmt) : Z := fs f + 1.
Definition emax (f : fmt) : Z := bias f + 1.
Definition emin (f : fmt) : Z := 1 - bias f - fs f.

(** The real number denoted by a finite pattern. *)
Definition value (f : fmt) (x : Z) : R :=
  let e := exp_field f x in
  let m := frac_field f x in
  let mag := if e =? 0 then (IZR m * bpow radix2 (emin f))%R
             else (IZR (2 ^ fs f + m) * bpow radix2 (e - bias f - fs f))%R in
  if sign_of f x then (- mag)%R else mag.

(** Round to nearest, ties to even, with unbounded exponent range above. *)
Definition rne (f : fmt) (x : R) : R := round radix2 (FLT_exp (emin f) (prec f)) ZnearestE x.

(** [r] is the correctly rounded encoding of the real [x]: infinity when the rounded
    value reaches 2^emax, the encoding of the rounded value otherwise. The sign is that
    of [x]; [zs] gives it when [x] is zero. *)
Definition rounds_to (f : fmt) (zs : bool) (x : R) (r : Z) : Prop :=
  is_float f r /\
  sign_of f r = match Rcompare x 0 with Lt => true | Gt => false | Eq => zs end /\
  (if Rlt_bool (Rabs (rne f x)) (bpow radix2 (emax f))
   then is_finite f r /\ value f r = rne f x
   else is_inf f r).

(** * IEEE 754 results of the arithmetic operations *)

(** Addition (IEEE 754-2019, 5.4.1, 6.1-6.3, 7.2): a quiet NaN for a NaN operand or
    inf - inf, an infinite operand otherwise, and the rounded exact sum for finite
    operands. An exactly zero sum is -0 only when both operands are negative. *)
Definition ieee_add (f : fmt) (a b r : Z) : Prop :=
  (is_nan f a \/ is_nan f b -> is_qnan f r) /\
  (is_inf f a -> is_inf f b -> if Bool.eqb (sign_of f a) (sign_of f b) then r = a else is_qnan f r) /\
  (is_inf f a -> is_finite f b -> r = a) /\
  (is_finite f a -> is_inf f b -> r = b) /\
  (is_finite f a -> is_finite f b ->
   rounds_to f (sign_of f a && sign_of f b) (value f a + value f b) r).

(** The operand with the sign bit flipped. *)
Definition negate (f : fmt) (x : Z) : Z :=
  if sign_of f x then x - 2 ^ (fb f - 1) else x + 2 ^ (fb f - 1).
Definition ieee_sub (f : fmt) (a b r : Z) : Prop :=
  (is_nan f a \/ is_nan f b -> is_qnan f r) /\
  (is_inf f a -> is_inf f b -> if Bool.eqb (sign_of f a) (sign_of f b) then is_qnan f r else r = a) /\
  (is_inf f a -> is_finite f b -> r = a) /\
  (is_finite f a -> is_inf f b -> r = negate f b) /\
  (is_finite f a -> is_finite f b ->
   rounds_to f (sign_of f a && negb (sign_of f b)) (value f a - value f b) r).

(** Multiplication: a quiet NaN for a NaN operand or zero times infinity, infinity for
    infinity times nonzero, the rounded exact product otherwise; the sign is always the
    exclusive or of the signs. *)
Definition ieee_mul (f : fmt) (a b r : Z) : Prop :=
  let s := xorb (sign_of f a) (sign_of f b) in
  (is_nan f a \/ is_nan f b -> is_qnan f r) /\
  (is_inf f a /\ is_zero f b \/ is_zero f a /\ is_inf f b -> is_qnan f r) /\
  (is_inf f a /\ ~ is_zero f b /\ ~ is_nan f b \/ is_inf f b /\ ~ is_zero f a /\ ~ is_nan f a ->
   is_inf f r /\ sign_of f r = s) /\
  (is_finite f a -> is_finite f b -> rounds_to f s (value f a * value f b) r).

(** Division: a quiet NaN for a NaN operand, 0/0 or inf/inf; infinity for inf/finite and
    nonzero/0; zero for finite/inf; the rounded exact quotient otherwise. *)
Definition ieee_div (f : fmt) (a b r : Z) : Prop :=
  let s := xorb (sign_of f a) (sign_of f b) in
  (is_nan f a \/ is_nan f b -> is_qnan f r) /\
  (is_inf f a /\ is_inf f b \/ is_zero f a /\ is_zero f b -> is_qnan f r) /\
  (is_inf f a /\ is_finite f b \/ is_finite f a /\ ~ is_zero f a /\ is_zero f b -> is_inf f r /\ sign_of f r = s) /\
  (is_finite f a /\ is_inf f b -> is_zero f r /\ sign_of f r = s) /\
  (is_finite f a -> is_finite f b -> ~ is_zero f b -> rounds_to f s (value f a / value f b) r).
