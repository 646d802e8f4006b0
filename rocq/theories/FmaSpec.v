(** Specification of the fused multiply-add (IEEE 754-2019, 5.4.1). *)
From Coq Require Import ZArith Reals Bool.
From Flocq Require Import Core.
From Verif Require Import FloatModel FloatSpec.
Open Scope Z_scope.

(** [r] is x * y + z rounded once. *)
Definition ieee_fma (f : fmt) (x y z r : Z) : Prop :=
  let s := xorb (sign_of f x) (sign_of f y) in
  is_float f r /\
  (is_nan f x \/ is_nan f y \/ is_nan f z -> is_nan f r) /\
  (is_inf f x /\ is_zero f y \/ is_zero f x /\ is_inf f y -> is_nan f r) /\
  (is_inf f x /\ ~ is_zero f y /\ ~ is_nan f y \/ is_inf f y /\ ~ is_zero f x /\ ~ is_nan f x ->
   (is_finite f z -> is_inf f r /\ sign_of f r = s) /\
   (is_inf f z -> if Bool.eqb (sign_of f z) s then r = z else is_nan f r)) /\
  (is_finite f x -> is_finite f y -> is_inf f z -> r = z) /\
  (is_finite f x -> is_finite f y -> is_finite f z ->
   rounds_to f (s && sign_of f z) (value f x * value f y + value f z) r).

(** The conversion from the signed integers of the width of the format rounds correctly. *)
Definition int_conv (f : fmt) (conv : Z -> Z) : Prop :=
  forall i, - 2 ^ (fb f - 1) <= i < 2 ^ (fb f - 1) -> rounds_to f false (IZR i) (conv i).

(** [x] is finite and has magnitude m * 2^e with a significand of full precision. *)
Definition normal_form (f : fmt) (x m e : Z) : Prop :=
  is_finite f x /\ 2 ^ fs f <= m < 2 ^ (fs f + 1) /\ Rabs (value f x) = (IZR m * bpow radix2 e)%R.

(** Operands for which the sticky bit of the product is lost: z is so much larger that the
    last [d] bits of the product (shifted by two guard bits) fall off, some of them are not
    zero, and the [d] bits above them are all zero. *)
Definition sticky_lost (f : fmt) (x y z : Z) : Prop :=
  exists mx ex my ey mz ez,
    normal_form f x mx ex /\ normal_form f y my ey /\ normal_form f z mz ez /\
    let p := 4 * (mx * my) in
    let d := ez - (ex + ey) + 1 - fb f in
    0 < d < fb f /\ p mod 2 ^ d <> 0 /\ (p / 2 ^ d) mod 2 ^ d = 0.

(** The result of x * y + z lies below the normal range of [f], is not exact in the wider
    format [g], and rounds in [g] to a point half way between two neighbours of [f]. *)
Definition double_rounding (f g : fmt) (x y z : Z) : Prop :=
  let v := (value f x * value f y + value f z)%R in
  (Rabs v < bpow radix2 (1 - bias f))%R /\ rne g v <> v /\
  exists k, rne g v = (IZR (2 * k + 1) * bpow radix2 (emin f - 1))%R.

(** Casts between a format and a wider one; nothing is asked of the payload of a NaN. *)
Definition widens (f g : fmt) (w : Z -> Z) : Prop := forall a, is_float f a ->
  is_float g (w a) /\ (is_nan f a -> is_nan g (w a)) /\
  (is_inf f a -> is_inf g (w a) /\ sign_of g (w a) = sign_of f a) /\
  (is_finite f a -> is_finite g (w a) /\ sign_of g (w a) = sign_of f a /\ value g (w a) = value f a).
Definition narrows (g f : fmt) (c : Z -> Z) : Prop := forall a, is_float g a ->
  is_float f (c a) /\ (is_nan g a -> is_nan f (c a)) /\
  (is_inf g a -> is_inf f (c a) /\ sign_of f (c a) = sign_of g a) /\
  (is_finite g a -> rounds_to f (sign_of g a) (value g a) (c a)).
