(** Specification vocabulary for comparisons and conversions, on top of [FloatSpec]. *)
From Coq Require Import ZArith Reals Bool List Lia.
From Flocq Require Import Core.
From Verif Require Import Base FloatModel FloatSpec.
Open Scope Z_scope.

(** * Comparison (IEEE 754-2019, 5.11) *)

(** Not a NaN on either side. *)
Definition ordered (f : fmt) (a b : Z) : Prop := ~ is_nan f a /\ ~ is_nan f b.

Definition pos_inf (f : fmt) (x : Z) : Prop := is_inf f x /\ sign_of f x = false.
Definition neg_inf (f : fmt) (x : Z) : Prop := is_inf f x /\ sign_of f x = true.

(** Strictly less on the extended reals. *)
Definition num_lt (f : fmt) (a b : Z) : Prop :=
  ordered f a b /\
  (is_finite f a /\ is_finite f b /\ (value f a < value f b)%R
   \/ neg_inf f a /\ ~ neg_inf f b
   \/ ~ pos_inf f a /\ pos_inf f b).
(** Equal on the extended reals; +0 and -0 are equal. *)
Definition num_eq (f : fmt) (a b : Z) : Prop :=
  ordered f a b /\
  (is_finite f a /\ is_finite f b /\ value f a = value f b
   \/ is_inf f a /\ is_inf f b /\ sign_of f a = sign_of f b).
Definition num_le (f : fmt) (a b : Z) : Prop := num_lt f a b \/ num_eq f a b.

(** * Conversions between formats *)

(** The format pairs of the exported __extendXfYf2 and __truncYfXf2. *)
Definition conv_pair (narrow wide : fmt) : Prop :=
  In (narrow, wide) ((F32, F64) :: (F16, F32) :: (F16, F64) :: (F16, F128) :: (F32, F128) :: (F64, F128) :: nil)%list.

(** Widening is exact: the sign, the class and the value are kept; a NaN keeps its
    fraction, left-aligned. *)
Definition ieee_extend (f g : fmt) (a r : Z) : Prop :=
  is_float g r /\ sign_of g r = sign_of f a /\
  (is_nan f a -> is_nan g r /\ frac_field g r = frac_field f a * 2 ^ (fs g - fs f)) /\
  (is_inf f a -> is_inf g r) /\
  (is_finite f a -> is_finite g r /\ value g r = value f a).

(** Narrowing is correctly rounded; a NaN becomes a quiet NaN whose remaining fraction
    bits are the leading fraction bits of the source. *)
Definition ieee_narrow (f g : fmt) (a r : Z) : Prop :=
  is_float g r /\ sign_of g r = sign_of f a /\
  (is_nan f a -> is_qnan g r /\
     (frac_field g r) mod 2 ^ (fs g - 1) = (frac_field f a / 2 ^ (fs f - fs g)) mod 2 ^ (fs g - 1)) /\
  (is_inf f a -> is_inf g r) /\
  (is_finite f a -> rounds_to g (sign_of f a) (value f a) r).

(** * Conversions between integers and floats *)

(** The integer widths and formats of the exported __floatXiYf and __fixXfYi. *)
Definition int_width (ib : Z) : Prop := ib = 32 \/ ib = 64 \/ ib = 128.
Definition conv_fmt (f : fmt) : Prop := f = F32 \/ f = F64 \/ f = F128.

(** Truncation toward zero, saturating at the bounds of the integer type; 0 for a NaN. *)
Definition clamp (t : ity) (z : Z) : Z := Z.max (imin t) (Z.min (imax t) z).
Definition fix_spec (f : fmt) (t : ity) (a r : Z) : Prop :=
  (is_nan f a -> r = 0) /\
  (is_inf f a -> r = if sign_of f a then imin t else imax t) /\
  (is_finite f a -> r = clamp t (Ztrunc (value f a))).
