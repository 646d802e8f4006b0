(** Vocabulary for the division properties; independent of the model. *)
From Coq Require Import ZArith.
From Verif Require Import IntSpec.
Open Scope Z_scope.

(** Unsigned division: [q], [r] are the quotient and remainder of [n] by [d]. *)
Definition divides_to (n d q r : Z) : Prop := n = q * d + r /\ 0 <= r < d.

(** Signed division of [w]-bit integers as in C and Rust: truncation toward zero,
    remainder with the sign of the dividend; MIN / -1 wraps to MIN, remainder 0. *)
Definition truncates_to (w a b q r : Z) : Prop :=
  is_i w q /\ is_i w r /\
  ((a = - 2 ^ (w - 1) /\ b = -1 /\ q = a /\ r = 0) \/
   (~ (a = - 2 ^ (w - 1) /\ b = -1) /\
    a = q * b + r /\ Z.abs r < Z.abs b /\ (r = 0 \/ Z.sgn r = Z.sgn a))).

(** The two's complement bit pattern [p] of width [w] denotes the integer [x]. *)
Definition denotes_i (w p x : Z) : Prop := is_u w p /\ is_i w x /\ (p = x \/ p = x + 2 ^ w).

(** A 64-bit value held in two 32-bit words (first register / lower address
    first); [be] is the target's byte order. *)
Definition two_words (be : bool) (x y v : Z) : Prop :=
  is_u 32 x /\ is_u 32 y /\ v = if be then x * 2 ^ 32 + y else y * 2 ^ 32 + x.
