(** Vocabulary used to state the integer properties. Nothing here refers to the
    model of the code. *)
From Coq Require Import ZArith.
Open Scope Z_scope.

(** [x] is a value of the unsigned / signed Rust integer type of [n] bits. *)
Definition is_u (n x : Z) : Prop := 0 <= x < 2 ^ n.
Definition is_i (n x : Z) : Prop := - 2 ^ (n - 1) <= x < 2 ^ (n - 1).

(** [r] is the [n]-bit wrapped value of the mathematical integer [x]. *)
Definition wraps_u (n x r : Z) : Prop := is_u n r /\ exists k, r = x + k * 2 ^ n.
Definition wraps_i (n x r : Z) : Prop := is_i n r /\ exists k, r = x + k * 2 ^ n.

(** A C-style overflow flag: 0 or 1, 1 exactly when [P] fails. *)
Definition overflow_flag (o : Z) (representable : Prop) : Prop :=
  (representable -> o = 0) /\ (~ representable -> o = 1).

(** [k] leading zeros in the [n]-bit word [x]. *)
Definition leading_zeros_are (n x k : Z) : Prop :=
  (x = 0 /\ k = n) \/ (0 <= k < n /\ 2 ^ (n - 1 - k) <= x < 2 ^ (n - k)).
(** [k] trailing zeros in the [n]-bit word [x]. *)
Definition trailing_zeros_are (n x k : Z) : Prop :=
  (x = 0 /\ k = n) \/ (0 <= k < n /\ exists m, x = (2 * m + 1) * 2 ^ k).

(** Byte [i] of [x], counting from the least significant. *)
Definition byte_of (x i : Z) : Z := (x / 2 ^ (8 * i)) mod 256.
