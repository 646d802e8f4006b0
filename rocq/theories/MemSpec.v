(** Vocabulary for the memory properties; independent of the routines' models. A
    memory maps each address to a byte value. *)
From Coq Require Import ZArith.
Open Scope Z_scope.

Definition is_memory (m : Z -> Z) : Prop := forall a, 0 <= m a < 256.

(** [x] is one of the [n] addresses starting at [a]. *)
Definition inside (a n x : Z) : Prop := a <= x < a + n.

(** An allocation-sized region: it does not contain the last address of an address
    space of [w]-byte pointers. *)
Definition region (w a n : Z) : Prop := 0 <= a /\ 0 <= n /\ a + n < 2 ^ (8 * w).

(** [m'] is [m] with the [n] bytes at [dst] replaced by those [m] has at [src]. *)
Definition bytes_moved (m m' : Z -> Z) (dst src n : Z) : Prop :=
  (forall i, 0 <= i < n -> m' (dst + i) = m (src + i)) /\
  (forall x, ~ inside dst n x -> m' x = m x).

(** [m'] is [m] with the [n] bytes at [dst] replaced by the byte [c mod 256]. *)
Definition bytes_set (m m' : Z -> Z) (dst c n : Z) : Prop :=
  (forall i, 0 <= i < n -> m' (dst + i) = c mod 256) /\
  (forall x, ~ inside dst n x -> m' x = m x).

(** Sign of the lexicographic comparison of the [n] bytes at [a] and at [b]. *)
Definition byte_order (m : Z -> Z) (a b n r : Z) : Prop :=
  (r = 0 <-> (forall i, 0 <= i < n -> m (a + i) = m (b + i))) /\
  (forall j, 0 <= j < n -> (forall i, 0 <= i < j -> m (a + i) = m (b + i)) ->
    (m (a + j) < m (b + j) -> r < 0) /\ (m (b + j) < m (a + j) -> 0 < r)).

(** A NUL-terminated string of length [len] at [s]. *)
Definition c_string (m : Z -> Z) (s len : Z) : Prop :=
  0 <= len /\ m (s + len) = 0 /\ forall i, 0 <= i < len -> m (s + i) <> 0.
