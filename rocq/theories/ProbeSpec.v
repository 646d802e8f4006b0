(** What a stack probe must do. [E] is the stack pointer on entry, where the call has put
    the return address; [size] is the frame to probe. After the call the caller's frame
    ends at [E + w - size]. *)
From Coq Require Import ZArith Bool List.
From Verif Require Import AtomicSpec ProbeModel.
Open Scope Z_scope.
Import ListNotations.

Section Spec.
(** [w]: bytes of a word; [code]; [intr]: handlers may overwrite what is below the stack
    pointer; [moves]: the function itself allocates the frame; [free]: the registers that
    it may change (besides the stack pointer); [good]: the sizes considered. *)
Context (w : Z) (code : list instr) (intr moves : bool) (free : list nat) (good : Z -> Prop).

Definition entry (E size ret : Z) (s : state) : Prop :=
  pc s = 0%nat /\ rg s SP = E /\ rg s AX = size /\ get false (mm s) E w = ret /\ bytes (mm s) /\
  (forall r, 0 <= rg s r < 2 ^ (8 * w)) /\ E + w < 2 ^ (8 * w) /\ good size.
(** The frame is inside the address space (with two pages to spare). *)
Definition fits (E size : Z) : Prop := size + 8192 <= E.
(** There is a guard page, [g .. g + 4095], somewhere between the return address and the end
    of the frame (not the lowest page of the address space). *)
Definition guarded (ok : Z -> Prop) (E size g : Z) : Prop :=
  4096 <= g /\ (forall b, g <= b < g + 4096 -> ~ ok b) /\ g + 4096 <= E /\ E + w - size < g + 4096.

(** The function returns to its caller with the stack pointer (lowered by the size of the
    frame if it allocates) and all registers but the [free] ones as they were, and the
    caller's memory unchanged. *)
Definition transparent : Prop := forall ok s0 E size ret n l t s, entry E size ret s0 -> fits E size ->
  exec w ok code intr s0 n l (Left t s) ->
  t = ret /\ rg s SP = E + w - (if moves then size else 0) /\
  (forall r, r <> SP -> ~ In r free -> rg s r = rg s0 r) /\
  (forall b, E + w <= b -> mm s b = mm s0 b).
(** If the frame reaches the guard page the function never returns: it faults, before it
    has accessed anything below the guard page. *)
Definition stops_at_guard : Prop := forall ok s0 E size ret g n l o, entry E size ret s0 -> guarded ok E size g ->
  exec w ok code intr s0 n l o ->
  (forall a k, In (a, k) l -> g <= a) /\
  match o with Left _ _ => False | Fault b => g <= b | Running _ => True end.
(** It accesses nothing outside the frame and the eight bytes below it (or the sixteen
    bytes below the return address), or the word at the end of the frame when the frame is
    smaller than that, so that it does not fault when there is enough stack. *)
Definition no_fault : Prop := forall ok s0 E size ret n l o, entry E size ret s0 -> fits E size ->
  exec w ok code intr s0 n l o ->
  (forall a k, In (a, k) l -> Z.min (E - 16) (E + w - size - 8) <= a /\ a + k <= Z.max (E + w) (E + w - size + w)) /\
  ((forall b, Z.min (E - 16) (E + w - size - 8) <= b < Z.max (E + w) (E + w - size + w) -> ok b) -> forall b, o <> Fault b).
(** It runs a bounded number of instructions and never gets stuck. *)
Definition finishes : Prop := forall ok s0 E size ret n l o, entry E size ret s0 -> fits E size \/ (exists g, guarded ok E size g) ->
  exec w ok code intr s0 n l o ->
  Z.of_nat n <= 30 + 6 * (size / 4096) /\
  forall s, o = Running s -> (forall b, ok b \/ ~ ok b) -> exists l' o', step w ok code s l' o'.
Definition probes_stack : Prop := transparent /\ stops_at_guard /\ no_fault /\ finishes.
End Spec.

(** The same for aarch64: the caller gives the size in units of 16 bytes in x15 and the
    return address in x30; nothing is on the stack. The frame will end at [E - size]. *)
Section A64.
Context (code : list instr) (intr : bool).
Definition entry_a64 (E size ret : Z) (s : state) : Prop :=
  pc s = 0%nat /\ rg s SP = E /\ 16 * rg s X15 = size /\ size < 2 ^ 63 /\ rg s X30 = ret /\ (forall r, 0 <= rg s r < 2 ^ 64).
Definition transparent_a64 : Prop := forall ok s0 E size ret n l t s, entry_a64 E size ret s0 -> fits E size ->
  exec 8 ok code intr s0 n l (Left t s) ->
  t = ret /\ (forall r, r <> X16 -> r <> X17 -> rg s r = rg s0 r) /\ (forall b, E <= b -> mm s b = mm s0 b).
Definition guarded_a64 (ok : Z -> Prop) (E size g : Z) : Prop :=
  4096 <= g /\ (forall b, g <= b < g + 4096 -> ~ ok b) /\ g + 4096 <= E /\ E - size < g + 4096.
Definition stops_at_guard_a64 : Prop := forall ok s0 E size ret g n l o, entry_a64 E size ret s0 -> guarded_a64 ok E size g ->
  exec 8 ok code intr s0 n l o ->
  (forall a k, In (a, k) l -> g <= a) /\
  match o with Left _ _ => False | Fault b => g <= b | Running _ => True end.
(** It accesses at most the page below the end of the frame. *)
Definition no_fault_a64 : Prop := forall ok s0 E size ret n l o, entry_a64 E size ret s0 -> fits E size ->
  exec 8 ok code intr s0 n l o ->
  (forall a k, In (a, k) l -> E - size - 4096 <= a /\ a + k <= E) /\
  ((forall b, E - size - 4096 <= b < E -> ok b) -> forall b, o <> Fault b).
Definition finishes_a64 : Prop := forall ok s0 E size ret n l o, entry_a64 E size ret s0 -> fits E size \/ (exists g, guarded_a64 ok E size g) ->
  exec 8 ok code intr s0 n l o ->
  Z.of_nat n <= 8 + 5 * (size / 4096) /\
  forall s, o = Running s -> (forall b, ok b \/ ~ ok b) -> exists l' o', step 8 ok code s l' o'.
Definition probes_stack_a64 : Prop := transparent_a64 /\ stops_at_guard_a64 /\ no_fault_a64 /\ finishes_a64.
End A64.
