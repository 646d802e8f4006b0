(** Model of the stack probes: compiler-builtins/src/probestack.rs (__rust_probestack for
    x86_64, x86 and x86 UEFI), x86.rs (_alloca, __chkstk), x86_64.rs (___chkstk_ms) and
    aarch64.rs (__chkstk), as programs of a small machine. Definitions only. The .cfi
    directives have no effect and are left out. *)
From Coq Require Import ZArith Bool List.
From Verif Require Import AtomicSpec.
Open Scope Z_scope.
Import ListNotations.

(** Registers. *)
Definition AX : nat := 0. Definition CX : nat := 1. Definition DX : nat := 2.
Definition SP : nat := 4. Definition BP : nat := 5. Definition R11 : nat := 11.
Definition X15 : nat := 15. Definition X16 : nat := 16. Definition X17 : nat := 17. Definition X30 : nat := 30.
(** Instructions; memory operands are [register + displacement]. *)
Inductive instr :=
| Lbl (l : nat)
| Push (r : nat) | Pop (r : nat) | PushM (p : nat)
| Mov (d r : nat) | Lea (d p : nat) (o : Z)
| SubI (d : nat) (k : Z) | SubR (d r : nat) | AddR (d r : nat) | Shl (d r : nat) (k : Z)
| CmpI (r : nat) (k : Z)
| Jna (l : nat) | Ja (l : nat) | Jb (l : nat) | Jgt (l : nat)
| TestM (p : nat) (o : Z)              (* test [p + o], r: changes the flags only *)
| Ldrz (p : nat) (o : Z)               (* ldr xzr, [p + o]: no effect but the access *)
| Load (d p : nat) (o : Z) | Store (p : nat) (o : Z) (r : nat)
| Leave | Ret | JmpR (r : nat) | Lfence.

(** The state: next instruction, registers, memory, and the operands whose comparison the
    flags hold, if any. *)
Record state := St { pc : nat; rg : nat -> Z; mm : mem; fl : option (Z * Z) }.
(** The program is running, has left to an address, or an access to a byte has faulted. *)
Inductive out := Running (s : state) | Left (target : Z) (s : state) | Fault (byte : Z).

Section Machine.
(** [w]: bytes of a word; [ok]: the bytes that can be accessed. *)
Context (w : Z) (ok : Z -> Prop) (code : list instr).
Definition wrap (x : Z) : Z := x mod 2 ^ (8 * w).
Definition signed (x : Z) : Z := if x <? 2 ^ (8 * w - 1) then x else x - 2 ^ (8 * w).
Definition addr (s : state) (p : nat) (o : Z) : Z := wrap (rg s p + o).
Fixpoint label (c : list instr) (k : nat) : nat :=
  match c with
  | [] => 0
  | Lbl j :: r => if Nat.eqb j k then 0 else S (label r k)
  | _ :: r => S (label r k)
  end.
(** The ranges (address, length) of memory that an instruction accesses. *)
Definition accesses (i : instr) (s : state) : list (Z * Z) :=
  match i with
  | Push _ => [(addr s SP (- w), w)]
  | Pop _ | Ret => [(rg s SP, w)]
  | PushM p => [(rg s p, w); (addr s SP (- w), w)]
  | TestM p o | Ldrz p o | Load _ p o | Store p o _ => [(addr s p o, w)]
  | Leave => [(rg s BP, w)]
  | _ => []
  end.
Definition upd (f : nat -> Z) (r : nat) (v : Z) : nat -> Z := fun q => if Nat.eqb q r then v else f q.
Definition go (s : state) (f : nat -> Z) (m : mem) (x : option (Z * Z)) : option out := Some (Running (St (S (pc s)) f m x)).
Definition jump (s : state) (l : nat) (taken : Z -> Z -> bool) : option out :=
  match fl s with
  | Some (x, y) => Some (Running (St (if taken x y then label code l else S (pc s)) (rg s) (mm s) (fl s)))
  | None => None
  end.
(** The effect when no access faults. Comparisons and subtractions set the flags; [test]
    and additions leave them in a state that no program here uses. *)
Definition effect (i : instr) (s : state) : option out :=
  let f := rg s in let m := mm s in
  match i with
  | Lbl _ | Lfence | Ldrz _ _ => go s f m (fl s)
  | Push r => go s (upd f SP (addr s SP (- w))) (put false m (addr s SP (- w)) w (f r)) (fl s)
  | Pop r => go s (upd (upd f SP (addr s SP w)) r (get false m (f SP) w)) m (fl s)
  | PushM p => go s (upd f SP (addr s SP (- w))) (put false m (addr s SP (- w)) w (get false m (f p) w)) (fl s)
  | Mov d r => go s (upd f d (f r)) m (fl s)
  | Lea d p o => go s (upd f d (addr s p o)) m (fl s)
  | SubI d k => go s (upd f d (wrap (f d - k))) m (Some (f d, k))
  | SubR d r => go s (upd f d (wrap (f d - f r))) m (Some (f d, f r))
  | AddR d r => go s (upd f d (wrap (f d + f r))) m None
  | Shl d r k => go s (upd f d (wrap (f r * 2 ^ k))) m (fl s)
  | CmpI r k => go s f m (Some (f r, k))
  | Jna l => jump s l (fun x y => x <=? y)
  | Ja l => jump s l (fun x y => y <? x)
  | Jb l => jump s l (fun x y => x <? y)
  | Jgt l => jump s l (fun x y => signed y <? signed x)
  | TestM _ _ => go s f m None
  | Load d p o => go s (upd f d (get false m (addr s p o) w)) m (fl s)
  | Store p o r => go s f (put false m (addr s p o) w (f r)) (fl s)
  | Leave => go s (upd (upd f SP (wrap (f BP + w))) BP (get false m (f BP) w)) m (fl s)
  | Ret => Some (Left (get false m (f SP) w) (St (pc s) (upd f SP (addr s SP w)) m (fl s)))
  | JmpR r => Some (Left (f r) s)
  end.
(** One instruction: it takes effect if all its accesses are allowed. *)
Inductive step (s : state) : list (Z * Z) -> out -> Prop :=
| st_ok i o : nth_error code (pc s) = Some i -> (forall a n b, In (a, n) (accesses i s) -> a <= b < a + n -> ok b) ->
    effect i s = Some o -> step s (accesses i s) o
| st_fault i a n b : nth_error code (pc s) = Some i -> In (a, n) (accesses i s) -> a <= b < a + n -> ~ ok b ->
    step s (accesses i s) (Fault b).
(** All executions from [s0]: [exec intr s0 n l o] has run [n] instructions, which accessed
    the ranges [l]. With [intr], at any moment an interrupt or signal handler that runs on
    the same stack may overwrite anything below the stack pointer. *)
Inductive exec (intr : bool) (s0 : state) : nat -> list (Z * Z) -> out -> Prop :=
| ex_start : exec intr s0 0 [] (Running s0)
| ex_step n l s l' o : exec intr s0 n l (Running s) -> step s l' o -> exec intr s0 (S n) (l ++ l') o
| ex_intr n l s m : exec intr s0 n l (Running s) -> intr = true -> bytes m -> (forall b, rg s SP <= b -> m b = mm s b) ->
    exec intr s0 n l (Running (St (pc s) (rg s) m (fl s))).
End Machine.

(** __rust_probestack, x86_64, probestack.rs:58-124. *)
Definition probe64_body : list instr :=
  [Push BP; Mov BP SP; Mov R11 AX; CmpI R11 0x1000; Jna 3;
   Lbl 2; SubI SP 0x1000; TestM SP 8; SubI R11 0x1000; CmpI R11 0x1000; Ja 2;
   Lbl 3; SubR SP R11; TestM SP 8; AddR SP AX; Leave].
Definition probe64 : list instr := probe64_body ++ [Ret].
(** The ending for SGX, probestack.rs:111-118. *)
Definition probe64_sgx : list instr := probe64_body ++ [Pop R11; Lfence; JmpR R11].
(** __rust_probestack, x86, probestack.rs:133-168. *)
Definition probe32 : list instr :=
  [Push BP; Mov BP SP; Push CX; Mov CX AX; CmpI CX 0x1000; Jna 3;
   Lbl 2; SubI SP 0x1000; TestM SP 8; SubI CX 0x1000; CmpI CX 0x1000; Ja 2;
   Lbl 3; SubR SP CX; TestM SP 8; AddR SP AX; Pop CX; Leave; Ret].
(** __rust_probestack, x86 UEFI, probestack.rs:182-221: also allocates the frame. *)
Definition probe32_uefi : list instr :=
  [Push BP; Mov BP SP; Push CX; Push DX; Mov CX AX; CmpI CX 0x1000; Jna 3;
   Lbl 2; SubI SP 0x1000; TestM SP 8; SubI CX 0x1000; CmpI CX 0x1000; Ja 2;
   Lbl 3; SubR SP CX; TestM SP 8; Load DX BP 4; Store SP 12 DX; AddR SP AX; Pop DX; Pop CX; Leave; SubR SP AX; Ret].
(** _alloca, x86.rs:18-41; __chkstk (9-14) jumps to it. It allocates the frame. *)
Definition alloca32 : list instr :=
  [Push CX; CmpI AX 0x1000; Lea CX SP 8; Jb 3;
   Lbl 2; SubI CX 0x1000; TestM CX 0; SubI AX 0x1000; CmpI AX 0x1000; Ja 2;
   Lbl 3; SubR CX AX; TestM CX 0; Lea AX SP 4; Mov SP CX; Load CX AX (-4); PushM AX; SubR AX SP; Ret].
(** ___chkstk_ms, x86_64.rs:9-29. *)
Definition chkstk64 : list instr :=
  [Push CX; Push AX; CmpI AX 0x1000; Lea CX SP 24; Jb 3;
   Lbl 2; SubI CX 0x1000; TestM CX 0; SubI AX 0x1000; CmpI AX 0x1000; Ja 2;
   Lbl 3; SubR CX AX; TestM CX 0; Pop AX; Pop CX; Ret].
(** __chkstk, aarch64.rs:4-16: the size is 16 times x15. [ret] jumps to x30. *)
Definition chkstk_a64 : list instr :=
  [Shl X16 X15 4; Mov X17 SP; Lbl 1; SubI X17 4096; SubI X16 4096; Ldrz X17 0; Jgt 1; JmpR X30].
