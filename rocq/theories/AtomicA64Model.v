(** Model of compiler-builtins/src/aarch64_outline_atomics.rs: the naked functions
    __aarch64_{cas,swp,ldadd,ldclr,ldeor,ldset}N_ORDER as lists of instructions, run by the
    threads of AtomicModel.v.

    Simplifications: interleaving of memory accesses, so that the four orderings (suffixes
    a and l) are the same code; the flag HAVE_LSE_ATOMICS reads as any value at any time
    (__rust_enable_lse, lines 29-35, may run at any moment); general registers and the Z
    flag only. *)
From Coq Require Import ZArith Bool List.
From Verif Require Import AtomicSpec AtomicModel.
Open Scope Z_scope.
Import ListNotations.

(** The arithmetic of fetch_op!: add, bic, eor, orr (lines 365-387), with the LSE forms
    ldadd, ldclr, ldeor, ldset. *)
Inductive alu := OAdd | OBic | OEor | OOrr.
(** Instructions; [n] is the size in bytes, which selects the suffix (size!, 92-98), the
    register width (reg!, 64-70) and the extension (uxt!, 105-109). *)
Inductive instr :=
| Lbl (l : nat)
| Adrp (d : nat)                       (* adrp xd, have_lse *)
| LdrbLse (d : nat)                    (* ldrb wd, [xd, :lo12:have_lse] *)
| Cbz (r l : nat) | Cbnz (r l : nat)   (* on the w register *)
| Bne (l : nat)
| Uxt (n : Z) (d r : nat)              (* uxtb, uxth or mov *)
| Mov (n : Z) (d r : nat)
| Alu (o : alu) (n : Z) (d r q : nat)
| Cmp (n : Z) (r q : nat)
| CcmpEq (n : Z) (r q : nat)           (* ccmp r, q, #0, eq *)
| Ldxr (n : Z) (d p : nat)
| Stxr (n : Z) (st r p : nat)
| Ldxp (d d' p : nat)
| Stxp (st r r' p : nat)
| LseCas (n : Z) (r q p : nat)
| LseCasp (r r' q q' p : nat)
| LseSwp (n : Z) (r d p : nat)
| LseOp (o : alu) (n : Z) (r d p : nat)
| Ldr (n : Z) (d p : nat) | Str (n : Z) (r p : nat)   (* plain accesses of the callers *)
| Ret_.

(** The state of a thread inside a call. [half]: a load-exclusive pair that has read one
    double-word and still has to read the double-word at an address into a register. *)
Record local := Loc { pc : nat; reg : nat -> Z; zf : bool; half : option (nat * Z) }.
Definition width (n : Z) : Z := if n <=? 4 then 32 else 64.
(** A register read with the width of the operation; writing a w register clears the upper
    half. *)
Definition rd (n : Z) (l : local) (r : nat) : Z := reg l r mod 2 ^ width n.
Definition goto (p : nat) (l : local) : local := Loc p (reg l) (zf l) (half l).
Definition next (l : local) : local := goto (S (pc l)) l.
Definition set (r : nat) (v : Z) (l : local) : local := Loc (pc l) (upd (reg l) r v) (zf l) (half l).
Definition setz (b : bool) (l : local) : local := Loc (pc l) (reg l) b (half l).
Definition set_half (h : option (nat * Z)) (l : local) : local := Loc (pc l) (reg l) (zf l) h.
(** The position of a label; each label occurs once in a function. *)
Fixpoint label (code : list instr) (k : nat) : nat :=
  match code with
  | [] => 0
  | Lbl j :: r => if Nat.eqb j k then 0 else S (label r k)
  | _ :: r => S (label r k)
  end.
Definition alu_op (o : alu) (x y : Z) : Z :=
  match o with OAdd => x + y | OBic => Z.ldiff x y | OEor => Z.lxor x y | OOrr => Z.lor x y end.
(** Two registers as the 16 bytes they load from or store to: the first one has the lower
    address. *)
Definition pair (big : bool) (x y : Z) : Z := if big then x * 2 ^ 64 + y else x + 2 ^ 64 * y.

(** One step. [whole]: a load-exclusive pair reads its 16 bytes in one access; the
    architecture guarantees only two accesses of 8 bytes, in any order. *)
Definition istep (big whole : bool) (code : list instr) (i : instr) (t : nat) (s : shared) (l : local) (s' : shared) (l' : local) : Prop :=
  match i with
  | Lbl _ => s' = s /\ l' = next l
  | Adrp d => s' = s /\ exists v, 0 <= v < 2 ^ 64 /\ l' = next (set d v l)
  | LdrbLse d => s' = s /\ exists v, 0 <= v < 256 /\ l' = next (set d v l)
  | Cbz r k => s' = s /\ l' = if rd 4 l r =? 0 then goto (label code k) l else next l
  | Cbnz r k => s' = s /\ l' = if rd 4 l r =? 0 then next l else goto (label code k) l
  | Bne k => s' = s /\ l' = if zf l then next l else goto (label code k) l
  | Uxt n d r => s' = s /\ l' = next (set d (if n =? 1 then rd 4 l r mod 2 ^ 8 else if n =? 2 then rd 4 l r mod 2 ^ 16 else rd n l r) l)
  | Mov n d r => s' = s /\ l' = next (set d (rd n l r) l)
  | Alu o n d r q => s' = s /\ l' = next (set d (alu_op o (rd n l r) (rd n l q) mod 2 ^ width n) l)
  | Cmp n r q => s' = s /\ l' = next (setz (rd n l r =? rd n l q) l)
  | CcmpEq n r q => s' = s /\ l' = next (setz (if zf l then rd n l r =? rd n l q else false) l)
  | Ldxr n d p => s' = set_mon t (Some (reg l p, n)) s /\ l' = next (set d (get big (sh_mem s) (reg l p) n) l)
  | Stxr n st r p =>
      sh_mon s t = Some (reg l p, n) /\ s' = set_mon t None (write big t s (reg l p) n (reg l r)) /\ l' = next (set st 0 l) \/
      s' = set_mon t None s /\ l' = next (set st 1 l)
  | Ldxp d d' p =>
      let a := reg l p in
      s' = set_mon t (Some (a, 16)) s /\
      if whole then l' = next (set d' (get big (sh_mem s) (a + 8) 8) (set d (get big (sh_mem s) a 8) l))
      else l' = set_half (Some (d', a + 8)) (set d (get big (sh_mem s) a 8) l) \/
           l' = set_half (Some (d, a)) (set d' (get big (sh_mem s) (a + 8) 8) l)
  | Stxp st r r' p =>
      sh_mon s t = Some (reg l p, 16) /\ s' = set_mon t None (write big t s (reg l p) 16 (pair big (reg l r) (reg l r'))) /\ l' = next (set st 0 l) \/
      s' = set_mon t None s /\ l' = next (set st 1 l)
  | LseCas n r q p =>
      let x := get big (sh_mem s) (reg l p) n in
      s' = (if x =? reg l r mod 256 ^ n then write big t s (reg l p) n (reg l q) else s) /\ l' = next (set r x l)
  | LseCasp r r' q q' p =>
      let a := reg l p in
      s' = (if get big (sh_mem s) a 16 =? pair big (reg l r) (reg l r') then write big t s a 16 (pair big (reg l q) (reg l q')) else s) /\
      l' = next (set r' (get big (sh_mem s) (a + 8) 8) (set r (get big (sh_mem s) a 8) l))
  | LseSwp n r d p =>
      s' = write big t s (reg l p) n (reg l r) /\ l' = next (set d (get big (sh_mem s) (reg l p) n) l)
  | LseOp o n r d p =>
      let x := get big (sh_mem s) (reg l p) n in
      s' = write big t s (reg l p) n (alu_op o x (reg l r mod 256 ^ n)) /\ l' = next (set d x l)
  | Ldr n d p => s' = s /\ l' = next (set d (get big (sh_mem s) (reg l p) n) l)
  | Str n r p => s' = write big t s (reg l p) n (reg l r) /\ l' = next l
  | Ret_ => False
  end.
Definition astep (big whole : bool) (code : list instr) (t : nat) (s : shared) (l : local) (s' : shared) (l' : local) : Prop :=
  match half l with
  | Some (d, a) => s' = s /\ l' = next (set_half None (set d (get big (sh_mem s) a 8) l))
  | None => match nth_error code (pc l) with Some i => istep big whole code i t s l s' l' | None => False end
  end.

(** try_lse_op!, lines 207-220. *)
Definition try_lse_op (op : instr) : list instr := [Adrp 16; LdrbLse 16; Cbz 16 8; op; Ret_; Lbl 8].
(** compare_and_swap!, lines 242-272. *)
Definition compare_and_swap (n : Z) : list instr :=
  try_lse_op (LseCas n 0 1 2) ++
  [Uxt n 16 0; Lbl 0; Ldxr n 0 2; Cmp n 0 16; Bne 1; Stxr n 17 1 2; Cbnz 17 0; Lbl 1; Ret_].
(** compare_and_swap_u128!, lines 275-304. *)
Definition compare_and_swap_u128 : list instr :=
  try_lse_op (LseCasp 0 1 2 3 4) ++
  [Mov 8 16 0; Mov 8 17 1; Lbl 0; Ldxp 0 1 4; Cmp 8 0 16; CcmpEq 8 1 17; Bne 1; Stxp 15 2 3 4; Cbnz 15 0; Lbl 1; Ret_].
(** swap!, lines 307-332. *)
Definition swap (n : Z) : list instr :=
  try_lse_op (LseSwp n 0 0 1) ++ [Mov n 16 0; Lbl 0; Ldxr n 0 1; Stxr n 17 16 1; Cbnz 17 0; Ret_].
(** fetch_op!, lines 335-362. *)
Definition fetch_op (n : Z) (op lse_op : alu) : list instr :=
  try_lse_op (LseOp lse_op n 0 0 1) ++
  [Mov n 16 0; Lbl 0; Ldxr n 0 1; Alu op n 17 0 16; Stxr n 15 17 1; Cbnz 15 0; Ret_].
(** The generated functions, lines 365-387 and 461-467; [Load] and [Store] are single
    instructions of the callers. *)
Definition a64_code (c : call) : list instr :=
  match c with
  | Rmw Add _ n _ _ => fetch_op n OAdd OAdd
  | Rmw Clear _ n _ _ => fetch_op n OBic OBic
  | Rmw Xor _ n _ _ => fetch_op n OEor OEor
  | Rmw Or _ n _ _ => fetch_op n OOrr OOrr
  | Rmw Xchg _ n _ _ => swap n
  | Rmw _ _ _ _ _ => []
  | Cas n _ _ _ => if n =? 16 then compare_and_swap_u128 else compare_and_swap n
  | Load n _ => [Ldr n 0 1; Ret_]
  | Store n _ _ => [Str n 0 1; Ret_]
  end.
(** Which calls there are, lines 405-467: they return the old value; 16 bytes for
    compare-and-swap only. *)
Definition a64_exported (c : call) : Prop :=
  match c with
  | Rmw o new n _ _ => new = false /\ n <> 16 /\ (o = Add \/ o = Clear \/ o = Xor \/ o = Or \/ o = Xchg)
  | Cas _ _ _ _ => True
  | Load n _ | Store n _ _ => n <> 16
  end.
(** The calling convention: arguments in x0, x1, ... in order, a 16-byte argument in two
    registers in the order of its double-words in memory; the bits of a register above a
    smaller argument are unspecified, and so are the other registers and the flag. *)
Definition holds (n : Z) (l : local) (r : nat) (v : Z) : Prop := reg l r mod 256 ^ n = v.
Definition a64_starts (big : bool) (c : call) (l : local) : Prop :=
  pc l = 0%nat /\ half l = None /\ (forall r, 0 <= reg l r < 2 ^ 64) /\
  match c with
  | Rmw _ _ n a v => holds n l 0 v /\ reg l 1 = a
  | Cas n a old new =>
    if n =? 16 then pair big (reg l 0) (reg l 1) = old /\ pair big (reg l 2) (reg l 3) = new /\ reg l 4 = a
    else holds n l 0 old /\ holds n l 1 new /\ reg l 2 = a
  | Load _ a => reg l 1 = a
  | Store n a v => holds n l 0 v /\ reg l 1 = a
  end.
(** The result, in the low bits of x0 or in x0 and x1. *)
Definition a64_result (big : bool) (c : call) (l : local) : option Z :=
  match half l, nth_error (a64_code c) (pc l) with
  | None, Some Ret_ =>
    Some match c with
         | Store _ _ _ => 0
         | _ => if size_of c =? 16 then pair big (reg l 0) (reg l 1) else reg l 0 mod 256 ^ size_of c
         end
  | _, _ => None
  end.
(** The executions of threads that call these functions. *)
Definition a64_exec (big whole : bool) : mem -> list event -> shared -> (nat -> option (call * local)) -> Prop :=
  exec (fun c => valid [1; 2; 4; 8; 16] 64 c /\ a64_exported c)
       (a64_starts big)
       (fun c => astep big whole (a64_code c))
       (a64_result big).
