(** Model of the ARM atomics: compiler-builtins/src/sync/arm_linux.rs (kernel helpers) and
    thumbv6k.rs (ldrex/strex), with the shared list of symbols arm_thumb_shared.rs, as
    programs of threads that run on one shared memory.

    Simplifications: memory accesses of different threads interleave (sequential
    consistency: barriers are steps without effect, so the ordering guarantees of the
    barriers are not modelled); a thread makes one call at a time; the calls are valid
    (aligned pointers). *)
From Coq Require Import ZArith Bool List.
From Verif Require Import Base AtomicSpec.
Open Scope Z_scope.
Import ListNotations.

(** * The machine *)
(** Shared memory and, for each thread, the address and size that its exclusive monitor
    holds, if any (Arm ARM, "Synchronization and semaphores"). *)
Record shared := Sh { sh_mem : mem; sh_mon : nat -> option (Z * Z) }.

Section Machine.
Context (big : bool).
Definition overlap (a n b k : Z) : bool := (a <? b + k) && (b <? a + n).
(** A store by thread [t] clears the monitors of the other threads that hold any of its
    bytes. *)
Definition write (t : nat) (s : shared) (a n v : Z) : shared :=
  Sh (put big (sh_mem s) a n v)
     (fun u => if Nat.eqb u t then sh_mon s u
               else match sh_mon s u with
                    | Some (b, k) => if overlap a n b k then None else Some (b, k)
                    | None => None
                    end).
Definition set_mon (t : nat) (x : option (Z * Z)) (s : shared) : shared := Sh (sh_mem s) (upd (sh_mon s) t x).

(** Thread programs: [A] is the type of jump targets, loops are jumps. The value read (or
    the outcome) is passed to the rest of the program. *)
Inductive prog (A : Type) :=
| Done (v : Z)
| Jump (l : A)
| Fence (k : prog A)
| Read (n a : Z) (k : Z -> prog A)
| Write (n a v : Z) (k : prog A)
| Ldrex (n a : Z) (k : Z -> prog A)
| Strex (n a v : Z) (k : bool -> prog A)
| Kcmpxchg (old new a : Z) (k : bool -> prog A).
Arguments Done {A}. Arguments Jump {A}. Arguments Fence {A}. Arguments Read {A}. Arguments Write {A}.
Arguments Ldrex {A}. Arguments Strex {A}. Arguments Kcmpxchg {A}.

(** One step of thread [t]. A store-exclusive may fail for no reason, and must fail when
    the monitor does not hold the cell; its outcome [true] means stored.
    [__kuser_cmpxchg] (arm_linux.rs:6-13) is provided by the kernel: it compares and
    exchanges in one step; it is also allowed to fail for no reason. *)
Inductive pstep {A} (code : A -> prog A) (t : nat) : shared -> prog A -> shared -> prog A -> Prop :=
| ps_jump s l : pstep code t s (Jump l) s (code l)
| ps_fence s k : pstep code t s (Fence k) s k
| ps_read s n a k : pstep code t s (Read n a k) s (k (get big (sh_mem s) a n))
| ps_write s n a v k : pstep code t s (Write n a v k) (write t s a n v) k
| ps_ldrex s n a k : pstep code t s (Ldrex n a k) (set_mon t (Some (a, n)) s) (k (get big (sh_mem s) a n))
| ps_strex s n a v k : sh_mon s t = Some (a, n) ->
    pstep code t s (Strex n a v k) (set_mon t None (write t s a n v)) (k true)
| ps_strex_fail s n a v k : pstep code t s (Strex n a v k) (set_mon t None s) (k false)
| ps_kcmpxchg s old new a k : get big (sh_mem s) a 4 = old ->
    pstep code t s (Kcmpxchg old new a k) (write t s a 4 new) (k true)
| ps_kcmpxchg_fail s old new a k : pstep code t s (Kcmpxchg old new a k) s (k false).
End Machine.
Arguments Done {A}. Arguments Jump {A}. Arguments Fence {A}. Arguments Read {A}. Arguments Write {A}.
Arguments Ldrex {A}. Arguments Strex {A}. Arguments Kcmpxchg {A}.

(** All executions of any number of threads: [exec m0 h s ts] reaches shared state [s] with
    the threads in [ts] (the current call and its local state), after the history [h].
    The monitor of any thread may be lost at any time (interrupts, neighbouring writes). *)
Section Exec.
Context {L : Type} (ok : call -> Prop) (starts : call -> L -> Prop)
  (tstep : call -> nat -> shared -> L -> shared -> L -> Prop) (result : call -> L -> option Z).
Inductive exec (m0 : mem) : list event -> shared -> (nat -> option (call * L)) -> Prop :=
| ex_init : exec m0 [] (Sh m0 (fun _ => None)) (fun _ => None)
| ex_call h s ts t c l : exec m0 h s ts -> ts t = None -> ok c -> starts c l ->
    exec m0 (h ++ [Inv t c]) s (upd ts t (Some (c, l)))
| ex_step h s ts t c l s' l' : exec m0 h s ts -> ts t = Some (c, l) -> tstep c t s l s' l' ->
    exec m0 h s' (upd ts t (Some (c, l')))
| ex_lose h s ts t : exec m0 h s ts -> exec m0 h (set_mon t None s) ts
| ex_return h s ts t c l v : exec m0 h s ts -> ts t = Some (c, l) -> result c l = Some v ->
    exec m0 (h ++ [Ret t v]) s (upd ts t None).
(** A thread in the middle of call [c] can run to its return with no step of another. *)
Inductive alone (c : call) (t : nat) : shared -> L -> shared -> Z -> Prop :=
| al_return s l v : result c l = Some v -> alone c t s l s v
| al_step s l s1 l1 s2 v : tstep c t s l s1 l1 -> alone c t s1 l1 s2 v -> alone c t s l s2 v.
End Exec.
(** A program has returned. *)
Definition done {A} (p : prog A) : option Z := match p with Done v => Some v | _ => None end.
(** The plain accesses of the surrounding program: one instruction each. *)
Definition plain {A} (c : call) : prog A :=
  match c with
  | Load n a => Read n a Done
  | Store n a v => Write n a v (Done 0)
  | _ => Done 0
  end.

(** * arm_thumb_shared.rs *)
(** The types of the arguments: signed for max and min (64-78, 96-110), unsigned for the
    others. [Clear] is not among the exported functions. *)
Definition ty (o : rmw) (n : Z) : ity := match o with Max | Min => SI (8 * n) | _ => UI (8 * n) end.
(** The closures, arm_thumb_shared.rs:8-130. *)
Definition op_expr (o : rmw) (n a b : Z) : Z :=
  match o with
  | Add => wrapping_add (ty o n) a b
  | Sub => wrapping_sub (ty o n) a b
  | And => Z.land a b
  | Or => Z.lor a b
  | Xor => Z.lxor a b
  | Nand => inot (ty o n) (Z.land a b)
  | Max | UMax => if a >? b then a else b
  | Min | UMin => if a <? b then a else b
  | Xchg => b
  | Clear => a
  end.
(** The exported combinations: old value for all, new value for the six of lines 14-62.
    The compare-and-swap functions are lines 132-134. *)
Definition exported (c : call) : Prop :=
  match c with
  | Rmw o new _ _ _ =>
    match o with
    | Clear => False
    | Add | Sub | And | Or | Xor | Nand => True
    | _ => new = false
    end
  | _ => True
  end.

(** * arm_linux.rs *)
(** align_ptr, arm_linux.rs:22-27; pointers are 32 bits wide. *)
Definition align_ptr (n ptr : Z) : Z :=
  let ptr_mask := Z.land 3 (4 - n) in Z.land ptr (inot (UI 32) ptr_mask).
(** get_shift_mask, arm_linux.rs:30-51. The product is at most 24. *)
Definition get_shift_mask (big : bool) (n ptr : Z) : Z * Z :=
  let mask := if n =? 1 then 0xff else if n =? 2 then 0xffff else 0xffffffff in
  let endian_adjust := if big then 4 - n else 0 in
  let ptr_mask := Z.land 3 (4 - n) in
  (Z.lxor (Z.land ptr ptr_mask) endian_adjust * 8, mask).
(** extract_aligned, arm_linux.rs:54-56. *)
Definition extract_aligned (aligned shift mask : Z) : Z := Z.land (Z.shiftr aligned shift) mask.
(** insert_aligned, arm_linux.rs:59-61. *)
Definition insert_aligned (aligned val shift mask : Z) : Z :=
  Z.lor (Z.land aligned (inot (UI 32) (norm (UI 32) (Z.shiftl mask shift))))
        (norm (UI 32) (Z.shiftl (Z.land val mask) shift)).
(** atomic_load_aligned, arm_linux.rs:76-102: one aligned word read in both branches. *)

(** The only jump target is the head of the loop. *)
Inductive here := Loop.
(** atomic_rmw, arm_linux.rs:105-120, with the closures of the macro (144-168): [val] has
    type [ty o n], [f] casts its argument to that type and the result to u32, and the
    value returned is cast back (and given as a bit pattern). *)
Definition linux_rmw (big : bool) (o : rmw) (new : bool) (n ptr v : Z) : prog here :=
  let val := norm (ty o n) v in
  let f := fun x => norm (UI 32) (op_expr o n (norm (ty o n) x) val) in
  let g := fun old nw => if new then nw else old in
  let aligned_ptr := align_ptr n ptr in
  let (shift, mask) := get_shift_mask big n ptr in
  Read 4 aligned_ptr (fun curval_aligned =>
    let curval := extract_aligned curval_aligned shift mask in
    let newval := f curval in
    let newval_aligned := insert_aligned curval_aligned newval shift mask in
    Kcmpxchg curval_aligned newval_aligned aligned_ptr (fun ok =>
      if ok then Done (norm (UI (8 * n)) (norm (ty o n) (g curval newval))) else Jump Loop)).
(** atomic_cmpxchg, arm_linux.rs:123-142; the macro (169-179) casts from and to $ty. *)
Definition linux_cmpxchg (big : bool) (n ptr oldval newval : Z) : prog here :=
  let aligned_ptr := align_ptr n ptr in
  let (shift, mask) := get_shift_mask big n ptr in
  Read 4 aligned_ptr (fun curval_aligned =>
    let curval := extract_aligned curval_aligned shift mask in
    if negb (curval =? oldval) then Done (norm (UI (8 * n)) curval)
    else
      let newval_aligned := insert_aligned curval_aligned newval shift mask in
      Kcmpxchg curval_aligned newval_aligned aligned_ptr (fun ok =>
        if ok then Done (norm (UI (8 * n)) oldval) else Jump Loop)).
(** The functions of arm_linux.rs. *)
Definition linux_code (big : bool) (c : call) : prog here :=
  match c with
  | Rmw o new n a v => linux_rmw big o new n a v
  | Cas n a old new => linux_cmpxchg big n a old new
  | _ => plain c
  end.
(** The executions of threads that call the functions of arm_linux.rs. *)
Definition linux_exec (big : bool) : mem -> list event -> shared -> (nat -> option (call * prog here)) -> Prop :=
  exec (fun c => valid [1; 2; 4] 32 c /\ exported c)
       (fun c p => p = linux_code big c)
       (fun c t => pstep big (fun _ => linux_code big c) t)
       (fun _ => done).

(** * thumbv6k.rs *)
(** Jump targets: the loop of atomic_rmw, and label 2 of the assembly with the values in
    the registers out, old and new. *)
Inductive tlabel := TLoop | TRetry (out old new : Z).
(** cmpxchg, thumbv6k.rs:62-103, for unsigned types; [ret] is what the caller does with the
    value. Label 3, thumbv6k.rs:86-87: *)
Definition thumb_exit (ret : Z -> prog tlabel) (out : Z) : prog tlabel := Fence (ret out).
(** Label 2, thumbv6k.rs:79-85. *)
Definition thumb_retry (n dst out old new : Z) (ret : Z -> prog tlabel) : prog tlabel :=
  Strex n dst new (fun stored =>
    if stored then thumb_exit ret out
    else Ldrex n dst (fun out => if out =? old then Jump (TRetry out old new) else thumb_exit ret out)).
(** The entry, thumbv6k.rs:75-78. *)
Definition thumb_cmpxchg (n dst old new : Z) (ret : Z -> prog tlabel) : prog tlabel :=
  Ldrex n dst (fun out =>
    if negb (out =? old) then thumb_exit ret out
    else Fence (Jump (TRetry out old new))).
(** atomic_rmw, thumbv6k.rs:155-167, and the macro (169-193). The signed types delegate to
    the unsigned ones with casts (113-144). After a retry the current and new values are computed again
    from the register old, which does not change. *)
Definition thumb_rmw_ret (o : rmw) (new : bool) (n curval newval : Z) : Z -> prog tlabel :=
  fun out => if norm (ty o n) out =? curval then Done (norm (UI (8 * n)) (if new then newval else curval)) else Jump TLoop.
(** atomic_rmw, thumbv6k.rs:155-167; the load is load_relaxed (44-59). *)
Definition thumb_rmw (o : rmw) (new : bool) (n ptr v : Z) : prog tlabel :=
  let val := norm (ty o n) v in
  Read n ptr (fun x =>
    let curval := norm (ty o n) x in
    let newval := op_expr o n curval val in
    thumb_cmpxchg n ptr (norm (UI (8 * n)) curval) (norm (UI (8 * n)) newval) (thumb_rmw_ret o new n curval newval)).
(** The functions of thumbv6k.rs by jump target; compare-and-swap is lines 194-204. *)
Definition thumb_code (c : call) (l : tlabel) : prog tlabel :=
  match c, l with
  | Rmw o new n a v, TLoop => thumb_rmw o new n a v
  | Rmw o new n a v, TRetry out old nw =>
    thumb_retry n a out old nw (thumb_rmw_ret o new n (norm (ty o n) old) (op_expr o n (norm (ty o n) old) (norm (ty o n) v)))
  | Cas n a old new, TLoop => thumb_cmpxchg n a old new Done
  | Cas n a old new, TRetry out old' new' => thumb_retry n a out old' new' Done
  | _, _ => plain c
  end.
(** The executions of threads that call the functions of thumbv6k.rs. *)
Definition thumb_exec (big : bool) : mem -> list event -> shared -> (nat -> option (call * prog tlabel)) -> Prop :=
  exec (fun c => valid [1; 2; 4] 32 c /\ exported c)
       (fun c p => p = thumb_code c TLoop)
       (fun c t => pstep big (thumb_code c) t)
       (fun _ => done).
