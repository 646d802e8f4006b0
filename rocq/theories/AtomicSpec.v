(** Specification of atomic memory operations: a memory of bytes on which each call acts in
    one indivisible step, and the histories (calls and returns of any number of threads)
    that such a memory allows. A concurrent implementation is linearizable when all its
    histories are among them (Herlihy and Wing; the "canonical atomic object" of Lynch). *)
From Coq Require Import ZArith Bool List.
Open Scope Z_scope.
Import ListNotations.

(** * Memory *)
(** The byte stored at each address. *)
Definition mem := Z -> Z.
Definition same (m m' : mem) : Prop := forall b, m b = m' b.
(** The number held by the [n] bytes from address [a], first byte least significant
    (little-endian) or most significant ([big]). *)
Fixpoint num_le (m : mem) (a : Z) (n : nat) : Z :=
  match n with O => 0 | S k => m a + 256 * num_le m (a + 1) k end.
Fixpoint num_be (m : mem) (a : Z) (n : nat) : Z :=
  match n with O => 0 | S k => m a * 256 ^ Z.of_nat k + num_be m (a + 1) k end.
Definition get (big : bool) (m : mem) (a n : Z) : Z :=
  if big then num_be m a (Z.to_nat n) else num_le m a (Z.to_nat n).
(** Storing the number [v]: the bytes at [a .. a+n-1] change, no others. *)
Definition put (big : bool) (m : mem) (a n v : Z) : mem :=
  fun b => if (a <=? b) && (b <? a + n)
           then (v / 256 ^ (if big then a + n - 1 - b else b - a)) mod 256 else m b.

(** * Calls *)
(** The arithmetic of a read-modify-write on [bits]-wide patterns. *)
Inductive rmw := Add | Sub | And | Or | Xor | Nand | Clear | Max | UMax | Min | UMin | Xchg.
Definition to_signed (bits x : Z) : Z := if x <? 2 ^ (bits - 1) then x else x - 2 ^ bits.
Definition apply (o : rmw) (bits x v : Z) : Z :=
  match o with
  | Add => (x + v) mod 2 ^ bits
  | Sub => (x - v) mod 2 ^ bits
  | And => Z.land x v
  | Or => Z.lor x v
  | Xor => Z.lxor x v
  | Nand => 2 ^ bits - 1 - Z.land x v
  | Clear => Z.land x (2 ^ bits - 1 - v)
  | Max => if to_signed bits x <? to_signed bits v then v else x
  | UMax => Z.max x v
  | Min => if to_signed bits v <? to_signed bits x then v else x
  | UMin => Z.min x v
  | Xchg => v
  end.

(** A call on the [n] bytes at [a]; operands and results are bit patterns. [Rmw] returns
    the old value, or the new one if [new]. [Load] and [Store] are plain accesses by the
    program around the calls. *)
Inductive call :=
| Rmw (o : rmw) (new : bool) (n a v : Z)
| Cas (n a old new : Z)
| Load (n a : Z)
| Store (n a v : Z).
Definition size_of (c : call) : Z := match c with Rmw _ _ n _ _ | Cas n _ _ _ | Load n _ | Store n _ _ => n end.
Definition addr_of (c : call) : Z := match c with Rmw _ _ _ a _ | Cas _ a _ _ | Load _ a | Store _ a _ => a end.
Definition operands (c : call) : list Z := match c with Rmw _ _ _ _ v | Store _ _ v => [v] | Cas _ _ o v => [o; v] | Load _ _ => [] end.
(** What the caller must respect: a supported size, an aligned address inside an address
    space of [width] bits, operands of that size. *)
Definition valid (sizes : list Z) (width : Z) (c : call) : Prop :=
  In (size_of c) sizes /\ 0 <= addr_of c < 2 ^ width /\ addr_of c mod size_of c = 0 /\
  Forall (fun v => 0 <= v < 256 ^ size_of c) (operands c).

(** The effect and the result of a call executed on its own. *)
Definition sem (big : bool) (c : call) (m : mem) : mem * Z :=
  match c with
  | Rmw o new n a v =>
    let x := get big m a n in let y := apply o (8 * n) x v in
    (put big m a n y, if new then y else x)
  | Cas n a old new =>
    let x := get big m a n in (if x =? old then put big m a n new else m, x)
  | Load n a => (m, get big m a n)
  | Store n a v => (put big m a n v, 0)
  end.

(** * Histories *)
(** Thread [t] calls; thread [t] gets a result. *)
Inductive event := Inv (t : nat) (c : call) | Ret (t : nat) (v : Z).
Inductive pstate := Idle | Pending (c : call) | Finished (v : Z).
Definition upd {A} (f : nat -> A) (t : nat) (x : A) : nat -> A := fun u => if Nat.eqb u t then x else f u.

(** [atomic big ok m0 h m ts]: from memory [m0] and idle threads, the history [h] can happen
    when every call takes effect at one instant between its invocation and its return;
    [m] is the memory and [ts] the state of each thread afterwards. [ok] are the calls
    that the threads may make. *)
Inductive atomic (big : bool) (ok : call -> Prop) (m0 : mem) : list event -> mem -> (nat -> pstate) -> Prop :=
| at_init : atomic big ok m0 [] m0 (fun _ => Idle)
| at_call h m ts t c : atomic big ok m0 h m ts -> ts t = Idle -> ok c ->
    atomic big ok m0 (h ++ [Inv t c]) m (upd ts t (Pending c))
| at_effect h m ts t c : atomic big ok m0 h m ts -> ts t = Pending c ->
    atomic big ok m0 h (fst (sem big c m)) (upd ts t (Finished (snd (sem big c m))))
| at_return h m ts t v : atomic big ok m0 h m ts -> ts t = Finished v ->
    atomic big ok m0 (h ++ [Ret t v]) m (upd ts t Idle).

Definition bytes (m : mem) : Prop := forall b, 0 <= m b < 256.

(** * What the histories say about one cell *)
(** The byte [b] is one that the call works on. *)
Definition covers (c : call) (b : Z) : Prop := addr_of c <= b < addr_of c + size_of c.
(** The calls made in a history. *)
Definition calls (h : list event) : list call :=
  flat_map (fun e => match e with Inv _ c => [c] | Ret _ _ => [] end) h.
(** The sum of the operands of the additions to the cell [a], [n]. *)
Definition added (a n : Z) (h : list event) : Z :=
  fold_right Z.add 0
    (map (fun c => match c with Rmw Add _ k b v => if (b =? a) && (k =? n) then v else 0 | _ => 0 end) (calls h)).

(** * A weaker compare-and-swap *)
(** As [atomic], but a 16-byte compare-and-swap that fails may return any value other than
    the expected one. *)
Inductive wstate := WIdle | WPending (c : call) | WFinished (v : Z) | WFailed (old : Z).
Inductive weak (big : bool) (ok : call -> Prop) (m0 : mem) : list event -> mem -> (nat -> wstate) -> Prop :=
| we_init : weak big ok m0 [] m0 (fun _ => WIdle)
| we_call h m ts t c : weak big ok m0 h m ts -> ts t = WIdle -> ok c ->
    weak big ok m0 (h ++ [Inv t c]) m (upd ts t (WPending c))
| we_effect h m ts t c : weak big ok m0 h m ts -> ts t = WPending c ->
    weak big ok m0 h (fst (sem big c m)) (upd ts t (WFinished (snd (sem big c m))))
| we_fail h m ts t a old new : weak big ok m0 h m ts -> ts t = WPending (Cas 16 a old new) -> get big m a 16 <> old ->
    weak big ok m0 h m (upd ts t (WFailed old))
| we_return h m ts t v : weak big ok m0 h m ts -> ts t = WFinished v ->
    weak big ok m0 (h ++ [Ret t v]) m (upd ts t WIdle)
| we_return_other h m ts t old v : weak big ok m0 h m ts -> ts t = WFailed old -> v <> old ->
    weak big ok m0 (h ++ [Ret t v]) m (upd ts t WIdle).
