(** Register-level model of the division entry points written in assembly:
    the AVR routines __udivmodqi4 / __udivmodhi4 (int/udiv.rs:47-129) and the ARM
    EABI wrappers __aeabi_{uidivmod,uldivmod,idivmod,ldivmod} (arm.rs:17-78).
    Paths are relative to compiler-builtins/src. *)

From Coq Require Import ZArith Bool List.
From Verif Require Import Base DivModel.
Import ListNotations.
Open Scope Z_scope.

(** * AVR

    The subset of the AVR instruction set used by the two routines. A register
    holds a byte. Branch operands are absolute indices in the program list
    (the assembler's resolution of the local labels [1b] and [2f]). *)
Definition regs := Z -> Z.
Definition upd (r : regs) (k v : Z) : regs := fun j => if j =? k then v else r j.

Inductive avr_instr :=
| Clr (d : Z) | Ldi (d k : Z) | MovR (d r : Z) | Lsl (d : Z) | Rol (d : Z)
| Cp (d r : Z) | Cpc (d r : Z) | Sub (d r : Z) | Sbc (d r : Z) | Sbr (d k : Z)
| Dec (d : Z) | Brlo (target : nat) | Brne (target : nat) | Ret.

Record avr := Avr { ar : regs; ac : bool; az : bool }.

(** One non-branch instruction: AVR Instruction Set Manual semantics of the
    destination register and of the C and Z flags. *)
Definition avr_step (i : avr_instr) (s : avr) : avr :=
  let r := ar s in
  let sub (keep : bool) (d x : Z) (cin zin : bool) : avr :=
    let v := r d - r x - b2z cin in
    let w := v mod 256 in
    Avr (if keep then r else upd r d w) (v <? 0) (zin && (w =? 0)) in
  match i with
  | Clr d => Avr (upd r d 0) (ac s) true
  | Ldi d k => Avr (upd r d k) (ac s) (az s)
  | MovR d x => Avr (upd r d (r x)) (ac s) (az s)
  | Lsl d => let v := 2 * r d in Avr (upd r d (v mod 256)) (256 <=? v) (v mod 256 =? 0)
  | Rol d => let v := 2 * r d + b2z (ac s) in Avr (upd r d (v mod 256)) (256 <=? v) (v mod 256 =? 0)
  | Cp d x => sub true d x false true
  | Cpc d x => sub true d x (ac s) (az s)
  | Sub d x => sub false d x false true
  | Sbc d x => sub false d x (ac s) (az s)
  | Sbr d k => let v := Z.lor (r d) k in Avr (upd r d v) (ac s) (v =? 0)
  | Dec d => let v := (r d - 1) mod 256 in Avr (upd r d v) (ac s) (v =? 0)
  | Brlo _ | Brne _ | Ret => s
  end.

(** Fetch-execute until [ret]. *)
Fixpoint avr_run (prog : list avr_instr) (fuel : nat) (pc : nat) (s : avr) : res avr :=
  match fuel with
  | O => Err OutOfFuel
  | S fuel =>
      match nth_error prog pc with
      | None => Err UB
      | Some Ret => Ok s
      | Some (Brlo t) => avr_run prog fuel (if ac s then t else S pc) s
      | Some (Brne t) => avr_run prog fuel (if az s then S pc else t) s
      | Some i => avr_run prog fuel (S pc) (avr_step i s)
      end
  end.

(** __udivmodqi4, int/udiv.rs:58-76 *)
Definition udivmodqi4_prog : list avr_instr :=
  [ Clr 25; Ldi 23 8;
    (* 1: *) Lsl 24; Rol 25;
    Cp 25 22; Brlo 8; Sub 25 22; Sbr 24 1;
    (* 2: *) Dec 23; Brne 2; Ret ].

(** __udivmodhi4, int/udiv.rs:98-127 *)
Definition udivmodhi4_prog : list avr_instr :=
  [ MovR 26 22; MovR 27 23; MovR 22 24; MovR 23 25; Clr 24; Clr 25; Ldi 21 16;
    (* 1: *) Lsl 22; Rol 23; Rol 24; Rol 25;
    Cp 24 26; Cpc 25 27; Brlo 17; Sub 24 26; Sbc 25 27; Sbr 22 1;
    (* 2: *) Dec 21; Brne 7; Ret ].

(** * ARM (A32/T32), arm.rs:17-78

    Registers 0..15 (13 = sp, 14 = lr); memory is a map from word addresses to
    words; addresses do not wrap. A [Bl] checks the AAPCS rule that sp is
    8-byte aligned at a public interface. *)
Record arm := Arm { rr : regs; mem : Z -> Z }.
Inductive arm_instr :=
| Push (l : list Z) | Pop (l : list Z)      (* registers in ascending order *)
| SubSp (k : Z) | AddSp (k : Z)             (* sub/add sp, sp, #k *)
| AddRSp (d k : Z)                          (* add d, sp, #k ; mov d, sp is k = 0 *)
| StrSp (s k : Z) | LdrSp (d k : Z)         (* str s, [sp, #k] / ldr d, [sp, #k] *)
| Muls (d a b : Z) | Subs (d a b : Z)
| Bl.

Fixpoint store_regs (r : regs) (m : Z -> Z) (a : Z) (l : list Z) : Z -> Z :=
  match l with
  | [] => m
  | x :: l => store_regs r (upd m a (r x)) (a + 4) l
  end.
Fixpoint load_regs (m : Z -> Z) (r : regs) (a : Z) (l : list Z) : regs :=
  match l with
  | [] => r
  | x :: l => load_regs m (upd r x (m a)) (a + 4) l
  end.

Definition arm_step (call : arm -> res arm) (i : arm_instr) (s : arm) : res arm :=
  let r := rr s in let m := mem s in
  match i with
  | Push l =>
      let sp := r 13 - 4 * Z.of_nat (length l) in
      Ok (Arm (upd r 13 sp) (store_regs r m sp l))
  | Pop l =>
      Ok (Arm (upd (load_regs m r (r 13) l) 13 (r 13 + 4 * Z.of_nat (length l))) m)
  | SubSp k => Ok (Arm (upd r 13 (r 13 - k)) m)
  | AddSp k => Ok (Arm (upd r 13 (r 13 + k)) m)
  | AddRSp d k => Ok (Arm (upd r d (r 13 + k)) m)
  | StrSp x k => Ok (Arm r (upd m (r 13 + k) (r x)))
  | LdrSp d k => Ok (Arm (upd r d (m (r 13 + k))) m)
  | Muls d a b => Ok (Arm (upd r d ((r a * r b) mod 2 ^ 32)) m)
  | Subs d a b => Ok (Arm (upd r d ((r a - r b) mod 2 ^ 32)) m)
  | Bl => if r 13 mod 8 =? 0 then call s else Err UB
  end.
Fixpoint arm_run (call : arm -> res arm) (p : list arm_instr) (s : arm) : res arm :=
  match p with
  | [] => Ok s
  | i :: p => let* s := arm_step call i s in arm_run call p s
  end.

(** What an AAPCS callee may destroy: r1-r3, r12, lr (and r0 beyond the result),
    the flags, and the stack below sp. [j] supplies the values. *)
Record havoc := Havoc { hreg : Z -> Z; hmem : Z -> Z }.
Definition clobber (j : havoc) (s : arm) : arm :=
  Arm (fun k => if (k <=? 3) || (k =? 12) || (14 <=? k) then hreg j k else rr s k)
      (fun a => if a <? rr s 13 then hmem j a else mem s a).

(** A 64-bit value in a register pair or two consecutive words; [be] is the
    byte order of the target (AAPCS: as if loaded by LDM). *)
Definition pair64 (be : bool) (x y : Z) : Z := if be then y + 2 ^ 32 * x else x + 2 ^ 32 * y.
Definition fst64 (be : bool) (v : Z) : Z := if be then v / 2 ^ 32 else v mod 2 ^ 32.
Definition snd64 (be : bool) (v : Z) : Z := if be then v mod 2 ^ 32 else v / 2 ^ 32.

(** AAPCS calls of the crate's own functions (DivModel.v). *)
(** __udivmodsi4(r0, r1, r2 = rem pointer), int/udiv.rs:24-31 *)
Definition call_udivmodsi4 (dr : Z -> Z -> res (Z * Z)) (j : havoc) (s : arm) : res arm :=
  let r := rr s in
  let* qr := udivmod dr (r 0) (r 1) in
  let s' := clobber j s in
  Ok (Arm (upd (rr s') 0 (fst qr)) (upd (mem s') (r 2) (snd qr))).
(** A call f(r0:r1, r2:r3, [sp] = rem pointer): __udivmoddi4 (int/udiv.rs:160-167)
    and __divmoddi4 (sdiv.rs:16-42, 45-52). *)
Definition call_divmod64 (be : bool) (f : Z -> Z -> res (Z * Z)) (j : havoc) (s : arm) : res arm :=
  let r := rr s in
  let* qr := f (pair64 be (r 0) (r 1)) (pair64 be (r 2) (r 3)) in
  let p := mem s (r 13) in
  let s' := clobber j s in
  Ok (Arm (upd (upd (rr s') 0 (fst64 be (fst qr))) 1 (snd64 be (fst qr)))
          (upd (upd (mem s') p (fst64 be (snd qr))) (p + 4) (snd64 be (snd qr)))).
(** __aeabi_idiv = __divsi3, sdiv.rs:165-182 *)
Definition call_divsi3 (dr : Z -> Z -> res (Z * Z)) (j : havoc) (s : arm) : res arm :=
  let r := rr s in
  let* q := sdiv 32 dr (norm (SI 32) (r 0)) (norm (SI 32) (r 1)) in
  let s' := clobber j s in
  Ok (Arm (upd (rr s') 0 (norm (UI 32) q)) (mem s')).

(** __aeabi_uidivmod, arm.rs:22-33. [Pop [15]] is [pop {pc}]. *)
Definition aeabi_uidivmod_prog : list arm_instr :=
  [ Push [14]; SubSp 4; AddRSp 2 0; Bl; LdrSp 1 0; AddSp 4; Pop [15] ].
(** __aeabi_uldivmod / __aeabi_ldivmod, arm.rs:36-49, 65-78 *)
Definition aeabi_uldivmod_prog : list arm_instr :=
  [ Push [4; 14]; SubSp 16; AddRSp 4 8; StrSp 4 0; Bl; LdrSp 2 8; LdrSp 3 12; AddSp 16; Pop [4; 15] ].
(** __aeabi_idivmod, arm.rs:52-62 *)
Definition aeabi_idivmod_prog : list arm_instr :=
  [ Push [0; 1; 4; 14]; Bl; Pop [1; 2]; Muls 2 2 0; Subs 1 1 2; Pop [4; 15] ].

Definition aeabi_uidivmod dr j := arm_run (call_udivmodsi4 dr j) aeabi_uidivmod_prog.
Definition aeabi_uldivmod be dr j := arm_run (call_divmod64 be (udivmod dr) j) aeabi_uldivmod_prog.
(** __divmoddi4 on two's complement words. *)
Definition divmoddi4_words (dr : Z -> Z -> res (Z * Z)) (a b : Z) : res (Z * Z) :=
  let* qr := sdivmod 64 dr (norm (SI 64) a) (norm (SI 64) b) in
  Ok (norm (UI 64) (fst qr), norm (UI 64) (snd qr)).
Definition aeabi_ldivmod be dr j := arm_run (call_divmod64 be (divmoddi4_words dr) j) aeabi_uldivmod_prog.
Definition aeabi_idivmod dr j := arm_run (call_divsi3 dr j) aeabi_idivmod_prog.
