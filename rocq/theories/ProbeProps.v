(** C52: the stack probes. *)
From Coq Require Import ZArith Bool List Lia.
From Verif Require Import AtomicSpec AtomicProofs ProbeModel ProbeSpec ProbeProofs5 ProbeProofs6.
Open Scope Z_scope.
Import ListNotations.

(** C52. __rust_probestack for x86_64 (both endings) and x86 and ___chkstk_ms for x86_64
    probe every page of the frame before anything below it is used, whatever interrupt
    handlers do on the same stack: see [probes_stack]. *)
Theorem C52_x86_64 : forall intr, probes_stack 8 probe64 intr false [R11] (fun _ => True).
Proof. intros intr. apply p64_probes. left. reflexivity. Qed.
Theorem C52_x86_64_sgx : forall intr, probes_stack 8 probe64_sgx intr false [R11] (fun _ => True).
Proof. intros intr. apply p64_probes. right. reflexivity. Qed.
Theorem C52_x86 : forall intr, probes_stack 4 probe32 intr false [] (fun _ => True).
Proof. exact p32_probes. Qed.
Theorem C52_chkstk_ms : forall intr, probes_stack 8 chkstk64 intr false [] (fun _ => True).
Proof. exact chkstk_probes. Qed.
(** The two that allocate the frame: _alloca and __chkstk for x86, with interrupts if the
    frame has at least eight bytes; and __rust_probestack for x86 UEFI, without interrupts
    and if the frame has at least 16 bytes (or none). *)
Theorem C52_alloca : forall intr, probes_stack 4 alloca32 intr true [] (fun size => intr = false \/ 8 <= size).
Proof. exact alloca_probes. Qed.
Theorem C52_uefi : probes_stack 4 probe32_uefi false true [] (fun size => size = 0 \/ 16 <= size).
Proof. exact uefi_probes. Qed.
(** __chkstk for aarch64. *)
Theorem C52_aarch64 : forall intr, probes_stack_a64 chkstk_a64 intr.
Proof. exact a64_probes. Qed.

(** A caller: the stack pointer is at 0x20000 (x86: 16 MiB), the return address is 77,
    the other registers hold 100 and up. *)
Definition start (w E size : Z) : state :=
  St 0 (fun r => if Nat.eqb r SP then E else if Nat.eqb r AX then size else if Nat.ltb r 32 then 100 + Z.of_nat r else 0)
    (put false (fun _ => 0) E w 77) None.
Lemma zeros_bytes : bytes (fun _ => 0).
Proof. intros b. lia. Qed.
Lemma start_entry w (good : Z -> Prop) size : (w = 4 \/ w = 8) -> 0 <= size < 1048576 -> good size -> entry w good 16777216 size 77 (start w 16777216 size).
Proof.
  intros Hw Hs G. assert (2 ^ 32 <= 2 ^ (8 * w)) as W by (apply Z.pow_le_mono_r; lia). change (2 ^ 32) with 4294967296 in W.
  unfold entry. generalize dependent (2 ^ (8 * w)). intros W' W. unfold start. cbn [pc rg mm fl]. split; [reflexivity|]. split; [reflexivity|]. split; [reflexivity|].
  split; [destruct Hw as [-> | ->]; vm_compute; reflexivity|]. split; [apply put_bytes, zeros_bytes|].
  split; [|split; [lia|exact G]].
  intros r. destruct (Nat.eqb r SP); [lia|]. destruct (Nat.eqb r AX); [lia|]. destruct (Nat.ltb r 32) eqn:R; [apply Nat.ltb_lt in R; lia|lia].
Qed.
(** The guard page of the examples: three pages below. *)
Definition open_ (b : Z) : bool := negb ((16777216 - 4 * 4096 <=? b) && (b <? 16777216 - 3 * 4096)).
Lemma start_guard w size : (w = 4 \/ w = 8) -> 3 * 4096 + w < size -> guarded w (fun b => open_ b = true) 16777216 size (16777216 - 4 * 4096).
Proof.
  intros Hw H. split; [lia|]. split; [|split; [lia|lia]]. intros b Hb O. unfold open_ in O.
  destruct (Z.leb_spec (16777216 - 4 * 4096) b); [|lia]. destruct (Z.ltb_spec b (16777216 - 3 * 4096)); [|lia]. discriminate O.
Qed.
(** With a frame of 20000 bytes the programs return when nothing is guarded, and fault on
    the guard page otherwise. *)
Example C52_returns : forall w code (moves : bool) (free : list nat) (good : Z -> Prop), In (w, code, moves, free) [(8, probe64, false, [R11]); (8, probe64_sgx, false, [R11]); (4, probe32, false, []); (8, chkstk64, false, []); (4, alloca32, true, []); (4, probe32_uefi, true, [])] ->
  good 20000 ->
  entry w good 16777216 20000 77 (start w 16777216 20000) /\ fits 16777216 20000 /\
  (exists n l s, exec w (fun b => true = true) code false (start w 16777216 20000) n l (Left 77 s)) /\
  guarded w (fun b => open_ b = true) 16777216 20000 (16777216 - 4 * 4096) /\
  (exists n l b, exec w (fun b => open_ b = true) code false (start w 16777216 20000) n l (Fault b)).
Proof.
  intros w code moves free good H G.
  assert (w = 4 \/ w = 8) as Hw by (cbn in H; repeat destruct H as [H|H]; try contradiction; injection H as <- _ _ _; auto).
  split; [apply start_entry; [exact Hw|lia|exact G]|]. split; [unfold fits; lia|]. split; [|split; [apply start_guard; [exact Hw|lia]|]].
  - cbn in H; repeat destruct H as [H|H]; try contradiction; injection H as <- <- _ _.
    all: match goal with |- exists n l s, exec ?w _ ?code _ _ _ _ _ => destruct (play_left w (fun _ => true) code false (start w 16777216 20000) 60 77 ltac:(vm_compute; reflexivity)) as (n & l & X) end.
    all: exists n, l; eexists; exact X.
  - cbn in H; repeat destruct H as [H|H]; try contradiction; injection H as <- <- _ _.
    all: match goal with |- exists n l s, exec ?w _ ?code _ _ _ _ _ => 
      let k := eval vm_compute in (kind_of (play w open_ code 60 (start w 16777216 20000))) in
      lazymatch k with KFault ?b => destruct (play_fault w open_ code false (start w 16777216 20000) 60 b ltac:(vm_compute; reflexivity)) as (n & l & X); exists n, l, b; exact X end end.
Qed.
Definition start_a64 : state := St 0 (fun r => if Nat.eqb r SP then 16777216 else if Nat.eqb r X15 then 1250 else if Nat.eqb r X30 then 77 else 5) (fun _ => 0) None.
Example C52_aarch64_returns : entry_a64 16777216 20000 77 start_a64 /\ fits 16777216 20000 /\
  (exists n l s, exec 8 (fun b => true = true) chkstk_a64 false start_a64 n l (Left 77 s)) /\
  guarded_a64 (fun b => open_ b = true) 16777216 20000 (16777216 - 4 * 4096) /\
  (exists n l b, exec 8 (fun b => open_ b = true) chkstk_a64 false start_a64 n l (Fault b)).
Proof.
  split.
  { unfold entry_a64. unfold start_a64. cbn [pc rg]. split; [reflexivity|]. split; [reflexivity|]. split; [reflexivity|]. split; [lia|]. split; [reflexivity|].
    intros r. destruct (Nat.eqb r SP), (Nat.eqb r X15), (Nat.eqb r X30); lia. }
  split; [unfold fits; lia|]. split; [|split; [apply (start_guard 8 (20000 + 8)); lia|]].
  - destruct (play_left 8 (fun _ => true) chkstk_a64 false start_a64 60 77 ltac:(vm_compute; reflexivity)) as (n & l & X). exists n, l. eexists. exact X.
  - let k := eval vm_compute in (kind_of (play 8 open_ chkstk_a64 60 start_a64)) in
      lazymatch k with KFault ?b => destruct (play_fault 8 open_ chkstk_a64 false start_a64 60 b ltac:(vm_compute; reflexivity)) as (n & l & X); exists n, l, b; exact X end.
Qed.

(** The conditions cannot be dropped. With UEFI and a frame of 4, 8 or 12 bytes the copy of
    the return address overwrites the saved ebp, ecx or edx. *)
Theorem C52_uefi_small_refuted : forall size r, In (size, r) [(4, BP); (8, CX); (12, DX)] ->
  exists n l t s, entry 4 (fun _ => True) 16777216 size 77 (start 4 16777216 size) /\ fits 16777216 size /\
    exec 4 (fun _ => true = true) probe32_uefi false (start 4 16777216 size) n l (Left t s) /\ rg s r = 77 /\ rg (start 4 16777216 size) r = 100 + Z.of_nat r.
Proof.
  intros size r H.
  assert (0 <= size < 1048576) as Hs by (cbn in H; repeat destruct H as [H|H]; try contradiction; injection H as <- _; lia).
  cbn in H; repeat destruct H as [H|H]; try contradiction; injection H as <- <-.
  all: match goal with |- context [start 4 16777216 ?size] => destruct (play_left 4 (fun _ => true) probe32_uefi false (start 4 16777216 size) 60 77 ltac:(vm_compute; reflexivity)) as (n & l & X) end.
  all: exists n, l, 77; eexists; (split; [apply start_entry; [auto|exact Hs|exact I]|]); (split; [unfold fits; lia|]); (split; [exact X|]); split; [vm_compute; reflexivity|reflexivity].
Qed.
(** With UEFI and interrupts the copied return address lies below the stack pointer while
    the saved registers are popped: a handler that runs then can change where the function
    returns to. *)
Theorem C52_uefi_interrupt_refuted : exists n l s,
  entry 4 (fun size => 16 <= size) 16777216 4096 77 (start 4 16777216 4096) /\ fits 16777216 4096 /\
  exec 4 (fun _ => true = true) probe32_uefi true (start 4 16777216 4096) n l (Left 12345 s).
Proof.
  destruct (play2_left 4 probe32_uefi (start 4 16777216 4096) 14 60 (16777216 - 4096) 12345 12345) as (n & l & X).
  - lia.
  - vm_compute. reflexivity.
  - apply play_bytes. apply put_bytes, zeros_bytes.
  - vm_compute. discriminate.
  - vm_compute. reflexivity.
  - exists n, l. eexists. split; [apply start_entry; [auto|lia|lia]|]. split; [unfold fits; lia|exact X].
Qed.
(** With _alloca, interrupts and a frame of no bytes the return address lies below the
    stack pointer for two instructions; with four bytes the saved ecx does. *)
Theorem C52_alloca_interrupt_refuted :
  (exists n l s, entry 4 (fun _ => True) 16777216 0 77 (start 4 16777216 0) /\ fits 16777216 0 /\
    exec 4 (fun _ => true = true) alloca32 true (start 4 16777216 0) n l (Left 12345 s)) /\
  (exists n l s, entry 4 (fun _ => True) 16777216 4 77 (start 4 16777216 4) /\ fits 16777216 4 /\
    exec 4 (fun _ => true = true) alloca32 true (start 4 16777216 4) n l (Left 77 s) /\ rg s CX = 12345 /\ rg (start 4 16777216 4) CX = 101).
Proof.
  split.
  - destruct (play2_left 4 alloca32 (start 4 16777216 0) 9 60 16777216 12345 12345) as (n & l & X).
    + lia.
    + vm_compute. reflexivity.
    + apply play_bytes. apply put_bytes, zeros_bytes.
    + vm_compute. discriminate.
    + vm_compute. reflexivity.
    + exists n, l. eexists. split; [apply start_entry; [auto|lia|exact I]|]. split; [unfold fits; lia|exact X].
  - destruct (play2_left 4 alloca32 (start 4 16777216 4) 9 60 (16777216 - 4) 12345 77) as (n & l & X).
    + lia.
    + vm_compute. reflexivity.
    + apply play_bytes. apply put_bytes, zeros_bytes.
    + vm_compute. discriminate.
    + vm_compute. reflexivity.
    + exists n, l. eexists. split; [apply start_entry; [auto|lia|exact I]|]. split; [unfold fits; lia|]. split; [exact X|]. split; [vm_compute; reflexivity|reflexivity].
Qed.

Definition ProbeProps_all := (C52_x86_64, C52_x86_64_sgx, C52_x86, C52_chkstk_ms, C52_alloca, C52_uefi, C52_aarch64, C52_uefi_small_refuted, C52_uefi_interrupt_refuted, C52_alloca_interrupt_refuted).
Print Assumptions ProbeProps_all.
