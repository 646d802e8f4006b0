(** C47, C48 and the ARM part of C49: the __sync functions on Linux (arm_linux.rs) and on
    ARMv6K (thumbv6k.rs) are linearizable, leave other bytes alone, lose no update and can
    always finish. Specification: AtomicSpec.v. *)
From Coq Require Import ZArith Bool List Lia.
From Verif Require Import Base AtomicSpec AtomicModel AtomicProofs AtomicProofs2 AtomicProofs3 AtomicProofs4 AtomicProofs5.
Open Scope Z_scope.
Import ListNotations.

(** The calls in question: aligned cells of 1, 2 or 4 bytes; all the functions listed in
    arm_thumb_shared.rs, and plain loads and stores of the surrounding program. *)
Definition sync_call (c : call) : Prop := valid [1; 2; 4] 32 c /\ exported c.

(** * C47 *)
(** Every execution, with any number of threads, any schedule and any spurious failures of
    the kernel helper, has a history and a memory that the atomic memory also has: each
    call takes effect at one instant between its invocation and its return. *)
Theorem C47_linearizable : forall big m0 h s ts, bytes m0 -> linux_exec big m0 h s ts ->
  exists m as_, atomic big sync_call m0 h m as_ /\ same (sh_mem s) m /\
    forall t, (ts t = None <-> as_ t = Idle) /\
              (forall c p v, ts t = Some (c, p) -> done p = Some v -> as_ t = Finished v).
Proof.
  intros big m0 h s ts B H. destruct (linux_simulation big m0 h s ts B H) as (_ & _ & m & as_ & A & E & F).
  exists m, as_. split; [exact A|]. split; [exact E|]. intros t. rewrite F. split.
  - destruct (ts t) as [[c l]|]; cbn; [|tauto]. destruct (done l); split; discriminate.
  - intros c p v -> D. cbn. rewrite D. reflexivity.
Qed.
(** A call under way can finish, whatever the other threads have done and left undone. *)
Theorem C47_can_finish : forall big m0 h s ts t c p, bytes m0 -> linux_exec big m0 h s ts -> ts t = Some (c, p) ->
  exists s' ts' v, linux_exec big m0 (h ++ [Ret t v]) s' ts' /\ ts' t = None /\ forall u, u <> t -> ts' u = ts u.
Proof.
  intros big m0 h s ts t c p B H Ht. destruct (linux_simulation big m0 h s ts B H) as (B' & I & _).
  destruct (I t c p Ht) as [Hc Hi]. destruct (linux_finishes big t s c p Hc B' Hi) as (s' & v & S).
  destruct (alone_exec _ _ _ _ _ _ _ _ _ _ _ _ _ H Ht S) as (ts' & E). exists s', ts', v. exact E.
Qed.

(** A call made alone returns what it should and leaves the memory it should: addition,
    maximum and so on as in [apply], compare-and-swap only on equality. *)
Theorem C47_alone : forall big m0 s ts t c v, bytes m0 -> linux_exec big m0 [Inv t c; Ret t v] s ts ->
  v = snd (sem big c m0) /\ same (sh_mem s) (fst (sem big c m0)).
Proof.
  intros big m0 s ts t c v B H. destruct (linux_simulation big m0 _ s ts B H) as (_ & _ & m & as_ & A & E & _).
  destruct (atomic_two _ _ _ _ _ _ _ _ _ A eq_refl) as (V & -> & _). split; [exact V|exact E].
Qed.

(** * C48 *)
(** A byte covered by no call keeps its value, even in a word that calls work on. *)
Theorem C48_other_bytes : forall big m0 h s ts b, bytes m0 -> linux_exec big m0 h s ts ->
  (forall c, In c (calls h) -> ~ covers c b) -> sh_mem s b = m0 b.
Proof.
  intros big m0 h s ts b B H F. destruct (linux_simulation big m0 h s ts B H) as (_ & _ & m & as_ & A & E & _).
  rewrite E. exact (atomic_untouched big _ m0 h m as_ b A F).
Qed.
(** No update is lost: when the calls that touch a cell are additions to it, then, as soon
    as no call is under way, it holds its first value plus all the operands, whatever the
    other calls did to the bytes around it. *)
Theorem C48_no_lost_update : forall big m0 h s ts a n, bytes m0 -> linux_exec big m0 h s ts -> 0 < n ->
  (forall c, In c (calls h) -> (exists new v, c = Rmw Add new n a v) \/ forall b, a <= b < a + n -> ~ covers c b) ->
  (forall t, ts t = None) ->
  get big (sh_mem s) a n = (get big m0 a n + added a n h) mod 256 ^ n.
Proof.
  intros big m0 h s ts a n B H Hn F I. destruct (linux_simulation big m0 h s ts B H) as (B' & _ & m & as_ & A & E & G).
  rewrite (get_same big (sh_mem s) m) by (lia || exact E).
  apply (atomic_sum big sync_call m0 a n Hn h m as_ A); [|intros t; rewrite G, I; reflexivity|exact F].
  intros b. rewrite <- E. apply B'.
Qed.

(** Two threads add to neighbouring bytes of one word, both read before either writes: the
    second exchange fails once and succeeds on the second attempt. *)
Ltac forward H lem t tac :=
  lazymatch type of H with exec ?ok ?st ?ts ?rs ?m ?h ?s ?x =>
    let H' := fresh in
    eassert (H' : exec ok st ts rs m _ _ _) by (eapply (lem _ ok st ts rs m h s x t); [exact H|tac ..]);
    clear H; rename H' into H
  end.
Ltac run H t tac := forward H @ex_step t ltac:(idtac; first [reflexivity | tac]).
Definition ex_mem : mem := fun b => if b =? 101 then 255 else 7.
Example C47_case : exists s ts,
  linux_exec false ex_mem [Inv 0%nat (Rmw Add false 1 101 3); Inv 1%nat (Rmw Add true 1 102 5); Ret 1%nat 12; Ret 0%nat 255] s ts /\
  (forall t, ts t = None) /\ map (sh_mem s) [100; 101; 102; 103] = [7; 2; 12; 7].
Proof.
  assert (sync_call (Rmw Add false 1 101 3)) as V0. { split; [|exact I]. split; [left; reflexivity|]. split; [cbn; lia|]. split; [reflexivity|]. constructor; [cbn; lia|constructor]. }
  assert (sync_call (Rmw Add true 1 102 5)) as V1. { split; [|exact I]. split; [left; reflexivity|]. split; [cbn; lia|]. split; [reflexivity|]. constructor; [cbn; lia|constructor]. }
  pose proof (ex_init sync_call (fun c p => p = linux_code false c) (fun c t => pstep false (fun _ => linux_code false c) t) (fun _ => done) ex_mem) as H.
  apply ex_call with (t := 0%nat) (c := Rmw Add false 1 101 3) (l := linux_code false (Rmw Add false 1 101 3)) in H; [|reflexivity|exact V0|reflexivity].
  apply ex_call with (t := 1%nat) (c := Rmw Add true 1 102 5) (l := linux_code false (Rmw Add true 1 102 5)) in H; [|reflexivity|exact V1|reflexivity].
  run H 0%nat ltac:(idtac; apply ps_read).
  run H 1%nat ltac:(idtac; apply ps_read).
  run H 1%nat ltac:(idtac; apply ps_kcmpxchg; vm_compute; reflexivity).
  forward H @ex_return 1%nat ltac:(idtac; reflexivity).
  run H 0%nat ltac:(idtac; apply ps_kcmpxchg_fail).
  run H 0%nat ltac:(idtac; apply ps_jump).
  run H 0%nat ltac:(idtac; apply ps_read).
  run H 0%nat ltac:(idtac; apply ps_kcmpxchg; vm_compute; reflexivity).
  forward H @ex_return 0%nat ltac:(idtac; reflexivity).
  eexists _, _. split; [exact H|]. split.
  - intros [|[|t]]; reflexivity.
  - vm_compute. reflexivity.
Qed.
(** The hypotheses of C48 hold there for the byte 100 and for the cell at 101; and the
    theorem gives 255 + 3 mod 256. *)
Example C48_case : let h := [Inv 0%nat (Rmw Add false 1 101 3); Inv 1%nat (Rmw Add true 1 102 5); Ret 1%nat 12; Ret 0%nat 255] in
  (forall c, In c (calls h) -> ~ covers c 100) /\
  (forall c, In c (calls h) -> (exists new v, c = Rmw Add new 1 101 v) \/ forall b, 101 <= b < 101 + 1 -> ~ covers c b) /\
  (get false ex_mem 101 1 + added 101 1 h) mod 256 ^ 1 = 2.
Proof.
  cbn [calls flat_map app]. split; [|split].
  - intros c [<-|[<-|[]]]; unfold covers; cbn; lia.
  - intros c [<-|[<-|[]]]; [left; eauto|right; intros b Hb; unfold covers; cbn; lia].
  - reflexivity.
Qed.

(** * C49, ARMv6K: load-exclusive / store-exclusive loops *)
(** The same for thumbv6k.rs, where store-exclusive may fail for no reason and monitors may
    be lost at any time. *)
Theorem C49_armv6k_linearizable : forall big m0 h s ts, bytes m0 -> thumb_exec big m0 h s ts ->
  exists m as_, atomic big sync_call m0 h m as_ /\ same (sh_mem s) m /\
    forall t, (ts t = None <-> as_ t = Idle) /\
              (forall c p v, ts t = Some (c, p) -> done p = Some v -> as_ t = Finished v).
Proof.
  intros big m0 h s ts B H. destruct (thumb_simulation big m0 h s ts B H) as (_ & _ & m & as_ & A & E & F).
  exists m, as_. split; [exact A|]. split; [exact E|]. intros t. rewrite F. split.
  - destruct (ts t) as [[c l]|]; cbn; [|tauto]. destruct (tlin l); split; discriminate.
  - intros c p v -> D. cbn. destruct p; try discriminate D. injection D as ->. reflexivity.
Qed.
Theorem C49_armv6k_can_finish : forall big m0 h s ts t c p, bytes m0 -> thumb_exec big m0 h s ts -> ts t = Some (c, p) ->
  exists s' ts' v, thumb_exec big m0 (h ++ [Ret t v]) s' ts' /\ ts' t = None /\ forall u, u <> t -> ts' u = ts u.
Proof.
  intros big m0 h s ts t c p B H Ht. destruct (thumb_simulation big m0 h s ts B H) as (B' & I & _).
  destruct (I t c p Ht) as [Hc Hi]. destruct (thumb_finishes big t s c p Hc B' Hi) as (s' & v & S).
  destruct (alone_exec _ _ _ _ _ _ _ _ _ _ _ _ _ H Ht S) as (ts' & E). exists s', ts', v. exact E.
Qed.
Theorem C49_armv6k_alone : forall big m0 s ts t c v, bytes m0 -> thumb_exec big m0 [Inv t c; Ret t v] s ts ->
  v = snd (sem big c m0) /\ same (sh_mem s) (fst (sem big c m0)).
Proof.
  intros big m0 s ts t c v B H. destruct (thumb_simulation big m0 _ s ts B H) as (_ & _ & m & as_ & A & E & _).
  destruct (atomic_two _ _ _ _ _ _ _ _ _ A eq_refl) as (V & -> & _). split; [exact V|exact E].
Qed.
Theorem C48_armv6k_other_bytes : forall big m0 h s ts b, bytes m0 -> thumb_exec big m0 h s ts ->
  (forall c, In c (calls h) -> ~ covers c b) -> sh_mem s b = m0 b.
Proof.
  intros big m0 h s ts b B H F. destruct (thumb_simulation big m0 h s ts B H) as (_ & _ & m & as_ & A & E & _).
  rewrite E. exact (atomic_untouched big _ m0 h m as_ b A F).
Qed.
Theorem C48_armv6k_no_lost_update : forall big m0 h s ts a n, bytes m0 -> thumb_exec big m0 h s ts -> 0 < n ->
  (forall c, In c (calls h) -> (exists new v, c = Rmw Add new n a v) \/ forall b, a <= b < a + n -> ~ covers c b) ->
  (forall t, ts t = None) ->
  get big (sh_mem s) a n = (get big m0 a n + added a n h) mod 256 ^ n.
Proof.
  intros big m0 h s ts a n B H Hn F I. destruct (thumb_simulation big m0 h s ts B H) as (B' & _ & m & as_ & A & E & G).
  rewrite (get_same big (sh_mem s) m) by (lia || exact E).
  apply (atomic_sum big sync_call m0 a n Hn h m as_ A); [|intros t; rewrite G, I; reflexivity|exact F].
  intros b. rewrite <- E. apply B'.
Qed.
(** A signed maximum on a half-word whose first store-exclusive fails because a plain store
    of another thread to the cell comes between; big-endian. *)
Example C49_armv6k_case : exists s ts,
  thumb_exec true ex_mem [Inv 0%nat (Rmw Max false 2 104 9); Inv 1%nat (Store 2 104 0xfffe); Ret 1%nat 0; Ret 0%nat 0xfffe] s ts /\
  (forall t, ts t = None) /\ map (sh_mem s) [103; 104; 105; 106] = [7; 0; 9; 7].
Proof.
  assert (sync_call (Rmw Max false 2 104 9)) as V0. { split; [|reflexivity]. split; [right; left; reflexivity|]. split; [cbn; lia|]. split; [reflexivity|]. constructor; [cbn; lia|constructor]. }
  assert (sync_call (Store 2 104 0xfffe)) as V1. { split; [|exact I]. split; [right; left; reflexivity|]. split; [cbn; lia|]. split; [reflexivity|]. constructor; [cbn; lia|constructor]. }
  pose proof (ex_init sync_call (fun c p => p = thumb_code c TLoop) (fun c t => pstep true (thumb_code c) t) (fun _ => done) ex_mem) as H.
  apply ex_call with (t := 0%nat) (c := Rmw Max false 2 104 9) (l := thumb_code (Rmw Max false 2 104 9) TLoop) in H; [|reflexivity|exact V0|reflexivity].
  apply ex_call with (t := 1%nat) (c := Store 2 104 0xfffe) (l := thumb_code (Store 2 104 0xfffe) TLoop) in H; [|reflexivity|exact V1|reflexivity].
  run H 0%nat ltac:(idtac; apply ps_read).
  run H 0%nat ltac:(idtac; apply ps_ldrex).
  run H 0%nat ltac:(idtac; apply ps_fence).
  run H 0%nat ltac:(idtac; apply ps_jump).
  run H 1%nat ltac:(idtac; apply ps_write).
  forward H @ex_return 1%nat ltac:(idtac; reflexivity).
  run H 0%nat ltac:(idtac; apply ps_strex_fail).
  run H 0%nat ltac:(idtac; apply ps_ldrex).
  run H 0%nat ltac:(idtac; apply ps_fence).
  run H 0%nat ltac:(idtac; apply ps_jump).
  run H 0%nat ltac:(idtac; apply ps_read).
  run H 0%nat ltac:(idtac; apply ps_ldrex).
  run H 0%nat ltac:(idtac; apply ps_fence).
  run H 0%nat ltac:(idtac; apply ps_jump).
  run H 0%nat ltac:(idtac; apply ps_strex; vm_compute; reflexivity).
  run H 0%nat ltac:(idtac; apply ps_fence).
  forward H @ex_return 0%nat ltac:(idtac; reflexivity).
  eexists _, _. split; [exact H|]. split.
  - intros [|[|t]]; reflexivity.
  - vm_compute. reflexivity.
Qed.
(** Hypothesis of [C47_alone] and [C49_armv6k_alone]: every call can be made alone. *)
Example alone_case : forall c, sync_call c -> (exists s ts v, linux_exec false ex_mem [Inv 3%nat c; Ret 3%nat v] s ts) /\ exists s ts v, thumb_exec true ex_mem [Inv 3%nat c; Ret 3%nat v] s ts.
Proof.
  intros c Hc. assert (bytes ex_mem) as B by (intros b; unfold ex_mem; destruct (b =? 101); lia). split.
  - assert (linux_exec false ex_mem ([] ++ [Inv 3%nat c]) (Sh ex_mem (fun _ => None)) (upd (fun _ => None) 3%nat (Some (c, linux_code false c)))) as H by (apply ex_call; [constructor|reflexivity|exact Hc|reflexivity]).
    destruct (C47_can_finish _ _ _ _ _ 3%nat c (linux_code false c) B H eq_refl) as (s' & ts' & v & E & _). exists s', ts', v. exact E.
  - assert (thumb_exec true ex_mem ([] ++ [Inv 3%nat c]) (Sh ex_mem (fun _ => None)) (upd (fun _ => None) 3%nat (Some (c, thumb_code c TLoop)))) as H by (apply ex_call; [constructor|reflexivity|exact Hc|reflexivity]).
    destruct (C49_armv6k_can_finish _ _ _ _ _ 3%nat c (thumb_code c TLoop) B H eq_refl) as (s' & ts' & v & E & _). exists s', ts', v. exact E.
Qed.
Example C48_armv6k_case : (forall c, In c (calls [Inv 0%nat (Rmw Max false 2 104 9); Inv 1%nat (Store 2 104 0xfffe); Ret 1%nat 0; Ret 0%nat 0xfffe]) -> ~ covers c 103) /\ bytes ex_mem.
Proof.
  split.
  - intros c [<-|[<-|[]]]; unfold covers; cbn; lia.
  - intros b. unfold ex_mem. destruct (b =? 101); lia.
Qed.

Definition AtomicProps_all :=
  (C47_linearizable, C47_can_finish, C47_alone, C48_other_bytes, C48_no_lost_update, C49_armv6k_linearizable,
   C49_armv6k_can_finish, C49_armv6k_alone, C48_armv6k_other_bytes, C48_armv6k_no_lost_update).
Print Assumptions AtomicProps_all.
