(** C49, aarch64: the outline atomics (aarch64_outline_atomics.rs) are linearizable,
    whichever of the LSE and exclusive-access paths each call takes, except that a failing
    16-byte compare-and-swap may return a value that was never stored when the processor
    reads the two halves separately. Specification: AtomicSpec.v. *)
From Coq Require Import ZArith Bool List Lia.
From Verif Require Import Base AtomicSpec AtomicModel AtomicProofs AtomicProofs5 AtomicA64Model AtomicA64Proofs AtomicA64Proofs2 AtomicA64Proofs3 AtomicA64Proofs4 AtomicA64Proofs5 AtomicA64Proofs6.
Open Scope Z_scope.
Import ListNotations.

(** The calls: aligned cells of 1, 2, 4 or 8 bytes, 16 for compare-and-swap; cas, swp,
    ldadd, ldclr, ldeor, ldset, and plain accesses of the surrounding program. *)
Definition outline_call (c : call) : Prop := valid [1; 2; 4; 8; 16] 64 c /\ a64_exported c.

Theorem C49_aarch64_linearizable : forall big whole m0 h s ts, bytes m0 -> a64_exec big whole m0 h s ts ->
  whole = true \/ (forall c, In c (calls h) -> size_of c <> 16) ->
  exists m as_, atomic big outline_call m0 h m as_ /\ same (sh_mem s) m /\
    forall t, (ts t = None <-> as_ t = Idle) /\
              (forall c l v, ts t = Some (c, l) -> a64_result big c l = Some v -> as_ t = Finished v).
Proof.
  intros big whole m0 h s ts B H W. destruct (a64_simulation big whole m0 h s ts B H W) as (_ & I & m & as_ & A & E & F).
  exists m, as_. split; [exact A|]. split; [exact E|]. intros t. rewrite F. split.
  - destruct (ts t) as [[c l]|]; cbn; [|tauto]. destruct (s_lin _ _ _ _); split; discriminate.
  - intros c l v Ht R. rewrite Ht. cbn. destruct (I t c l Ht) as [Hc Hi].
    assert (whole = true \/ size_of c <> 16) as W'. { destruct W as [W|W]; [auto|right; apply W]. clear -H Ht. unfold a64_exec in H. revert t c l Ht. induction H as [|h s ts u c' l' H IH Hu Hc Hl|h s ts u c' l' s' l2 H IH Hu Hs|h s ts u H IH|h s ts u c' l' v H IH Hu Hr]; intros t c l Ht.
      - discriminate.
      - rewrite calls_snoc. apply in_or_app. destruct (Nat.eq_dec t u) as [->|N]; [rewrite upd_same in Ht; injection Ht as <- <-; right; left; reflexivity|rewrite upd_other in Ht by exact N; left; eapply IH; exact Ht].
      - destruct (Nat.eq_dec t u) as [->|N]; [rewrite upd_same in Ht; injection Ht as <- <-; eapply IH; exact Hu|rewrite upd_other in Ht by exact N; eapply IH; exact Ht].
      - eapply IH; exact Ht.
      - rewrite calls_snoc, app_nil_r. destruct (Nat.eq_dec t u) as [->|N]; [rewrite upd_same in Ht; discriminate|rewrite upd_other in Ht by exact N; eapply IH; exact Ht]. }
    destruct (a_result big whole t s c l v Hc Hi R) as [L|[L _]].
    + unfold s_lin. rewrite L. reflexivity.
    + destruct (no_miss big whole t s c l Hc W' Hi L).
Qed.
Theorem C49_aarch64_can_finish : forall big whole m0 h s ts t c l, bytes m0 -> a64_exec big whole m0 h s ts -> ts t = Some (c, l) ->
  exists s' ts' v, a64_exec big whole m0 (h ++ [Ret t v]) s' ts' /\ ts' t = None /\ forall u, u <> t -> ts' u = ts u.
Proof.
  intros big whole m0 h s ts t c l B H Ht. destruct (weak_simulation big whole m0 h s ts B H) as (B' & I & _).
  destruct (I t c l Ht) as [Hc Hi]. destruct (fin_all big whole c t s l Hc Hi) as (s' & v & S).
  destruct (alone_exec _ _ _ _ _ _ _ _ _ _ _ _ _ H Ht S) as (ts' & E). exists s', ts', v. exact E.
Qed.
(** A call made alone does what the specification says, whatever the flag and the unused
    bits of the argument registers hold. *)
Theorem C49_aarch64_alone : forall big whole m0 s ts t c v, bytes m0 -> a64_exec big whole m0 [Inv t c; Ret t v] s ts ->
  whole = true \/ size_of c <> 16 ->
  v = snd (sem big c m0) /\ same (sh_mem s) (fst (sem big c m0)).
Proof.
  intros big whole m0 s ts t c v B H W. destruct (a64_simulation big whole m0 _ s ts B H) as (_ & _ & m & as_ & A & E & _).
  { destruct W as [W|W]; [auto|right]. intros c' [<-|[]]. exact W. }
  destruct (atomic_two _ _ _ _ _ _ _ _ _ A eq_refl) as (V & -> & _). split; [exact V|exact E].
Qed.
Theorem C49_aarch64_no_lost_update : forall big whole m0 h s ts a n, bytes m0 -> a64_exec big whole m0 h s ts -> 0 < n ->
  whole = true \/ (forall c, In c (calls h) -> size_of c <> 16) ->
  (forall c, In c (calls h) -> (exists new v, c = Rmw Add new n a v) \/ forall b, a <= b < a + n -> ~ covers c b) ->
  (forall t, ts t = None) ->
  get big (sh_mem s) a n = (get big m0 a n + added a n h) mod 256 ^ n.
Proof.
  intros big whole m0 h s ts a n B H Hn W F I. destruct (a64_simulation big whole m0 h s ts B H W) as (B' & _ & m & as_ & A & E & G).
  rewrite (get_same big (sh_mem s) m) by (lia || exact E).
  apply (atomic_sum big outline_call m0 a n Hn h m as_ A); [|intros t; rewrite G, I; reflexivity|exact F].
  intros b. rewrite <- E. apply B'.
Qed.

(** With a load-exclusive pair that reads its halves separately, the 16-byte
    compare-and-swap satisfies the weaker specification: it succeeds and fails as it
    should, all effects are indivisible, and only the value returned by a failing one is
    not determined (it still differs from the expected value, so that the caller sees the
    failure). *)
Theorem C49_cas16_weak : forall big whole m0 h s ts, bytes m0 -> a64_exec big whole m0 h s ts ->
  exists m as_, weak big outline_call m0 h m as_ /\ same (sh_mem s) m /\ forall t, ts t = None <-> as_ t = WIdle.
Proof.
  intros big whole m0 h s ts B H. destruct (weak_simulation big whole m0 h s ts B H) as (_ & I & m & as_ & A & E & F).
  exists m, as_. split; [exact A|]. split; [exact E|]. intros t. rewrite F.
  destruct (ts t) as [[c l]|] eqn:Ht; cbn; [|tauto]. destruct (I t c l Ht) as [Hc Hi]. split; [discriminate|].
  destruct (a_lin big whole c l) as [[v|]|] eqn:L; try discriminate. destruct c as [o new n a v|n a old new|n a|n a v]; try discriminate; intros _.
  - destruct (no_miss big whole t s (Rmw o new n a v) l Hc) ; [right; exact (proj1 (proj2 (proj2 Hc)))|exact Hi|exact L].
  - destruct (no_miss big whole t s (Load n a) l Hc) ; [right; exact (proj2 Hc)|exact Hi|exact L].
  - destruct (no_miss big whole t s (Store n a v) l Hc) ; [right; exact (proj2 Hc)|exact Hi|exact L].
Qed.

(** * Executions *)
Definition zeros : mem := fun _ => 0.
Definition args (x0 x1 x2 x3 x4 : Z) : local :=
  Loc 0 (fun r => match r with 0%nat => x0 | 1%nat => x1 | 2%nat => x2 | 3%nat => x3 | 4%nat => x4 | _ => 0xdead end) true None.

(** Two additions to a byte, one by the LSE instruction and one by the exclusive loop, with
    garbage above the argument. The store-exclusive of the second fails because of the
    first. *)
Definition add_a := Rmw Add false 1 33 0xf0.
Definition add_b := Rmw Add false 1 33 0x20.
Example C49_aarch64_case : exists s ts,
  a64_exec false false zeros [Inv 0%nat add_a; Inv 1%nat add_b; Ret 1%nat 0; Ret 0%nat 0x20] s ts /\
  (ts 0%nat = None /\ ts 1%nat = None) /\ map (sh_mem s) [32; 33; 34] = [0; 0x10; 0].
Proof.
  assert (outline_call add_a) as V0. { split; [|cbn; intuition lia]. split; [left; reflexivity|]. split; [cbn; lia|]. split; [reflexivity|]. constructor; [cbn; lia|constructor]. }
  assert (outline_call add_b) as V1. { split; [|cbn; intuition lia]. split; [left; reflexivity|]. split; [cbn; lia|]. split; [reflexivity|]. constructor; [cbn; lia|constructor]. }
  pose proof (ex_init outline_call (a64_starts false) (fun c => astep false false (a64_code c)) (a64_result false) zeros) as H.
  apply ex_call with (t := 0%nat) (c := add_a) (l := args 0x77777777777777f0 33 0 0 0) in H;
    [|reflexivity|exact V0|split; [reflexivity|]; split; [reflexivity|]; split; [intros [|[|[|[|[|r]]]]]; cbn; lia|split; reflexivity]].
  apply ex_call with (t := 1%nat) (c := add_b) (l := args 0x20 33 0 0 0) in H;
    [|reflexivity|exact V1|split; [reflexivity|]; split; [reflexivity|]; split; [intros [|[|[|[|[|r]]]]]; cbn; lia|split; reflexivity]].
  destruct (seen_play _ _ _ (map (Go 0) [4096; 0; 0; 0; 0; 0; 0; 0] ++ map (Go 1) [4096; 1; 0; 0] ++ [Back 1] ++
                             map (Go 0) [0; 0; 0; 0; 0; 1; 0] ++ [Back 0]) _ _ _
              [32; 33; 34] [0; 1]%nat [Inv 0%nat add_a; Inv 1%nat add_b; Ret 1%nat 0; Ret 0%nat 0x20] [0; 0x10; 0] [true; true] H) as (s & ts & E & M & D).
  { vm_compute. reflexivity. }
  exists s, ts. split; [exact E|]. split; [|exact M]. injection D as D0 D1. split; [destruct (ts 0%nat)|destruct (ts 1%nat)]; congruence.
Qed.
Example C49_aarch64_hypotheses : let h := [Inv 0%nat add_a; Inv 1%nat add_b; Ret 1%nat 0; Ret 0%nat 0x20] in
  bytes zeros /\ (forall c, In c (calls h) -> size_of c <> 16) /\
  (forall c, In c (calls h) -> (exists new v, c = Rmw Add new 1 33 v) \/ forall b, 33 <= b < 33 + 1 -> ~ covers c b) /\
  (get false zeros 33 1 + added 33 1 h) mod 256 ^ 1 = 0x10.
Proof.
  split; [intros b; unfold zeros; lia|]. split; [intros c [<-|[<-|[]]]; discriminate|]. split; [|reflexivity].
  intros c [<-|[<-|[]]]; left; eexists _, _; reflexivity.
Qed.

(** * The torn read *)
(** Thread 0 compares 16 zero bytes with 5 while thread 1 changes them from 0 to all ones
    with the same function: thread 0 gets zeros in one half and ones in the other, a value
    that the cell never held. No atomic memory has this history. *)
Definition torn_a := Cas 16 64 5 7.
Definition torn_b := Cas 16 64 0 (2 ^ 128 - 1).
Definition torn_history := [Inv 0%nat torn_a; Inv 1%nat torn_b; Ret 1%nat 0; Ret 0%nat (2 ^ 128 - 2 ^ 64)].
Lemma torn_result (ts : nat -> pstate) t x (P : Z -> Prop) : P x -> (forall u v, ts u = Finished v -> P v) -> forall u v, upd ts t (Finished x) u = Finished v -> P v.
Proof. intros X D u v. destruct (Nat.eq_dec u t) as [->|N]; [rewrite upd_same; intros [= <-]; exact X|rewrite upd_other by exact N; apply D]. Qed.
Lemma torn_atomic h m ts : atomic false outline_call zeros h m ts -> (forall c, In c (calls h) -> c = torn_a \/ c = torn_b) ->
  (get false m 64 16 = 0 \/ get false m 64 16 = 2 ^ 128 - 1) /\
  (forall t v, ts t = Finished v -> v = 0 \/ v = 2 ^ 128 - 1) /\
  (forall t v, In (Ret t v) h -> v = 0 \/ v = 2 ^ 128 - 1).
Proof.
  intros H. induction H as [|h m ts t c H IH Ht Hc|h m ts t c H IH Ht|h m ts t v H IH Ht]; intros F.
  - split; [left; reflexivity|]. split; [discriminate|intros t v []].
  - destruct IH as (C & D & E). { intros c' Hc'. apply F. rewrite calls_snoc. apply in_or_app. auto. }
    split; [exact C|]. split.
    + intros u v. destruct (Nat.eq_dec u t) as [->|N]; [rewrite upd_same; discriminate|rewrite upd_other by exact N; apply D].
    + intros u v I. apply in_app_or in I as [I|[I|[]]]; [eapply E; exact I|discriminate].
  - destruct (IH F) as (C & D & E). destruct (pending_in _ _ _ _ _ _ H t c Ht) as [I _]. destruct (F c I) as [-> | ->].
    + cbn [sem torn_a fst snd]. remember (get false m 64 16) as x eqn:X. replace (x =? 5) with false by (symmetry; apply Z.eqb_neq; lia).
      split; [rewrite X in C; exact C|]. split; [|exact E]. apply (torn_result _ _ x (fun v => v = 0 \/ v = 2 ^ 128 - 1)); assumption.
    + cbn [sem torn_b fst snd]. split; [|split; [|exact E]].
      * destruct (Z.eqb_spec (get false m 64 16) 0) as [E0|E0]; [|exact C]. right. rewrite get_put by lia. reflexivity.
      * apply (torn_result _ _ _ (fun v => v = 0 \/ v = 2 ^ 128 - 1)); assumption.
  - rewrite calls_snoc, app_nil_r in F. destruct (IH F) as (C & D & E). split; [exact C|]. split.
    + intros u w. destruct (Nat.eq_dec u t) as [->|N]; [rewrite upd_same; discriminate|rewrite upd_other by exact N; apply D].
    + intros u w I. apply in_app_or in I as [I|[I|[]]]; [eapply E; exact I|]. injection I as <- <-. eapply D; exact Ht.
Qed.
Theorem C49_cas16_torn_refuted :
  (exists s ts, a64_exec false false zeros torn_history s ts) /\
  (forall m as_, ~ atomic false outline_call zeros torn_history m as_).
Proof.
  split.
  - assert (outline_call torn_a) as V0. { split; [|exact I]. split; [cbn; tauto|]. split; [cbn; lia|]. split; [reflexivity|]. repeat constructor; cbn; lia. }
    assert (outline_call torn_b) as V1. { split; [|exact I]. split; [cbn; tauto|]. split; [cbn; lia|]. split; [reflexivity|]. repeat constructor; cbn; lia. }
    pose proof (ex_init outline_call (a64_starts false) (fun c => astep false false (a64_code c)) (a64_result false) zeros) as H.
    apply ex_call with (t := 0%nat) (c := torn_a) (l := args 5 0 7 0 64) in H;
      [|reflexivity|exact V0|split; [reflexivity|]; split; [reflexivity|]; split; [intros [|[|[|[|[|r]]]]]; cbn; lia|split; [reflexivity|split; reflexivity]]].
    apply ex_call with (t := 1%nat) (c := torn_b) (l := args 0 0 (2 ^ 64 - 1) (2 ^ 64 - 1) 64) in H;
      [|reflexivity|exact V1|split; [reflexivity|]; split; [reflexivity|]; split; [intros [|[|[|[|[|r]]]]]; cbn; lia|split; [reflexivity|split; reflexivity]]].
    destruct (seen_play _ _ _ (map (Go 0) [4096; 0; 0; 0; 0; 0; 0; 0] ++ map (Go 1) [4096; 0; 0; 0; 0; 0; 0; 0; 0; 0; 0; 0; 1; 0; 0] ++ [Back 1] ++
                               map (Go 0) [0; 0; 0; 0; 0] ++ [Back 0]) _ _ _ [] [] torn_history [] [] H) as (s & ts & E & _).
    { vm_compute. reflexivity. }
    exists s, ts. exact E.
  - intros m as_ H. destruct (torn_atomic _ _ _ H) as (_ & _ & E).
    + intros c [<-|[<-|[]]]; auto.
    + destruct (E 0%nat (2 ^ 128 - 2 ^ 64)) as [E'|E']; [cbn; tauto|discriminate E'..].
Qed.
(** Hypotheses of [C49_aarch64_alone]: a 16-byte compare-and-swap by each path, on a
    big-endian machine; 0x0202...02 is replaced. *)
Example C49_aarch64_alone_case : forall lse, 0 <= lse < 2 -> exists s ts,
  a64_exec true true (fun _ => 2) [Inv 0%nat (Cas 16 64 0x02020202020202020202020202020202 7); Ret 0%nat 0x02020202020202020202020202020202] s ts /\
  map (sh_mem s) [63; 64; 78; 79; 80] = [2; 0; 0; 7; 2].
Proof.
  intros lse L.
  assert (outline_call (Cas 16 64 0x02020202020202020202020202020202 7)) as V. { split; [|exact I]. split; [cbn; tauto|]. split; [cbn; lia|]. split; [reflexivity|]. repeat constructor; cbn; lia. }
  pose proof (ex_init outline_call (a64_starts true) (fun c => astep true true (a64_code c)) (a64_result true) (fun _ => 2)) as H.
  apply ex_call with (t := 0%nat) (c := Cas 16 64 0x02020202020202020202020202020202 7) (l := args 0x0202020202020202 0x0202020202020202 0 7 64) in H;
    [|reflexivity|exact V|split; [reflexivity|]; split; [reflexivity|]; split; [intros [|[|[|[|[|r]]]]]; cbn; lia|split; [reflexivity|split; reflexivity]]].
  assert (lse = 0 \/ lse = 1) as [-> | ->] by lia.
  - destruct (seen_play _ _ _ (map (Go 0) [0; 0; 0; 0; 0; 0; 0; 0; 0; 0; 0; 1; 0; 0] ++ [Back 0]) _ _ _ [63; 64; 78; 79; 80] []
                [Inv 0%nat (Cas 16 64 0x02020202020202020202020202020202 7); Ret 0%nat 0x02020202020202020202020202020202] [2; 0; 0; 7; 2] [] H) as (s & ts & E & M & _).
    { vm_compute. reflexivity. }
    exists s, ts. auto.
  - destruct (seen_play _ _ _ (map (Go 0) [0; 1; 0; 0] ++ [Back 0]) _ _ _ [63; 64; 78; 79; 80] []
                [Inv 0%nat (Cas 16 64 0x02020202020202020202020202020202 7); Ret 0%nat 0x02020202020202020202020202020202] [2; 0; 0; 7; 2] [] H) as (s & ts & E & M & _).
    { vm_compute. reflexivity. }
    exists s, ts. auto.
Qed.

Definition AtomicA64Props_all :=
  (C49_aarch64_linearizable, C49_aarch64_can_finish, C49_aarch64_alone, C49_aarch64_no_lost_update,
   C49_cas16_weak, C49_cas16_torn_refuted).
Print Assumptions AtomicA64Props_all.
