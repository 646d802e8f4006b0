(** Consequences of linearizability: bytes that no call covers, sums of additions,
    completion. *)
From Coq Require Import ZArith Bool List Lia.
From Verif Require Import Base BaseLemmas AtomicSpec AtomicModel AtomicProofs AtomicProofs2.
Open Scope Z_scope.
Import ListNotations.

Lemma calls_snoc h e : calls (h ++ [e]) = calls h ++ match e with Inv _ c => [c] | Ret _ _ => [] end.
Proof. unfold calls. rewrite flat_map_app. cbn. rewrite app_nil_r. reflexivity. Qed.
Lemma fold_add_app l l' : fold_right Z.add 0 (l ++ l') = fold_right Z.add 0 l + fold_right Z.add 0 l'.
Proof. induction l as [|x l IH]; cbn; [reflexivity|]. rewrite IH. ring. Qed.
Lemma added_snoc a n h e : added a n (h ++ [e]) = added a n h + added a n [e].
Proof. unfold added. rewrite calls_snoc, map_app, fold_add_app. cbn. destruct e; cbn; rewrite ?Z.add_0_r; reflexivity. Qed.

Section Atomic.
Context (big : bool) (ok : call -> Prop) (m0 : mem).
Notation atomic := (atomic big ok m0).
(** Every pending call is in the history, and is allowed. *)
Lemma pending_in h m ts : atomic h m ts -> forall t c, ts t = Pending c -> In c (calls h) /\ ok c.
Proof.
  intros H. induction H as [|h m ts t c H IH Ht Hc|h m ts t c H IH Ht|h m ts t v H IH Ht]; intros u c'.
  - discriminate.
  - rewrite calls_snoc, in_app_iff. destruct (Nat.eq_dec u t) as [->|N]; [rewrite upd_same; intros [= <-]; split; [right; left; reflexivity|exact Hc]|rewrite upd_other by exact N; intros E; destruct (IH u c' E); auto].
  - destruct (Nat.eq_dec u t) as [->|N]; [rewrite upd_same; discriminate|rewrite upd_other by exact N; apply IH].
  - rewrite calls_snoc, app_nil_r. destruct (Nat.eq_dec u t) as [->|N]; [rewrite upd_same; discriminate|rewrite upd_other by exact N; apply IH].
Qed.
Lemma sem_other c m b : ~ covers c b -> fst (sem big c m) b = m b.
Proof.
  intros H. unfold covers in H. destruct c as [o new n a v|n a old new|n a|n a v]; cbn [sem fst addr_of size_of] in *; try reflexivity; try (apply put_other; exact H).
  destruct (_ =? _); [apply put_other; exact H|reflexivity].
Qed.
Lemma atomic_untouched h m ts b : atomic h m ts -> (forall c, In c (calls h) -> ~ covers c b) -> m b = m0 b.
Proof.
  intros H. induction H as [|h m ts t c H IH Ht Hc|h m ts t c H IH Ht|h m ts t v H IH Ht]; intros F.
  - reflexivity.
  - apply IH. intros c' Hc'. apply F. rewrite calls_snoc, in_app_iff. auto.
  - rewrite sem_other; [apply IH; exact F|]. apply F. exact (proj1 (pending_in h m ts H t c Ht)).
  - apply IH. rewrite calls_snoc, app_nil_r in F. exact F.
Qed.

(** Sum of additions. *)
Context (a n : Z).
Definition only_adds (c : call) : Prop :=
  (exists new v, c = Rmw Add new n a v) \/ forall b, a <= b < a + n -> ~ covers c b.
Hypothesis n_pos : 0 < n.
Definition pend (ts : nat -> pstate) (P : list (nat * Z)) : Prop :=
  NoDup (map fst P) /\ forall t v, In (t, v) P <-> exists new, ts t = Pending (Rmw Add new n a v).
Definition total (P : list (nat * Z)) : Z := fold_right Z.add 0 (map snd P).
Lemma added_add t new v : added a n [Inv t (Rmw Add new n a v)] = v.
Proof. unfold added. cbn. rewrite !Z.eqb_refl. cbn. ring. Qed.
Lemma added_other t c : (forall b, a <= b < a + n -> ~ covers c b) -> added a n [Inv t c] = 0.
Proof using n_pos.
  intros H. unfold added. cbn. destruct c as [o new k b v|k b old new|k b|k b v]; cbn; try reflexivity. destruct o; cbn; try reflexivity.
  destruct (Z.eqb_spec b a) as [->|]; [|reflexivity]. destruct (Z.eqb_spec k n) as [->|]; [|reflexivity]. exfalso. apply (H a); [lia|]. split; cbn; lia.
Qed.
Lemma bytes_sem c m : bytes m -> bytes (fst (sem big c m)).
Proof.
  intros B. destruct c as [o new k b v|k b old new|k b|k b v]; cbn [sem fst]; try exact B; try (apply put_bytes; exact B). destruct (_ =? _); [apply put_bytes; exact B|exact B].
Qed.
Lemma atomic_adds h m ts : atomic h m ts -> (forall c, In c (calls h) -> only_adds c) ->
  exists P d, pend ts P /\ added a n h = d + total P /\ get big m a n mod 256 ^ n = (get big m0 a n + d) mod 256 ^ n.
Proof using n_pos.
  intros H. induction H as [|h m ts t c H IH Ht Hc|h m ts t c H IH Ht|h m ts t v H IH Ht]; intros F.
  - exists [], 0. split; [split; [constructor|]; intros t v; split; [intros []|intros [new [=]]]|]. split; [reflexivity|]. rewrite Z.add_0_r. reflexivity.
  - destruct IH as (P & d & [PN PI] & E & G). { intros c' Hc'. apply F. rewrite calls_snoc, in_app_iff. auto. }
    assert (only_adds c) as [(new & v & ->)|O]. { apply F. rewrite calls_snoc, in_app_iff. right; left; reflexivity. }
    + exists ((t, v) :: P), d. split.
      * split; [cbn; constructor; [|exact PN]|].
        -- rewrite in_map_iff. intros ([u w] & E1 & E2). cbn in E1. subst u. apply PI in E2 as [nw E2]. congruence.
        -- intros u w. cbn [In]. destruct (Nat.eq_dec u t) as [->|N].
           ++ rewrite upd_same. split; [intros [[= ->]|I]; [eauto|apply PI in I as [nw I]; congruence]|intros [nw [= -> ->]]; auto].
           ++ rewrite upd_other by exact N. rewrite <- PI. split; [intros [[= -> _]|I]; [congruence|exact I]|auto].
      * split; [|exact G]. rewrite added_snoc, added_add, E. cbn. unfold total. ring.
    + exists P, d. split.
      * split; [exact PN|]. intros u w. rewrite PI. destruct (Nat.eq_dec u t) as [->|N].
        -- rewrite upd_same. split; [intros [nw I]; congruence|intros [nw [= ->]]]. exfalso. apply (O a); [lia|]. split; cbn; lia.
        -- rewrite upd_other by exact N. reflexivity.
      * split; [|exact G]. rewrite added_snoc, (added_other t c O), E. ring.
  - destruct (IH F) as (P & d & [PN PI] & E & G). destruct (F c (proj1 (pending_in h m ts H t c Ht))) as [(new & v & ->)|O].
    + assert (In (t, v) P) as I by (apply PI; eauto). destruct (in_split _ _ I) as (P1 & P2 & ->).
      exists (P1 ++ P2), (d + v). rewrite map_app in PN. cbn in PN. split.
      * split; [rewrite map_app; exact (NoDup_remove_1 _ _ _ PN)|]. intros u w. destruct (Nat.eq_dec u t) as [->|N].
        -- rewrite upd_same. split; [|intros [nw [=]]]. intros I'. exfalso. apply (NoDup_remove_2 _ _ _ PN). rewrite <- map_app, in_map_iff. exists (t, w). auto.
        -- rewrite upd_other by exact N. rewrite <- PI, !in_app_iff. cbn. split; [tauto|]. intros [I'|[[= <- _]|I']]; [tauto|congruence|tauto].
      * split; [rewrite E; unfold total; rewrite !map_app, !fold_add_app; cbn; ring|].
        cbn [sem fst]. rewrite get_put by lia. rewrite Z.mod_mod by (pose proof (Z.pow_pos_nonneg 256 n); lia).
        cbn [apply]. rewrite <- pow256 by lia. rewrite Z.mod_mod by (pose proof (Z.pow_pos_nonneg 256 n); lia).
        rewrite <- (Z.add_mod_idemp_l (get big m a n)) by (pose proof (Z.pow_pos_nonneg 256 n); lia). rewrite G, Z.add_mod_idemp_l by (pose proof (Z.pow_pos_nonneg 256 n); lia). f_equal. ring.
    + exists P, d. split.
      * split; [exact PN|]. intros u w. rewrite PI. destruct (Nat.eq_dec u t) as [->|N].
        -- rewrite upd_same. split; [|intros [nw [=]]]. intros [nw I]. rewrite Ht in I. injection I as ->. exfalso. apply (O a); [lia|]. split; cbn; lia.
        -- rewrite upd_other by exact N. reflexivity.
      * split; [exact E|]. rewrite <- G. f_equal. apply get_ext; [lia|]. intros b Hb. apply sem_other. apply O. exact Hb.
  - destruct IH as (P & d & [PN PI] & E & G). { intros c' Hc'. apply F. rewrite calls_snoc, app_nil_r. exact Hc'. }
    exists P, d. split; [|split; [|exact G]].
    + split; [exact PN|]. intros u w. rewrite PI. destruct (Nat.eq_dec u t) as [->|N]; [|rewrite upd_other by exact N; reflexivity].
      rewrite upd_same. split; [intros [nw I]; congruence|intros [nw [=]]].
    + rewrite added_snoc, E. unfold added. cbn. ring.
Qed.
Lemma atomic_sum h m ts : atomic h m ts -> bytes m -> (forall t, ts t = Idle) -> (forall c, In c (calls h) -> only_adds c) ->
  get big m a n = (get big m0 a n + added a n h) mod 256 ^ n.
Proof using n_pos.
  intros H B I F. destruct (atomic_adds h m ts H F) as (P & d & [_ PI] & E & G).
  assert (P = []) as ->. { destruct P as [|[t v] P]; [reflexivity|]. destruct (proj1 (PI t v) (or_introl eq_refl)) as [nw C]. rewrite I in C. discriminate. }
  rewrite E. cbn. rewrite Z.add_0_r, <- G. symmetry. apply Z.mod_small. apply get_range; [lia|exact B].
Qed.
End Atomic.

(** A solo run is an execution. *)
Lemma alone_exec {L} ok starts tstep (result : call -> L -> option Z) m0 h s ts t c l s' v :
  exec ok starts tstep result m0 h s ts -> ts t = Some (c, l) -> alone tstep result c t s l s' v ->
  exists ts', exec ok starts tstep result m0 (h ++ [Ret t v]) s' ts' /\ ts' t = None /\ forall u, u <> t -> ts' u = ts u.
Proof.
  intros H Ht A. revert ts H Ht. induction A as [s l v R|s l s1 l1 s2 v St A IH]; intros ts H Ht.
  - exists (upd ts t None). split; [eapply ex_return; eassumption|]. split; [apply upd_same|]. intros u N. apply upd_other. exact N.
  - destruct (IH (upd ts t (Some (c, l1)))) as (ts' & E & Z0 & O); [eapply ex_step; eassumption|apply upd_same|].
    exists ts'. split; [exact E|]. split; [exact Z0|]. intros u N. rewrite O by exact N. apply upd_other. exact N.
Qed.

(** A call made alone. *)
Lemma snoc_nil {A} (l : list A) x : l ++ [x] <> [].
Proof. destruct l; discriminate. Qed.
Lemma snoc_one {A} (l : list A) x y : l ++ [x] = [y] -> l = [] /\ x = y.
Proof. destruct l as [|z [|]]; cbn; intros H; try discriminate H; injection H; auto. Qed.
Lemma snoc_two {A} (l : list A) x y z : l ++ [x] = [y; z] -> l = [y] /\ x = z.
Proof. intros H. change [y; z] with ([y] ++ [z]) in H. apply app_inj_tail in H. exact H. Qed.
Section Single.
Context (big : bool) (ok : call -> Prop) (m0 : mem) (t : nat) (c : call).
Lemma atomic_none h m ts : atomic big ok m0 h m ts -> h = [] -> m = m0 /\ forall u, ts u = Idle.
Proof.
  intros H. induction H as [|h m ts u c' H IH Ht Hc|h m ts u c' H IH Ht|h m ts u v H IH Ht]; intros E.
  - auto.
  - destruct (snoc_nil _ _ E).
  - destruct (IH E) as [_ I]. rewrite I in Ht. discriminate.
  - destruct (snoc_nil _ _ E).
Qed.
Lemma atomic_one h m ts : atomic big ok m0 h m ts -> h = [Inv t c] ->
  (forall u, u <> t -> ts u = Idle) /\ (m = m0 /\ ts t = Pending c \/ m = fst (sem big c m0) /\ ts t = Finished (snd (sem big c m0))).
Proof.
  intros H. induction H as [|h m ts u c' H IH Ht Hc|h m ts u c' H IH Ht|h m ts u v H IH Ht]; intros E.
  - discriminate.
  - apply snoc_one in E as [-> E]. injection E as -> ->. destruct (atomic_none _ _ _ H eq_refl) as [-> I]. split; [intros u N; rewrite upd_other by exact N; apply I|]. rewrite upd_same. auto.
  - destruct (IH E) as [I J]. destruct (Nat.eq_dec u t) as [->|N]; [|rewrite (I u N) in Ht; discriminate].
    split; [intros w N; rewrite upd_other by exact N; apply I; exact N|]. rewrite upd_same. right. destruct J as [[-> J]|[_ J]]; rewrite J in Ht; [injection Ht as ->; auto|discriminate].
  - apply snoc_one in E as [_ E]. discriminate E.
Qed.
Lemma atomic_two h m ts v : atomic big ok m0 h m ts -> h = [Inv t c; Ret t v] -> v = snd (sem big c m0) /\ m = fst (sem big c m0) /\ forall u, ts u = Idle.
Proof.
  intros H. induction H as [|h m ts u c' H IH Ht Hc|h m ts u c' H IH Ht|h m ts u w H IH Ht]; intros E.
  - discriminate.
  - apply snoc_two in E as [_ E]. discriminate E.
  - destruct (IH E) as (_ & _ & I). rewrite I in Ht. discriminate.
  - apply snoc_two in E as [-> E]. injection E as -> ->. destruct (atomic_one _ _ _ H eq_refl) as [I [[-> J]|[-> J]]]; rewrite J in Ht; [discriminate|].
    injection Ht as <-. split; [reflexivity|]. split; [reflexivity|]. intros u. destruct (Nat.eq_dec u t) as [->|N]; [apply upd_same|rewrite upd_other by exact N; apply I; exact N].
Qed.
End Single.
