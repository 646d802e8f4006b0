(** Forward simulation: an implementation whose steps either change nothing or perform the
    call is linearizable. Facts about memory. *)
From Coq Require Import ZArith Bool List Lia.
From Verif Require Import Base BaseLemmas AtomicSpec AtomicModel.
Open Scope Z_scope.
Import ListNotations.

Lemma upd_same {A} (f : nat -> A) t x : upd f t x t = x.
Proof. unfold upd. rewrite Nat.eqb_refl. reflexivity. Qed.
Lemma upd_other {A} (f : nat -> A) t x u : u <> t -> upd f t x u = f u.
Proof. intros H. unfold upd. destruct (Nat.eqb_spec u t); [contradiction|reflexivity]. Qed.

(** * Memory *)
Lemma num_le_same m m' n : forall a, (forall b, a <= b < a + Z.of_nat n -> m b = m' b) -> num_le m a n = num_le m' a n.
Proof.
  induction n as [|n IH]; intros a H; [reflexivity|]. cbn [num_le]. rewrite (H a) by lia. f_equal. f_equal. apply IH. intros b Hb. apply H. lia.
Qed.
Lemma num_be_same m m' n : forall a, (forall b, a <= b < a + Z.of_nat n -> m b = m' b) -> num_be m a n = num_be m' a n.
Proof.
  induction n as [|n IH]; intros a H; [reflexivity|]. cbn [num_be]. rewrite (H a) by lia. f_equal. apply IH. intros b Hb. apply H. lia.
Qed.
Lemma get_ext big m m' a n : 0 <= n -> (forall b, a <= b < a + n -> m b = m' b) -> get big m a n = get big m' a n.
Proof. intros Hn H. unfold get. destruct big; [apply num_be_same|apply num_le_same]; intros b Hb; apply H; lia. Qed.
Lemma get_same big m m' a n : 0 <= n -> same m m' -> get big m a n = get big m' a n.
Proof. intros Hn H. apply get_ext; [exact Hn|]. intros; apply H. Qed.
Lemma put_same big m m' a n v : same m m' -> same (put big m a n v) (put big m' a n v).
Proof. intros H b. unfold put. destruct (_ && _); [reflexivity|apply H]. Qed.
Lemma num_le_range m n : bytes m -> forall a, 0 <= num_le m a n < 256 ^ Z.of_nat n.
Proof.
  intros B. induction n as [|n IH]; intros a; [cbn; lia|]. cbn [num_le]. specialize (IH (a + 1)). specialize (B a).
  rewrite Nat2Z.inj_succ, Z.pow_succ_r by lia. lia.
Qed.
Lemma num_be_range m n : bytes m -> forall a, 0 <= num_be m a n < 256 ^ Z.of_nat n.
Proof.
  intros B. induction n as [|n IH]; intros a; [cbn; lia|]. cbn [num_be]. specialize (IH (a + 1)). specialize (B a).
  rewrite Nat2Z.inj_succ, Z.pow_succ_r by lia. nia.
Qed.
Lemma get_range big m a n : 0 <= n -> bytes m -> 0 <= get big m a n < 256 ^ n.
Proof.
  intros Hn B. unfold get. replace (256 ^ n) with (256 ^ Z.of_nat (Z.to_nat n)) by (rewrite Z2Nat.id by exact Hn; reflexivity).
  destruct big; [apply num_be_range|apply num_le_range]; exact B.
Qed.
Lemma put_bytes big m a n v : bytes m -> bytes (put big m a n v).
Proof. intros B b. unfold put. destruct (_ && _); [apply Z.mod_pos_bound; lia|apply B]. Qed.
Lemma put_other big m a n v b : ~ (a <= b < a + n) -> put big m a n v b = m b.
Proof. intros H. unfold put. destruct (Z.leb_spec a b), (Z.ltb_spec b (a + n)); cbn; lia || reflexivity. Qed.
Lemma put_in big m a n v b : a <= b < a + n -> put big m a n v b = (v / 256 ^ (if big then a + n - 1 - b else b - a)) mod 256.
Proof. intros H. unfold put. destruct (Z.leb_spec a b), (Z.ltb_spec b (a + n)); cbn; lia || reflexivity. Qed.

(** Reading what was written. *)
Lemma num_le_put m v n : forall a, (forall b, a <= b < a + Z.of_nat n -> m b = (v / 256 ^ (b - a)) mod 256) -> num_le m a n = v mod 256 ^ Z.of_nat n.
Proof.
  revert v. induction n as [|n IH]; intros v a H; [cbn; rewrite Z.mod_1_r; reflexivity|]. cbn [num_le].
  rewrite (H a) by lia. rewrite Z.sub_diag, Z.pow_0_r, Z.div_1_r.
  rewrite (IH (v / 256) (a + 1)).
  - rewrite Nat2Z.inj_succ, Z.pow_succ_r by lia. rewrite (Z.rem_mul_r v 256 (256 ^ Z.of_nat n)) by lia. reflexivity.
  - intros b Hb. rewrite (H b) by lia. rewrite Z.div_div by lia. rewrite <- Z.pow_succ_r by lia. do 3 f_equal. lia.
Qed.
Lemma num_be_put m v n : forall a, (forall b, a <= b < a + Z.of_nat n -> m b = (v / 256 ^ (a + Z.of_nat n - 1 - b)) mod 256) -> num_be m a n = v mod 256 ^ Z.of_nat n.
Proof.
  induction n as [|n IH]; intros a H; [cbn; rewrite Z.mod_1_r; reflexivity|]. cbn [num_be].
  rewrite (H a) by lia. rewrite IH.
  - replace (a + Z.of_nat (S n) - 1 - a) with (Z.of_nat n) by lia.
    rewrite Nat2Z.inj_succ, Z.pow_succ_r by lia. rewrite (Z.mul_comm 256), (Z.rem_mul_r v (256 ^ Z.of_nat n) 256) by lia. ring.
  - intros b Hb. rewrite (H b) by lia. do 3 f_equal. lia.
Qed.
Lemma get_put big m a n v : 0 <= n -> get big (put big m a n v) a n = v mod 256 ^ n.
Proof.
  intros Hn. unfold get. replace (256 ^ n) with (256 ^ Z.of_nat (Z.to_nat n)) by (rewrite Z2Nat.id by exact Hn; reflexivity).
  destruct big.
  - apply num_be_put. intros b Hb. rewrite put_in by lia. rewrite Z2Nat.id by exact Hn. reflexivity.
  - apply num_le_put. intros b Hb. rewrite put_in by lia. reflexivity.
Qed.

(** [sem] on equal memories. *)
Lemma sem_same big c m m' : 0 <= size_of c -> same m m' -> same (fst (sem big c m)) (fst (sem big c m')) /\ snd (sem big c m) = snd (sem big c m').
Proof.
  intros Hn H. destruct c as [o new n a v|n a old new|n a|n a v]; cbn [sem fst snd size_of] in *; rewrite ?(get_same big m m') by assumption.
  - split; [apply put_same; exact H|reflexivity].
  - split; [|reflexivity]. destruct (_ =? _); [apply put_same; exact H|exact H].
  - split; [exact H|reflexivity].
  - split; [apply put_same; exact H|reflexivity].
Qed.
Lemma valid_size sizes width c : Forall (fun n => 0 < n) sizes -> valid sizes width c -> 0 < size_of c.
Proof. intros F (H & _). rewrite Forall_forall in F. apply F, H. Qed.

(** The bytes of a number in memory, and parts of it. *)
Lemma byte_le m n i : bytes m -> forall a, 0 <= i < Z.of_nat n -> (num_le m a n / 256 ^ i) mod 256 = m (a + i).
Proof.
  intros B. revert i. induction n as [|n IH]; intros i a Hi; [lia|]. cbn [num_le].
  destruct (Z.eq_dec i 0) as [->|N].
  - rewrite Z.pow_0_r, Z.div_1_r, Z.add_0_r. specialize (B a). rewrite Z.mul_comm, Z.mod_add by lia. apply Z.mod_small. lia.
  - replace i with (Z.succ (i - 1)) at 1 by lia. rewrite Z.pow_succ_r, <- Z.div_div by lia.
    rewrite (Z.mul_comm 256), Z.div_add by lia. specialize (B a). rewrite (Z.div_small (m a) 256) by lia. rewrite Z.add_0_l, IH by lia. f_equal. lia.
Qed.
Lemma byte_be m n i : bytes m -> forall a, 0 <= i < Z.of_nat n -> (num_be m a n / 256 ^ i) mod 256 = m (a + Z.of_nat n - 1 - i).
Proof.
  intros B. induction n as [|n IH]; intros a Hi; [lia|]. cbn [num_be]. pose proof (num_be_range m n B (a + 1)) as R. pose proof (B a) as Ba.
  pose proof (Z.pow_pos_nonneg 256 i ltac:(lia) ltac:(lia)) as P.
  destruct (Z.eq_dec i (Z.of_nat n)) as [->|N].
  - rewrite Z.add_comm, Z.div_add, Z.div_small, Z.add_0_l by lia. rewrite Z.mod_small by lia. f_equal. lia.
  - replace (Z.of_nat n) with (i + Z.succ (Z.of_nat n - i - 1)) at 1 by lia. rewrite Z.pow_add_r, Z.pow_succ_r by lia.
    replace (m a * (256 ^ i * (256 * 256 ^ (Z.of_nat n - i - 1))) + num_be m (a + 1) n) with (num_be m (a + 1) n + (m a * 256 ^ (Z.of_nat n - i - 1) * 256) * 256 ^ i) by ring.
    rewrite Z.div_add, Z.mod_add, IH by lia. f_equal. lia.
Qed.
Lemma get_byte big m a n i : bytes m -> 0 <= i < n -> (get big m a n / 256 ^ i) mod 256 = m (if big then a + n - 1 - i else a + i).
Proof.
  intros B H. unfold get. destruct big; [rewrite byte_be by (assumption || lia); f_equal; lia|apply byte_le; [assumption|lia]].
Qed.
Lemma split_le m j i : forall a, num_le m a (i + j) = num_le m a i + 256 ^ Z.of_nat i * num_le m (a + Z.of_nat i) j.
Proof.
  induction i as [|i IH]; intros a.
  - cbn [Nat.add num_le Z.of_nat]. rewrite Z.pow_0_r, Z.add_0_r. lia.
  - cbn [Nat.add num_le]. rewrite IH. rewrite Nat2Z.inj_succ, Z.pow_succ_r by lia. replace (a + 1 + Z.of_nat i) with (a + Z.succ (Z.of_nat i)) by lia. ring.
Qed.
Lemma split_be m j i : forall a, num_be m a (i + j) = num_be m a i * 256 ^ Z.of_nat j + num_be m (a + Z.of_nat i) j.
Proof.
  induction i as [|i IH]; intros a.
  - cbn [Nat.add num_be Z.of_nat]. rewrite Z.add_0_r. lia.
  - cbn [Nat.add num_be]. rewrite IH. rewrite Nat2Z.inj_succ, Nat2Z.inj_add, Z.pow_add_r by lia. replace (a + 1 + Z.of_nat i) with (a + Z.succ (Z.of_nat i)) by lia. ring.
Qed.
(** The cell of [n] bytes at offset [o] in a cell of [w] bytes. *)
Lemma get_part big m a w o n : bytes m -> 0 <= o -> 0 <= n -> o + n <= w ->
  (get big m a w / 256 ^ (if big then w - n - o else o)) mod 256 ^ n = get big m (a + o) n.
Proof.
  intros B Ho Hn Hw. unfold get. destruct big.
  - replace (Z.to_nat w) with ((Z.to_nat o + Z.to_nat n) + Z.to_nat (w - n - o))%nat by lia.
    rewrite split_be. pose proof (num_be_range m (Z.to_nat (w - n - o)) B (a + Z.of_nat (Z.to_nat o + Z.to_nat n))) as R1. rewrite Z2Nat.id in * by lia.
    rewrite Z.add_comm, Z.div_add, Z.div_small, Z.add_0_l by lia.
    rewrite split_be. pose proof (num_be_range m (Z.to_nat n) B (a + Z.of_nat (Z.to_nat o))) as R2. rewrite !Z2Nat.id in * by lia.
    rewrite Z.add_comm, Z.mod_add by lia. apply Z.mod_small. exact R2.
  - replace (Z.to_nat w) with (Z.to_nat o + (Z.to_nat n + Z.to_nat (w - n - o)))%nat by lia.
    rewrite split_le. pose proof (num_le_range m (Z.to_nat o) B a) as R1. rewrite !Z2Nat.id in * by lia.
    rewrite (Z.mul_comm (256 ^ o)), Z.div_add, Z.div_small, Z.add_0_l by lia.
    rewrite split_le. pose proof (num_le_range m (Z.to_nat n) B (a + o)) as R2. rewrite !Z2Nat.id in * by lia.
    rewrite (Z.mul_comm (256 ^ n)), Z.mod_add by lia. apply Z.mod_small. exact R2.
Qed.

(** * Simulation *)
Section Sim.
Context {L : Type} (big : bool) (ok : call -> Prop) (starts : call -> L -> Prop)
  (tstep : call -> nat -> shared -> L -> shared -> L -> Prop) (result : call -> L -> option Z).
(** A local invariant of each running thread: its call, its state and the shared state. *)
Context (inv : nat -> shared -> call -> L -> Prop).
(** The result of a call that has taken effect, returned or not. *)
Context (lin : call -> L -> option Z).
Hypothesis ok_size : forall c, ok c -> 0 <= size_of c.
Hypothesis inv_start : forall t s c l, ok c -> starts c l -> bytes (sh_mem s) -> inv t s c l /\ lin c l = None.
Hypothesis lin_result : forall t s c l v, inv t s c l -> result c l = Some v -> lin c l = Some v.
Hypothesis inv_lose : forall t u s c l, inv t s c l -> inv t (set_mon u None s) c l.
(** A step of [t]: its own invariant holds again; either the memory is unchanged and so is
    the abstract state of the call, or the call takes effect. *)
Hypothesis step_ok : forall t s c l s' l', ok c -> bytes (sh_mem s) -> inv t s c l -> tstep c t s l s' l' ->
  inv t s' c l' /\ bytes (sh_mem s') /\
  (same (sh_mem s') (sh_mem s) /\ lin c l' = lin c l \/
   lin c l = None /\ same (sh_mem s') (fst (sem big c (sh_mem s))) /\ lin c l' = Some (snd (sem big c (sh_mem s)))).
(** and the invariants of the other threads are kept. *)
Hypothesis step_other : forall t u s c l s' l' c' k, u <> t -> ok c -> ok c' -> bytes (sh_mem s) -> inv t s c l -> tstep c t s l s' l' -> inv u s c' k -> inv u s' c' k.

Definition abs (x : option (call * L)) : pstate :=
  match x with
  | None => Idle
  | Some (c, l) => match lin c l with None => Pending c | Some v => Finished v end
  end.

Lemma simulation m0 h s ts : bytes m0 -> exec ok starts tstep result m0 h s ts ->
  bytes (sh_mem s) /\ (forall t c l, ts t = Some (c, l) -> ok c /\ inv t s c l) /\
  exists m as_, atomic big ok m0 h m as_ /\ same (sh_mem s) m /\ forall t, as_ t = abs (ts t).
Proof using ok_size inv_start inv_lose lin_result step_ok step_other.
  intros B0 H. induction H as [|h s ts t c l H IH Ht Hc Hl|h s ts t c l s' l' H IH Ht Hs|h s ts t H IH|h s ts t c l v H IH Ht Hr].
  - split; [exact B0|]. split; [discriminate|]. exists m0, (fun _ => Idle). split; [constructor|]. split; [intros b; reflexivity|reflexivity].
  - destruct IH as (B & I & m & as_ & A & E & F). split; [exact B|]. destruct (inv_start t s c l Hc Hl B) as [I0 R0]. split.
    + intros u c' l'. destruct (Nat.eq_dec u t) as [->|N]; [rewrite upd_same; intros [= <- <-]; auto|rewrite upd_other by exact N; apply I].
    + exists m, (upd as_ t (Pending c)). split; [apply at_call; [exact A|rewrite F, Ht; reflexivity|exact Hc]|]. split; [exact E|].
      intros u. destruct (Nat.eq_dec u t) as [->|N]; [rewrite !upd_same; cbn; rewrite R0; reflexivity|rewrite !upd_other by exact N; apply F].
  - destruct IH as (B & I & m & as_ & A & E & F). destruct (I t c l Ht) as [Hc Hi].
    destruct (step_ok t s c l s' l' Hc B Hi Hs) as (I' & B' & C). split; [exact B'|]. split.
    + intros u c' k. destruct (Nat.eq_dec u t) as [->|N]; [rewrite upd_same; intros [= <- <-]; auto|rewrite upd_other by exact N].
      intros Hu. destruct (I u c' k Hu) as [Hc' Hk]. split; [exact Hc'|]. exact (step_other t u s c l s' l' c' k N Hc Hc' B Hi Hs Hk).
    + destruct C as [[C1 C2]|(R0 & C1 & C2)].
      * exists m, as_. split; [exact A|]. split; [intros b; rewrite C1; apply E|].
        intros u. destruct (Nat.eq_dec u t) as [->|N]; [rewrite upd_same, F, Ht; cbn; rewrite C2; reflexivity|rewrite upd_other by exact N; apply F].
      * destruct (sem_same big c (sh_mem s) m (ok_size c Hc) E) as [S1 S2].
        exists (fst (sem big c m)), (upd as_ t (Finished (snd (sem big c m)))).
        split; [apply at_effect; [exact A|rewrite F, Ht; cbn; rewrite R0; reflexivity]|].
        split; [intros b; rewrite C1; apply S1|].
        intros u. destruct (Nat.eq_dec u t) as [->|N]; [rewrite !upd_same; cbn; rewrite C2, S2; reflexivity|rewrite !upd_other by exact N; apply F].
  - destruct IH as (B & I & m & as_ & A & E & F). split; [exact B|]. split; [|exists m, as_; auto].
    intros u c l Hu. destruct (I u c l Hu) as [Hc Hi]. split; [exact Hc|apply inv_lose; exact Hi].
  - destruct IH as (B & I & m & as_ & A & E & F). split; [exact B|]. split.
    + intros u c' l'. destruct (Nat.eq_dec u t) as [->|N]; [rewrite upd_same; discriminate|rewrite upd_other by exact N; apply I].
    + exists m, (upd as_ t Idle). split; [apply at_return; [exact A|rewrite F, Ht; cbn; rewrite (lin_result t s c l v (proj2 (I t c l Ht)) Hr); reflexivity]|]. split; [exact E|].
      intros u. destruct (Nat.eq_dec u t) as [->|N]; [rewrite !upd_same; reflexivity|rewrite !upd_other by exact N; apply F].
Qed.
End Sim.
