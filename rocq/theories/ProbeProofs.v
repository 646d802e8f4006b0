(** Proofs for the stack probes: the method, and __rust_probestack for x86_64. *)
From Coq Require Import ZArith Bool List Lia.
From Verif Require Import AtomicSpec AtomicProofs ProbeModel ProbeSpec.
Open Scope Z_scope.
Import ListNotations.

Lemma wrap_id w x : 0 <= x < 2 ^ (8 * w) -> wrap w x = x.
Proof. intros H. apply Z.mod_small. exact H. Qed.
Lemma exec_fault w ok code intr s0 n l b : exec w ok code intr s0 n l (Fault b) -> exists a k, In (a, k) l /\ a <= b < a + k /\ ~ ok b.
Proof.
  intros H. remember (Fault b) as o eqn:E. destruct H as [|n l s l' o H S|]; try discriminate. subst o. inversion S as [i o Hi Ha He|i a k b' Hi Ha Hb Hn].
  - exfalso. clear -He. unfold effect, go, jump in He. destruct i; try discriminate He; destruct (fl s) as [[]|]; discriminate He.
  - subst. exists a, k. split; [apply in_or_app; auto|auto].
Qed.

Section Method.
Context (w : Z) (ok : Z -> Prop) (code : list instr) (intr : bool) (s0 : state)
  (inv : nat -> state -> Prop) (acc : Z -> Z -> Prop) (fin : nat -> Z -> state -> Prop).
Context (inv_start : inv 0 s0).
Context (inv_step : forall n s i, inv n s -> nth_error code (pc s) = Some i ->
  (forall a k, In (a, k) (accesses w i s) -> acc a k) /\
  ((forall a k b, In (a, k) (accesses w i s) -> a <= b < a + k -> ok b) ->
   match effect w code i s with
   | Some (Running s') => inv (S n) s'
   | Some (Left t s') => fin (S n) t s'
   | _ => False
   end)).
Context (inv_intr : forall n s m, inv n s -> intr = true -> bytes m -> (forall b, rg s SP <= b -> m b = mm s b) -> inv n (St (pc s) (rg s) m (fl s))).
Context (inv_code : forall n s, inv n s -> nth_error code (pc s) <> None).
Lemma exec_inv n l o : exec w ok code intr s0 n l o ->
  (forall a k, In (a, k) l -> acc a k) /\
  match o with Running s => inv n s | Left t s => fin n t s | Fault _ => exists m s, n = S m /\ inv m s end.
Proof.
  intros H. induction H as [|n l s l' o H [A I] S|n l s m H [A I] Hi B C].
  - split; [intros a k []|exact inv_start].
  - inversion S as [i o' Hi Ha He|i a k b Hi Ha Hb Hn]; subst; destruct (inv_step n s i I Hi) as [J K].
    + split; [intros a k Q; apply in_app_or in Q as [Q|Q]; auto|]. specialize (K Ha). rewrite He in K. destruct o; auto; contradiction.
    + split; [intros a' k' Q; apply in_app_or in Q as [Q|Q]; auto|]. exists n, s. auto.
  - split; [exact A|]. apply inv_intr; assumption.
Qed.
Lemma not_stuck n s : inv n s -> (forall b, ok b \/ ~ ok b) -> (forall i a k, In (a, k) (accesses w i s) -> k = w) -> exists l' o', step w ok code s l' o'.
Proof.
  intros I D W. pose proof (inv_code n s I) as N. destruct (nth_error code (pc s)) as [i|] eqn:Hi; [clear N|congruence].
  destruct (inv_step n s i I Hi) as [_ K].
  assert (forall m lo, (forall b, lo <= b < lo + Z.of_nat m -> ok b) \/ exists b, lo <= b < lo + Z.of_nat m /\ ~ ok b) as R.
  { clear -D. induction m as [|m IH]; intros lo; [left; lia|]. destruct (IH lo) as [A|(b & B & N)]; [|right; exists b; split; [lia|exact N]].
    destruct (D (lo + Z.of_nat m)) as [O|O]; [|right; exists (lo + Z.of_nat m); split; [lia|exact O]].
    left. intros b B. destruct (Z.eq_dec b (lo + Z.of_nat m)) as [->|]; [exact O|apply A; lia]. }
  assert ((forall a k b, In (a, k) (accesses w i s) -> a <= b < a + k -> ok b) \/ exists a k b, In (a, k) (accesses w i s) /\ a <= b < a + k /\ ~ ok b) as [G|(a & k & b & Q & B & N)].
  { clear -R. induction (accesses w i s) as [|[a k] r IH]; [left; intros a k b []|].
    destruct IH as [A|(a' & k' & b & Q & B & N)]; [|right; exists a', k', b; split; [right; exact Q|auto]].
    destruct (R (Z.to_nat k) a) as [A'|(b & B & N)].
    - left. intros a' k' b [[= <- <-]|Q] B; [apply A'; lia|eapply A; eauto].
    - right. exists a, k, b. split; [left; reflexivity|]. split; [lia|exact N]. }
  - specialize (K G). destruct (effect w code i s) as [o|] eqn:He; [|contradiction]. eexists _, _. eapply st_ok; eauto.
  - eexists _, _. eapply st_fault; eauto.
Qed.
End Method.

(** What is needed of the depth reached: after [k] pages the pages down to [B - 4096 * k]
    have been probed. [L] is a bound that nothing may pass. *)
Record depth (ok : Z -> Prop) (w E size B L : Z) (P : Z -> Prop) : Prop := {
  d_size : 0 <= size;
  d_low : 4092 <= L;
  d_top : L + 4096 <= E;
  d_base : E - w <= B <= E + w;
  d_start : (forall b, E - w <= b < E -> ok b) -> P 0;
  d_room : forall k, 0 <= k -> P k -> L + 4096 <= B - 4096 * k;
  d_next : forall k, 0 <= k -> P k -> 4096 * (k + 1) <= size -> ok (B - 4096 * (k + 1)) -> P (k + 1);
  d_last : L <= B - size -> ok (B - size) -> L + 16 <= B - size
}.
Lemma depth_fits ok w E size B : 0 <= size -> (w = 4 \/ w = 8) -> (B = E - 4 \/ B = E \/ B = E + w) -> fits E size ->
  depth ok w E size B (E - size - 4100) (fun k => 4096 * k <= size).
Proof. unfold fits. intros H Hw HB F. constructor; cbv beta; intros; lia. Qed.
Lemma depth_guard ok w E size B g : 0 <= size -> (w = 4 \/ w = 8) -> (w = 4 /\ B = E - 4 \/ B = E \/ B = E + w) -> guarded w ok E size g ->
  depth ok w E size B g (fun k => g + 4096 <= B - 4096 * k).
Proof.
  intros H Hw HB (G & N & T & R). constructor; cbv beta; [lia|lia|lia|lia| |intros; lia| |].
  - intros O. destruct HB as [[-> ->]|HB]; [|lia]. destruct (Z_lt_ge_dec (E - 4) (g + 4096)); [|lia]. exfalso. apply (N (E - 4)); [lia|]. apply O. lia.
  - intros k Hk Pk Hs O. destruct (Z_lt_ge_dec (B - 4096 * (k + 1)) (g + 4096)); [|lia]. exfalso. apply (N (B - 4096 * (k + 1))); [lia|exact O].
  - intros Lb O. exfalso. apply (N (B - size)); [lia|exact O].
Qed.

(** From the invariant method to the specification. *)
Section Spec.
Context (w : Z) (code : list instr) (intr moves : bool) (free : list nat) (good : Z -> Prop) (base : Z).
Context (Hw : w = 4 \/ w = 8) (Hbase : w = 4 /\ base = -4 \/ base = 0 \/ base = w).
Definition ends (ok : Z -> Prop) (s0 : state) (E size ret L : Z) (n : nat) (t : Z) (s : state) : Prop :=
  t = ret /\ rg s SP = E + w - (if moves then size else 0) /\ (forall r, r <> SP -> ~ In r free -> rg s r = rg s0 r) /\
  (forall b, E + w <= b -> mm s b = mm s0 b) /\ L <= E + base - size /\ ok (E + base - size) /\ Z.of_nat n <= 30 + 6 * (size / 4096).
Definition access (E size L a k : Z) : Prop := Z.min (E - 16) (E + w - size - 8) <= a /\ a + k <= Z.max (E + w) (E + w - size + w) /\ L <= a.
Context (inv : (Z -> Prop) -> state -> Z -> Z -> Z -> Z -> (Z -> Prop) -> nat -> state -> Prop).
Context (Hcode : forall ok s0 E size ret L P, entry w good E size ret s0 -> depth ok w E size (E + base) L P ->
  inv ok s0 E size ret L P 0 s0 /\
  (forall n s, inv ok s0 E size ret L P n s -> nth_error code (pc s) <> None /\ Z.of_nat n < 30 + 6 * (size / 4096)) /\
  (forall n s m, inv ok s0 E size ret L P n s -> intr = true -> bytes m -> (forall b, rg s SP <= b -> m b = mm s b) -> inv ok s0 E size ret L P n (St (pc s) (rg s) m (fl s))) /\
  (forall n s i, inv ok s0 E size ret L P n s -> nth_error code (pc s) = Some i ->
    (forall a k, In (a, k) (accesses w i s) -> access E size L a k) /\
    ((forall a k b, In (a, k) (accesses w i s) -> a <= b < a + k -> ok b) ->
     match effect w code i s with
     | Some (Running s') => inv ok s0 E size ret L P (S n) s'
     | Some (Left t s') => ends ok s0 E size ret L (S n) t s'
     | _ => False
     end))).
Lemma accesses_word i s a k : In (a, k) (accesses w i s) -> k = w.
Proof. destruct i; cbn; intuition congruence. Qed.
Lemma method ok s0 E size ret L P n l o : entry w good E size ret s0 -> depth ok w E size (E + base) L P -> exec w ok code intr s0 n l o ->
  (forall a k, In (a, k) l -> access E size L a k) /\ Z.of_nat n <= 30 + 6 * (size / 4096) /\
  match o with
  | Running s => (forall b, ok b \/ ~ ok b) -> exists l' o', step w ok code s l' o'
  | Left t s => ends ok s0 E size ret L n t s
  | Fault b => exists a k, In (a, k) l /\ a <= b < a + k /\ ~ ok b
  end.
Proof.
  intros He Hd H. destruct (Hcode ok s0 E size ret L P He Hd) as (I0 & I1 & I2 & I3).
  destruct (exec_inv w ok code intr s0 _ _ _ I0 I3 I2 n l o H) as [A B].
  split; [exact A|]. destruct o as [s|t s|b].
  - split; [apply I1 in B; lia|]. intros D. apply (not_stuck w ok code _ _ _ I3 (fun n s i => proj1 (I1 n s i)) n s B D). intros i a k. apply accesses_word.
  - split; [apply B|exact B].
  - destruct B as (m & s & -> & I). split; [apply I1 in I; lia|]. eapply exec_fault. exact H.
Qed.
Lemma entry_size E size ret s : entry w good E size ret s -> 0 <= size.
Proof. intros (_ & _ & <- & _ & _ & R & _). apply R. Qed.
Theorem method_spec : probes_stack w code intr moves free good.
Proof.
  repeat split; intros.
  all: lazymatch goal with H : entry _ _ _ _ _ _ |- _ => pose proof (entry_size _ _ _ _ H) as Hs end.
  all: try (lazymatch goal with H : exec _ _ _ _ _ _ _ (Left _ _) |- _ => eapply method in H as (_ & _ & H); [|eassumption|apply depth_fits; [exact Hs|exact Hw|lia|eassumption]]; apply H; auto end; fail).
  - destruct (method ok s0 E size ret g _ n l o H (depth_guard ok w E size (E + base) g Hs Hw ltac:(lia) H0) H1) as (A & _).
    apply A in H2. apply H2.
  - destruct (method ok s0 E size ret g _ n l o H (depth_guard ok w E size (E + base) g Hs Hw ltac:(lia) H0) H1) as (A & _ & B).
    destruct o as [s|t s|b]; [exact I| |].
    + destruct H0 as (G & N & T & R). destruct B as (_ & _ & _ & _ & B1 & B2 & _). apply (N (E + base - size)); [lia|exact B2].
    + destruct B as (a & k & Q & B & _). apply A in Q. unfold access in Q. lia.
  - destruct (method ok s0 E size ret _ _ n l o H (depth_fits ok w E size (E + base) Hs Hw ltac:(lia) H0) H1) as (A & _). apply A in H2. apply H2.
  - destruct (method ok s0 E size ret _ _ n l o H (depth_fits ok w E size (E + base) Hs Hw ltac:(lia) H0) H1) as (A & _). apply A in H2. apply H2.
  - destruct (method ok s0 E size ret _ _ n l o H (depth_fits ok w E size (E + base) Hs Hw ltac:(lia) H0) H1) as (A & _ & B). intros ->.
    destruct B as (a & k & Q & B & N). apply N, H2. apply A in Q. unfold access in Q. lia.
  - destruct H0 as [H0|(g & H0)].
    + destruct (method ok s0 E size ret _ _ n l o H (depth_fits ok w E size (E + base) Hs Hw ltac:(lia) H0) H1) as (_ & B & _). exact B.
    + destruct (method ok s0 E size ret g _ n l o H (depth_guard ok w E size (E + base) g Hs Hw ltac:(lia) H0) H1) as (_ & B & _). exact B.
  - destruct H0 as [H0|(g & H0)].
    + destruct (method ok s0 E size ret _ _ n l o H (depth_fits ok w E size (E + base) Hs Hw ltac:(lia) H0) H1) as (_ & _ & B). subst o. apply B; assumption.
    + destruct (method ok s0 E size ret g _ n l o H (depth_guard ok w E size (E + base) g Hs Hw ltac:(lia) H0) H1) as (_ & _ & B). subst o. apply B; assumption.
Qed.
End Spec.
