(** The probes meet the specification; running the machine on concrete states. *)
From Coq Require Import ZArith Bool List Lia.
From Verif Require Import AtomicSpec AtomicProofs ProbeModel ProbeSpec ProbeProofs ProbeProofs2 ProbeProofs3 ProbeProofs4 ProbeProofs5.
Open Scope Z_scope.
Import ListNotations.

Lemma plus0 E : E + 0 = E. Proof. lia. Qed.
Lemma in_code (c : list instr) k p : length c = k -> (p < k)%nat -> nth_error c p <> None.
Proof. intros <- H. apply nth_error_Some. exact H. Qed.

Lemma pc64 code i s s' : code = probe64 \/ code = probe64_sgx -> nth_error code (pc s) = Some i -> effect 8 code i s = Some (Running s') -> (pc s' < length code)%nat.
Proof.
  intros Hc Hi He. destruct s as [p f m x]. cbn [pc] in Hi.
  destruct Hc as [-> | ->]; cbn [length app probe64 probe64_sgx probe64_body].
  all: do 19 (destruct p as [|p]; [cbn in Hi; first [discriminate Hi|injection Hi as <-]; cbn [effect go] in He; unfold jump in He; cbn [fl] in He;
    try (destruct x as [[u v]|]; [|discriminate He]; match type of He with context [if ?b then _ else _] => destruct b end);
    first [discriminate He|injection He as <-; cbn; lia]|]).
  all: cbn in Hi; destruct p; discriminate Hi.
Qed.
Theorem p64_probes code intr : code = probe64 \/ code = probe64_sgx -> probes_stack 8 code intr false [R11] (fun _ => True).
Proof.
  intros Hc. apply (method_spec 8 code intr false [R11] (fun _ => True) 0 ltac:(lia) ltac:(lia) (fun ok s0 E size ret L P n s => inv64 ok s0 E size ret L P n s /\ (pc s < length code)%nat)).
  intros ok s0 E size ret L P He Hd. rewrite plus0 in Hd. split; [|split; [|split]].
  - split; [eapply inv64_start; exact He|]. destruct He as (-> & _). destruct Hc as [-> | ->]; cbn; lia.
  - intros n s [I Hp]. split; [apply nth_error_Some; exact Hp|]. eapply count64; eassumption.
  - intros n s m [I Hp] _ B F. split; [eapply inv64_intr; eassumption|exact Hp].
  - intros n s i [I Hp] Hi. destruct (inv64_step ok s0 E size ret L P He Hd code n s i Hc I Hi) as [A B]. split; [exact A|].
    intros O. specialize (B O). destruct (effect 8 code i s) as [[s'|t s'|b]|] eqn:He'; try exact B. split; [exact B|]. eapply pc64; eassumption.
Qed.
Theorem p32_probes intr : probes_stack 4 probe32 intr false [] (fun _ => True).
Proof.
  apply (method_spec 4 probe32 intr false [] (fun _ => True) 0 ltac:(lia) ltac:(lia) (fun ok s0 E size ret L P n s => inv32 ok s0 E size L P n s)).
  intros ok s0 E size ret L P He Hd. rewrite plus0 in Hd. split; [|split; [|split]].
  - eapply inv32_start; exact He.
  - intros n s I. pose proof (count32 _ _ _ _ _ _ Hd n s I) as [C1 C2]. split; [apply nth_error_Some; exact C2|exact C1].
  - intros n s m I _ B F. eapply inv32_intr; eassumption.
  - intros n s i I Hi. exact (inv32_step ok s0 E size ret L P He Hd n s i I Hi).
Qed.
Theorem uefi_probes : probes_stack 4 probe32_uefi false true [] (fun size => size = 0 \/ 16 <= size).
Proof.
  apply (method_spec 4 probe32_uefi false true [] _ (-4) ltac:(lia) ltac:(lia) (fun ok s0 E size ret L P n s => invu ok s0 E size ret L P n s)).
  intros ok s0 E size ret L P He Hd. change (E + -4) with (E - 4) in Hd. split; [|split; [|split]].
  - eapply invu_start; exact He.
  - intros n s I. pose proof (countu _ _ _ _ _ _ _ Hd n s I) as [C1 C2]. split; [apply nth_error_Some; exact C2|exact C1].
  - intros n s m I Q. discriminate Q.
  - intros n s i I Hi. exact (invu_step ok s0 E size ret L P He Hd n s i I Hi).
Qed.
Theorem alloca_probes intr : probes_stack 4 alloca32 intr true [] (fun size => intr = false \/ 8 <= size).
Proof.
  apply (method_spec 4 alloca32 intr true [] _ 4 ltac:(lia) ltac:(lia) (fun ok s0 E size ret L P n s => inva ok s0 E size ret L P n s)).
  intros ok s0 E size ret L P He Hd. split; [|split; [|split]].
  - eapply inva_start; exact He.
  - intros n s I. pose proof (counta _ _ _ _ _ _ _ Hd n s I) as [C1 C2]. split; [apply nth_error_Some; exact C2|exact C1].
  - intros n s m I Q B F. eapply inva_intr; eassumption.
  - intros n s i I Hi. exact (inva_step intr ok s0 E size ret L P He Hd n s i I Hi).
Qed.
Theorem chkstk_probes intr : probes_stack 8 chkstk64 intr false [] (fun _ => True).
Proof.
  apply (method_spec 8 chkstk64 intr false [] _ 8 ltac:(lia) ltac:(lia) (fun ok s0 E size ret L P n s => invc ok s0 E size L P n s)).
  intros ok s0 E size ret L P He Hd. split; [|split; [|split]].
  - eapply invc_start; exact He.
  - intros n s I. pose proof (countc _ _ _ _ _ _ Hd n s I) as [C1 C2]. split; [apply nth_error_Some; exact C2|exact C1].
  - intros n s m I _ B F. eapply invc_intr; eassumption.
  - intros n s i I Hi. exact (invc_step ok s0 E size ret L P He Hd n s i I Hi).
Qed.

(** * Running the machine *)
Definition ranges (l : list (Z * Z)) : list Z := flat_map (fun r => map (fun i => fst r + Z.of_nat i) (seq 0 (Z.to_nat (snd r)))) l.
Fixpoint play (w : Z) (okb : Z -> bool) (code : list instr) (n : nat) (s : state) : out :=
  match n with
  | O => Running s
  | S n =>
      match nth_error code (pc s) with
      | None => Running s
      | Some i =>
          match find (fun b => negb (okb b)) (ranges (accesses w i s)) with
          | Some b => Fault b
          | None =>
              match effect w code i s with
              | Some (Running s') => play w okb code n s'
              | Some o => o
              | None => Running s
              end
          end
      end
  end.
Lemma in_ranges l b : In b (ranges l) <-> exists a k, In (a, k) l /\ a <= b < a + k.
Proof.
  unfold ranges. rewrite in_flat_map. split.
  - intros ([a k] & H & Q). apply in_map_iff in Q as (i & <- & Q). apply in_seq in Q. cbn in *. exists a, k. split; [exact H|]. lia.
  - intros (a & k & H & Q). exists (a, k). split; [exact H|]. apply in_map_iff. exists (Z.to_nat (b - a)). cbn. split; [lia|]. apply in_seq. lia.
Qed.
Lemma play_exec w okb code intr s0 n : forall s m l, exec w (fun b => okb b = true) code intr s0 m l (Running s) ->
  exists m' l', exec w (fun b => okb b = true) code intr s0 m' l' (play w okb code n s).
Proof.
  induction n as [|n IH]; intros s m l H; [exists m, l; exact H|]. cbn [play].
  destruct (nth_error code (pc s)) as [i|] eqn:Hi; [|exists m, l; exact H].
  destruct (find (fun b => negb (okb b)) (ranges (accesses w i s))) as [b|] eqn:Hf.
  - apply find_some in Hf as [Hf Hb]. apply in_ranges in Hf as (a & k & Ha & Hk). eexists _, _. eapply ex_step; [exact H|].
    eapply st_fault; [exact Hi|exact Ha|exact Hk|]. destruct (okb b); [discriminate Hb|discriminate].
  - assert (forall a k b, In (a, k) (accesses w i s) -> a <= b < a + k -> okb b = true) as O.
    { intros a k b Ha Hb. apply find_none with (x := b) in Hf; [destruct (okb b); [reflexivity|discriminate Hf]|]. apply in_ranges. exists a, k. auto. }
    destruct (effect w code i s) as [[s'|t s'|b]|] eqn:He; [|eexists _, _; eapply ex_step; [exact H|eapply st_ok; eassumption]..|exists m, l; exact H].
    eapply IH. eapply ex_step; [exact H|eapply st_ok; eassumption].
Qed.
(** What can be seen of an outcome. *)
Definition last (s : state) (o : out) : state := match o with Running s' | Left _ s' => s' | Fault _ => s end.
Inductive kind := KRun | KLeft (t : Z) | KFault (b : Z).
Definition kind_of (o : out) : kind := match o with Running _ => KRun | Left t _ => KLeft t | Fault b => KFault b end.
Lemma kind_run s o : kind_of o = KRun -> o = Running (last s o).
Proof. destruct o; intros H; try discriminate H; reflexivity. Qed.
Lemma kind_left s o t : kind_of o = KLeft t -> o = Left t (last s o).
Proof. destruct o; intros H; try discriminate H; injection H as <-; reflexivity. Qed.
Lemma kind_fault o b : kind_of o = KFault b -> o = Fault b.
Proof. destruct o; intros H; try discriminate H; injection H as <-; reflexivity. Qed.
Lemma play_left w okb code intr s n t : kind_of (play w okb code n s) = KLeft t ->
  exists m l, exec w (fun b => okb b = true) code intr s m l (Left t (last s (play w okb code n s))).
Proof.
  intros H. destruct (play_exec w okb code intr s n s 0 [] (ex_start _ _ _ _ _)) as (m & l & X). exists m, l.
  rewrite (kind_left s _ _ H) in X. exact X.
Qed.
Lemma play_fault w okb code intr s n b : kind_of (play w okb code n s) = KFault b ->
  exists m l, exec w (fun b => okb b = true) code intr s m l (Fault b).
Proof.
  intros H. destruct (play_exec w okb code intr s n s 0 [] (ex_start _ _ _ _ _)) as (m & l & X). exists m, l.
  rewrite (kind_fault _ _ H) in X. exact X.
Qed.
(** A run of [n1] instructions, a handler that writes [v] to the word at [a], and [n2] more
    instructions. *)
Definition with_word (w : Z) (s : state) (a v : Z) : state := St (pc s) (rg s) (put false (mm s) a w v) (fl s).
Definition play2 (w : Z) (code : list instr) (n1 n2 : nat) (a v : Z) (s : state) : out :=
  play w (fun _ => true) code n2 (with_word w (last s (play w (fun _ => true) code n1 s)) a v).
Lemma play2_left w code s n1 n2 a v t : 0 <= w -> kind_of (play w (fun _ => true) code n1 s) = KRun ->
  bytes (mm (last s (play w (fun _ => true) code n1 s))) -> a + w <= rg (last s (play w (fun _ => true) code n1 s)) SP ->
  kind_of (play2 w code n1 n2 a v s) = KLeft t ->
  exists m l, exec w (fun b => (fun _ => true) b = true) code true s m l (Left t (last s (play2 w code n1 n2 a v s))).
Proof.
  intros W K B A H. destruct (play_exec w (fun _ => true) code true s n1 s 0 [] (ex_start _ _ _ _ _)) as (m & l & X).
  rewrite (kind_run s _ K) in X. unfold play2 in *. set (s1 := last s (play w (fun _ => true) code n1 s)) in *.
  assert (exec w (fun b => (fun _ => true) b = true) code true s m l (Running (with_word w s1 a v))) as X2.
  { apply ex_intr; [exact X|reflexivity|apply put_bytes; exact B|]. intros b Hb. apply put_other. lia. }
  destruct (play_exec w (fun _ => true) code true s n2 _ _ _ X2) as (m2 & l2 & X3). exists m2, l2. rewrite (kind_left s _ _ H) in X3. exact X3.
Qed.
(** Memory stays bytes. *)
Lemma effect_bytes w code i s o : bytes (mm s) -> effect w code i s = Some o -> bytes (mm (last s o)).
Proof.
  intros B He. unfold effect, go, jump in He. destruct i; try (destruct (fl s) as [[]|]; [|discriminate He]); injection He as <-; cbn [last mm]; try exact B; apply put_bytes; exact B.
Qed.
Lemma play_bytes w okb code n : forall s, bytes (mm s) -> bytes (mm (last s (play w okb code n s))).
Proof.
  induction n as [|n IH]; intros s B; [exact B|]. cbn [play]. destruct (nth_error code (pc s)) as [i|]; [|exact B].
  destruct (find _ _); [exact B|]. destruct (effect w code i s) as [o|] eqn:He; [|exact B]. pose proof (effect_bytes _ _ _ _ _ B He) as B'.
  destruct o as [s'|t s'|b]; [|exact B'|exact B]. cbn [last] in B'. specialize (IH s' B').
  destruct (play w okb code n s'); exact IH || exact B || idtac.
Qed.
