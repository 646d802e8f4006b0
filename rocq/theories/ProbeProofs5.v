(** The aarch64 __chkstk. *)
From Coq Require Import ZArith Bool List Lia.
From Verif Require Import AtomicSpec AtomicProofs ProbeModel ProbeSpec ProbeProofs ProbeProofs2 ProbeProofs3.
Open Scope Z_scope.
Import ListNotations.

Section A64.
Context (ok : Z -> Prop) (s0 : state) (E size ret L : Z) (P : Z -> Prop).
Context (He : entry_a64 E size ret s0).
(** As [depth]: [P k]: the pages down to [E - 4096 * k] have been probed. *)
Context (D1 : 4092 <= L) (D4 : P 0) (D5 : forall k, 0 <= k -> P k -> L + 4096 <= E - 4096 * k)
  (D6 : forall k, 0 <= k -> P k -> (k = 0 \/ 4096 * k < size) -> ok (E - 4096 * (k + 1)) -> 4096 * (k + 1) < size -> P (k + 1)).
Definition rowx (s : state) (a b : Z) : Prop := rg s X16 = a /\ rg s X17 = b.
Definition more (k : Z) : Prop := 0 <= k /\ (k = 0 \/ 4096 * k < size) /\ P k.
(** The register x16 after the subtraction that makes it negative or zero. *)
Definition left16 (k : Z) : Z := (size - 4096 * k) mod 2 ^ 64.
Definition atx (n : nat) (s : state) : Prop :=
  let N := Z.of_nat n in
  match pc s with
  | 0%nat => N = 0
  | 1%nat => N = 1 /\ rg s X16 = size
  | 2%nat => exists k, N = 2 + 5 * k /\ rowx s (size - 4096 * k) (E - 4096 * k) /\ more k
  | 3%nat => exists k, N = 3 + 5 * k /\ rowx s (size - 4096 * k) (E - 4096 * k) /\ more k
  | 4%nat => exists k, N = 4 + 5 * k /\ rowx s (size - 4096 * k) (E - 4096 * (k + 1)) /\ more k
  | 5%nat => exists k, N = 5 + 5 * k /\ rowx s (left16 (k + 1)) (E - 4096 * (k + 1)) /\ more k /\ fl s = Some (size - 4096 * k, 4096)
  | 6%nat => exists k, N = 6 + 5 * k /\ rowx s (left16 (k + 1)) (E - 4096 * (k + 1)) /\ more k /\ fl s = Some (size - 4096 * k, 4096) /\ ok (E - 4096 * (k + 1))
  | 7%nat => exists k, N = 7 + 5 * k /\ more k /\ size <= 4096 * (k + 1) /\ ok (E - 4096 * (k + 1))
  | _ => False
  end.
Definition invx (n : nat) (s : state) : Prop :=
  frame [X16; X17] s0 s /\ (forall b, E <= b -> mm s b = mm s0 b) /\ atx n s.
Definition endx (n : nat) (t : Z) (s : state) : Prop :=
  t = ret /\ (forall r, r <> X16 -> r <> X17 -> rg s r = rg s0 r) /\ (forall b, E <= b -> mm s b = mm s0 b) /\ Z.of_nat n <= 8 + 5 * (size / 4096) /\
  exists k, more k /\ size <= 4096 * (k + 1) /\ ok (E - 4096 * (k + 1)).
Definition accx (a k : Z) : Prop := E - size - 4096 <= a /\ a + k <= E /\ L <= a.
Lemma invx_start : invx 0 s0.
Proof.
  destruct He as (H0 & _). split; [intros r _; reflexivity|]. split; [reflexivity|]. unfold atx. rewrite H0. reflexivity.
Qed.
Lemma invx_intr n s m : invx n s -> bytes m -> (forall b, rg s SP <= b -> m b = mm s b) -> invx n (St (pc s) (rg s) m (fl s)).
Proof.
  destruct s as [p f mm x]. intros (F & M & I) Bm H. cbn [pc rg ProbeModel.mm fl] in *. split; [exact F|]. split; [|exact I].
  intros b Hb. cbn [ProbeModel.mm]. rewrite H; [apply M; exact Hb|]. pose proof (F SP ltac:(cbn; intuition discriminate)) as A. cbn [rg] in A. destruct He as (_ & B & _). lia.
Qed.
Lemma countx n s : invx n s -> Z.of_nat n <= 7 + 5 * (size / 4096) /\ (pc s < 8)%nat.
Proof.
  destruct He as (_ & _ & H2 & _ & _ & R). pose proof (R X15). assert (0 <= size / 4096) as Q by (apply Z.div_pos; lia).
  destruct s as [p f m x]. intros (_ & _ & I). unfold atx, more in I. cbn [pc] in *. clear D4 D5 D6.
  do 8 (destruct p as [|p]; [solve [opens; try (assert (k <= size / 4096) by (apply pages; lia)); lia]|]). destruct I.
Qed.
Lemma invx_step n s i : invx n s -> nth_error chkstk_a64 (pc s) = Some i ->
    (forall a k, In (a, k) (accesses 8 i s) -> accx a k) /\
    ((forall a k b, In (a, k) (accesses 8 i s) -> a <= b < a + k -> ok b) ->
     match effect 8 chkstk_a64 i s with
     | Some (Running s') => invx (S n) s'
     | Some (Left t s') => endx (S n) t s'
     | _ => False
     end).
Proof.
  destruct He as (H0 & H1 & H2 & H3 & H4 & H5).
  pose proof (H5 X15) as R15. pose proof (H5 SP) as Rs. rewrite H1 in Rs. change (2 ^ 64) with 18446744073709551616 in *. change (2 ^ 63) with 9223372036854775808 in *.
  assert (0 <= size / 4096) as Q0 by (apply Z.div_pos; lia).
  destruct s as [p f m x]. intros (F & M & I) Hi. cbn [pc rg mm fl] in *. unfold atx, rowx, more in I. cbn [pc rg mm fl] in *.
  assert (label chkstk_a64 1 = 2%nat) as L1 by reflexivity.
  assert (f X15 = rg s0 X15) as F15 by (apply F; cbn; intuition discriminate).
  assert (f SP = E) as Fs by (rewrite <- H1; apply F; cbn; intuition discriminate).
  assert (f X30 = ret) as F30 by (rewrite <- H4; apply F; cbn; intuition discriminate).
  assert (2 ^ (8 * 8) = 18446744073709551616) as W by reflexivity.
  Ltac fx F M := (split; [intros r Hr; cbn [rg]; unfold upd; repeat match goal with |- context [Nat.eqb r ?q] => destruct (Nat.eqb_spec r q); [subst; exfalso; apply Hr; cbn; tauto|] end; apply F; exact Hr|]);
    (split; [exact M|]); unfold atx, rowx, more; cbn [pc rg mm fl upd Nat.eqb X15 X16 X17 X30 SP].
  Ltac cx Hi := cbn in Hi; injection Hi as <-; opens; (split; [intros a' k' Q; cbn [accesses In] in Q; contradiction|]); intros O; cbn [effect go].
  destruct p as [|p]; [cx Hi; fx F M; rewrite wrap_id by (rewrite W; lia); rewrite F15; split; lia|].
  destruct p as [|p]; [cx Hi; fx F M; exists 0; rewrite Fs; finish ltac:(first [assumption|lia])|].
  destruct p as [|p]; [cx Hi; fx F M; exists k; finish ltac:(first [assumption|lia])|].
  destruct p as [|p].
  { cx Hi. assert (L + 4096 <= E - 4096 * k) as G by (apply D5; assumption). fx F M. exists k. unfold addr. cbn [rg].
    replace (f 17%nat) with (E - 4096 * k) by (symmetry; assumption). rewrite ?wrap_id by (rewrite W; lia). finish ltac:(first [assumption|lia]). }
  destruct p as [|p].
  { cx Hi. fx F M. exists k. unfold left16, wrap. change (2 ^ (8 * 8)) with (2 ^ 64).
    finish ltac:(first [assumption|reflexivity|lia|idtac]). - f_equal. lia. - f_equal. f_equal. lia. }
  destruct p as [|p].
  { cbn in Hi; injection Hi as <-; opens. assert (L + 4096 <= E - 4096 * k) as G by (apply D5; assumption).
    assert (addr 8 (St 5%nat f m x) X17 0 = E - 4096 * (k + 1)) as A by (unfold addr; cbn [rg]; rewrite wrap_id; [lia|rewrite W; lia]).
    split; [intros a' k' Q; cbn [accesses In] in Q; destruct Q as [Q|[]]; injection Q as <- <-; rewrite A; unfold accx; lia|]. intros O; cbn [effect go]. fx F M. exists k.
    finish ltac:(first [assumption|lia|idtac]). apply (O _ _ _ (or_introl eq_refl)). rewrite A. lia. }
  destruct p as [|p].
  { cx Hi. assert (L + 4096 <= E - 4096 * k) as G by (apply D5; assumption). unfold jump; cbn [fl pc rg mm]; subst x; cbv beta iota; rewrite L1.
    unfold signed. change (2 ^ (8 * 8 - 1)) with 9223372036854775808. destruct (Z.ltb_spec 4096 9223372036854775808); [|lia]. destruct (Z.ltb_spec (size - 4096 * k) 9223372036854775808); [|lia].
    destruct (Z.ltb_spec 4096 (size - 4096 * k)).
    - fx F M. exists (k + 1). unfold left16 in *. rewrite Z.mod_small in * by (change (2 ^ 64) with 18446744073709551616; lia). finish ltac:(first [assumption|lia|idtac]). apply D6; first [assumption|lia].
    - fx F M. exists k. finish ltac:(first [assumption|lia]). }
  destruct p as [|p]; [|destruct I].
  cx Hi. unfold endx. cbn [rg mm]. split; [exact F30|]. split; [intros r A B; apply F; cbn; intuition|]. split; [exact M|].
  assert (k <= size / 4096) by (apply pages; lia). split; [lia|]. exists k. unfold more. auto.
Qed.
End A64.

Lemma a64_method (ok : Z -> Prop) s0 E size ret L (P : Z -> Prop) intr n l o : entry_a64 E size ret s0 -> 4092 <= L -> P 0 -> (forall k, 0 <= k -> P k -> L + 4096 <= E - 4096 * k) ->
  (forall k, 0 <= k -> P k -> (k = 0 \/ 4096 * k < size) -> ok (E - 4096 * (k + 1)) -> 4096 * (k + 1) < size -> P (k + 1)) ->
  exec 8 ok chkstk_a64 intr s0 n l o ->
  (forall a k, In (a, k) l -> accx E size L a k) /\ Z.of_nat n <= 8 + 5 * (size / 4096) /\
  match o with
  | Running s => (forall b, ok b \/ ~ ok b) -> exists l' o', step 8 ok chkstk_a64 s l' o'
  | Left t s => endx ok s0 E size ret P n t s
  | Fault b => exists a k, In (a, k) l /\ a <= b < a + k /\ ~ ok b
  end.
Proof.
  intros He D1 D4 D5 D6 H.
  pose proof (invx_start ok s0 E size ret P He) as I0. pose proof (invx_step ok s0 E size ret L P He D1 D4 D5 D6) as I3.
  assert (forall n s, invx ok s0 E size P n s -> nth_error chkstk_a64 (pc s) <> None) as Hc by (intros m s I; apply nth_error_Some; apply (countx ok s0 E size ret P He) in I; exact (proj2 I)).
  destruct (exec_inv 8 ok chkstk_a64 intr s0 _ _ _ I0 I3 (fun n s m I _ => invx_intr ok s0 E size ret P He n s m I) n l o H) as [A B].
  split; [exact A|]. destruct o as [s|t s|b].
  - split; [apply (countx ok s0 E size ret P He) in B; lia|]. intros D. apply (not_stuck 8 ok chkstk_a64 _ _ _ I3 Hc n s B D). intros i a k. destruct i; cbn; intuition congruence.
  - split; [apply B|exact B].
  - destruct B as (m & s & -> & I). split; [apply (countx ok s0 E size ret P He) in I; lia|]. eapply exec_fault. exact H.
Qed.
Theorem a64_probes intr : probes_stack_a64 chkstk_a64 intr.
Proof.
  assert (forall (ok : Z -> Prop) s0 E size ret n l o, entry_a64 E size ret s0 -> fits E size -> exec 8 ok chkstk_a64 intr s0 n l o ->
    (forall a k, In (a, k) l -> accx E size (E - size - 4096) a k) /\ Z.of_nat n <= 8 + 5 * (size / 4096) /\
    match o with
    | Running s => (forall b, ok b \/ ~ ok b) -> exists l' o', step 8 ok chkstk_a64 s l' o'
    | Left t s => endx ok s0 E size ret (fun k => 4096 * k <= size) n t s
    | Fault b => exists a k, In (a, k) l /\ a <= b < a + k /\ ~ ok b
    end) as HF.
  { intros ok s0 E size ret n l o He F X. unfold fits in F. assert (0 <= size) by (destruct He as (_ & _ & Q & _ & _ & R); specialize (R X15); lia).
    eapply a64_method; [exact He|..|exact X]; intros; lia. }
  assert (forall (ok : Z -> Prop) s0 E size ret g n l o, entry_a64 E size ret s0 -> guarded_a64 ok E size g -> exec 8 ok chkstk_a64 intr s0 n l o ->
    (forall a k, In (a, k) l -> accx E size g a k) /\ Z.of_nat n <= 8 + 5 * (size / 4096) /\
    match o with
    | Running s => (forall b, ok b \/ ~ ok b) -> exists l' o', step 8 ok chkstk_a64 s l' o'
    | Left t s => endx ok s0 E size ret (fun k => g + 4096 <= E - 4096 * k) n t s
    | Fault b => exists a k, In (a, k) l /\ a <= b < a + k /\ ~ ok b
    end) as HG.
  { intros ok s0 E size ret g n l o He (G & N & T & R) X. assert (0 <= size) by (destruct He as (_ & _ & Q & _ & _ & Q'); specialize (Q' X15); lia).
    eapply a64_method; [exact He|lia| | | |exact X]; [lia|intros; lia|]. cbv beta. intros k Hk Pk _ O _.
    destruct (Z_lt_ge_dec (E - 4096 * (k + 1)) (g + 4096)); [|lia]. exfalso. apply (N (E - 4096 * (k + 1))); [lia|exact O]. }
  split; [|split; [|split]].
  - intros ok s0 E size ret n l t s He F X. destruct (HF _ _ _ _ _ _ _ _ He F X) as (_ & _ & B). destruct B as (B1 & B2 & B3 & _). auto.
  - intros ok s0 E size ret g n l o He G X. destruct (HG _ _ _ _ _ _ _ _ _ He G X) as (A & _ & B). split; [intros a k Q; apply A in Q; apply Q|].
    destruct o as [s|t s|b]; [exact I| |].
    + destruct G as (G & N & T & R). destruct B as (_ & _ & _ & _ & k & (B1 & B2 & B3) & B4 & B5). apply (N (E - 4096 * (k + 1))); [lia|exact B5].
    + destruct B as (a & k & Q & B & _). apply A in Q. unfold accx in Q. lia.
  - intros ok s0 E size ret n l o He F X. destruct (HF _ _ _ _ _ _ _ _ He F X) as (A & _ & B). split; [intros a k Q; apply A in Q; unfold accx in Q; lia|].
    intros O b ->. destruct B as (a & k & Q & B & N). apply N, O. apply A in Q. unfold accx in Q. lia.
  - intros ok s0 E size ret n l o He F X. destruct F as [F|(g & G)].
    + destruct (HF _ _ _ _ _ _ _ _ He F X) as (_ & B & C). split; [exact B|]. intros s ->. exact C.
    + destruct (HG _ _ _ _ _ _ _ _ _ He G X) as (_ & B & C). split; [exact B|]. intros s ->. exact C.
Qed.
