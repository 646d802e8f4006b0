(** The invariants of the probes that allocate, and of ___chkstk_ms. *)
From Coq Require Import ZArith Bool List Lia.
From Verif Require Import AtomicSpec AtomicProofs ProbeModel ProbeSpec ProbeProofs ProbeProofs2 ProbeProofs3.
Open Scope Z_scope.
Import ListNotations.

Lemma get_at m a b n v : a = b -> get false m b n = v -> get false m a n = v.
Proof. intros ->. exact (fun H => H). Qed.
Ltac leafs f O D4 D6 := first [solve [leaf f O D4 D6]|eapply get_at; [|eassumption]; lia|rewrite ?get_put_other by lia; eapply get_at; [|eassumption]; lia|idtac].

(** * x86 UEFI *)
Section Uefi.
Context (ok : Z -> Prop) (s0 : state) (E size ret L : Z) (P : Z -> Prop).
Definition savedu1 (s : state) : Prop := get false (mm s) E 4 = ret /\ get false (mm s) (E - 4) 4 = rg s0 BP.
Definition savedu2 (s : state) : Prop := get false (mm s) E 4 = ret /\ get false (mm s) (E - 4) 4 = rg s0 BP /\ get false (mm s) (E - 8) 4 = rg s0 CX.
Definition savedu3 (s : state) : Prop := get false (mm s) E 4 = ret /\ get false (mm s) (E - 4) 4 = rg s0 BP /\ get false (mm s) (E - 8) 4 = rg s0 CX /\ get false (mm s) (E - 12) 4 = rg s0 DX.
Definition savedu4 (s : state) : Prop := get false (mm s) (E - size) 4 = ret /\ get false (mm s) (E - 4) 4 = rg s0 BP /\ get false (mm s) (E - 8) 4 = rg s0 CX /\ get false (mm s) (E - 12) 4 = rg s0 DX.
Definition rowu (s : state) (sp bp cx dx : Z) : Prop := rg s SP = sp /\ rg s BP = bp /\ rg s CX = cx /\ rg s DX = dx.
Definition doneu (n : nat) (c : Z) : Prop := L <= E - 4 - size /\ ok (E - 4 - size) /\ Z.of_nat n <= c + 6 * (size / 4096).
Definition atu (n : nat) (s : state) : Prop :=
  let N := Z.of_nat n in let bp := rg s0 BP in let cx := rg s0 CX in let dx := rg s0 DX in
  match pc s with
  | 0%nat => N = 0 /\ rowu s E bp cx dx /\ get false (mm s) E 4 = ret
  | 1%nat => N = 1 /\ rowu s (E - 4) bp cx dx /\ savedu1 s /\ P 0
  | 2%nat => N = 2 /\ rowu s (E - 4) (E - 4) cx dx /\ savedu1 s /\ P 0
  | 3%nat => N = 3 /\ rowu s (E - 8) (E - 4) cx dx /\ savedu2 s /\ P 0
  | 4%nat => N = 4 /\ rowu s (E - 12) (E - 4) cx dx /\ savedu3 s /\ P 0
  | 5%nat => N = 5 /\ rowu s (E - 12) (E - 4) size dx /\ savedu3 s /\ P 0
  | 6%nat => N = 6 /\ rowu s (E - 12) (E - 4) size dx /\ savedu3 s /\ P 0 /\ fl s = Some (size, 4096)
  | 7%nat => exists k, N = 7 + 6 * k /\ rowu s (E - 12 - 4096 * k) (E - 4) (size - 4096 * k) dx /\ savedu3 s /\ 0 <= k /\ 4096 * (k + 1) < size /\ P k
  | 8%nat => exists k, N = 8 + 6 * k /\ rowu s (E - 12 - 4096 * k) (E - 4) (size - 4096 * k) dx /\ savedu3 s /\ 0 <= k /\ 4096 * (k + 1) < size /\ P k
  | 9%nat => exists k, N = 9 + 6 * k /\ rowu s (E - 12 - 4096 * (k + 1)) (E - 4) (size - 4096 * k) dx /\ savedu3 s /\ 0 <= k /\ 4096 * (k + 1) < size /\ P k
  | 10%nat => exists k, N = 10 + 6 * k /\ rowu s (E - 12 - 4096 * (k + 1)) (E - 4) (size - 4096 * k) dx /\ savedu3 s /\ 0 <= k /\ 4096 * (k + 1) < size /\ P (k + 1)
  | 11%nat => exists k, N = 11 + 6 * k /\ rowu s (E - 12 - 4096 * (k + 1)) (E - 4) (size - 4096 * (k + 1)) dx /\ savedu3 s /\ 0 <= k /\ 4096 * (k + 1) < size /\ P (k + 1)
  | 12%nat => exists k, N = 12 + 6 * k /\ rowu s (E - 12 - 4096 * (k + 1)) (E - 4) (size - 4096 * (k + 1)) dx /\ savedu3 s /\ 0 <= k /\ 4096 * (k + 1) < size /\ P (k + 1) /\ fl s = Some (size - 4096 * (k + 1), 4096)
  | 13%nat => exists k, N = 7 + 6 * k /\ rowu s (E - 12 - 4096 * k) (E - 4) (size - 4096 * k) dx /\ savedu3 s /\ 0 <= k /\ 0 <= size - 4096 * k <= 4096 /\ P k
  | 14%nat => exists k, N = 8 + 6 * k /\ rowu s (E - 12 - 4096 * k) (E - 4) (size - 4096 * k) dx /\ savedu3 s /\ 0 <= k /\ 0 <= size - 4096 * k <= 4096 /\ P k
  | 15%nat => exists k, N = 9 + 6 * k /\ rowu s (E - 12 - size) (E - 4) (size - 4096 * k) dx /\ savedu3 s /\ 0 <= k /\ 0 <= size - 4096 * k <= 4096 /\ P k
  | 16%nat => rg s SP = E - 12 - size /\ rg s BP = E - 4 /\ savedu3 s /\ doneu n 10
  | 17%nat => rg s SP = E - 12 - size /\ rg s BP = E - 4 /\ rg s DX = ret /\ savedu3 s /\ doneu n 11
  | 18%nat => rg s SP = E - 12 - size /\ rg s BP = E - 4 /\ savedu4 s /\ doneu n 12
  | 19%nat => rg s SP = E - 12 /\ rg s BP = E - 4 /\ savedu4 s /\ doneu n 13
  | 20%nat => rg s SP = E - 8 /\ rg s BP = E - 4 /\ rg s DX = dx /\ savedu4 s /\ doneu n 14
  | 21%nat => rg s SP = E - 4 /\ rg s BP = E - 4 /\ rg s CX = cx /\ rg s DX = dx /\ savedu4 s /\ doneu n 15
  | 22%nat => rowu s E bp cx dx /\ savedu4 s /\ doneu n 16
  | 23%nat => rowu s (E - size) bp cx dx /\ savedu4 s /\ doneu n 17
  | _ => False
  end.
Definition invu (n : nat) (s : state) : Prop :=
  frame [SP; BP; CX; DX] s0 s /\ bytes (mm s) /\ (forall b, E + 4 <= b -> mm s b = mm s0 b) /\ atu n s.
Context (He : entry 4 (fun size => size = 0 \/ 16 <= size) E size ret s0) (Hd : depth ok 4 E size (E - 4) L P).
Lemma invu_start : invu 0 s0.
Proof.
  destruct He as (H0 & H1 & H2 & H3 & H4 & H5 & H6 & _). split; [intros r _; reflexivity|]. split; [exact H4|]. split; [reflexivity|].
  unfold atu. rewrite H0. repeat split; assumption.
Qed.
Lemma countu n s : invu n s -> Z.of_nat n < 30 + 6 * (size / 4096) /\ (pc s < 24)%nat.
Proof.
  destruct Hd as [D0 D1 D2 D3 D4 D5 D6 D7]. assert (0 <= size / 4096) as Q by (apply Z.div_pos; lia).
  destruct s as [p f m x]. intros (_ & _ & _ & I). unfold atu, doneu in I. cbn [pc] in *. clear D4 D5 D6 D7.
  do 24 (destruct p as [|p]; [solve [opens; try (assert (k <= size / 4096) by (apply pages; lia)); lia]|]). destruct I.
Qed.
Lemma invu_step n s i : invu n s -> nth_error probe32_uefi (pc s) = Some i ->
    (forall a k, In (a, k) (accesses 4 i s) -> access 4 E size L a k) /\
    ((forall a k b, In (a, k) (accesses 4 i s) -> a <= b < a + k -> ok b) ->
     match effect 4 probe32_uefi i s with
     | Some (Running s') => invu (S n) s'
     | Some (Left t s') => ends 4 true [] (-4) ok s0 E size ret L (S n) t s'
     | _ => False
     end).
Proof.
  destruct He as (H0 & H1 & H2 & H3 & H4 & H5 & H6 & Hg). destruct Hd as [D0 D1 D2 D3 D4 D5 D6 D7].
  pose proof (H5 BP) as R1. pose proof (H5 CX) as R3. pose proof (H5 DX) as R4. pose proof (H5 AX) as R2. rewrite H2 in R2. change (2 ^ (8 * 4)) with 4294967296 in *.
  assert (0 <= ret < 4294967296) as R5 by (rewrite <- H3; apply (get_range false (mm s0) E 4); [lia|exact H4]).
  destruct s as [p f m x]. intros (F & B & M & I) Hi. cbn [pc rg mm fl] in *. unfold atu, rowu, savedu1, savedu2, savedu3, savedu4 in I. cbn [pc rg mm fl] in *.
  assert (f AX = size) as A by (rewrite <- H2; apply F; cbn; intuition discriminate).
  assert (label probe32_uefi 2 = 7%nat) as L2 by reflexivity. assert (label probe32_uefi 3 = 13%nat) as L3 by reflexivity.
  do 6 (destruct p as [|p]; [case_ Hi D5; (split; [accs f|]); intros O; cbn [effect go]; close_ f F M; unfold atu, rowu, savedu1, savedu2, savedu3; rows f; finish ltac:(leafs f O D4 D6)|]).
  destruct p as [|p].
  { case_ Hi D5; (split; [accs f|]); intros O; cbn [effect]; unfold jump; cbn [fl pc rg mm]; subst x; cbv beta iota; rewrite L3; destruct (Z.leb_spec size 4096).
    all: close_ f F M; unfold atu, rowu, savedu3; rows f; exists 0; finish ltac:(first [assumption|lia]). }
  do 5 (destruct p as [|p]; [case_ Hi D5; (split; [accs f|]); intros O; cbn [effect go]; close_ f F M; unfold atu, rowu, savedu3; rows f; finish ltac:(leafs f O D4 D6)|]).
  destruct p as [|p].
  { case_ Hi D5; (split; [accs f|]); intros O; cbn [effect]; unfold jump; cbn [fl pc rg mm]; subst x; cbv beta iota; rewrite L2; destruct (Z.ltb_spec 4096 (size - 4096 * (k + 1))).
    all: close_ f F M; unfold atu, rowu, savedu3; rows f; exists (k + 1); finish ltac:(first [assumption|lia]). }
  do 2 (destruct p as [|p]; [case_ Hi D5; (split; [accs f|]); intros O; cbn [effect go]; close_ f F M; unfold atu, rowu, savedu3; rows f; finish ltac:(leafs f O D4 D6)|]).
  destruct p as [|p].
  { case_ Hi D5; (split; [accs f|]); intros O; cbn [effect go]; close_ f F M; unfold atu, rowu, savedu3, doneu; rows f;
    assert (k <= size / 4096) by (apply pages; lia); finish ltac:(leafs f O D4 D6). }
  unfold doneu in I.
  do 7 (destruct p as [|p]; [case_ Hi D5; (split; [accs f|]); intros O; cbn [effect go]; close_ f F M; unfold atu, rowu, savedu3, savedu4, doneu; rows f; finish ltac:(leafs f O D4 D6)|]).
  destruct p as [|p]; [|destruct I].
  case_ Hi D5; (split; [accs f|]); intros O; cbn [effect go]. unfold ends. rows f. finish ltac:(first [assumption|reflexivity|lia|idtac]).
  - intros r N1 N2. unfold upd. destruct (Nat.eqb_spec r SP); [contradiction|]. destruct (Nat.eq_dec r BP) as [->|]; [assumption|]. destruct (Nat.eq_dec r CX) as [->|]; [assumption|].
    destruct (Nat.eq_dec r DX) as [->|]; [assumption|]. apply F. cbn in *. intuition.
Qed.
End Uefi.

(** * _alloca *)
Section Alloca.
Context (intr : bool) (ok : Z -> Prop) (s0 : state) (E size ret L : Z) (P : Z -> Prop).
Definition saveda (s : state) : Prop := get false (mm s) E 4 = ret /\ get false (mm s) (E - 4) 4 = rg s0 CX.
Definition rowa (s : state) (sp cx ax : Z) : Prop := rg s SP = sp /\ rg s CX = cx /\ rg s AX = ax.
Definition donea (n : nat) (c : Z) : Prop := L + 16 <= E + 4 - size /\ ok (E + 4 - size) /\ Z.of_nat n <= c + 6 * (size / 4096).
Definition ata (n : nat) (s : state) : Prop :=
  let N := Z.of_nat n in let cx := rg s0 CX in
  match pc s with
  | 0%nat => N = 0 /\ rowa s E cx size /\ get false (mm s) E 4 = ret
  | 1%nat => N = 1 /\ rowa s (E - 4) cx size /\ saveda s /\ P 0
  | 2%nat => N = 2 /\ rowa s (E - 4) cx size /\ saveda s /\ P 0 /\ fl s = Some (size, 4096)
  | 3%nat => N = 3 /\ rowa s (E - 4) (E + 4) size /\ saveda s /\ P 0 /\ fl s = Some (size, 4096)
  | 4%nat => exists k, N = 4 + 6 * k /\ rowa s (E - 4) (E + 4 - 4096 * k) (size - 4096 * k) /\ saveda s /\ 0 <= k /\ 4096 * (k + 1) <= size /\ P k
  | 5%nat => exists k, N = 5 + 6 * k /\ rowa s (E - 4) (E + 4 - 4096 * k) (size - 4096 * k) /\ saveda s /\ 0 <= k /\ 4096 * (k + 1) <= size /\ P k
  | 6%nat => exists k, N = 6 + 6 * k /\ rowa s (E - 4) (E + 4 - 4096 * (k + 1)) (size - 4096 * k) /\ saveda s /\ 0 <= k /\ 4096 * (k + 1) <= size /\ P k
  | 7%nat => exists k, N = 7 + 6 * k /\ rowa s (E - 4) (E + 4 - 4096 * (k + 1)) (size - 4096 * k) /\ saveda s /\ 0 <= k /\ 4096 * (k + 1) <= size /\ P (k + 1)
  | 8%nat => exists k, N = 8 + 6 * k /\ rowa s (E - 4) (E + 4 - 4096 * (k + 1)) (size - 4096 * (k + 1)) /\ saveda s /\ 0 <= k /\ 4096 * (k + 1) <= size /\ P (k + 1)
  | 9%nat => exists k, N = 9 + 6 * k /\ rowa s (E - 4) (E + 4 - 4096 * (k + 1)) (size - 4096 * (k + 1)) /\ saveda s /\ 0 <= k /\ 4096 * (k + 1) <= size /\ P (k + 1) /\ fl s = Some (size - 4096 * (k + 1), 4096)
  | 10%nat => exists k, N = 4 + 6 * k /\ rowa s (E - 4) (E + 4 - 4096 * k) (size - 4096 * k) /\ saveda s /\ 0 <= k /\ 0 <= size - 4096 * k <= 4096 /\ P k
  | 11%nat => exists k, N = 5 + 6 * k /\ rowa s (E - 4) (E + 4 - 4096 * k) (size - 4096 * k) /\ saveda s /\ 0 <= k /\ 0 <= size - 4096 * k <= 4096 /\ P k
  | 12%nat => exists k, N = 6 + 6 * k /\ rowa s (E - 4) (E + 4 - size) (size - 4096 * k) /\ saveda s /\ 0 <= k /\ 0 <= size - 4096 * k <= 4096 /\ P k
  | 13%nat => rg s SP = E - 4 /\ rg s CX = E + 4 - size /\ saveda s /\ donea n 7
  | 14%nat => rowa s (E - 4) (E + 4 - size) E /\ saveda s /\ donea n 8
  | 15%nat => rowa s (E + 4 - size) (E + 4 - size) E /\ saveda s /\ donea n 9
  | 16%nat => rowa s (E + 4 - size) cx E /\ get false (mm s) E 4 = ret /\ donea n 10
  | 17%nat => rowa s (E - size) cx E /\ get false (mm s) (E - size) 4 = ret /\ donea n 11
  | 18%nat => rowa s (E - size) cx size /\ get false (mm s) (E - size) 4 = ret /\ donea n 12
  | _ => False
  end.
Definition inva (n : nat) (s : state) : Prop :=
  frame [SP; CX; AX] s0 s /\ bytes (mm s) /\ (forall b, E + 4 <= b -> mm s b = mm s0 b) /\ ata n s.
Context (He : entry 4 (fun size => intr = false \/ 8 <= size) E size ret s0) (Hd : depth ok 4 E size (E + 4) L P).
Lemma inva_start : inva 0 s0.
Proof.
  destruct He as (H0 & H1 & H2 & H3 & H4 & H5 & H6 & _). split; [intros r _; reflexivity|]. split; [exact H4|]. split; [reflexivity|].
  unfold ata. rewrite H0. repeat split; assumption.
Qed.
Lemma inva_intr n s m : inva n s -> intr = true -> bytes m -> (forall b, rg s SP <= b -> m b = mm s b) -> inva n (St (pc s) (rg s) m (fl s)).
Proof.
  destruct He as (_ & _ & _ & _ & _ & _ & _ & Hg).
  destruct s as [p f mm x]. intros (F & B & M & I) Hi Bm H. cbn [pc rg ProbeModel.mm fl] in *. destruct Hd as [D0 D1 D2 D3 D4 D5 D6 D7].
  assert (8 <= size) as H8 by (destruct Hg as [Hg|Hg]; [congruence|exact Hg]).
  split; [exact F|]. split; [exact Bm|]. unfold ata, rowa, saveda in *. cbn [pc rg ProbeModel.mm fl] in *.
  do 19 (destruct p as [|p]; [solve [clear F;
    (split; [intros b Hb; rewrite H; [apply M; lia|opens; lia]|]); opens;
    finish ltac:(first [assumption|etransitivity; [apply get_ext; [lia|intros; apply H; lia]|assumption]])]|]).
  destruct I.
Qed.
Lemma counta n s : inva n s -> Z.of_nat n < 30 + 6 * (size / 4096) /\ (pc s < 19)%nat.
Proof.
  destruct Hd as [D0 D1 D2 D3 D4 D5 D6 D7]. assert (0 <= size / 4096) as Q by (apply Z.div_pos; lia).
  destruct s as [p f m x]. intros (_ & _ & _ & I). unfold ata, donea in I. cbn [pc] in *. clear D4 D5 D6 D7.
  do 19 (destruct p as [|p]; [solve [opens; try (assert (k <= size / 4096) by (apply pages; lia)); lia]|]). destruct I.
Qed.
Lemma inva_step n s i : inva n s -> nth_error alloca32 (pc s) = Some i ->
    (forall a k, In (a, k) (accesses 4 i s) -> access 4 E size L a k) /\
    ((forall a k b, In (a, k) (accesses 4 i s) -> a <= b < a + k -> ok b) ->
     match effect 4 alloca32 i s with
     | Some (Running s') => inva (S n) s'
     | Some (Left t s') => ends 4 true [] 4 ok s0 E size ret L (S n) t s'
     | _ => False
     end).
Proof.
  destruct He as (H0 & H1 & H2 & H3 & H4 & H5 & H6 & Hg). destruct Hd as [D0 D1 D2 D3 D4 D5 D6 D7].
  pose proof (H5 CX) as R3. pose proof (H5 AX) as R2. rewrite H2 in R2. change (2 ^ (8 * 4)) with 4294967296 in *.
  assert (0 <= ret < 4294967296) as R5 by (rewrite <- H3; apply (get_range false (mm s0) E 4); [lia|exact H4]).
  destruct s as [p f m x]. intros (F & B & M & I) Hi. cbn [pc rg mm fl] in *. unfold ata, rowa, saveda in I. cbn [pc rg mm fl] in *.
  assert (label alloca32 2 = 4%nat) as L2 by reflexivity. assert (label alloca32 3 = 10%nat) as L3 by reflexivity.
  do 3 (destruct p as [|p]; [case_ Hi D5; (split; [accs f|]); intros O; cbn [effect go]; close_ f F M; unfold ata, rowa, saveda; rows f; finish ltac:(leafs f O D4 D6)|]).
  destruct p as [|p].
  { case_ Hi D5; (split; [accs f|]); intros O; cbn [effect]; unfold jump; cbn [fl pc rg mm]; subst x; cbv beta iota; rewrite L3; destruct (Z.ltb_spec size 4096).
    all: close_ f F M; unfold ata, rowa, saveda; rows f; exists 0; finish ltac:(first [assumption|lia]). }
  do 5 (destruct p as [|p]; [case_ Hi D5; (split; [accs f|]); intros O; cbn [effect go]; close_ f F M; unfold ata, rowa, saveda; rows f; finish ltac:(leafs f O D4 D6)|]).
  destruct p as [|p].
  { case_ Hi D5; (split; [accs f|]); intros O; cbn [effect]; unfold jump; cbn [fl pc rg mm]; subst x; cbv beta iota; rewrite L2; destruct (Z.ltb_spec 4096 (size - 4096 * (k + 1))).
    all: close_ f F M; unfold ata, rowa, saveda; rows f; exists (k + 1); finish ltac:(first [assumption|lia]). }
  do 2 (destruct p as [|p]; [case_ Hi D5; (split; [accs f|]); intros O; cbn [effect go]; close_ f F M; unfold ata, rowa, saveda; rows f; finish ltac:(leafs f O D4 D6)|]).
  destruct p as [|p].
  { case_ Hi D5; (split; [accs f|]); intros O; cbn [effect go]; close_ f F M; unfold ata, rowa, saveda, donea; rows f;
    assert (k <= size / 4096) by (apply pages; lia); assert (ok (E + 4 - size)) as Q by okay f O; assert (L + 16 <= E + 4 - size) by (apply D7; [lia|exact Q]); finish ltac:(leafs f O D4 D6). }
  unfold donea in I.
  do 5 (destruct p as [|p]; [case_ Hi D5; (split; [accs f|]); intros O; cbn [effect go]; close_ f F M; unfold ata, rowa, saveda, donea; rows f; finish ltac:(leafs f O D4 D6)|]).
  destruct p as [|p]; [|destruct I].
  case_ Hi D5; (split; [accs f|]); intros O; cbn [effect go]. unfold ends. rows f. finish ltac:(first [assumption|reflexivity|lia|idtac]).
  intros r N1 N2. unfold upd. destruct (Nat.eqb_spec r SP); [contradiction|]. destruct (Nat.eq_dec r CX) as [->|]; [assumption|].
  destruct (Nat.eq_dec r AX) as [->|]; [congruence|]. apply F. cbn in *. intuition.
Qed.
End Alloca.

(** * ___chkstk_ms *)
Section Chkstk.
Context (ok : Z -> Prop) (s0 : state) (E size ret L : Z) (P : Z -> Prop).
Definition savedc (s : state) : Prop := get false (mm s) (E - 8) 8 = rg s0 CX /\ get false (mm s) (E - 16) 8 = size.
Definition rowc (s : state) (sp cx ax : Z) : Prop := rg s SP = sp /\ rg s CX = cx /\ rg s AX = ax.
Definition donec (n : nat) (c : Z) : Prop := L <= E + 8 - size /\ ok (E + 8 - size) /\ Z.of_nat n <= c + 6 * (size / 4096).
Definition atc (n : nat) (s : state) : Prop :=
  let N := Z.of_nat n in let cx := rg s0 CX in
  match pc s with
  | 0%nat => N = 0 /\ rowc s E cx size
  | 1%nat => N = 1 /\ rowc s (E - 8) cx size /\ get false (mm s) (E - 8) 8 = cx /\ P 0
  | 2%nat => N = 2 /\ rowc s (E - 16) cx size /\ savedc s /\ P 0
  | 3%nat => N = 3 /\ rowc s (E - 16) cx size /\ savedc s /\ P 0 /\ fl s = Some (size, 4096)
  | 4%nat => N = 4 /\ rowc s (E - 16) (E + 8) size /\ savedc s /\ P 0 /\ fl s = Some (size, 4096)
  | 5%nat => exists k, N = 5 + 6 * k /\ rowc s (E - 16) (E + 8 - 4096 * k) (size - 4096 * k) /\ savedc s /\ 0 <= k /\ 4096 * (k + 1) <= size /\ P k
  | 6%nat => exists k, N = 6 + 6 * k /\ rowc s (E - 16) (E + 8 - 4096 * k) (size - 4096 * k) /\ savedc s /\ 0 <= k /\ 4096 * (k + 1) <= size /\ P k
  | 7%nat => exists k, N = 7 + 6 * k /\ rowc s (E - 16) (E + 8 - 4096 * (k + 1)) (size - 4096 * k) /\ savedc s /\ 0 <= k /\ 4096 * (k + 1) <= size /\ P k
  | 8%nat => exists k, N = 8 + 6 * k /\ rowc s (E - 16) (E + 8 - 4096 * (k + 1)) (size - 4096 * k) /\ savedc s /\ 0 <= k /\ 4096 * (k + 1) <= size /\ P (k + 1)
  | 9%nat => exists k, N = 9 + 6 * k /\ rowc s (E - 16) (E + 8 - 4096 * (k + 1)) (size - 4096 * (k + 1)) /\ savedc s /\ 0 <= k /\ 4096 * (k + 1) <= size /\ P (k + 1)
  | 10%nat => exists k, N = 10 + 6 * k /\ rowc s (E - 16) (E + 8 - 4096 * (k + 1)) (size - 4096 * (k + 1)) /\ savedc s /\ 0 <= k /\ 4096 * (k + 1) <= size /\ P (k + 1) /\ fl s = Some (size - 4096 * (k + 1), 4096)
  | 11%nat => exists k, N = 5 + 6 * k /\ rowc s (E - 16) (E + 8 - 4096 * k) (size - 4096 * k) /\ savedc s /\ 0 <= k /\ 0 <= size - 4096 * k <= 4096 /\ P k
  | 12%nat => exists k, N = 6 + 6 * k /\ rowc s (E - 16) (E + 8 - 4096 * k) (size - 4096 * k) /\ savedc s /\ 0 <= k /\ 0 <= size - 4096 * k <= 4096 /\ P k
  | 13%nat => exists k, N = 7 + 6 * k /\ rowc s (E - 16) (E + 8 - size) (size - 4096 * k) /\ savedc s /\ 0 <= k /\ 0 <= size - 4096 * k <= 4096 /\ P k
  | 14%nat => rg s SP = E - 16 /\ savedc s /\ donec n 8
  | 15%nat => rg s SP = E - 8 /\ rg s AX = size /\ get false (mm s) (E - 8) 8 = rg s0 CX /\ donec n 9
  | 16%nat => rowc s E cx size /\ donec n 10
  | _ => False
  end.
Definition invc (n : nat) (s : state) : Prop :=
  frame [SP; CX; AX] s0 s /\ bytes (mm s) /\ (forall b, E <= b -> mm s b = mm s0 b) /\ atc n s.
Context (He : entry 8 (fun _ => True) E size ret s0) (Hd : depth ok 8 E size (E + 8) L P).
Lemma invc_start : invc 0 s0.
Proof.
  destruct He as (H0 & H1 & H2 & H3 & H4 & H5 & H6 & _). split; [intros r _; reflexivity|]. split; [exact H4|]. split; [reflexivity|].
  unfold atc. rewrite H0. repeat split; assumption.
Qed.
Lemma invc_intr n s m : invc n s -> bytes m -> (forall b, rg s SP <= b -> m b = mm s b) -> invc n (St (pc s) (rg s) m (fl s)).
Proof.
  destruct s as [p f mm x]. intros (F & B & M & I) Bm H. cbn [pc rg ProbeModel.mm fl] in *. destruct Hd as [D0 D1 D2 D3 D4 D5 D6 D7].
  split; [exact F|]. split; [exact Bm|]. unfold atc, rowc, savedc in *. cbn [pc rg ProbeModel.mm fl] in *.
  do 17 (destruct p as [|p]; [solve [clear F;
    (split; [intros b Hb; rewrite H; [apply M; lia|opens; lia]|]); opens;
    finish ltac:(first [assumption|etransitivity; [apply get_ext; [lia|intros; apply H; lia]|assumption]])]|]).
  destruct I.
Qed.
Lemma countc n s : invc n s -> Z.of_nat n < 30 + 6 * (size / 4096) /\ (pc s < 17)%nat.
Proof.
  destruct Hd as [D0 D1 D2 D3 D4 D5 D6 D7]. assert (0 <= size / 4096) as Q by (apply Z.div_pos; lia).
  destruct s as [p f m x]. intros (_ & _ & _ & I). unfold atc, donec in I. cbn [pc] in *. clear D4 D5 D6 D7.
  do 17 (destruct p as [|p]; [solve [opens; try (assert (k <= size / 4096) by (apply pages; lia)); lia]|]). destruct I.
Qed.
Lemma invc_step n s i : invc n s -> nth_error chkstk64 (pc s) = Some i ->
    (forall a k, In (a, k) (accesses 8 i s) -> access 8 E size L a k) /\
    ((forall a k b, In (a, k) (accesses 8 i s) -> a <= b < a + k -> ok b) ->
     match effect 8 chkstk64 i s with
     | Some (Running s') => invc (S n) s'
     | Some (Left t s') => ends 8 false [] 8 ok s0 E size ret L (S n) t s'
     | _ => False
     end).
Proof.
  destruct He as (H0 & H1 & H2 & H3 & H4 & H5 & H6 & Hg). destruct Hd as [D0 D1 D2 D3 D4 D5 D6 D7].
  pose proof (H5 CX) as R3. pose proof (H5 AX) as R2. rewrite H2 in R2. change (2 ^ (8 * 8)) with 18446744073709551616 in *.
  destruct s as [p f m x]. intros (F & B & M & I) Hi. cbn [pc rg mm fl] in *. unfold atc, rowc, savedc in I. cbn [pc rg mm fl] in *.
  assert (label chkstk64 2 = 5%nat) as L2 by reflexivity. assert (label chkstk64 3 = 11%nat) as L3 by reflexivity.
  do 4 (destruct p as [|p]; [case_ Hi D5; (split; [accs f|]); intros O; cbn [effect go]; close_ f F M; unfold atc, rowc, savedc; rows f; finish ltac:(leafs f O D4 D6)|]).
  destruct p as [|p].
  { case_ Hi D5; (split; [accs f|]); intros O; cbn [effect]; unfold jump; cbn [fl pc rg mm]; subst x; cbv beta iota; rewrite L3; destruct (Z.ltb_spec size 4096).
    all: close_ f F M; unfold atc, rowc, savedc; rows f; exists 0; finish ltac:(first [assumption|lia]). }
  do 5 (destruct p as [|p]; [case_ Hi D5; (split; [accs f|]); intros O; cbn [effect go]; close_ f F M; unfold atc, rowc, savedc; rows f; finish ltac:(leafs f O D4 D6)|]).
  destruct p as [|p].
  { case_ Hi D5; (split; [accs f|]); intros O; cbn [effect]; unfold jump; cbn [fl pc rg mm]; subst x; cbv beta iota; rewrite L2; destruct (Z.ltb_spec 4096 (size - 4096 * (k + 1))).
    all: close_ f F M; unfold atc, rowc, savedc; rows f; exists (k + 1); finish ltac:(first [assumption|lia]). }
  do 2 (destruct p as [|p]; [case_ Hi D5; (split; [accs f|]); intros O; cbn [effect go]; close_ f F M; unfold atc, rowc, savedc; rows f; finish ltac:(leafs f O D4 D6)|]).
  destruct p as [|p].
  { case_ Hi D5; (split; [accs f|]); intros O; cbn [effect go]; close_ f F M; unfold atc, rowc, savedc, donec; rows f;
    assert (k <= size / 4096) by (apply pages; lia); finish ltac:(leafs f O D4 D6). }
  unfold donec in I.
  do 2 (destruct p as [|p]; [case_ Hi D5; (split; [accs f|]); intros O; cbn [effect go]; close_ f F M; unfold atc, rowc, savedc, donec; rows f; finish ltac:(leafs f O D4 D6)|]).
  destruct p as [|p]; [|destruct I].
  assert (get false m E 8 = ret) as G by (rewrite <- H3; apply get_ext; [lia|]; intros b Hb; apply M; lia).
  case_ Hi D5; (split; [accs f|]); intros O; cbn [effect go]. unfold ends. rows f. rewrite G. finish ltac:(first [assumption|reflexivity|lia|idtac]).
  - intros r N1 N2. unfold upd. destruct (Nat.eqb_spec r SP); [contradiction|]. destruct (Nat.eq_dec r CX) as [->|]; [assumption|].
    destruct (Nat.eq_dec r AX) as [->|]; [congruence|]. apply F. cbn in *. intuition.
  - intros b Hb. apply M. lia.
Qed.
End Chkstk.
