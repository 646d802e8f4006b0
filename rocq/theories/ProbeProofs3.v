(** The invariants of the 32-bit stack probes. *)
From Coq Require Import ZArith Bool List Lia.
From Verif Require Import AtomicSpec AtomicProofs ProbeModel ProbeSpec ProbeProofs ProbeProofs2.
Open Scope Z_scope.
Import ListNotations.

(** Opens a case: instruction, row, and the room below the pages probed so far. *)
Ltac case_ Hi D5 := cbn in Hi; injection Hi as <-; opens;
  repeat match goal with H : 0 <= ?k, H' : ?Q ?k |- _ => lazymatch type of (D5 k H H') with _ <= _ => pose proof (D5 k H H'); revert H' end end;
  repeat match goal with H : 0 <= ?k, H' : ?Q (?k + 1) |- _ => lazymatch type of (D5 (k + 1) ltac:(lia) H') with _ <= _ => pose proof (D5 (k + 1) ltac:(lia) H'); revert H' end end; intros.
Ltac leaf f O D4 D6 := first [assumption|reflexivity|lia
  |apply D4; intros; okay f O|apply D6; [lia|assumption|lia|okay f O]|okay f O
  |rewrite get_put_here; [vals f; first [reflexivity|assumption|congruence]|lia|lia|change (2 ^ (8 * 4)) with 4294967296; change (2 ^ (8 * 8)) with 18446744073709551616; vals f; lia]
  |rewrite !get_put_other by lia; assumption|idtac].
Ltac close_ f F M := (split; [frm F|]); (split; [byt|]); (split; [mems f M|]).

Section P32.
Context (ok : Z -> Prop) (s0 : state) (E size ret L : Z) (P : Z -> Prop).
Definition saved32a (s : state) : Prop := get false (mm s) (E - 4) 4 = rg s0 BP.
Definition saved32 (s : state) : Prop := get false (mm s) (E - 4) 4 = rg s0 BP /\ get false (mm s) (E - 8) 4 = rg s0 CX.
Definition row32 (s : state) (sp bp cx : Z) : Prop := rg s SP = sp /\ rg s BP = bp /\ rg s CX = cx.
Definition done32 (n : nat) (c : Z) : Prop := L <= E - size /\ ok (E - size) /\ Z.of_nat n <= c + 6 * (size / 4096).
Definition at32 (n : nat) (s : state) : Prop :=
  let N := Z.of_nat n in
  match pc s with
  | 0%nat => N = 0 /\ row32 s E (rg s0 BP) (rg s0 CX)
  | 1%nat => N = 1 /\ row32 s (E - 4) (rg s0 BP) (rg s0 CX) /\ saved32a s /\ P 0
  | 2%nat => N = 2 /\ row32 s (E - 4) (E - 4) (rg s0 CX) /\ saved32a s /\ P 0
  | 3%nat => N = 3 /\ row32 s (E - 8) (E - 4) (rg s0 CX) /\ saved32 s /\ P 0
  | 4%nat => N = 4 /\ row32 s (E - 8) (E - 4) size /\ saved32 s /\ P 0
  | 5%nat => N = 5 /\ row32 s (E - 8) (E - 4) size /\ saved32 s /\ P 0 /\ fl s = Some (size, 4096)
  | 6%nat => exists k, N = 6 + 6 * k /\ row32 s (E - 8 - 4096 * k) (E - 4) (size - 4096 * k) /\ saved32 s /\ 0 <= k /\ 4096 * (k + 1) < size /\ P k
  | 7%nat => exists k, N = 7 + 6 * k /\ row32 s (E - 8 - 4096 * k) (E - 4) (size - 4096 * k) /\ saved32 s /\ 0 <= k /\ 4096 * (k + 1) < size /\ P k
  | 8%nat => exists k, N = 8 + 6 * k /\ row32 s (E - 8 - 4096 * (k + 1)) (E - 4) (size - 4096 * k) /\ saved32 s /\ 0 <= k /\ 4096 * (k + 1) < size /\ P k
  | 9%nat => exists k, N = 9 + 6 * k /\ row32 s (E - 8 - 4096 * (k + 1)) (E - 4) (size - 4096 * k) /\ saved32 s /\ 0 <= k /\ 4096 * (k + 1) < size /\ P (k + 1)
  | 10%nat => exists k, N = 10 + 6 * k /\ row32 s (E - 8 - 4096 * (k + 1)) (E - 4) (size - 4096 * (k + 1)) /\ saved32 s /\ 0 <= k /\ 4096 * (k + 1) < size /\ P (k + 1)
  | 11%nat => exists k, N = 11 + 6 * k /\ row32 s (E - 8 - 4096 * (k + 1)) (E - 4) (size - 4096 * (k + 1)) /\ saved32 s /\ 0 <= k /\ 4096 * (k + 1) < size /\ P (k + 1) /\ fl s = Some (size - 4096 * (k + 1), 4096)
  | 12%nat => exists k, N = 6 + 6 * k /\ row32 s (E - 8 - 4096 * k) (E - 4) (size - 4096 * k) /\ saved32 s /\ 0 <= k /\ 0 <= size - 4096 * k <= 4096 /\ P k
  | 13%nat => exists k, N = 7 + 6 * k /\ row32 s (E - 8 - 4096 * k) (E - 4) (size - 4096 * k) /\ saved32 s /\ 0 <= k /\ 0 <= size - 4096 * k <= 4096 /\ P k
  | 14%nat => exists k, N = 8 + 6 * k /\ row32 s (E - 8 - size) (E - 4) (size - 4096 * k) /\ saved32 s /\ 0 <= k /\ 0 <= size - 4096 * k <= 4096 /\ P k
  | 15%nat => rg s SP = E - 8 - size /\ rg s BP = E - 4 /\ saved32 s /\ done32 n 9
  | 16%nat => rg s SP = E - 8 /\ rg s BP = E - 4 /\ saved32 s /\ done32 n 10
  | 17%nat => rg s SP = E - 4 /\ rg s BP = E - 4 /\ rg s CX = rg s0 CX /\ saved32a s /\ done32 n 11
  | 18%nat => rg s SP = E /\ rg s BP = rg s0 BP /\ rg s CX = rg s0 CX /\ done32 n 12
  | _ => False
  end.
Definition inv32 (n : nat) (s : state) : Prop :=
  frame [SP; BP; CX] s0 s /\ bytes (mm s) /\ (forall b, E <= b -> mm s b = mm s0 b) /\ at32 n s.
Context (He : entry 4 (fun _ => True) E size ret s0) (Hd : depth ok 4 E size E L P).
Lemma inv32_start : inv32 0 s0.
Proof.
  destruct He as (H0 & H1 & H2 & H3 & H4 & H5 & H6 & _). split; [intros r _; reflexivity|]. split; [exact H4|]. split; [reflexivity|].
  unfold at32. rewrite H0. repeat split; assumption.
Qed.
Lemma inv32_intr n s m : inv32 n s -> bytes m -> (forall b, rg s SP <= b -> m b = mm s b) -> inv32 n (St (pc s) (rg s) m (fl s)).
Proof.
  destruct s as [p f mm x]. intros (F & B & M & I) Bm H. cbn [pc rg ProbeModel.mm fl] in *. destruct Hd as [D0 D1 D2 D3 D4 D5 D6 D7].
  split; [exact F|]. split; [exact Bm|]. unfold at32, row32, saved32, saved32a in *. cbn [pc rg ProbeModel.mm fl] in *.
  do 19 (destruct p as [|p]; [solve [clear F;
    (split; [intros b Hb; rewrite H; [apply M; lia|opens; lia]|]); opens;
    finish ltac:(first [assumption|transitivity (get false mm (E - 4) 4); [apply get_ext; [lia|intros; apply H; lia]|assumption]
      |transitivity (get false mm (E - 8) 4); [apply get_ext; [lia|intros; apply H; lia]|assumption]])]|]).
  destruct I.
Qed.
Lemma count32 n s : inv32 n s -> Z.of_nat n < 30 + 6 * (size / 4096) /\ (pc s < 19)%nat.
Proof.
  destruct Hd as [D0 D1 D2 D3 D4 D5 D6 D7]. assert (0 <= size / 4096) as Q by (apply Z.div_pos; lia).
  destruct s as [p f m x]. intros (_ & _ & _ & I). unfold at32, done32 in I. cbn [pc] in *. clear D4 D5 D6 D7.
  do 19 (destruct p as [|p]; [solve [opens; try (assert (k <= size / 4096) by (apply pages; lia)); lia]|]). destruct I.
Qed.
Lemma inv32_step n s i : inv32 n s -> nth_error probe32 (pc s) = Some i ->
    (forall a k, In (a, k) (accesses 4 i s) -> access 4 E size L a k) /\
    ((forall a k b, In (a, k) (accesses 4 i s) -> a <= b < a + k -> ok b) ->
     match effect 4 probe32 i s with
     | Some (Running s') => inv32 (S n) s'
     | Some (Left t s') => ends 4 false [] 0 ok s0 E size ret L (S n) t s'
     | _ => False
     end).
Proof.
  destruct He as (H0 & H1 & H2 & H3 & H4 & H5 & H6 & _). destruct Hd as [D0 D1 D2 D3 D4 D5 D6 D7].
  pose proof (H5 BP) as R1. pose proof (H5 CX) as R3. pose proof (H5 AX) as R2. rewrite H2 in R2. change (2 ^ (8 * 4)) with 4294967296 in *.
  destruct s as [p f m x]. intros (F & B & M & I) Hi. cbn [pc rg mm fl] in *. unfold at32, row32, saved32, saved32a in I. cbn [pc rg mm fl] in *.
  assert (f AX = size) as A by (rewrite <- H2; apply F; cbn; intuition discriminate).
  assert (label probe32 2 = 6%nat) as L2 by reflexivity. assert (label probe32 3 = 12%nat) as L3 by reflexivity.
  do 5 (destruct p as [|p]; [case_ Hi D5; (split; [accs f|]); intros O; cbn [effect go]; close_ f F M; unfold at32, row32, saved32, saved32a; rows f;
    finish ltac:(leaf f O D4 D6)|]).
  destruct p as [|p].
  { case_ Hi D5; (split; [accs f|]); intros O; cbn [effect]; unfold jump; cbn [fl pc rg mm]; subst x; cbv beta iota; rewrite L3; destruct (Z.leb_spec size 4096).
    all: close_ f F M; unfold at32, row32, saved32, saved32a; rows f; exists 0; finish ltac:(first [assumption|lia]). }
  do 5 (destruct p as [|p]; [case_ Hi D5; (split; [accs f|]); intros O; cbn [effect go]; close_ f F M; unfold at32, row32, saved32, saved32a; rows f; finish ltac:(leaf f O D4 D6)|]).
  destruct p as [|p].
  { case_ Hi D5; (split; [accs f|]); intros O; cbn [effect]; unfold jump; cbn [fl pc rg mm]; subst x; cbv beta iota; rewrite L2; destruct (Z.ltb_spec 4096 (size - 4096 * (k + 1))).
    all: close_ f F M; unfold at32, row32, saved32, saved32a; rows f; exists (k + 1); finish ltac:(first [assumption|lia]). }
  do 2 (destruct p as [|p]; [case_ Hi D5; (split; [accs f|]); intros O; cbn [effect go]; close_ f F M; unfold at32, row32, saved32, saved32a; rows f; finish ltac:(leaf f O D4 D6)|]).
  destruct p as [|p].
  { case_ Hi D5; (split; [accs f|]); intros O; cbn [effect go]; close_ f F M; unfold at32, row32, saved32, saved32a, done32; rows f;
    assert (k <= size / 4096) by (apply pages; lia); finish ltac:(leaf f O D4 D6). }
  unfold done32 in I.
  do 3 (destruct p as [|p]; [case_ Hi D5; (split; [accs f|]); intros O; cbn [effect go]; close_ f F M; unfold at32, row32, saved32, saved32a, done32; rows f;
    finish ltac:(leaf f O D4 D6)|]).
  destruct p as [|p]; [|destruct I].
  assert (get false m E 4 = ret) as G by (rewrite <- H3; apply get_ext; [lia|]; intros b Hb; apply M; lia).
  case_ Hi D5; (split; [accs f|]); intros O; cbn [effect go]. unfold ends. rows f. rewrite G. finish ltac:(first [assumption|reflexivity|lia|idtac]).
  - intros r N1 N2. unfold upd. destruct (Nat.eqb_spec r SP); [contradiction|]. destruct (Nat.eq_dec r BP) as [->|]; [assumption|]. destruct (Nat.eq_dec r CX) as [->|]; [assumption|]. apply F. cbn in *. intuition.
  - intros b Hb. apply M. lia.
  - rewrite Z.add_0_r. assumption.
Qed.
End P32.
