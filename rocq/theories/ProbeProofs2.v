(** The invariants of the stack probes. *)
From Coq Require Import ZArith Bool List Lia.
From Verif Require Import AtomicSpec AtomicProofs ProbeModel ProbeSpec ProbeProofs.
Open Scope Z_scope.
Import ListNotations.

Definition frame (touched : list nat) (s0 s : state) : Prop := forall r, ~ In r touched -> rg s r = rg s0 r.
Lemma get_above m m' a n b : 0 <= n -> b <= a -> (forall c, b <= c -> m' c = m c) -> get false m' a n = get false m a n.
Proof. intros N H F. apply get_ext; [exact N|]. intros c Hc. apply F. lia. Qed.
Lemma get_put_other m a n b k v : 0 <= n -> (a + n <= b \/ b + k <= a) -> get false (put false m b k v) a n = get false m a n.
Proof. intros N H. apply get_ext; [exact N|]. intros c Hc. apply put_other. lia. Qed.
Lemma get_put_fit m a n v : 0 <= n -> 0 <= v < 2 ^ (8 * n) -> get false (put false m a n v) a n = v.
Proof. intros N H. rewrite get_put by exact N. apply Z.mod_small. replace (256 ^ n) with (2 ^ (8 * n)) by (rewrite Z.pow_mul_r by lia; reflexivity). exact H. Qed.
Lemma get_put_here m a b n v : 0 <= n -> a = b -> 0 <= v < 2 ^ (8 * n) -> get false (put false m b n v) a n = v.
Proof. intros N -> H. apply get_put_fit; assumption. Qed.
Lemma pages size k : 0 <= k -> 4096 * k <= size -> k <= size / 4096.
Proof. intros H1 H2. apply Z.div_le_lower_bound; lia. Qed.

(** Tactics: a fact about an address without wrapping; registers after an update; the
    frame. *)
Ltac nowrap := unfold addr; cbn [rg]; rewrite ?wrap_id by lia.
Ltac regs := cbn [rg upd Nat.eqb SP BP AX CX DX R11].
Ltac keep := intros r Hr; unfold upd; repeat match goal with |- context [Nat.eqb r ?q] => destruct (Nat.eqb_spec r q); [subst; exfalso; apply Hr; cbn; tauto|] end.

(** Opens a row and closes the same row of the next state. *)
Ltac opens := repeat match goal with H : exists k, _ |- _ => destruct H as (?k & H) | H : _ /\ _ |- _ => destruct H end.
Ltac finish tac := repeat match goal with
  | |- _ /\ _ => split
  | k : Z |- exists _, _ => exists k
  end; tac.
(** Tactics for the steps: [F], [M], [O], [D4]... are the hypotheses of the step lemmas. *)
Ltac vals f := repeat match goal with H : f ?r = _ |- context [f ?r] => rewrite H end.
Ltac nowraps f := unfold addr; cbn [rg]; vals f; rewrite ?wrap_id by lia.
Ltac accs f := intros a' k' Q; cbn [accesses In] in Q; repeat destruct Q as [Q|Q]; try contradiction; injection Q as <- <-; unfold access; nowraps f; lia.
Ltac frm F := intros r Hr; cbn [rg]; unfold upd; repeat match goal with |- context [Nat.eqb r ?q] => destruct (Nat.eqb_spec r q); [subst; exfalso; apply Hr; cbn; tauto|] end; apply F; exact Hr.
Ltac rows f := cbn [pc rg mm fl upd Nat.eqb SP BP R11 AX CX DX Nat.ltb Nat.leb]; nowraps f.
Ltac byt := first [assumption|apply put_bytes; assumption].
Ltac mems f M := intros b Hb; cbn [pc mm Nat.ltb Nat.leb] in *; rewrite ?put_other by (nowraps f; lia); apply M; lia.
Ltac okay f O := apply (O _ _ _ (or_introl eq_refl)); nowraps f; lia.
Section P64.
Context (intr : bool) (ok : Z -> Prop) (s0 : state) (E size ret L : Z) (P : Z -> Prop).
Definition saved64 (s : state) : Prop := get false (mm s) (E - 8) 8 = rg s0 BP.
Definition row64 (s : state) (sp bp r11 : Z) : Prop := rg s SP = sp /\ rg s BP = bp /\ rg s R11 = r11.
Definition done64 (n : nat) (c : Z) : Prop := L <= E - size /\ ok (E - size) /\ Z.of_nat n <= c + 6 * (size / 4096).
Definition at64 (n : nat) (s : state) : Prop :=
  let N := Z.of_nat n in
  match pc s with
  | 0%nat => N = 0 /\ row64 s E (rg s0 BP) (rg s0 R11)
  | 1%nat => N = 1 /\ row64 s (E - 8) (rg s0 BP) (rg s0 R11) /\ saved64 s /\ P 0
  | 2%nat => N = 2 /\ row64 s (E - 8) (E - 8) (rg s0 R11) /\ saved64 s /\ P 0
  | 3%nat => N = 3 /\ row64 s (E - 8) (E - 8) size /\ saved64 s /\ P 0
  | 4%nat => N = 4 /\ row64 s (E - 8) (E - 8) size /\ saved64 s /\ P 0 /\ fl s = Some (size, 4096)
  | 5%nat => exists k, N = 5 + 6 * k /\ row64 s (E - 8 - 4096 * k) (E - 8) (size - 4096 * k) /\ saved64 s /\ 0 <= k /\ 4096 * (k + 1) < size /\ P k
  | 6%nat => exists k, N = 6 + 6 * k /\ row64 s (E - 8 - 4096 * k) (E - 8) (size - 4096 * k) /\ saved64 s /\ 0 <= k /\ 4096 * (k + 1) < size /\ P k
  | 7%nat => exists k, N = 7 + 6 * k /\ row64 s (E - 8 - 4096 * (k + 1)) (E - 8) (size - 4096 * k) /\ saved64 s /\ 0 <= k /\ 4096 * (k + 1) < size /\ P k
  | 8%nat => exists k, N = 8 + 6 * k /\ row64 s (E - 8 - 4096 * (k + 1)) (E - 8) (size - 4096 * k) /\ saved64 s /\ 0 <= k /\ 4096 * (k + 1) < size /\ P (k + 1)
  | 9%nat => exists k, N = 9 + 6 * k /\ row64 s (E - 8 - 4096 * (k + 1)) (E - 8) (size - 4096 * (k + 1)) /\ saved64 s /\ 0 <= k /\ 4096 * (k + 1) < size /\ P (k + 1)
  | 10%nat => exists k, N = 10 + 6 * k /\ row64 s (E - 8 - 4096 * (k + 1)) (E - 8) (size - 4096 * (k + 1)) /\ saved64 s /\ 0 <= k /\ 4096 * (k + 1) < size /\ P (k + 1) /\ fl s = Some (size - 4096 * (k + 1), 4096)
  | 11%nat => exists k, N = 5 + 6 * k /\ row64 s (E - 8 - 4096 * k) (E - 8) (size - 4096 * k) /\ saved64 s /\ 0 <= k /\ 0 <= size - 4096 * k <= 4096 /\ P k
  | 12%nat => exists k, N = 6 + 6 * k /\ row64 s (E - 8 - 4096 * k) (E - 8) (size - 4096 * k) /\ saved64 s /\ 0 <= k /\ 0 <= size - 4096 * k <= 4096 /\ P k
  | 13%nat => exists k, N = 7 + 6 * k /\ row64 s (E - 8 - size) (E - 8) (size - 4096 * k) /\ saved64 s /\ 0 <= k /\ 0 <= size - 4096 * k <= 4096 /\ P k
  | 14%nat => rg s SP = E - 8 - size /\ rg s BP = E - 8 /\ saved64 s /\ done64 n 8
  | 15%nat => rg s SP = E - 8 /\ rg s BP = E - 8 /\ saved64 s /\ done64 n 9
  | 16%nat => rg s SP = E /\ rg s BP = rg s0 BP /\ done64 n 10
  | 17%nat => rg s SP = E + 8 /\ rg s BP = rg s0 BP /\ rg s R11 = ret /\ done64 n 11
  | 18%nat => rg s SP = E + 8 /\ rg s BP = rg s0 BP /\ rg s R11 = ret /\ done64 n 12
  | _ => False
  end.
Definition inv64 (n : nat) (s : state) : Prop :=
  frame [SP; BP; R11] s0 s /\ bytes (mm s) /\ (forall b, (if Nat.ltb 16 (pc s) then E + 8 else E) <= b -> mm s b = mm s0 b) /\ at64 n s.
Context (He : entry 8 (fun _ => True) E size ret s0) (Hd : depth ok 8 E size E L P).

Lemma inv64_start : inv64 0 s0.
Proof.
  destruct He as (H0 & H1 & H2 & H3 & H4 & H5 & H6 & _). split; [intros r _; reflexivity|]. split; [exact H4|]. split; [reflexivity|].
  unfold at64. rewrite H0. repeat split; assumption.
Qed.
Lemma inv64_intr n s m : inv64 n s -> bytes m -> (forall b, rg s SP <= b -> m b = mm s b) -> inv64 n (St (pc s) (rg s) m (fl s)).
Proof.
  destruct s as [p f mm x]. intros (F & B & M & I) Bm H. cbn [pc rg ProbeModel.mm fl] in *. destruct Hd as [D0 D1 D2 D3 D4 D5 D6 D7].
  split; [exact F|]. split; [exact Bm|]. unfold at64, row64, saved64 in *. cbn [pc rg ProbeModel.mm fl] in *.
  do 19 (destruct p as [|p]; [solve [clear F; cbn [Nat.ltb Nat.leb] in *;
    (split; [intros b Hb; rewrite H; [apply M; lia|opens; lia]|]); opens; finish ltac:(first [assumption|transitivity (get false mm (E - 8) 8); [apply get_ext; [lia|intros; apply H; lia]|assumption]])]|]).
  destruct I.
Qed.

(** What [n] instructions with some rounds amount to. *)
Lemma count64 n s : inv64 n s -> Z.of_nat n < 30 + 6 * (size / 4096) /\ (pc s < 19)%nat.
Proof.
  destruct Hd as [D0 D1 D2 D3 D4 D5 D6 D7]. assert (0 <= size / 4096) as Q by (apply Z.div_pos; lia).
  destruct s as [p f m x]. intros (_ & _ & _ & I). unfold at64, done64 in I. cbn [pc] in *. clear D4 D5 D6 D7.
  do 19 (destruct p as [|p]; [solve [opens; try (assert (k <= size / 4096) by (apply pages; lia)); lia]|]). destruct I.
Qed.
Definition res64 : nat -> Z -> state -> Prop := ends 8 false [R11] 0 ok s0 E size ret L.
Lemma inv64_step code n s i : code = probe64 \/ code = probe64_sgx -> inv64 n s -> nth_error code (pc s) = Some i ->
    (forall a k, In (a, k) (accesses 8 i s) -> access 8 E size L a k) /\
    ((forall a k b, In (a, k) (accesses 8 i s) -> a <= b < a + k -> ok b) ->
     match effect 8 code i s with
     | Some (Running s') => inv64 (S n) s'
     | Some (Left t s') => res64 (S n) t s'
     | _ => False
     end).
Proof.
  destruct He as (H0 & H1 & H2 & H3 & H4 & H5 & H6 & _). destruct Hd as [D0 D1 D2 D3 D4 D5 D6 D7].
  pose proof (H5 BP) as R1. pose proof (H5 AX) as R2. rewrite H2 in R2. change (2 ^ (8 * 8)) with 18446744073709551616 in *.
  assert (wrap 8 (E - 8) = E - 8) as W by (apply wrap_id; lia).
  destruct s as [p f m x]. intros Hcode (F & B & M & I) Hi. cbn [pc rg mm fl] in *. unfold at64, row64, saved64 in I. cbn [pc rg mm fl] in *.
  assert (f AX = size) as A by (rewrite <- H2; apply F; cbn; intuition discriminate).
  assert (forall code', code' = code -> label code' 2 = 5%nat /\ label code' 3 = 11%nat) as Lb by (intros ? ->; destruct Hcode as [-> | ->]; split; reflexivity).
  destruct (Lb code eq_refl) as [L2 L3]. clear Lb.
  Ltac s64 f F M O D4 D6 :=
    cbn [effect go]; (split; [frm F|]); (split; [byt|]); (split; [mems f M|]); unfold at64, row64, saved64; rows f;
    finish ltac:(first [assumption|reflexivity|lia
      |apply D4; intros; okay f O|apply D6; [lia|assumption|lia|okay f O]
      |rewrite get_put_fit; [vals f; reflexivity|lia|change (2 ^ (8 * 8)) with 18446744073709551616; vals f; lia]
      |rewrite get_put_other by lia; assumption|idtac]).
  (* the straight parts *)
  Ltac i64 Hcode Hi D5 := destruct Hcode as [-> | ->]; cbn in Hi; injection Hi as <-; opens;
    repeat match goal with H : 0 <= ?k, H' : ?Q ?k |- _ => lazymatch type of (D5 k H H') with _ <= _ => pose proof (D5 k H H'); revert H' end end;
    repeat match goal with H : 0 <= ?k, H' : ?Q (?k + 1) |- _ => lazymatch type of (D5 (k + 1) ltac:(lia) H') with _ <= _ => pose proof (D5 (k + 1) ltac:(lia) H'); revert H' end end; intros.
  do 4 (destruct p as [|p]; [i64 Hcode Hi D5; (split; [accs f|]); intros O; s64 f F M O D4 D6|]).
  (* 4: jna *)
  destruct p as [|p].
  { i64 Hcode Hi D5; (split; [accs f|]); intros O; cbn [effect]; unfold jump; cbn [fl pc rg mm]; subst x; cbv beta iota; rewrite L3; destruct (Z.leb_spec size 4096).
    all: (split; [frm F|]); (split; [byt|]); (split; [mems f M|]); unfold at64, row64, saved64; rows f; exists 0; finish ltac:(first [assumption|lia]). }
  do 5 (destruct p as [|p]; [i64 Hcode Hi D5; (split; [accs f|]); intros O; s64 f F M O D4 D6|]).
  (* 10: ja *)
  destruct p as [|p].
  { i64 Hcode Hi D5; (split; [accs f|]); intros O; cbn [effect]; unfold jump; cbn [fl pc rg mm]; subst x; cbv beta iota; rewrite L2; destruct (Z.ltb_spec 4096 (size - 4096 * (k + 1))).
    all: (split; [frm F|]); (split; [byt|]); (split; [mems f M|]); unfold at64, row64, saved64; rows f; exists (k + 1); finish ltac:(first [assumption|lia]). }
  do 2 (destruct p as [|p]; [i64 Hcode Hi D5; (split; [accs f|]); intros O; s64 f F M O D4 D6|]).
  (* 13: test *)
  destruct p as [|p].
  { i64 Hcode Hi D5; (split; [accs f|]); intros O; cbn [effect go]; (split; [frm F|]); (split; [byt|]); (split; [mems f M|]); unfold at64, row64, saved64, done64; rows f;
    assert (k <= size / 4096) by (apply pages; lia); finish ltac:(first [assumption|lia|okay f O]). }
  unfold done64 in I.
  do 2 (destruct p as [|p]; [i64 Hcode Hi D5; (split; [accs f|]); intros O; cbn [effect go]; (split; [frm F|]); (split; [byt|]); (split; [mems f M|]); unfold at64, row64, saved64, done64; rows f;
    finish ltac:(first [assumption|lia])|]).
  assert (get false m E 8 = ret \/ (0 < p)%nat) as G.
  { destruct p; [left|right; lia]. rewrite <- H3. apply get_ext; [lia|]. intros b Hb. apply M. cbn [Nat.ltb Nat.leb]. lia. }
  (* 16: ret or pop *)
  destruct p as [|p].
  { destruct G as [G|G]; [|lia]. destruct Hcode as [-> | ->]; cbn in Hi; injection Hi as <-; opens; (split; [accs f|]); intros O; cbn [effect go].
    - unfold res64, ends. rows f. rewrite G. finish ltac:(first [assumption|reflexivity|lia|idtac]).
      + intros r N1 N2. unfold upd. destruct (Nat.eqb_spec r SP); [contradiction|]. destruct (Nat.eq_dec r BP) as [->|]; [assumption|]. apply F. cbn in *. intuition.
      + intros b Hb. apply M. cbn. lia.
      + rewrite Z.add_0_r. assumption.
    - (split; [frm F|]); (split; [byt|]); (split; [mems f M|]); unfold at64, row64, saved64, done64; rows f; finish ltac:(first [assumption|lia]). }
  (* 17, 18: the SGX ending *)
  destruct p as [|p].
  { destruct Hcode as [-> | ->]; cbn in Hi; [discriminate|]; injection Hi as <-; opens; (split; [accs f|]); intros O; cbn [effect go].
    (split; [frm F|]); (split; [byt|]); (split; [mems f M|]); unfold at64, row64, saved64, done64; rows f; finish ltac:(first [assumption|lia]). }
  destruct p as [|p]; [|destruct I].
  destruct Hcode as [-> | ->]; cbn in Hi; [discriminate|]; injection Hi as <-; opens; (split; [accs f|]); intros O; cbn [effect go].
  unfold res64, ends. rows f. finish ltac:(first [assumption|reflexivity|lia|idtac]).
  - intros r N1 N2. destruct (Nat.eq_dec r BP) as [->|]; [assumption|]. apply F. cbn in *. intuition.
  - rewrite Z.add_0_r. assumption.
Qed.
End P64.
