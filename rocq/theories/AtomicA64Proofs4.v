(** The aarch64 outline atomics: the simulations, and completion. *)
From Coq Require Import ZArith Bool List Lia.
From Verif Require Import Base BaseLemmas AtomicSpec AtomicModel AtomicProofs AtomicProofs2 AtomicProofs3 AtomicProofs4 AtomicProofs5 AtomicA64Model AtomicA64Proofs AtomicA64Proofs2 AtomicA64Proofs3.
Open Scope Z_scope.
Import ListNotations.

Definition a64_ok (c : call) : Prop := valid [1; 2; 4; 8; 16] 64 c /\ a64_exported c.
Lemma a64_small c : a64_ok c -> 0 < size_of c /\ (size_of c <> 16 -> small (size_of c)).
Proof. intros [(H & _) _]. unfold small. cbn in H. lia. Qed.

Section All.
Context (big whole : bool).
Definition a_inv (t : nat) (s : shared) (c : call) (l : local) : Prop :=
  match c with
  | Rmw Xchg _ n a v => inv_swp big t n a v s l
  | Rmw o _ n a v => inv_op big t o n a v s l
  | Cas n a old new => if n =? 16 then inv_16 big whole t a old new s l else inv_cas big t n a old new s l
  | Load n a => half l = None /\ reg l 1 = a /\ (pc l = 0%nat \/ pc l = 1%nat /\ fits n (reg l 0))
  | Store n a v => half l = None /\ reg l 1 = a /\ (pc l = 0%nat /\ holds n l 0 v \/ pc l = 1%nat)
  end.
Definition a_lin (c : call) (l : local) : option outcome :=
  match c with
  | Rmw Xchg _ _ _ _ => lin_swp l
  | Rmw _ _ _ _ _ => lin_op l
  | Cas n _ _ _ => if n =? 16 then lin_16 big whole l else lin_cas l
  | Load _ _ => if Nat.eqb (pc l) 1 then Some (Some (reg l 0)) else None
  | Store _ _ _ => if Nat.eqb (pc l) 1 then Some (Some 0) else None
  end.

Lemma a_step t s c l s' l' : a64_ok c -> bytes (sh_mem s) -> a_inv t s c l -> astep big whole (a64_code c) t s l s' l' ->
  a_inv t s' c l' /\ bytes (sh_mem s') /\ effect big whole c s s' (a_lin c l) (a_lin c l').
Proof.
  intros Hc B HI HS. destruct (a64_small c Hc) as [Sz0 Sz]. destruct Hc as [(_ & Ha & Hm & Hv) Hx].
  destruct c as [o new n a v|n a old new|n a|n a v]; cbn [size_of addr_of] in *.
  - destruct Hx as (-> & N16 & Ho). specialize (Sz N16).
    destruct Ho as [->|[->|[->|[->| ->]]]]; cbn [a64_code a_inv a_lin] in *; first [apply step_swp; assumption | eapply step_op; eassumption || reflexivity].
  - cbn [a64_code a_inv a_lin] in *. destruct (Z.eqb_spec n 16) as [->|N16]; [apply step_16; assumption|apply step_cas; auto].
  - cbn [a_inv a_lin] in *. destruct l as [p r z h]. cbn [half pc reg] in *. destruct HI as (-> & Hr & [->|[-> F]]); unfold astep in HS; cbn [half pc nth_error a64_code istep reg] in HS; [|contradiction].
    destruct HS as (-> & ->). cbn [half pc reg next goto set upd Nat.eqb]. rewrite Hr. split; [split; [reflexivity|]; split; [reflexivity|]; right; split; [reflexivity|]; apply get_range; [lia|exact B]|].
    split; [exact B|]. right. split; [reflexivity|]. split; [apply same_refl|]. left. reflexivity.
  - cbn [a_inv a_lin] in *. destruct l as [p r z h]. cbn [half pc reg] in *. destruct HI as (-> & Hr & [[-> Hh]| ->]); unfold astep in HS; cbn [half pc nth_error a64_code istep reg] in HS; [|contradiction].
    destruct HS as (-> & ->). cbn [half pc reg next goto set upd Nat.eqb]. rewrite Hr. split; [split; [reflexivity|]; split; [reflexivity|]; right; reflexivity|].
    split; [apply write_bytes; exact B|]. right. split; [reflexivity|]. split; [|left; reflexivity]. apply put_holds; assumption.
Qed.

Lemma held_mono t s s' a n x : 0 <= n -> (sh_mon s' t = Some (a, n) -> sh_mon s t = Some (a, n) /\ forall j o, 0 <= o -> 0 <= j -> o + j <= n -> get big (sh_mem s') (a + o) j = get big (sh_mem s) (a + o) j) ->
  held big t s a n x -> held big t s' a n x.
Proof. intros Hn H He M. destruct (H M) as [M' G]. specialize (G n 0 ltac:(lia) ltac:(lia) ltac:(lia)). rewrite Z.add_0_r in G. rewrite G. exact (He M'). Qed.
Lemma a_mono t s s' c l : a64_ok c ->
  (sh_mon s' t = Some (addr_of c, size_of c) -> sh_mon s t = Some (addr_of c, size_of c) /\ forall j o, 0 <= o -> 0 <= j -> o + j <= size_of c -> get big (sh_mem s') (addr_of c + o) j = get big (sh_mem s) (addr_of c + o) j) ->
  a_inv t s c l -> a_inv t s' c l.
Proof.
  intros Hc H. destruct (a64_small c Hc) as [Sz0 _]. pose proof (fun x => held_mono t s s' (addr_of c) (size_of c) x ltac:(lia) H) as M.
  destruct c as [o new n a v|n a old new|n a|n a v]; cbn [a_inv addr_of size_of] in *; try tauto.
  - destruct o; unfold inv_swp, inv_op; intros (H1 & H2 & H3); (split; [exact H1|]; split; [exact H2|]); destruct (pc l) as [|[|[|[|[|[|[|[|[|[|[|[|[|p]]]]]]]]]]]]]; try exact H3; intuition.
  - destruct (Z.eqb_spec n 16) as [->|N].
    + intros (H1 & H2 & H3). split; [exact H1|]. split; [exact H2|]. destruct (half l) as [[d b]|].
      * destruct H3 as (E1 & E2 & E3 & H3). split; [exact E1|]. split; [exact E2|]. split; [exact E3|]. destruct H3 as [(E4 & E5 & E6 & H3)|(E4 & E5 & E6 & H3)]; [left|right]; (split; [exact E4|]; split; [exact E5|]; split; [exact E6|]); intros M'; destruct (H M') as [M0 G].
        -- specialize (G 8 0 ltac:(lia) ltac:(lia) ltac:(lia)). rewrite Z.add_0_r in G. rewrite G. exact (H3 M0).
        -- specialize (G 8 8 ltac:(lia) ltac:(lia) ltac:(lia)). rewrite G. exact (H3 M0).
      * destruct (pc l) as [|[|[|[|[|[|[|[|[|[|[|[|[|[|[|[|[|p]]]]]]]]]]]]]]]]]; try exact H3; intuition.
    + unfold inv_cas. intros (H1 & H2 & H3 & H4). split; [exact H1|]. split; [exact H2|]. split; [exact H3|]. destruct (pc l) as [|[|[|[|[|[|[|[|[|[|[|[|[|[|[|p]]]]]]]]]]]]]]]; try exact H4; intuition.
Qed.
Lemma a_lose t u s c l : a64_ok c -> a_inv t s c l -> a_inv t (set_mon u None s) c l.
Proof. intros Hc. apply a_mono; [exact Hc|]. cbn [set_mon sh_mon sh_mem]. unfold upd. destruct (Nat.eqb_spec t u); [discriminate|auto]. Qed.
Lemma a_other t u s c l s' l' c' k : u <> t -> a64_ok c' -> astep big whole (a64_code c) t s l s' l' -> a_inv u s c' k -> a_inv u s' c' k.
Proof.
  intros N Hc' HS. apply a_mono; [exact Hc'|]. intros M. destruct (a64_small c' Hc'). eapply astep_other; [exact N|lia|exact HS|exact M].
Qed.
Lemma a_start t s c l : a64_ok c -> a64_starts big c l -> a_inv t s c l /\ a_lin c l = None.
Proof.
  intros Hc (H1 & H2 & H3 & H4). destruct Hc as [(_ & Ha & Hm & Hv) Hx].
  destruct c as [o new n a v|n a old new|n a|n a v]; cbn [a_inv a_lin size_of addr_of] in *.
  - unfold inv_swp, inv_op, lin_swp, lin_op. rewrite H1. destruct o; split; try reflexivity; intuition.
  - inversion Hv as [|? ? Hv0 _]; subst. unfold inv_16, inv_cas, lin_16, lin_cas. rewrite H1, H2. destruct (n =? 16); split; try reflexivity; repeat split; try apply H4; try apply Hv0; apply H3.
  - rewrite H1. split; [|reflexivity]. auto.
  - rewrite H1. split; [|reflexivity]. tauto.
Qed.
Lemma a_result t s c l v : a64_ok c -> a_inv t s c l -> a64_result big c l = Some v ->
  a_lin c l = Some (Some v) \/ a_lin c l = Some None /\ exists a old new, c = Cas 16 a old new /\ v <> old.
Proof.
  intros Hc HI HR. destruct (a64_small c Hc) as [Sz0 Sz]. destruct Hc as [(_ & Ha & Hm & Hv) Hx].
  unfold a64_result in HR. destruct (half l) as [[d b]|] eqn:Hh; [discriminate|].
  destruct c as [o new n a w|n a old new|n a|n a w]; cbn [size_of addr_of a_inv a_lin] in *.
  - destruct Hx as (-> & N16 & Ho). apply Z.eqb_neq in N16. rewrite N16 in HR. left.
    destruct Ho as [->|[->|[->|[->| ->]]]]; cbn [a64_code] in HR; unfold inv_swp, inv_op, lin_swp, lin_op in *;
      destruct (pc l) as [|[|[|[|[|[|[|[|[|[|[|[|[|p]]]]]]]]]]]]]; cbn in HR; try discriminate HR; try (destruct HI as (_ & _ & []); fail);
      destruct HI as (_ & _ & F); injection HR as <-; rewrite Z.mod_small by exact F; reflexivity.
  - cbn [a64_code] in HR. destruct (Z.eqb_spec n 16) as [->|N16].
    + destruct HI as (H1 & H2 & H3). unfold lin_16. rewrite Hh in *. destruct (pc l) as [|[|[|[|[|[|[|[|[|[|[|[|[|[|[|[|[|p]]]]]]]]]]]]]]]]]; cbn [nth_error compare_and_swap_u128 try_lse_op app] in HR; try discriminate HR; try contradiction.
      * injection HR as <-. left. reflexivity.
      * injection HR as <-. destruct H3 as ((K1 & K2 & K3) & X0 & X1). unfold fail16, res16. destruct (both l) eqn:Eb; [left; reflexivity|]. destruct whole; [left; reflexivity|right].
        split; [reflexivity|]. eexists _, _, _. split; [reflexivity|]. rewrite <- K3. intros E. apply pair_inj in E as [E0 E1]; try assumption. unfold both in Eb. rewrite E0, E1, !Z.eqb_refl in Eb. discriminate.
    + left. destruct HI as (H1 & H2 & H3 & H4). unfold lin_cas. destruct (pc l) as [|[|[|[|[|[|[|[|[|[|[|[|[|[|[|p]]]]]]]]]]]]]]]; cbn [nth_error compare_and_swap try_lse_op app] in HR; try discriminate HR; try contradiction;
        injection HR as <-; rewrite Z.mod_small by exact H4; reflexivity.
  - apply Z.eqb_neq in Hx. rewrite Hx in HR. destruct HI as (_ & _ & [E|[E F]]); rewrite E in *; cbn in HR; [discriminate|]. injection HR as <-. left. rewrite Z.mod_small by exact F. reflexivity.
  - destruct HI as (_ & _ & [[E _]|E]); rewrite E in *; cbn in HR; [discriminate|]. injection HR as <-. left. reflexivity.
Qed.
Lemma no_miss t s c l : a64_ok c -> whole = true \/ size_of c <> 16 -> a_inv t s c l -> a_lin c l <> Some None.
Proof.
  intros Hc H HI. destruct c as [o new n a w|n a old new|n a|n a w]; cbn [size_of a_inv a_lin] in *.
  - unfold lin_swp, lin_op. destruct o; destruct (pc l) as [|[|[|[|[|[|[|[|[|[|[|[|[|p]]]]]]]]]]]]]; try discriminate; destruct (_ =? _); discriminate.
  - destruct (Z.eqb_spec n 16) as [->|N16].
    + destruct H as [H|H]; [|contradiction]. destruct HI as (_ & _ & H3). unfold lin_16, fail16, res16 in *. rewrite H in *. destruct (half l) as [[d b]|]; [destruct H3 as (_ & _ & H3 & _); discriminate|].
      destruct (pc l) as [|[|[|[|[|[|[|[|[|[|[|[|[|[|[|[|[|p]]]]]]]]]]]]]]]]]; try discriminate; try (destruct (both l); discriminate); try (destruct (zf l); discriminate); destruct (_ =? _); discriminate.
    + unfold lin_cas. destruct (pc l) as [|[|[|[|[|[|[|[|[|[|[|[|[|[|[|p]]]]]]]]]]]]]]]; try discriminate; try (destruct (zf l); discriminate); destruct (_ =? _); discriminate.
  - destruct (Nat.eqb _ _); discriminate.
  - destruct (Nat.eqb _ _); discriminate.
Qed.

(** Executions whose calls satisfy a further condition. *)
Lemma exec_more {L} (ok ok' : call -> Prop) starts tstep (result : call -> L -> option Z) m0 h s ts :
  exec ok starts tstep result m0 h s ts -> (forall c, In c (calls h) -> ok' c) -> exec (fun c => ok c /\ ok' c) starts tstep result m0 h s ts.
Proof.
  intros H. induction H as [|h s ts t c l H IH Ht Hc Hl|h s ts t c l s' l' H IH Ht Hs|h s ts t H IH|h s ts t c l v H IH Ht Hr]; intros F.
  - constructor.
  - rewrite calls_snoc in F. eapply ex_call; [apply IH; intros; apply F, in_or_app; auto|exact Ht|split; [exact Hc|apply F, in_or_app; right; left; reflexivity]|exact Hl].
  - eapply ex_step; eauto.
  - eapply ex_lose; eauto.
  - rewrite calls_snoc, app_nil_r in F. eapply ex_return; eauto.
Qed.
Lemma atomic_less (ok ok' : call -> Prop) m0 h m ts : (forall c, ok c -> ok' c) -> atomic big ok m0 h m ts -> atomic big ok' m0 h m ts.
Proof. intros I H. induction H; [apply at_init|apply at_call; auto|apply at_effect; auto|apply at_return; auto]. Qed.

Definition s_lin (c : call) (l : local) : option Z := match a_lin c l with Some (Some v) => Some v | _ => None end.
Lemma a64_simulation m0 h s ts : bytes m0 -> a64_exec big whole m0 h s ts -> whole = true \/ (forall c, In c (calls h) -> size_of c <> 16) ->
  bytes (sh_mem s) /\ (forall t c l, ts t = Some (c, l) -> a64_ok c /\ a_inv t s c l) /\
  exists m as_, atomic big a64_ok m0 h m as_ /\ same (sh_mem s) m /\ forall t, as_ t = abs s_lin (ts t).
Proof.
  intros B0 H HW. unfold a64_exec in H.
  apply (exec_more _ (fun c => whole = true \/ size_of c <> 16)) in H; [|intros c Hc; destruct HW as [->|HW]; [left; reflexivity|right; apply HW; exact Hc]].
  set (okk := fun c => a64_ok c /\ (whole = true \/ size_of c <> 16)).
  pose (inv := fun t s c l => okk c /\ a_inv t s c l).
  destruct (simulation big okk (a64_starts big) (fun c => astep big whole (a64_code c)) (a64_result big) inv s_lin) with (m0 := m0) (h := h) (s := s) (ts := ts) as (B & I & m & as_ & A & E & F).
  - intros c [Hc _]. destruct (a64_small c Hc). lia.
  - intros t s0 c l Hc Hl _. destruct (a_start t s0 c l (proj1 Hc) Hl) as [I L]. split; [split; assumption|]. unfold s_lin. rewrite L. reflexivity.
  - intros t s0 c l v [Hc Hi] HR. unfold s_lin. destruct (a_result t s0 c l v (proj1 Hc) Hi HR) as [->|[E _]]; [reflexivity|]. destruct (no_miss t s0 c l (proj1 Hc) (proj2 Hc) Hi E).
  - intros t u s0 c l [Hc Hi]. split; [exact Hc|]. apply a_lose; [exact (proj1 Hc)|exact Hi].
  - intros t s0 c l s' l' Hc B [_ Hi] HS. destruct (a_step t s0 c l s' l' (proj1 Hc) B Hi HS) as (I' & B' & Ef). split; [split; assumption|]. split; [exact B'|]. unfold s_lin.
    destruct Ef as [[Sm ->]|(L0 & Sm & [->|(_ & W & a & old & new & -> & _)])]; [left; auto|right; rewrite L0; auto|].
    exfalso. destruct Hc as [_ [W'|W']]; [congruence|cbn in W'; contradiction].
  - intros t u s0 c l s' l' c' k N Hc Hc' B Hi HS [_ Hk]. split; [exact Hc'|]. exact (a_other t u s0 c l s' l' c' k N (proj1 Hc') HS Hk).
  - exact B0.
  - exact H.
  - split; [exact B|]. split; [intros t c l Ht; destruct (I t c l Ht) as [[Hc _] [_ Hi]]; auto|]. exists m, as_. split; [|auto]. eapply atomic_less; [|exact A]. intros c [Hc _]. exact Hc.
Qed.

(** Both kinds of load-exclusive pair: the weaker specification. *)
Definition wabs (x : option (call * local)) : wstate :=
  match x with
  | None => WIdle
  | Some (c, l) => match a_lin c l with
                   | None => WPending c
                   | Some (Some v) => WFinished v
                   | Some None => match c with Cas _ _ old _ => WFailed old | _ => WIdle end
                   end
  end.
Lemma weak_simulation m0 h s ts : bytes m0 -> a64_exec big whole m0 h s ts ->
  bytes (sh_mem s) /\ (forall t c l, ts t = Some (c, l) -> a64_ok c /\ a_inv t s c l) /\
  exists m as_, weak big a64_ok m0 h m as_ /\ same (sh_mem s) m /\ forall t, as_ t = wabs (ts t).
Proof.
  intros B0 H. unfold a64_exec in H. induction H as [|h s ts t c l H IH Ht Hc Hl|h s ts t c l s' l' H IH Ht Hs|h s ts t H IH|h s ts t c l v H IH Ht Hr].
  - split; [exact B0|]. split; [discriminate|]. exists m0, (fun _ => WIdle). split; [constructor|]. split; [intros b; reflexivity|reflexivity].
  - destruct IH as (B & I & m & as_ & A & E & F). split; [exact B|]. destruct (a_start t s c l Hc Hl) as [I0 R0]. split.
    + intros u c' l'. destruct (Nat.eq_dec u t) as [->|N]; [rewrite upd_same; intros [= <- <-]; auto|rewrite upd_other by exact N; apply I].
    + exists m, (upd as_ t (WPending c)). split; [apply we_call; [exact A|rewrite F, Ht; reflexivity|exact Hc]|]. split; [exact E|].
      intros u. destruct (Nat.eq_dec u t) as [->|N]; [rewrite !upd_same; cbn; rewrite R0; reflexivity|rewrite !upd_other by exact N; apply F].
  - destruct IH as (B & I & m & as_ & A & E & F). destruct (I t c l Ht) as [Hc Hi].
    destruct (a_step t s c l s' l' Hc B Hi Hs) as (I' & B' & C). split; [exact B'|]. split.
    + intros u c' k. destruct (Nat.eq_dec u t) as [->|N]; [rewrite upd_same; intros [= <- <-]; auto|rewrite upd_other by exact N].
      intros Hu. destruct (I u c' k Hu) as [Hc' Hk]. split; [exact Hc'|]. exact (a_other t u s c l s' l' c' k N Hc' Hs Hk).
    + destruct C as [[C1 C2]|(R0 & C1 & C2)].
      * exists m, as_. split; [exact A|]. split; [intros b; rewrite C1; apply E|].
        intros u. destruct (Nat.eq_dec u t) as [->|N]; [rewrite upd_same, F, Ht; cbn; rewrite C2; reflexivity|rewrite upd_other by exact N; apply F].
      * destruct (a64_small c Hc) as [Sz _]. destruct (sem_same big c (sh_mem s) m ltac:(lia) E) as [S1 S2]. destruct C2 as [C2|(C2 & _ & a & old & new & -> & NE)].
        -- exists (fst (sem big c m)), (upd as_ t (WFinished (snd (sem big c m)))).
           split; [apply we_effect; [exact A|rewrite F, Ht; cbn; rewrite R0; reflexivity]|].
           split; [intros b; rewrite C1; apply S1|].
           intros u. destruct (Nat.eq_dec u t) as [->|N]; [rewrite !upd_same; cbn; rewrite C2, S2; reflexivity|rewrite !upd_other by exact N; apply F].
        -- rewrite (get_same big (sh_mem s) m) in NE by (lia || exact E). exists m, (upd as_ t (WFailed old)). split; [|split].
           ++ eapply we_fail; [exact A|rewrite F, Ht; unfold wabs; rewrite R0; reflexivity|exact NE].
           ++ intros b. rewrite C1, S1. cbn [sem fst]. apply Z.eqb_neq in NE. rewrite NE. reflexivity.
           ++ intros u. destruct (Nat.eq_dec u t) as [->|N]; [rewrite !upd_same; unfold wabs; rewrite C2; reflexivity|rewrite !upd_other by exact N; apply F].
  - destruct IH as (B & I & m & as_ & A & E & F). split; [exact B|]. split; [|exists m, as_; auto].
    intros u c l Hu. destruct (I u c l Hu) as [Hc Hi]. split; [exact Hc|apply a_lose; [exact Hc|exact Hi]].
  - destruct IH as (B & I & m & as_ & A & E & F). split; [exact B|]. destruct (I t c l Ht) as [Hc Hi]. split.
    + intros u c' l'. destruct (Nat.eq_dec u t) as [->|N]; [rewrite upd_same; discriminate|rewrite upd_other by exact N; apply I].
    + exists m, (upd as_ t WIdle). split; [|split; [exact E|]].
      * destruct (a_result t s c l v Hc Hi Hr) as [R|(R & a & old & new & -> & NE)].
        -- apply we_return; [exact A|]. rewrite F, Ht. cbn. rewrite R. reflexivity.
        -- apply we_return_other with (old := old); [exact A| |exact NE]. rewrite F, Ht. unfold wabs. rewrite R. reflexivity.
      * intros u. destruct (Nat.eq_dec u t) as [->|N]; [rewrite !upd_same; reflexivity|rewrite !upd_other by exact N; apply F].
Qed.
End All.
