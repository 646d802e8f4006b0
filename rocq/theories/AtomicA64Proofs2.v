(** The aarch64 outline atomics: invariants and steps of the functions on 1 to 8 bytes. *)
From Coq Require Import ZArith Bool List Lia.
From Verif Require Import Base BaseLemmas AtomicSpec AtomicModel AtomicProofs AtomicProofs2 AtomicProofs3 AtomicProofs4 AtomicA64Model AtomicA64Proofs.
Open Scope Z_scope.
Import ListNotations.

(** The outcome of a call that has taken effect: [Some v], or [None] for a failed 16-byte
    compare-and-swap whose result is not determined yet. *)
Definition outcome := option Z.
Definition held (big : bool) (t : nat) (s : shared) (a n x : Z) : Prop := sh_mon s t = Some (a, n) -> get big (sh_mem s) a n = x.
Definition fits n x := 0 <= x < 256 ^ n.
(** What a step does to the abstract call. *)
Definition effect (big whole : bool) (c : call) (s s' : shared) (x x' : option outcome) : Prop :=
  same (sh_mem s') (sh_mem s) /\ x' = x \/
  x = None /\ same (sh_mem s') (fst (sem big c (sh_mem s))) /\
    (x' = Some (Some (snd (sem big c (sh_mem s)))) \/
     x' = Some None /\ whole = false /\ exists a old new, c = Cas 16 a old new /\ get big (sh_mem s) a 16 <> old).
Lemma silent big whole c s x : effect big whole c s s x x.
Proof. left. split; [apply same_refl|reflexivity]. Qed.
Lemma silent_mon big whole c t m s x : effect big whole c s (set_mon t m s) x x.
Proof. left. split; [apply same_refl|reflexivity]. Qed.
Lemma put_holds big m a n w v : 0 < n -> w mod 256 ^ n = v -> same (put big m a n w) (put big m a n v).
Proof. intros Hn <- b. symmetry. apply put_mod. lia. Qed.
Lemma upd_eq {A} (f : nat -> A) t u x : upd f t x u = if Nat.eqb u t then x else f u. Proof. reflexivity. Qed.

Ltac open H := unfold astep in H; cbn [half pc nth_error swap fetch_op compare_and_swap compare_and_swap_u128 try_lse_op app istep label Nat.eqb goto next set setz set_half reg zf] in H.
Ltac regs := unfold holds, rd in *; cbn [half pc goto next set setz set_half reg zf upd Nat.eqb] in *.

Section Step.
Context (big whole : bool) (t : nat).

(** swap! *)
Definition inv_swp (n a v : Z) (s : shared) (l : local) : Prop :=
  half l = None /\ reg l 1 = a /\
  match pc l with
  | (0 | 1 | 2 | 3 | 5 | 6)%nat => holds n l 0 v
  | (7 | 8)%nat => holds n l 16 v
  | (9)%nat => holds n l 16 v /\ fits n (reg l 0) /\ held big t s a n (reg l 0)
  | (10)%nat => holds n l 16 v /\ fits n (reg l 0) /\ (reg l 17 = 0 \/ reg l 17 = 1)
  | (4 | 11)%nat => fits n (reg l 0)
  | _ => False
  end.
Definition lin_swp (l : local) : option outcome :=
  match pc l with
  | (4 | 11)%nat => Some (Some (reg l 0))
  | (10)%nat => if reg l 17 =? 0 then Some (Some (reg l 0)) else None
  | _ => None
  end.
Lemma step_swp n a v s l s' l' : small n -> bytes (sh_mem s) -> inv_swp n a v s l -> astep big whole (swap n) t s l s' l' ->
  inv_swp n a v s' l' /\ bytes (sh_mem s') /\ effect big whole (Rmw Xchg false n a v) s s' (lin_swp l) (lin_swp l').
Proof.
  intros S B HI HS. destruct (small_width n S) as [Hn W]. pose proof (get_range big (sh_mem s) a n ltac:(lia) B) as GR.
  destruct l as [p r z h]. destruct HI as (Hh & Ha & HI). cbn [half reg pc] in *. subst h.
  destruct p as [|[|[|[|[|[|[|[|[|[|[|[|p]]]]]]]]]]]]; open HS; try contradiction.
  - destruct HS as (-> & w & Hw & ->). split; [repeat split; assumption|]. split; [exact B|apply silent].
  - destruct HS as (-> & w & Hw & ->). split; [repeat split; assumption|]. split; [exact B|apply silent].
  - destruct HS as (-> & ->). destruct (_ =? _); (split; [repeat split; assumption|]; split; [exact B|apply silent]).
  - destruct HS as (-> & ->). rewrite Ha in *. split; [split; [reflexivity|]; split; [exact Ha|exact GR]|]. split; [apply write_bytes; exact B|].
    right. split; [reflexivity|]. split; [|left; reflexivity]. apply put_holds; assumption.
  - destruct HS as (-> & ->). split; [repeat split; assumption|]. split; [exact B|apply silent].
  - destruct HS as (-> & ->). split; [|split; [exact B|apply silent]]. split; [reflexivity|]. split; [exact Ha|]. regs. rewrite <- HI. destruct (small_width n S). rewrite pow256 by lia. apply mod_mod_le. lia.
  - destruct HS as (-> & ->). split; [repeat split; assumption|]. split; [exact B|apply silent].
  - destruct HS as (-> & ->). rewrite Ha in *. split; [|split; [exact B|apply silent_mon]]. split; [reflexivity|]. split; [exact Ha|]. split; [exact HI|]. split; [exact GR|]. intros _. reflexivity.
  - destruct HI as (HI & F & He). destruct HS as [(M & -> & ->)|(-> & ->)].
    + rewrite Ha in *. split; [split; [reflexivity|]; split; [exact Ha|]; split; [exact HI|]; split; [exact F|left; reflexivity]|].
      split; [apply put_bytes; exact B|]. right. split; [reflexivity|]. split; [apply put_holds; assumption|]. left. cbn. rewrite (He M). reflexivity.
    + split; [split; [reflexivity|]; split; [exact Ha|]; split; [exact HI|]; split; [exact F|right; reflexivity]|]. split; [exact B|apply silent_mon].
  - destruct HI as (HI & F & Hr). destruct HS as (-> & ->). unfold lin_swp. regs. destruct Hr as [Hr|Hr]; rewrite Hr.
    + change (0 mod 2 ^ width 4 =? 0) with true. split; [repeat split; assumption || apply F|]. split; [exact B|apply silent].
    + change (1 mod 2 ^ width 4 =? 0) with false. split; [repeat split; assumption|]. split; [exact B|apply silent].
Qed.

(** fetch_op! *)
Definition inv_op (o : rmw) (n a v : Z) (s : shared) (l : local) : Prop :=
  half l = None /\ reg l 1 = a /\
  match pc l with
  | (0 | 1 | 2 | 3 | 5 | 6)%nat => holds n l 0 v
  | (7 | 8)%nat => holds n l 16 v
  | (9)%nat => holds n l 16 v /\ fits n (reg l 0) /\ held big t s a n (reg l 0)
  | (10)%nat => holds n l 16 v /\ fits n (reg l 0) /\ held big t s a n (reg l 0) /\ holds n l 17 (apply o (8 * n) (reg l 0) v)
  | (11)%nat => holds n l 16 v /\ fits n (reg l 0) /\ (reg l 15 = 0 \/ reg l 15 = 1)
  | (4 | 12)%nat => fits n (reg l 0)
  | _ => False
  end.
Definition lin_op (l : local) : option outcome :=
  match pc l with
  | (4 | 12)%nat => Some (Some (reg l 0))
  | (11)%nat => if reg l 15 =? 0 then Some (Some (reg l 0)) else None
  | _ => None
  end.
Lemma step_op o u n a v s l s' l' : alu_of o = Some u -> small n -> bytes (sh_mem s) -> inv_op o n a v s l -> astep big whole (fetch_op n u u) t s l s' l' ->
  inv_op o n a v s' l' /\ bytes (sh_mem s') /\ effect big whole (Rmw o false n a v) s s' (lin_op l) (lin_op l').
Proof.
  intros E S B HI HS. destruct (small_width n S) as [Hn W]. pose proof (get_range big (sh_mem s) a n ltac:(lia) B) as GR.
  destruct l as [p r z h]. destruct HI as (Hh & Ha & HI). cbn [half reg pc] in *. subst h.
  destruct p as [|[|[|[|[|[|[|[|[|[|[|[|[|p]]]]]]]]]]]]]; open HS; try contradiction.
  - destruct HS as (-> & w & Hw & ->). split; [repeat split; assumption|]. split; [exact B|apply silent].
  - destruct HS as (-> & w & Hw & ->). split; [repeat split; assumption|]. split; [exact B|apply silent].
  - destruct HS as (-> & ->). destruct (_ =? _); (split; [repeat split; assumption|]; split; [exact B|apply silent]).
  - destruct HS as (-> & ->). rewrite Ha in *. split; [split; [reflexivity|]; split; [exact Ha|exact GR]|]. split; [apply write_bytes; exact B|].
    right. split; [reflexivity|]. split; [|left; reflexivity]. apply put_holds; [assumption|]. unfold holds in HI. cbn [reg] in HI. rewrite HI. rewrite pow256 in * by lia.
    rewrite (alu_apply o u) by (assumption || lia). rewrite (Z.mod_small v); [reflexivity|]. rewrite <- HI. apply Z.mod_pos_bound. apply pow2_pos. lia.
  - destruct HS as (-> & ->). split; [repeat split; assumption|]. split; [exact B|apply silent].
  - destruct HS as (-> & ->). split; [|split; [exact B|apply silent]]. split; [reflexivity|]. split; [exact Ha|]. regs. rewrite <- HI. rewrite pow256 by lia. apply mod_mod_le. lia.
  - destruct HS as (-> & ->). split; [repeat split; assumption|]. split; [exact B|apply silent].
  - destruct HS as (-> & ->). rewrite Ha in *. split; [|split; [exact B|apply silent_mon]]. split; [reflexivity|]. split; [exact Ha|]. split; [exact HI|]. split; [exact GR|]. intros _. reflexivity.
  - destruct HI as (HI & F & He). destruct HS as (-> & ->). split; [|split; [exact B|apply silent]]. split; [reflexivity|]. split; [exact Ha|]. split; [exact HI|]. split; [exact F|]. split; [exact He|].
    regs. rewrite (alu_width o u) by assumption. rewrite HI. reflexivity.
  - destruct HI as (HI & F & He & Hv). destruct HS as [(M & -> & ->)|(-> & ->)].
    + rewrite Ha in *. split; [split; [reflexivity|]; split; [exact Ha|]; split; [exact HI|]; split; [exact F|left; reflexivity]|].
      split; [apply put_bytes; exact B|]. right. split; [reflexivity|]. cbn [sem fst snd]. rewrite (He M). split; [apply put_holds; assumption|]. left. reflexivity.
    + split; [split; [reflexivity|]; split; [exact Ha|]; split; [exact HI|]; split; [exact F|right; reflexivity]|]. split; [exact B|apply silent_mon].
  - destruct HI as (HI & F & Hr). destruct HS as (-> & ->). unfold lin_op. regs. destruct Hr as [Hr|Hr]; rewrite Hr.
    + change (0 mod 2 ^ width 4 =? 0) with true. split; [repeat split; assumption || apply F|]. split; [exact B|apply silent].
    + change (1 mod 2 ^ width 4 =? 0) with false. split; [repeat split; assumption|]. split; [exact B|apply silent].
Qed.

(** compare_and_swap! *)
Definition inv_cas (n a old new : Z) (s : shared) (l : local) : Prop :=
  half l = None /\ reg l 2 = a /\ fits n old /\
  match pc l with
  | (0 | 1 | 2 | 3 | 5 | 6)%nat => holds n l 0 old /\ holds n l 1 new
  | (7 | 8)%nat => reg l 16 = old /\ holds n l 1 new
  | (9)%nat => reg l 16 = old /\ holds n l 1 new /\ fits n (reg l 0) /\ held big t s a n (reg l 0)
  | (10)%nat => reg l 16 = old /\ holds n l 1 new /\ fits n (reg l 0) /\ held big t s a n (reg l 0) /\ zf l = (reg l 0 =? old)
  | (11)%nat => reg l 16 = old /\ holds n l 1 new /\ reg l 0 = old /\ held big t s a n old
  | (12)%nat => reg l 16 = old /\ holds n l 1 new /\ reg l 0 = old /\ (reg l 17 = 0 \/ reg l 17 = 1)
  | (4 | 13 | 14)%nat => fits n (reg l 0)
  | _ => False
  end.
Definition lin_cas (l : local) : option outcome :=
  match pc l with
  | (4 | 13 | 14)%nat => Some (Some (reg l 0))
  | (9)%nat => if reg l 0 =? reg l 16 then None else Some (Some (reg l 0))
  | (10)%nat => if zf l then None else Some (Some (reg l 0))
  | (12)%nat => if reg l 17 =? 0 then Some (Some (reg l 0)) else None
  | _ => None
  end.
Lemma uxt_ok n x old : small n -> x mod 256 ^ n = old ->
  (if n =? 1 then (x mod 2 ^ width 4) mod 2 ^ 8 else if n =? 2 then (x mod 2 ^ width 4) mod 2 ^ 16 else x mod 2 ^ width n) = old.
Proof.
  intros S H. change (width 4) with 32. destruct S as [->|[->|[->| ->]]]; cbn [Z.eqb Pos.eqb]; rewrite ?mod_mod_le by lia; exact H.
Qed.
Lemma step_cas n a old new s l s' l' : small n -> bytes (sh_mem s) -> inv_cas n a old new s l -> astep big whole (compare_and_swap n) t s l s' l' ->
  inv_cas n a old new s' l' /\ bytes (sh_mem s') /\ effect big whole (Cas n a old new) s s' (lin_cas l) (lin_cas l').
Proof.
  intros S B HI HS. destruct (small_width n S) as [Hn W]. pose proof (get_range big (sh_mem s) a n ltac:(lia) B) as GR.
  assert (forall x, fits n x -> x mod 2 ^ width n = x) as RW.
  { unfold fits. rewrite pow256 by lia. intros x Hx. apply Z.mod_small. split; [lia|]. apply Z.lt_le_trans with (2 ^ (8 * n)); [lia|apply Z.pow_le_mono_r; lia]. }
  destruct l as [p r z h]. destruct HI as (Hh & Ha & Fo & HI). cbn [half reg pc] in *. subst h.
  destruct p as [|[|[|[|[|[|[|[|[|[|[|[|[|[|[|p]]]]]]]]]]]]]]]; open HS; try contradiction.
  - destruct HS as (-> & w & Hw & ->). split; [repeat split; apply Fo || apply HI || assumption|]. split; [exact B|apply silent].
  - destruct HS as (-> & w & Hw & ->). split; [repeat split; apply Fo || apply HI || assumption|]. split; [exact B|apply silent].
  - destruct HS as (-> & ->). destruct (_ =? _); (split; [repeat split; apply Fo || apply HI || assumption|]; split; [exact B|apply silent]).
  - destruct HI as [H0 H1]. unfold holds in H0, H1. cbn [reg] in H0, H1. destruct HS as (-> & ->). rewrite Ha, H0 in *. split; [split; [reflexivity|]; split; [exact Ha|]; split; [exact Fo|exact GR]|]. split; [destruct (_ =? _); [apply write_bytes|]; exact B|].
    right. split; [reflexivity|]. split; [|left; reflexivity]. cbn [sem fst]. destruct (_ =? _); [apply put_holds; assumption|apply same_refl].
  - destruct HS as (-> & ->). split; [repeat split; apply Fo || apply HI || assumption|]. split; [exact B|apply silent].
  - destruct HI as [H0 H1]. destruct HS as (-> & ->). split; [|split; [exact B|apply silent]]. split; [reflexivity|]. split; [exact Ha|]. split; [exact Fo|]. split; [|exact H1]. regs. apply uxt_ok; assumption.
  - destruct HS as (-> & ->). split; [repeat split; apply Fo || apply HI || assumption|]. split; [exact B|apply silent].
  - destruct HI as [H0 H1]. destruct HS as (-> & ->). rewrite Ha in *. split; [|split; [exact B|]].
    + split; [reflexivity|]. split; [exact Ha|]. split; [exact Fo|]. split; [exact H0|]. split; [exact H1|]. split; [exact GR|]. intros _. reflexivity.
    + unfold lin_cas. regs. rewrite H0. destruct (Z.eqb_spec (get big (sh_mem s) a n) old) as [E|E]; [apply silent_mon|].
      right. split; [reflexivity|]. cbn [sem fst snd]. apply Z.eqb_neq in E. rewrite E. split; [apply same_refl|left; reflexivity].
  - destruct HI as (H0 & H1 & F & He). destruct HS as (-> & ->). split; [|split; [exact B|]].
    + split; [reflexivity|]. split; [exact Ha|]. split; [exact Fo|]. split; [exact H0|]. split; [exact H1|]. split; [exact F|]. split; [exact He|]. regs. rewrite H0, !RW by assumption. reflexivity.
    + unfold lin_cas. regs. rewrite H0, !RW by assumption. apply silent.
  - destruct HI as (H0 & H1 & F & He & Hz). destruct HS as (-> & ->). cbn [zf reg] in Hz. subst z. destruct (Z.eqb_spec (r 0%nat) old) as [E|E].
    + split; [|split; [exact B|apply silent]]. cbn [reg] in He. rewrite E in He. repeat split; apply Fo || assumption.
    + split; [|split; [exact B|apply silent]]. repeat split; apply Fo || apply F || assumption.
  - destruct HI as (H0 & H1 & E & He). destruct HS as [(M & -> & ->)|(-> & ->)].
    + rewrite Ha in *. split; [split; [reflexivity|]; split; [exact Ha|]; split; [exact Fo|]; split; [exact H0|]; split; [exact H1|]; split; [exact E|left; reflexivity]|].
      split; [apply put_bytes; exact B|]. right. split; [reflexivity|]. cbn [sem fst snd]. rewrite (He M), Z.eqb_refl. split; [apply put_holds; assumption|]. left. unfold lin_cas. regs. rewrite E. reflexivity.
    + split; [split; [reflexivity|]; split; [exact Ha|]; split; [exact Fo|]; split; [exact H0|]; split; [exact H1|]; split; [exact E|right; reflexivity]|]. split; [exact B|apply silent_mon].
  - destruct HI as (H0 & H1 & E & Hr). destruct HS as (-> & ->). unfold lin_cas. regs. destruct Hr as [Hr|Hr]; rewrite Hr.
    + change (0 mod 2 ^ width 4 =? 0) with true. split; [split; [reflexivity|]; split; [exact Ha|]; split; [exact Fo|]; regs; rewrite E; exact Fo|]. split; [exact B|apply silent].
    + change (1 mod 2 ^ width 4 =? 0) with false. split; [repeat split; apply Fo || assumption|]. split; [exact B|apply silent].
  - destruct HS as (-> & ->). split; [repeat split; apply Fo || apply HI || assumption|]. split; [exact B|apply silent].
Qed.
End Step.
