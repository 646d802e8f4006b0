(** The aarch64 outline atomics: a call can always finish. *)
From Coq Require Import ZArith Bool List Lia.
From Verif Require Import Base BaseLemmas AtomicSpec AtomicModel AtomicProofs AtomicProofs4 AtomicA64Model AtomicA64Proofs AtomicA64Proofs2 AtomicA64Proofs3 AtomicA64Proofs4.
Open Scope Z_scope.
Import ListNotations.

Section Fin.
Context (big whole : bool) (c : call) (t : nat).
Definition fin (s : shared) (l : local) : Prop :=
  exists s' v, alone (fun c => astep big whole (a64_code c)) (a64_result big) c t s l s' v.
Lemma fin_step s l s' l' : astep big whole (a64_code c) t s l s' l' -> fin s' l' -> fin s l.
Proof. intros H (s2 & v & A). exists s2, v. eapply al_step; [exact H|exact A]. Qed.
Lemma fin_ret s r z p : nth_error (a64_code c) p = Some Ret_ -> fin s (Loc p r z None).
Proof. intros H. eexists s, _. apply al_return. unfold a64_result. cbn [half pc]. rewrite H. reflexivity. Qed.
(** Instructions with one outcome. *)
Ltac one Hc := unfold astep; cbn [half pc]; rewrite Hc; cbn [nth_error swap fetch_op compare_and_swap compare_and_swap_u128 try_lse_op app istep label Nat.eqb goto next set setz set_half reg zf half pc].
Ltac det Hc := eapply fin_step; [one Hc; split; reflexivity|]; cbn [goto next set setz set_half reg zf half pc].
Ltac flag Hc v := eapply fin_step; [one Hc; split; [reflexivity|]; exists v; split; [lia|reflexivity]|]; cbn [goto next set setz set_half reg zf half pc].
Ltac store Hc := eapply fin_step; [one Hc; left; split; [|split; reflexivity]|]; cbn [goto next set setz set_half reg zf half pc].
Ltac nostore Hc := eapply fin_step; [one Hc; right; split; reflexivity|]; cbn [goto next set setz set_half reg zf half pc].
Ltac ret Hc := apply fin_ret; rewrite Hc; reflexivity.

Lemma fin_swp n p : a64_code c = swap n -> (p <= 11)%nat -> forall s r z, fin s (Loc p r z None).
Proof.
  intros Hc Hp.
  assert (forall s r z, fin s (Loc 11 r z None)) as F11 by (intros; ret Hc).
  assert (forall s r z, fin s (Loc 8 r z None)) as F8.
  { intros s r z. det Hc. store Hc.
    - cbn [set_mon sh_mon]. rewrite upd_same. reflexivity.
    - det Hc. apply F11. }
  assert (forall s r z, fin s (Loc 7 r z None)) as F7 by (intros; det Hc; apply F8).
  assert (forall s r z, fin s (Loc 10 r z None)) as F10.
  { intros s r z. det Hc. destruct (_ =? _); [apply F11|apply F7]. }
  assert (forall s r z, fin s (Loc 9 r z None)) as F9 by (intros; nostore Hc; apply F10).
  assert (forall s r z, fin s (Loc 6 r z None)) as F6 by (intros; det Hc; apply F7).
  assert (forall s r z, fin s (Loc 5 r z None)) as F5 by (intros; det Hc; apply F6).
  assert (forall s r z, fin s (Loc 4 r z None)) as F4 by (intros; ret Hc).
  assert (forall s r z, fin s (Loc 3 r z None)) as F3 by (intros; det Hc; apply F4).
  assert (forall s r z, fin s (Loc 2 r z None)) as F2 by (intros; det Hc; destruct (_ =? _); [apply F5|apply F3]).
  assert (forall s r z, fin s (Loc 1 r z None)) as F1 by (intros; flag Hc 0; apply F2).
  assert (forall s r z, fin s (Loc 0 r z None)) as F0 by (intros; flag Hc 0; apply F1).
  do 12 (destruct p as [|p]; [assumption|]). lia.
Qed.
Lemma fin_op n u p : a64_code c = fetch_op n u u -> (p <= 12)%nat -> forall s r z, fin s (Loc p r z None).
Proof.
  intros Hc Hp.
  assert (forall s r z, fin s (Loc 12 r z None)) as F12 by (intros; ret Hc).
  assert (forall s r z, fin s (Loc 8 r z None)) as F8.
  { intros s r z. det Hc. det Hc. store Hc.
    - cbn [set_mon sh_mon]. rewrite upd_same. reflexivity.
    - det Hc. apply F12. }
  assert (forall s r z, fin s (Loc 7 r z None)) as F7 by (intros; det Hc; apply F8).
  assert (forall s r z, fin s (Loc 11 r z None)) as F11.
  { intros s r z. det Hc. destruct (_ =? _); [apply F12|apply F7]. }
  assert (forall s r z, fin s (Loc 10 r z None)) as F10 by (intros; nostore Hc; apply F11).
  assert (forall s r z, fin s (Loc 9 r z None)) as F9 by (intros; det Hc; apply F10).
  assert (forall s r z, fin s (Loc 6 r z None)) as F6 by (intros; det Hc; apply F7).
  assert (forall s r z, fin s (Loc 5 r z None)) as F5 by (intros; det Hc; apply F6).
  assert (forall s r z, fin s (Loc 4 r z None)) as F4 by (intros; ret Hc).
  assert (forall s r z, fin s (Loc 3 r z None)) as F3 by (intros; det Hc; apply F4).
  assert (forall s r z, fin s (Loc 2 r z None)) as F2 by (intros; det Hc; destruct (_ =? _); [apply F5|apply F3]).
  assert (forall s r z, fin s (Loc 1 r z None)) as F1 by (intros; flag Hc 0; apply F2).
  assert (forall s r z, fin s (Loc 0 r z None)) as F0 by (intros; flag Hc 0; apply F1).
  do 13 (destruct p as [|p]; [assumption|]). lia.
Qed.
Lemma fin_cas n p : a64_code c = compare_and_swap n -> (p <= 14)%nat -> forall s r z, fin s (Loc p r z None).
Proof.
  intros Hc Hp.
  assert (forall s r z, fin s (Loc 14 r z None)) as F14 by (intros; ret Hc).
  assert (forall s r z, fin s (Loc 13 r z None)) as F13 by (intros; det Hc; apply F14).
  assert (forall s r z, fin s (Loc 8 r z None)) as F8.
  { intros s r z. det Hc. det Hc. det Hc. destruct (_ =? _).
    - store Hc; [cbn [set_mon sh_mon]; rewrite upd_same; reflexivity|]. det Hc. apply F13.
    - apply F13. }
  assert (forall s r z, fin s (Loc 7 r z None)) as F7 by (intros; det Hc; apply F8).
  assert (forall s r z, fin s (Loc 12 r z None)) as F12.
  { intros s r z. det Hc. destruct (_ =? _); [apply F13|apply F7]. }
  assert (forall s r z, fin s (Loc 11 r z None)) as F11 by (intros; nostore Hc; apply F12).
  assert (forall s r z, fin s (Loc 10 r z None)) as F10 by (intros s r z; det Hc; destruct z; [apply F11|apply F13]).
  assert (forall s r z, fin s (Loc 9 r z None)) as F9 by (intros; det Hc; apply F10).
  assert (forall s r z, fin s (Loc 6 r z None)) as F6 by (intros; det Hc; apply F7).
  assert (forall s r z, fin s (Loc 5 r z None)) as F5 by (intros; det Hc; apply F6).
  assert (forall s r z, fin s (Loc 4 r z None)) as F4 by (intros; ret Hc).
  assert (forall s r z, fin s (Loc 3 r z None)) as F3 by (intros; det Hc; apply F4).
  assert (forall s r z, fin s (Loc 2 r z None)) as F2 by (intros; det Hc; destruct (_ =? _); [apply F5|apply F3]).
  assert (forall s r z, fin s (Loc 1 r z None)) as F1 by (intros; flag Hc 0; apply F2).
  assert (forall s r z, fin s (Loc 0 r z None)) as F0 by (intros; flag Hc 0; apply F1).
  do 15 (destruct p as [|p]; [assumption|]). lia.
Qed.
Lemma fin_16 p h : a64_code c = compare_and_swap_u128 -> (p <= 16)%nat -> (h <> None -> p = 9%nat) -> forall s r z, fin s (Loc p r z h).
Proof.
  intros Hc Hp Hh.
  assert (forall s r z, fin s (Loc 16 r z None)) as F16 by (intros; ret Hc).
  assert (forall s r z, fin s (Loc 15 r z None)) as F15 by (intros; det Hc; apply F16).
  assert (forall s r z, sh_mon s t = Some (r 4%nat, 16) -> fin s (Loc 10 r z None)) as G10.
  { intros s r z M. det Hc. det Hc. det Hc. destruct (if _ =? _ then _ else false).
    - store Hc; [exact M|]. det Hc. apply F15.
    - apply F15. }
  assert (forall s r z, fin s (Loc 9 r z None)) as F9.
  { intros s r z. destruct (Bool.bool_dec whole true) as [W|W].
    - eapply fin_step.
      + one Hc. split; [reflexivity|]. rewrite W. reflexivity.
      + cbn [goto next set setz set_half reg zf half pc]. apply G10. cbn [set_mon sh_mon]. rewrite upd_same. reflexivity.
    - apply not_true_is_false in W. eapply fin_step.
      + one Hc. split; [reflexivity|]. rewrite W. left. reflexivity.
      + eapply fin_step.
        * unfold astep. cbn [half set_half]. split; reflexivity.
        * cbn [goto next set setz set_half reg zf half pc]. apply G10. cbn [set_mon sh_mon]. rewrite upd_same. reflexivity. }
  assert (forall s r z, fin s (Loc 8 r z None)) as F8 by (intros; det Hc; apply F9).
  assert (forall s r z, fin s (Loc 14 r z None)) as F14.
  { intros s r z. det Hc. destruct (_ =? _); [apply F15|apply F8]. }
  assert (forall s r z, fin s (Loc 13 r z None)) as F13 by (intros; nostore Hc; apply F14).
  assert (forall s r z, fin s (Loc 12 r z None)) as F12 by (intros s r z; det Hc; destruct z; [apply F13|apply F15]).
  assert (forall s r z, fin s (Loc 11 r z None)) as F11 by (intros; det Hc; apply F12).
  assert (forall s r z, fin s (Loc 10 r z None)) as F10 by (intros; det Hc; apply F11).
  assert (forall s r z, fin s (Loc 7 r z None)) as F7 by (intros; det Hc; apply F8).
  assert (forall s r z, fin s (Loc 6 r z None)) as F6 by (intros; det Hc; apply F7).
  assert (forall s r z, fin s (Loc 5 r z None)) as F5 by (intros; det Hc; apply F6).
  assert (forall s r z, fin s (Loc 4 r z None)) as F4 by (intros; ret Hc).
  assert (forall s r z, fin s (Loc 3 r z None)) as F3 by (intros; det Hc; apply F4).
  assert (forall s r z, fin s (Loc 2 r z None)) as F2 by (intros; det Hc; destruct (_ =? _); [apply F5|apply F3]).
  assert (forall s r z, fin s (Loc 1 r z None)) as F1 by (intros; flag Hc 0; apply F2).
  assert (forall s r z, fin s (Loc 0 r z None)) as F0 by (intros; flag Hc 0; apply F1).
  destruct h as [[d b]|].
  - rewrite (Hh ltac:(discriminate)). intros s r z. eapply fin_step; [unfold astep; cbn [half]; split; reflexivity|]. apply F10.
  - do 17 (destruct p as [|p]; [assumption|]). lia.
Qed.
Lemma fin_all s l : a64_ok c -> a_inv big whole t s c l -> fin s l.
Proof.
  intros Hc HI. destruct Hc as [_ Hx]. destruct l as [p r z h].
  destruct c as [o new n a v|n a old new|n a|n a v] eqn:Ec; cbn [a_inv] in HI.
  - destruct Hx as (-> & N16 & Ho). unfold inv_swp, inv_op in HI. cbn [half pc reg] in HI.
    destruct Ho as [->|[->|[->|[->| ->]]]]; destruct HI as (-> & _ & HI).
    1-4: eapply fin_op; [rewrite Ec; reflexivity|]; do 13 (destruct p as [|p]; [lia|]); contradiction.
    apply fin_swp with n; [rewrite Ec; reflexivity|]; do 12 (destruct p as [|p]; [lia|]); contradiction.
  - destruct (Z.eqb_spec n 16) as [->|N16].
    + apply fin_16; rewrite ?Ec; [reflexivity|..].
      * destruct HI as (_ & _ & HI). cbn [half pc reg] in HI. destruct h as [[d b]|]; [lia|]. do 17 (destruct p as [|p]; [lia|]). contradiction.
      * destruct HI as (_ & _ & HI). cbn [half pc reg] in HI. destruct h as [[d b]|]; [intros _; tauto|contradiction].
    + destruct HI as (Hh & _ & _ & HI). cbn [half pc] in *. subst h. apply fin_cas with n.
      * rewrite Ec. cbn. apply Z.eqb_neq in N16. rewrite N16. reflexivity.
      * do 15 (destruct p as [|p]; [lia|]). contradiction.
  - destruct HI as (Hh & _ & HI). cbn [half pc] in *. subst h. assert (forall s r z, fin s (Loc 1 r z None)) as F1 by (intros; apply fin_ret; rewrite Ec; reflexivity).
    destruct HI as [->|[-> _]]; [|apply F1]. eapply fin_step; [unfold astep; rewrite Ec; cbn; split; reflexivity|apply F1].
  - destruct HI as (Hh & _ & HI). cbn [half pc] in *. subst h. assert (forall s r z, fin s (Loc 1 r z None)) as F1 by (intros; apply fin_ret; rewrite Ec; reflexivity).
    destruct HI as [[-> _]| ->]; [|apply F1]. eapply fin_step; [unfold astep; rewrite Ec; cbn; split; reflexivity|apply F1].
Qed.
End Fin.
