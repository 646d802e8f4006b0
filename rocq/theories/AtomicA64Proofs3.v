(** The aarch64 outline atomics: 16-byte compare-and-swap, and the simulations. *)
From Coq Require Import ZArith Bool List Lia.
From Verif Require Import Base BaseLemmas AtomicSpec AtomicModel AtomicProofs AtomicProofs2 AtomicProofs3 AtomicProofs4 AtomicA64Model AtomicA64Proofs AtomicA64Proofs2.
Open Scope Z_scope.
Import ListNotations.

Notation x64 x := (0 <= x < 2 ^ 64) (only parsing).
Section Cas16.
Context (big whole : bool) (t : nat).
(** The expected value in x16, x17. *)
Definition keep (old : Z) (l : local) : Prop := x64 (reg l 16) /\ x64 (reg l 17) /\ pair big (reg l 16) (reg l 17) = old.
Definition both (l : local) : bool := (reg l 0 =? reg l 16) && (reg l 1 =? reg l 17).
Definition inv_16 (a old new : Z) (s : shared) (l : local) : Prop :=
  reg l 4 = a /\ pair big (reg l 2) (reg l 3) = new /\
  match half l with
  | Some (d, b) => pc l = 9%nat /\ keep old l /\ whole = false /\
    (d = 1%nat /\ b = a + 8 /\ x64 (reg l 0) /\ (sh_mon s t = Some (a, 16) -> get big (sh_mem s) a 8 = reg l 0) \/
     d = 0%nat /\ b = a /\ x64 (reg l 1) /\ (sh_mon s t = Some (a, 16) -> get big (sh_mem s) (a + 8) 8 = reg l 1))
  | None =>
    match pc l with
    | (0 | 1 | 2 | 3 | 5 | 6)%nat => x64 (reg l 0) /\ x64 (reg l 1) /\ pair big (reg l 0) (reg l 1) = old
    | 7%nat => x64 (reg l 0) /\ x64 (reg l 1) /\ pair big (reg l 0) (reg l 1) = old /\ reg l 16 = reg l 0
    | (8 | 9)%nat => keep old l
    | 10%nat => keep old l /\ x64 (reg l 0) /\ x64 (reg l 1) /\ held big t s a 16 (pair big (reg l 0) (reg l 1))
    | 11%nat => keep old l /\ x64 (reg l 0) /\ x64 (reg l 1) /\ held big t s a 16 (pair big (reg l 0) (reg l 1)) /\ zf l = (reg l 0 =? reg l 16)
    | 12%nat => keep old l /\ x64 (reg l 0) /\ x64 (reg l 1) /\ held big t s a 16 (pair big (reg l 0) (reg l 1)) /\ zf l = both l
    | 13%nat => keep old l /\ both l = true /\ held big t s a 16 (pair big (reg l 0) (reg l 1))
    | 14%nat => keep old l /\ both l = true /\ (reg l 15 = 0 \/ reg l 15 = 1)
    | (15 | 16)%nat => keep old l /\ x64 (reg l 0) /\ x64 (reg l 1)
    | 4%nat => x64 (reg l 0) /\ x64 (reg l 1)
    | _ => False
    end
  end.
Definition res16 (l : local) : outcome := Some (pair big (reg l 0) (reg l 1)).
Definition fail16 (l : local) : outcome := if whole then res16 l else None.
Definition lin_16 (l : local) : option outcome :=
  match half l with
  | Some (1%nat, _) => if reg l 0 =? reg l 16 then None else Some None
  | Some (_, _) => if reg l 1 =? reg l 17 then None else Some None
  | None =>
    match pc l with
    | 4%nat => Some (res16 l)
    | (10 | 11)%nat => if both l then None else Some (fail16 l)
    | 12%nat => if zf l then None else Some (fail16 l)
    | 14%nat => if reg l 15 =? 0 then Some (res16 l) else None
    | (15 | 16)%nat => Some (if both l then res16 l else fail16 l)
    | _ => None
    end
  end.
Lemma rd8 x : x64 x -> x mod 2 ^ width 8 = x.
Proof. intros H. change (width 8) with 64. apply Z.mod_small. exact H. Qed.
Lemma get8 s b : bytes (sh_mem s) -> x64 (get big (sh_mem s) b 8).
Proof. intros B. exact (get_range big (sh_mem s) b 8 ltac:(lia) B). Qed.
Lemma fails16 a old new s x y : x64 x -> x64 y -> bytes (sh_mem s) -> pair big x y = old -> ~ (get big (sh_mem s) a 8 = x /\ get big (sh_mem s) (a + 8) 8 = y) ->
  get big (sh_mem s) a 16 <> old /\ fst (sem big (Cas 16 a old new) (sh_mem s)) = sh_mem s.
Proof.
  intros X Y B E N. assert (get big (sh_mem s) a 16 <> old) as NE.
  { rewrite get_pair, <- E. intros E'. apply pair_inj in E'; try assumption; [tauto|apply get8; exact B..]. }
  split; [exact NE|]. cbn [sem fst]. apply Z.eqb_neq in NE. rewrite NE. reflexivity.
Qed.

Lemma step_16 a old new s l s' l' : bytes (sh_mem s) -> inv_16 a old new s l -> astep big whole compare_and_swap_u128 t s l s' l' ->
  inv_16 a old new s' l' /\ bytes (sh_mem s') /\ effect big whole (Cas 16 a old new) s s' (lin_16 l) (lin_16 l').
Proof.
  intros B HI HS. destruct l as [p r z h]. destruct HI as (Ha & Hn & HI). cbn [half reg pc] in *.
  pose proof (get8 s a B) as G0. pose proof (get8 s (a + 8) B) as G1.
  destruct h as [[d b]|].
  - (* the second read *)
    destruct HI as (-> & (K1 & K2 & K3) & Hw & HI). open HS. destruct HS as (-> & ->). cbn [reg] in *.
    destruct HI as [(-> & -> & X0 & He)|(-> & -> & X1 & He)].
    + split; [|split; [exact B|]].
      * split; [exact Ha|]. split; [exact Hn|]. cbn [half pc goto next set set_half]. unfold keep, held. regs.
        split; [auto|]. split; [exact X0|]. split; [exact G1|]. intros M. rewrite get_pair, (He M). reflexivity.
      * unfold lin_16, both, fail16. regs. destruct (Z.eqb_spec (r 0%nat) (r 16%nat)) as [E|E]; cbn [andb]; [|rewrite Hw; apply silent].
        destruct (Z.eqb_spec (get big (sh_mem s) (a + 8) 8) (r 17%nat)) as [E1|E1]; [apply silent|]. rewrite Hw.
        destruct (fails16 a old new s (r 16%nat) (r 17%nat) K1 K2 B K3) as [NE FE]; [tauto|].
        right. split; [reflexivity|]. rewrite FE. split; [apply same_refl|]. right. split; [reflexivity|]. split; [reflexivity|]. eauto.
    + split; [|split; [exact B|]].
      * split; [exact Ha|]. split; [exact Hn|]. cbn [half pc goto next set set_half]. unfold keep, held. regs.
        split; [auto|]. split; [exact G0|]. split; [exact X1|]. intros M. rewrite get_pair, (He M). reflexivity.
      * unfold lin_16, both, fail16. regs. destruct (Z.eqb_spec (r 1%nat) (r 17%nat)) as [E|E]; cbn [andb]; [|rewrite andb_false_r, Hw; apply silent]. rewrite andb_true_r.
        destruct (Z.eqb_spec (get big (sh_mem s) a 8) (r 16%nat)) as [E1|E1]; [apply silent|]. rewrite Hw.
        destruct (fails16 a old new s (r 16%nat) (r 17%nat) K1 K2 B K3) as [NE FE]; [tauto|].
        right. split; [reflexivity|]. rewrite FE. split; [apply same_refl|]. right. split; [reflexivity|]. split; [reflexivity|]. eauto.
  - destruct p as [|[|[|[|[|[|[|[|[|[|[|[|[|[|[|[|[|p]]]]]]]]]]]]]]]]]; open HS; try contradiction.
    + destruct HS as (-> & w & Hw & ->). split; [repeat split; apply HI || assumption|]. split; [exact B|apply silent].
    + destruct HS as (-> & w & Hw & ->). split; [repeat split; apply HI || assumption|]. split; [exact B|apply silent].
    + destruct HS as (-> & ->). destruct (_ =? _); (split; [repeat split; apply HI || assumption|]; split; [exact B|apply silent]).
    + destruct HI as (X0 & X1 & E). cbn [reg] in *. destruct HS as (-> & ->). rewrite Ha, E, Hn in *. split; [split; [exact Ha|]; split; [exact Hn|]; split; [exact G0|exact G1]|].
      split; [destruct (_ =? _); [apply write_bytes|]; exact B|]. right. split; [reflexivity|]. split.
      * cbn [sem fst]. destruct (_ =? _); apply same_refl.
      * left. unfold lin_16, res16. regs. cbn [sem snd]. rewrite get_pair. reflexivity.
    + destruct HS as (-> & ->). split; [repeat split; apply HI || assumption|]. split; [exact B|apply silent].
    + destruct HI as (X0 & X1 & E). cbn [reg] in *. destruct HS as (-> & ->). split; [|split; [exact B|apply silent]]. split; [exact Ha|]. split; [exact Hn|]. regs. rewrite rd8 by assumption. auto.
    + destruct HI as (X0 & X1 & E & E16). cbn [reg] in *. destruct HS as (-> & ->). split; [|split; [exact B|apply silent]]. split; [exact Ha|]. split; [exact Hn|]. unfold keep. regs. rewrite rd8, E16 by assumption. auto.
    + destruct HS as (-> & ->). split; [repeat split; apply HI || assumption|]. split; [exact B|apply silent].
    + (* the load *)
      destruct HI as (K1 & K2 & K3). cbn [reg] in *. destruct HS as (-> & HS). rewrite Ha in *. destruct (Bool.bool_dec whole true) as [Hw|Hw].
      * rewrite Hw in HS. subst l'. split; [|split; [exact B|]].
        -- split; [exact Ha|]. split; [exact Hn|]. unfold keep, held. regs. split; [auto|]. split; [exact G0|]. split; [exact G1|]. intros _. apply get_pair.
        -- unfold lin_16, both, fail16, res16. regs. rewrite Hw. destruct (Z.eqb_spec (get big (sh_mem s) a 8) (r 16%nat)) as [E|E]; [destruct (Z.eqb_spec (get big (sh_mem s) (a + 8) 8) (r 17%nat)) as [E1|E1]|]; cbn [andb]; [apply silent_mon|..].
           all: destruct (fails16 a old new s (r 16%nat) (r 17%nat) K1 K2 B K3) as [NE FE]; [tauto|].
           all: right; split; [reflexivity|]; rewrite FE; split; [apply same_refl|]; left; cbn [sem snd]; rewrite get_pair; reflexivity.
      * apply not_true_is_false in Hw. rewrite Hw in HS. destruct HS as [-> | ->].
        -- split; [|split; [exact B|]].
           ++ split; [exact Ha|]. split; [exact Hn|]. unfold keep. regs. split; [reflexivity|]. split; [auto|]. split; [exact Hw|]. left. auto.
           ++ unfold lin_16. regs. destruct (Z.eqb_spec (get big (sh_mem s) a 8) (r 16%nat)) as [E|E]; [apply silent_mon|].
              destruct (fails16 a old new s (r 16%nat) (r 17%nat) K1 K2 B K3) as [NE FE]; [tauto|].
              right. split; [reflexivity|]. rewrite FE. split; [apply same_refl|]. right. split; [reflexivity|]. split; [exact Hw|]. eauto.
        -- split; [|split; [exact B|]].
           ++ split; [exact Ha|]. split; [exact Hn|]. unfold keep. regs. split; [reflexivity|]. split; [auto|]. split; [exact Hw|]. right. auto.
           ++ unfold lin_16. regs. destruct (Z.eqb_spec (get big (sh_mem s) (a + 8) 8) (r 17%nat)) as [E|E]; [apply silent_mon|].
              destruct (fails16 a old new s (r 16%nat) (r 17%nat) K1 K2 B K3) as [NE FE]; [tauto|].
              right. split; [reflexivity|]. rewrite FE. split; [apply same_refl|]. right. split; [reflexivity|]. split; [exact Hw|]. eauto.
    + destruct HI as (K & X0 & X1 & He). destruct HS as (-> & ->). split; [|split; [exact B|apply silent]].
      split; [exact Ha|]. split; [exact Hn|]. split; [exact K|]. split; [exact X0|]. split; [exact X1|]. split; [exact He|]. destruct K as (K1 & K2 & _). regs. rewrite !rd8 by assumption. reflexivity.
    + destruct HI as (K & X0 & X1 & He & Hz). cbn [reg zf] in Hz. subst z. destruct HS as (-> & ->).
      assert (forall u, (if r 0%nat =? r 16%nat then rd 8 (Loc 11 r u None) 1 =? rd 8 (Loc 11 r u None) 17 else false) = both (Loc 11 r u None)) as EB.
      { intros u. destruct K as (K1 & K2 & _). unfold both. regs. rewrite !rd8 by assumption. destruct (_ =? _); reflexivity. }
      rewrite EB. split; [|split; [exact B|apply silent]].
      split; [exact Ha|]. split; [exact Hn|]. split; [exact K|]. split; [exact X0|]. split; [exact X1|]. split; [exact He|]. reflexivity.
    + destruct HI as (K & X0 & X1 & He & Hz). cbn [zf] in Hz. destruct HS as (-> & ->). destruct z.
      * split; [|split; [exact B|apply silent]]. split; [exact Ha|]. split; [exact Hn|]. split; [exact K|]. split; [symmetry; exact Hz|exact He].
      * split; [|split; [exact B|]]; [repeat split; apply K || apply X0 || apply X1 || assumption|]. unfold lin_16. cbn [half pc goto zf reg]. change (both (goto 15 (Loc 12 r false None))) with (both (Loc 12 r false None)). rewrite <- Hz. apply silent.
    + destruct HI as ((K1 & K2 & K3) & Hb & He). cbn [reg] in *. destruct HS as [(M & -> & ->)|(-> & ->)].
      * rewrite Ha in *. split; [split; [exact Ha|]; split; [exact Hn|]; split; [split; auto|]; split; [exact Hb|left; reflexivity]|].
        split; [apply put_bytes; exact B|]. right. split; [reflexivity|].
        assert (pair big (r 0%nat) (r 1%nat) = old) as E. { unfold both in Hb. cbn [reg] in Hb. apply andb_prop in Hb as [Hb0 Hb1]. apply Z.eqb_eq in Hb0, Hb1. rewrite Hb0, Hb1. exact K3. }
        cbn [sem fst snd]. rewrite (He M), E, Z.eqb_refl. rewrite Hn. split; [apply same_refl|]. left. unfold lin_16, res16. regs. rewrite E. reflexivity.
      * split; [split; [exact Ha|]; split; [exact Hn|]; split; [split; auto|]; split; [exact Hb|right; reflexivity]|]. split; [exact B|apply silent_mon].
    + destruct HI as (K & Hb & Hr). destruct HS as (-> & ->). unfold lin_16. cbn [reg] in Hr. unfold rd. cbn [reg]. destruct Hr as [Hr|Hr]; rewrite Hr.
      * change (0 mod 2 ^ width 4 =? 0) with true. split; [|split; [exact B|]].
        -- split; [exact Ha|]. split; [exact Hn|]. split; [exact K|]. unfold both in Hb. destruct K as (K1 & K2 & K3). regs. apply andb_prop in Hb as [Hb0 Hb1]. apply Z.eqb_eq in Hb0, Hb1. rewrite Hb0, Hb1. auto.
        -- cbn [half pc goto next reg]. change (both (next (Loc 14 r z None))) with (both (Loc 14 r z None)). rewrite Hb. apply silent.
      * change (1 mod 2 ^ width 4 =? 0) with false. split; [|split; [exact B|]].
        -- split; [exact Ha|]. split; [exact Hn|]. exact K.
        -- cbn [half pc goto next reg]. apply silent.
    + destruct HS as (-> & ->). split; [repeat split; apply HI || assumption|]. split; [exact B|apply silent].
Qed.
End Cas16.
