(** Linearizability of thumbv6k.rs. *)
From Coq Require Import ZArith Bool List Lia.
From Verif Require Import Base BaseLemmas AtomicSpec AtomicModel AtomicProofs AtomicProofs2 AtomicProofs3.
Open Scope Z_scope.
Import ListNotations.

(** What a step of [t] leaves to the other threads: a monitor that is still held holds the
    same value. *)
Lemma overlap_in a n b k x : a <= x < a + n -> b <= x < b + k -> overlap a n b k = true.
Proof. intros. unfold overlap. destruct (Z.ltb_spec a (b + k)), (Z.ltb_spec b (a + n)); reflexivity || lia. Qed.
Lemma write_other big t u s a n v b k : u <> t -> 0 <= k -> sh_mon (write big t s a n v) u = Some (b, k) ->
  sh_mon s u = Some (b, k) /\ get big (sh_mem (write big t s a n v)) b k = get big (sh_mem s) b k.
Proof.
  intros N Hk. cbn [write sh_mon sh_mem]. destruct (Nat.eqb_spec u t); [contradiction|].
  destruct (sh_mon s u) as [[b' k']|]; [|discriminate]. destruct (overlap a n b' k') eqn:O; [discriminate|]. intros [= -> ->].
  split; [reflexivity|]. apply get_ext; [exact Hk|]. intros x Hx. apply put_other. intros Hx'. rewrite (overlap_in a n b k x Hx' Hx) in O. discriminate.
Qed.
Lemma set_mon_other t u x s : u <> t -> sh_mon (set_mon t x s) u = sh_mon s u.
Proof. intros N. cbn [set_mon sh_mon]. apply upd_other. exact N. Qed.
Lemma step_monitor {A} big (code : A -> prog A) t u s p s' p' b k : u <> t -> 0 <= k -> pstep big code t s p s' p' ->
  sh_mon s' u = Some (b, k) -> sh_mon s u = Some (b, k) /\ get big (sh_mem s') b k = get big (sh_mem s) b k.
Proof.
  intros N Hk H. destruct H; intros M; rewrite ?set_mon_other in M by exact N; try (split; [exact M|reflexivity]).
  - apply write_other; assumption.
  - apply write_other; assumption.
  - apply write_other; assumption.
Qed.

Section Thumb.
Context (big : bool).
(** The continuation of the compare-exchange with old value [old]. *)
Definition ret (c : call) (old : Z) : Z -> prog tlabel :=
  match c with
  | Rmw o new n a v => thumb_rmw_ret o new n (norm (ty o n) old) (op_expr o n (norm (ty o n) old) (norm (ty o n) v))
  | _ => Done
  end.
Definition attempt (c : call) (old nw : Z) : Prop :=
  match c with
  | Rmw o new n a v => 0 <= old < 2 ^ (8 * n) /\ nw = norm (UI (8 * n)) (op_expr o n (norm (ty o n) old) (norm (ty o n) v))
  | Cas n a old' new => old = old' /\ nw = new
  | _ => False
  end.
Definition held (t : nat) (s : shared) (c : call) (old : Z) : Prop :=
  sh_mon s t = Some (addr_of c, size_of c) -> get big (sh_mem s) (addr_of c) (size_of c) = old.
Definition again (c : call) (old nw : Z) : prog tlabel :=
  Ldrex (size_of c) (addr_of c) (fun out => if out =? old then Jump (TRetry out old nw) else thumb_exit (ret c old) out).
Definition tlin (p : prog tlabel) : option Z :=
  match p with Done v => Some v | Fence (Done v) => Some v | _ => None end.
Inductive tinv (t : nat) (s : shared) (c : call) : prog tlabel -> Prop :=
| ti_start : tinv t s c (thumb_code c TLoop)
| ti_loop : (exists o new n a v, c = Rmw o new n a v) -> tinv t s c (Jump TLoop)
| ti_floop : (exists o new n a v, c = Rmw o new n a v) -> tinv t s c (Fence (Jump TLoop))
| ti_try old nw : attempt c old nw -> tinv t s c (thumb_cmpxchg (size_of c) (addr_of c) old nw (ret c old))
| ti_fence old nw : attempt c old nw -> held t s c old -> tinv t s c (Fence (Jump (TRetry old old nw)))
| ti_jump old nw : attempt c old nw -> held t s c old -> tinv t s c (Jump (TRetry old old nw))
| ti_retry old nw : attempt c old nw -> held t s c old -> tinv t s c (thumb_retry (size_of c) (addr_of c) old old nw (ret c old))
| ti_again old nw : attempt c old nw -> tinv t s c (again c old nw)
| ti_exit v : tinv t s c (Fence (Done v))
| ti_done v : tinv t s c (Done v).

Lemma retry_code c old nw out : attempt c old nw -> thumb_code c (TRetry out old nw) = thumb_retry (size_of c) (addr_of c) out old nw (ret c old).
Proof. destruct c; cbn; intuition. Qed.
Lemma ty_inj o n x y : 0 < n -> 0 <= x < 2 ^ (8 * n) -> 0 <= y < 2 ^ (8 * n) -> norm (ty o n) x = norm (ty o n) y -> x = y.
Proof.
  intros Hn Hx Hy E. apply (f_equal (norm (UI (8 * n)))) in E. rewrite !norm_u_ty, !norm_u, !Z.mod_small in E by assumption. exact E.
Qed.
(** The exclusive load found another value: compare-and-swap is finished with it, the
    read-modify-write starts again. *)
Lemma fail_exit t s s' c old nw x : arm_ok c -> attempt c old nw -> bytes (sh_mem s) -> x = get big (sh_mem s) (addr_of c) (size_of c) -> x <> old ->
  same (sh_mem s') (sh_mem s) ->
  tinv t s' c (thumb_exit (ret c old) x) /\
  (tlin (thumb_exit (ret c old) x) = None \/
   same (sh_mem s') (fst (sem big c (sh_mem s))) /\ tlin (thumb_exit (ret c old) x) = Some (snd (sem big c (sh_mem s)))).
Proof.
  intros Hc Ha B -> N SM. destruct (arm_size c Hc) as [Sz Sz0]. pose proof (get_range big (sh_mem s) (addr_of c) (size_of c) ltac:(lia) B) as GR. rewrite pow256 in GR by lia.
  destruct c as [o new n a v|n a old' new|n a|n a v]; cbn [attempt size_of addr_of ret] in *; try contradiction.
  - destruct Ha as [Ho ->]. unfold thumb_exit, thumb_rmw_ret. destruct (Z.eqb_spec (norm (ty o n) (get big (sh_mem s) a n)) (norm (ty o n) old)) as [E|E].
    + apply ty_inj in E; [contradiction|assumption..].
    + split; [apply ti_floop; eauto 6|left; reflexivity].
  - destruct Ha as [-> ->]. unfold thumb_exit. split; [constructor|]. right. cbn [tlin sem fst snd]. split; [|reflexivity].
    apply Z.eqb_neq in N. rewrite N. exact SM.
Qed.
Lemma attempt_lin c old nw : attempt c old nw -> tlin (thumb_code c TLoop) = None.
Proof. destruct c; cbn; intuition. Qed.

Lemma thumb_step t s c p s' p' : arm_ok c -> bytes (sh_mem s) -> tinv t s c p -> pstep big (thumb_code c) t s p s' p' ->
  tinv t s' c p' /\ bytes (sh_mem s') /\
  (same (sh_mem s') (sh_mem s) /\ tlin p' = tlin p \/
   tlin p = None /\ same (sh_mem s') (fst (sem big c (sh_mem s))) /\ tlin p' = Some (snd (sem big c (sh_mem s)))).
Proof.
  intros Hc B HI. destruct (arm_size c Hc) as [Sz Sz0].
  pose proof (get_range big (sh_mem s) (addr_of c) (size_of c) ltac:(lia) B) as GR. rewrite pow256 in GR by lia.
  assert (forall old nw, attempt c old nw -> pstep big (thumb_code c) t s (thumb_cmpxchg (size_of c) (addr_of c) old nw (ret c old)) s' p' ->
    tinv t s' c p' /\ bytes (sh_mem s') /\
    (same (sh_mem s') (sh_mem s) /\ tlin p' = None \/
     same (sh_mem s') (fst (sem big c (sh_mem s))) /\ tlin p' = Some (snd (sem big c (sh_mem s))))) as TRY.
  { intros old nw At HS. unfold thumb_cmpxchg in HS. apply step_ldrex in HS as [-> ->].
    destruct (Z.eqb_spec (get big (sh_mem s) (addr_of c) (size_of c)) old) as [E|E]; cbn [negb].
    - rewrite E. split; [apply ti_fence; [exact At|intros _; exact E]|]. split; [exact B|]. left. split; [apply same_refl|reflexivity].
    - destruct (fail_exit t s (set_mon t (Some (addr_of c, size_of c)) s) c old nw _ Hc At B eq_refl E (same_refl _)) as [I [L|[L1 L2]]].
      + split; [exact I|]. split; [exact B|]. left. split; [apply same_refl|exact L].
      + split; [exact I|]. split; [exact B|]. right. split; [exact L1|exact L2]. }
  destruct HI as [|HR|HR|old nw At|old nw At He|old nw At He|old nw At He|old nw At|v|v]; intros HS.
  - destruct c as [o new n a v|n a old new|n a|n a v].
    + cbn [thumb_code] in HS. unfold thumb_rmw in HS. cbv beta zeta in HS. apply step_read in HS as [-> ->].
      cbn [size_of addr_of] in *. split; [|split; [exact B|left; split; [apply same_refl|reflexivity]]].
      rewrite (norm_u_ty o n (get big (sh_mem s) a n)) by exact Sz0. rewrite (norm_u _ (get big (sh_mem s) a n)), (Z.mod_small (get big (sh_mem s) a n)) by exact GR.
      apply (ti_try t s (Rmw o new n a v) (get big (sh_mem s) a n)). split; [exact GR|reflexivity].
    + destruct (TRY old new) as (I & B' & [[C1 C2]|[C1 C2]]); [split; reflexivity|exact HS|..]; (split; [exact I|]; split; [exact B'|]).
      * left. split; [exact C1|exact C2].
      * right. split; [reflexivity|]. split; [exact C1|exact C2].
    + cbn [thumb_code plain] in HS. apply step_read in HS as [-> ->]. split; [constructor|]. split; [exact B|]. right. split; [reflexivity|]. split; [apply same_refl|reflexivity].
    + cbn [thumb_code plain] in HS. apply step_write in HS as [-> ->]. split; [constructor|]. split; [apply write_bytes; exact B|]. right. split; [reflexivity|]. split; [apply same_refl|reflexivity].
  - apply step_jump in HS as [-> ->]. split; [constructor|]. split; [exact B|]. left. split; [apply same_refl|]. destruct HR as (o & new & n & a & v & ->). reflexivity.
  - apply step_fence in HS as [-> ->]. split; [constructor; exact HR|]. split; [exact B|]. left. split; [apply same_refl|reflexivity].
  - destruct (TRY old nw At HS) as (I & B' & [[C1 C2]|[C1 C2]]); (split; [exact I|]; split; [exact B'|]).
    * left. split; [exact C1|exact C2].
    * right. split; [reflexivity|]. split; [exact C1|exact C2].
  - apply step_fence in HS as [-> ->]. split; [apply ti_jump; assumption|]. split; [exact B|]. left. split; [apply same_refl|reflexivity].
  - apply step_jump in HS as [-> ->]. rewrite retry_code by exact At. split; [apply ti_retry; assumption|]. split; [exact B|]. left. split; [apply same_refl|reflexivity].
  - unfold thumb_retry in HS. apply step_strex in HS as [(M & -> & ->)|(-> & ->)].
    + specialize (He M). cbn [set_mon sh_mem write].
      assert (same (put big (sh_mem s) (addr_of c) (size_of c) nw) (fst (sem big c (sh_mem s))) /\ ret c old old = Done (snd (sem big c (sh_mem s)))) as [P R].
      { destruct Hc as [(_ & _ & _ & Hv) Hx]. destruct c as [o new n a v|n a old' new|n a|n a v]; cbn [attempt size_of addr_of ret sem fst snd] in *; try contradiction.
        - destruct At as [Ho ->]. inversion Hv as [|? ? Hv0 _]; subst. rewrite pow256 in Hv0 by lia.
          assert (o <> Clear) as NC by (intros ->; exact Hx). rewrite op_ok by assumption. split; [apply same_refl|].
          unfold thumb_rmw_ret. rewrite Z.eqb_refl. f_equal. destruct new; [apply op_ok; assumption|]. rewrite norm_u_ty, norm_u by exact Sz0. apply Z.mod_small. exact GR.
        - destruct At as [<- <-]. rewrite He, Z.eqb_refl. split; [apply same_refl|reflexivity]. }
      unfold thumb_exit. rewrite R. split; [constructor|]. split; [apply put_bytes; exact B|]. right. split; [reflexivity|]. split; [exact P|reflexivity].
    + split; [apply ti_again; exact At|]. split; [exact B|]. left. split; [apply same_refl|reflexivity].
  - unfold again in HS. apply step_ldrex in HS as [-> ->].
    destruct (Z.eqb_spec (get big (sh_mem s) (addr_of c) (size_of c)) old) as [E|E].
    + rewrite E. split; [apply ti_jump; [exact At|intros _; exact E]|]. split; [exact B|]. left. split; [apply same_refl|reflexivity].
    + destruct (fail_exit t s (set_mon t (Some (addr_of c, size_of c)) s) c old nw _ Hc At B eq_refl E (same_refl _)) as [I [L|[L1 L2]]].
      * split; [exact I|]. split; [exact B|]. left. split; [apply same_refl|exact L].
      * split; [exact I|]. split; [exact B|]. right. split; [reflexivity|]. split; [exact L1|exact L2].
  - apply step_fence in HS as [-> ->]. split; [constructor|]. split; [exact B|]. left. split; [apply same_refl|reflexivity].
  - apply step_done in HS as [].
Qed.

Lemma tinv_mono t s s' c p : (held t s c (get big (sh_mem s) (addr_of c) (size_of c)) -> forall old, held t s c old -> held t s' c old) -> tinv t s c p -> tinv t s' c p.
Proof. intros H HI. destruct HI; constructor; auto; apply H; assumption || (intros _; reflexivity). Qed.

Lemma thumb_simulation m0 h s ts : bytes m0 -> thumb_exec big m0 h s ts ->
  bytes (sh_mem s) /\ (forall t c l, ts t = Some (c, l) -> arm_ok c /\ tinv t s c l) /\
  exists m as_, atomic big arm_ok m0 h m as_ /\ same (sh_mem s) m /\ forall t, as_ t = abs (fun _ => tlin) (ts t).
Proof.
  intros B0 H. unfold thumb_exec in H.
  refine (simulation big arm_ok _ _ _ tinv (fun _ => tlin) _ _ _ _ _ _ m0 h s ts B0 H).
  - intros c Hc. destruct (arm_size c Hc). lia.
  - intros t s0 c l Hc -> _. split; [constructor|]. destruct c; reflexivity.
  - intros t s0 c l v _ E. destruct l; try discriminate E. exact E.
  - intros t u s0 c l. apply tinv_mono. intros _ old Ho. unfold held. cbn [set_mon sh_mem sh_mon]. unfold upd. destruct (Nat.eqb_spec t u); [discriminate|exact Ho].
  - intros t s0 c l s' l'. apply thumb_step.
  - intros t u s0 c l s' l' c' k N Hc Hc' B Hi Hs. apply tinv_mono. intros _ old Ho M.
    destruct (arm_size c' Hc') as [_ Sz0]. destruct (step_monitor _ _ _ _ _ _ _ _ _ _ N (Z.lt_le_incl _ _ Sz0) Hs M) as [M0 ->]. exact (Ho M0).
Qed.

Notation solo c := (alone (fun c t => pstep big (thumb_code c) t) (fun _ => done) c).
Lemma solo_fence c t s v : solo c t s (Fence (Done v)) s v.
Proof. eapply al_step; [apply ps_fence|]. apply al_return. reflexivity. Qed.
(** From an exclusive load the call finishes. *)
Lemma solo_store t s c old nw : attempt c old nw -> sh_mon s t = Some (addr_of c, size_of c) -> exists s' v, solo c t s (Jump (TRetry old old nw)) s' v.
Proof.
  intros At M.
  assert (exists v, ret c old old = Done v) as [v R].
  { destruct c; cbn [attempt ret] in *; try contradiction; [unfold thumb_rmw_ret; rewrite Z.eqb_refl|]; eauto. }
  eexists _, v. eapply al_step; [apply ps_jump|]. rewrite retry_code by exact At. unfold thumb_retry.
  eapply al_step; [apply ps_strex; exact M|]. unfold thumb_exit. rewrite R. apply solo_fence.
Qed.
Lemma set_mon_here t x s : sh_mon (set_mon t x s) t = x.
Proof. cbn. apply upd_same. Qed.
Lemma ret_shape c old x : (exists v, ret c old x = Done v) \/ ret c old x = Jump TLoop /\ exists o new n a v, c = Rmw o new n a v.
Proof. destruct c; cbn [ret]; unfold thumb_rmw_ret; [destruct (_ =? _)|..]; eauto 9. Qed.
Lemma solo_start t s c : arm_ok c -> bytes (sh_mem s) -> exists s' v, solo c t s (thumb_code c TLoop) s' v.
Proof.
  intros Hc B. destruct (arm_size c Hc) as [Sz Sz0].
  pose proof (get_range big (sh_mem s) (addr_of c) (size_of c) ltac:(lia) B) as GR. rewrite pow256 in GR by lia.
  assert (forall nw, attempt c (get big (sh_mem s) (addr_of c) (size_of c)) nw ->
    exists s' v, solo c t s (thumb_cmpxchg (size_of c) (addr_of c) (get big (sh_mem s) (addr_of c) (size_of c)) nw (ret c (get big (sh_mem s) (addr_of c) (size_of c)))) s' v) as TRY.
  { intros nw At. destruct (solo_store t (set_mon t (Some (addr_of c, size_of c)) s) c _ nw At (set_mon_here _ _ _)) as (s' & v & S).
    exists s', v. unfold thumb_cmpxchg. eapply al_step; [apply ps_ldrex|]. rewrite Z.eqb_refl. cbn [negb]. eapply al_step; [apply ps_fence|exact S]. }
  destruct c as [o new n a v|n a old new|n a|n a v]; cbn [size_of addr_of] in *; cbn [thumb_code plain].
  - destruct (TRY _ (conj GR eq_refl)) as (s' & v' & S). exists s', v'. unfold thumb_rmw. eapply al_step; [apply ps_read|]. cbv beta zeta.
    rewrite (norm_u_ty o n (get big (sh_mem s) a n)) by exact Sz0. rewrite (norm_u _ (get big (sh_mem s) a n)), (Z.mod_small (get big (sh_mem s) a n)) by exact GR. exact S.
  - destruct (Z.eq_dec (get big (sh_mem s) a n) old) as [E|E].
    + subst old. destruct (TRY new) as (s' & v' & S); [split; reflexivity|]. exists s', v'. exact S.
    + eexists _, _. unfold thumb_cmpxchg. eapply al_step; [apply ps_ldrex|]. apply Z.eqb_neq in E. rewrite E. cbn [negb]. apply solo_fence.
  - eexists _, _. eapply al_step; [apply ps_read|]. apply al_return; reflexivity.
  - eexists _, _. eapply al_step; [apply ps_write|]. apply al_return; reflexivity.
Qed.
Lemma thumb_finishes t s c p : arm_ok c -> bytes (sh_mem s) -> tinv t s c p -> exists s' v, solo c t s p s' v.
Proof.
  intros Hc B HI.
  assert (forall s1, bytes (sh_mem s1) -> exists s' v, solo c t s1 (Jump TLoop) s' v) as LOOP.
  { intros s1 B1. destruct (solo_start t s1 c Hc B1) as (s' & v & S). exists s', v. eapply al_step; [apply ps_jump|exact S]. }
  assert (forall s1 old x, bytes (sh_mem s1) -> exists s' v, solo c t s1 (Fence (ret c old x)) s' v) as EXIT.
  { intros s1 old x B1. destruct (ret_shape c old x) as [[v ->]|[-> _]]; [exists s1, v; apply solo_fence|].
    destruct (LOOP s1 B1) as (s' & v & S). exists s', v. eapply al_step; [apply ps_fence|exact S]. }
  assert (forall old nw s1, attempt c old nw -> bytes (sh_mem s1) -> exists s' v, solo c t s1 (again c old nw) s' v) as AGAIN.
  { intros old nw s1 At B1. unfold again.
    destruct (Z.eq_dec (get big (sh_mem s1) (addr_of c) (size_of c)) old) as [E|E].
    - destruct (solo_store t (set_mon t (Some (addr_of c, size_of c)) s1) c _ nw At (set_mon_here _ _ _)) as (s' & v & S). exists s', v.
      eapply al_step; [apply ps_ldrex|]. rewrite E, Z.eqb_refl. exact S.
    - destruct (EXIT (set_mon t (Some (addr_of c, size_of c)) s1) old (get big (sh_mem s1) (addr_of c) (size_of c)) B1) as (s' & v & S). exists s', v.
      eapply al_step; [apply ps_ldrex|]. apply Z.eqb_neq in E. rewrite E. exact S. }
  assert (forall old nw s1, attempt c old nw -> bytes (sh_mem s1) -> exists s' v, solo c t s1 (thumb_retry (size_of c) (addr_of c) old old nw (ret c old)) s' v) as RETRY.
  { intros old nw s1 At B1. destruct (AGAIN old nw (set_mon t None s1) At B1) as (s' & v & S). exists s', v. eapply al_step; [apply ps_strex_fail|exact S]. }
  assert (forall old nw s1, attempt c old nw -> bytes (sh_mem s1) -> exists s' v, solo c t s1 (Jump (TRetry old old nw)) s' v) as JUMP.
  { intros old nw s1 At B1. destruct (RETRY old nw s1 At B1) as (s' & v & S). exists s', v. eapply al_step; [apply ps_jump|]. rewrite retry_code by exact At. exact S. }
  destruct HI as [|HR|HR|old nw At|old nw At He|old nw At He|old nw At He|old nw At|v|v].
  - apply solo_start; assumption.
  - apply LOOP; exact B.
  - destruct (LOOP s B) as (s' & v & S). exists s', v. eapply al_step; [apply ps_fence|exact S].
  - unfold thumb_cmpxchg. destruct (Z.eq_dec (get big (sh_mem s) (addr_of c) (size_of c)) old) as [E|E].
    + destruct (JUMP old nw (set_mon t (Some (addr_of c, size_of c)) s) At B) as (s' & v & S). exists s', v. eapply al_step; [apply ps_ldrex|]. rewrite E, Z.eqb_refl. cbn [negb]. eapply al_step; [apply ps_fence|exact S].
    + destruct (EXIT (set_mon t (Some (addr_of c, size_of c)) s) old (get big (sh_mem s) (addr_of c) (size_of c)) B) as (s' & v & S). exists s', v.
      eapply al_step; [apply ps_ldrex|]. apply Z.eqb_neq in E. rewrite E. exact S.
  - destruct (JUMP old nw s At B) as (s' & v & S). exists s', v. eapply al_step; [apply ps_fence|exact S].
  - apply JUMP; assumption.
  - apply RETRY; assumption.
  - apply AGAIN; assumption.
  - exists s, v. apply solo_fence.
  - exists s, v. apply al_return. reflexivity.
Qed.
End Thumb.
