(** Linearizability of arm_linux.rs and thumbv6k.rs. *)
From Coq Require Import ZArith Bool List Lia.
From Verif Require Import Base BaseLemmas AtomicSpec AtomicModel AtomicProofs AtomicProofs2.
Open Scope Z_scope.
Import ListNotations.

Definition arm_ok (c : call) : Prop := valid [1; 2; 4] 32 c /\ exported c.
Lemma arm_size c : arm_ok c -> In (size_of c) [1; 2; 4] /\ 0 < size_of c.
Proof. intros [(H & _) _]. split; [exact H|]. destruct (sizes _ H); lia. Qed.
Lemma same_refl m : same m m. Proof. intros b; reflexivity. Qed.
Lemma write_bytes big t s a n v : bytes (sh_mem s) -> bytes (sh_mem (write big t s a n v)).
Proof. apply put_bytes. Qed.

Section Inv.
Context {A : Type} (big : bool) (code : A -> prog A) (t : nat).
Notation step := (pstep big code t).
Lemma step_done s v s' p' : step s (Done v) s' p' -> False.
Proof. intros H; inversion H. Qed.
Lemma step_jump s l s' p' : step s (Jump l) s' p' -> s' = s /\ p' = code l.
Proof. intros H; inversion H; auto. Qed.
Lemma step_fence s k s' p' : step s (Fence k) s' p' -> s' = s /\ p' = k.
Proof. intros H; inversion H; auto. Qed.
Lemma step_read s n a k s' p' : step s (Read n a k) s' p' -> s' = s /\ p' = k (get big (sh_mem s) a n).
Proof. intros H; inversion H; auto. Qed.
Lemma step_write s n a v k s' p' : step s (Write n a v k) s' p' -> s' = write big t s a n v /\ p' = k.
Proof. intros H; inversion H; auto. Qed.
Lemma step_ldrex s n a k s' p' : step s (Ldrex n a k) s' p' -> s' = set_mon t (Some (a, n)) s /\ p' = k (get big (sh_mem s) a n).
Proof. intros H; inversion H; auto. Qed.
Lemma step_strex s n a v k s' p' : step s (Strex n a v k) s' p' ->
  sh_mon s t = Some (a, n) /\ s' = set_mon t None (write big t s a n v) /\ p' = k true \/ s' = set_mon t None s /\ p' = k false.
Proof. intros H; inversion H; auto. Qed.
Lemma step_kcmpxchg s old new a k s' p' : step s (Kcmpxchg old new a k) s' p' ->
  get big (sh_mem s) a 4 = old /\ s' = write big t s a 4 new /\ p' = k true \/ s' = s /\ p' = k false.
Proof. intros H; inversion H; auto. Qed.
End Inv.

Section Linux.
Context (big : bool).
Notation word s c := (get big (sh_mem s) (align_ptr (size_of c) (addr_of c)) 4).

(** The program after the read of the word [w]. *)
Definition linux_read (c : call) (w : Z) : prog here :=
  match linux_code big c with Read _ _ k => k w | p => p end.
Definition linux_inv (_ : nat) (_ : shared) (c : call) (p : prog here) : Prop :=
  p = linux_code big c \/ p = Jump Loop \/ (exists w, p = linux_read c w /\ done p = None) \/ exists v, p = Done v.

Lemma linux_step t s c p s' p' : arm_ok c -> bytes (sh_mem s) -> linux_inv t s c p -> pstep big (fun _ => linux_code big c) t s p s' p' ->
  linux_inv t s' c p' /\ bytes (sh_mem s') /\
  (same (sh_mem s') (sh_mem s) /\ done p' = done p \/
   done p = None /\ same (sh_mem s') (fst (sem big c (sh_mem s))) /\ done p' = Some (snd (sem big c (sh_mem s)))).
Proof.
  intros Hc B HI HS. destruct (arm_size c Hc) as [Sz Sz0]. destruct Hc as [(_ & Ha & Hm & Hv) Hx].
  pose proof (align_ptr_ok _ _ Sz Ha Hm) as AP. pose proof (shift_ok big _ _ Sz (proj1 Ha) Hm) as (SH & _).
  assert (8 * size_of c <= 32) as S32 by (pose proof (small_sizes _ Sz); lia).
  assert (forall v, 0 <= v < 256 ^ size_of c -> norm (UI (8 * size_of c)) v = v) as NU.
  { intros v Hvv. rewrite norm_u, <- pow256 by lia. apply Z.mod_small. exact Hvv. }
  pose proof (get_range big (sh_mem s) (addr_of c) (size_of c) ltac:(lia) B) as GR.
  destruct HI as [->|[->|[(w & -> & D)|(v & ->)]]].
  - (* the start *)
    destruct c as [o new n a v|n a old new|n a|n a v]; cbn [size_of addr_of] in *; cbn [linux_code plain] in HS.
    + unfold linux_rmw in HS. rewrite SH in HS. apply step_read in HS as [-> ->]. split; [|split; [exact B|left; split; [apply same_refl|]]].
      * right; right; left. unfold linux_read, linux_code, linux_rmw. rewrite SH. eexists. split; reflexivity.
      * cbn [done linux_code]. unfold linux_rmw. rewrite SH. reflexivity.
    + unfold linux_cmpxchg in HS. rewrite SH in HS. apply step_read in HS as [-> ->]. rewrite AP, extract_ok by (assumption || lia).
      cbn [linux_code sem fst snd]. assert (done (linux_cmpxchg big n a old new) = None) as -> by (unfold linux_cmpxchg; rewrite SH; reflexivity).
      destruct (Z.eqb_spec (get big (sh_mem s) a n) old) as [E|E]; cbn [negb].
      * split; [|split; [exact B|left; split; [apply same_refl|reflexivity]]].
        right; right; left. exists (get big (sh_mem s) (a - a mod 4) 4). unfold linux_read, linux_code, linux_cmpxchg. rewrite SH, AP, extract_ok by (assumption || lia).
        rewrite E, Z.eqb_refl. cbn [negb]. split; reflexivity.
      * split; [right; right; right; eauto|]. split; [exact B|]. right. split; [reflexivity|]. split; [apply same_refl|].
        cbn [done]. rewrite NU by exact GR. reflexivity.
    + apply step_read in HS as [-> ->]. split; [right; right; right; eauto|]. split; [exact B|]. right. split; [reflexivity|]. split; [apply same_refl|reflexivity].
    + apply step_write in HS as [-> ->]. split; [right; right; right; eauto|]. split; [apply write_bytes; exact B|]. right. split; [reflexivity|]. split; [apply same_refl|reflexivity].
  - apply step_jump in HS as [-> ->]. split; [left; reflexivity|]. split; [exact B|]. left. split; [apply same_refl|].
    destruct c as [o new n a v|n a old new|n a|n a v]; cbn [linux_code plain]; unfold linux_rmw, linux_cmpxchg; cbn [size_of addr_of] in *; rewrite ?SH; reflexivity.
  - (* the exchange *)
    destruct c as [o new n a v|n a old new|n a|n a v]; cbn [size_of addr_of] in *; unfold linux_read in *; cbn [linux_code plain] in *; try discriminate.
    + unfold linux_rmw in *. rewrite SH in *. cbv beta zeta in HS. set (nv := norm (UI 32) _) in *.
      apply step_kcmpxchg in HS as [(<- & -> & ->)|(-> & ->)].
      * rewrite AP in *. split; [right; right; right; eauto|]. split; [apply write_bytes; exact B|]. right. split; [reflexivity|].
        assert (o <> Clear) as NC by (intros ->; exact Hx).
        inversion Hv as [|? ? Hv0 _]; subst. rewrite pow256 in Hv0 by lia. rewrite pow256 in GR by lia.
        assert (norm (UI (8 * n)) nv = apply o (8 * n) (get big (sh_mem s) a n) v) as EV.
        { unfold nv. rewrite norm_u_norm by lia. rewrite AP, extract_ok by (assumption || lia). apply op_ok; assumption || lia. }
        cbn [sem fst snd]. split.
        -- intros b. cbn [write sh_mem]. rewrite put_word by (assumption || lia). rewrite <- EV, norm_u, <- pow256 by lia. rewrite put_mod by lia. reflexivity.
        -- cbn [done]. f_equal. rewrite norm_u_ty by lia. destruct new; [exact EV|]. rewrite extract_ok by (assumption || lia). apply NU. rewrite pow256 by lia. exact GR.
      * split; [right; left; reflexivity|]. split; [exact B|]. left. split; [apply same_refl|reflexivity].
    + unfold linux_cmpxchg in *. rewrite SH in *. cbv beta zeta in HS, D |- *. destruct (Z.eqb_spec (extract_aligned w (8 * offset big n a) (2 ^ (8 * n) - 1)) old) as [E|E]; cbn [negb] in *; [|discriminate].
      apply step_kcmpxchg in HS as [(<- & -> & ->)|(-> & ->)].
      * rewrite AP in *. rewrite extract_ok in * by (assumption || lia). split; [right; right; right; eauto|]. split; [apply write_bytes; exact B|]. right. split; [reflexivity|].
        cbn [sem fst snd]. rewrite E, Z.eqb_refl. split.
        -- intros b. cbn [write sh_mem]. apply put_word; assumption || lia.
        -- cbn [done]. rewrite <- E, NU by exact GR. reflexivity.
      * split; [right; left; reflexivity|]. split; [exact B|]. left. split; [apply same_refl|reflexivity].
    + apply step_write in HS as [-> ->]. split; [right; right; right; eauto|]. split; [apply write_bytes; exact B|]. right. split; [reflexivity|]. split; [apply same_refl|reflexivity].
  - apply step_done in HS as [].
Qed.

Lemma linux_simulation m0 h s ts : bytes m0 -> linux_exec big m0 h s ts ->
  bytes (sh_mem s) /\ (forall t c l, ts t = Some (c, l) -> arm_ok c /\ linux_inv t s c l) /\
  exists m as_, atomic big arm_ok m0 h m as_ /\ same (sh_mem s) m /\ forall t, as_ t = abs (fun _ => done) (ts t).
Proof.
  intros B0 H. unfold linux_exec in H.
  refine (simulation big arm_ok _ _ _ linux_inv (fun _ => done) _ _ _ _ _ _ m0 h s ts B0 H).
  - intros c Hc. destruct (arm_size c Hc). lia.
  - intros t s0 c l Hc -> _. split; [left; reflexivity|].
    pose proof (arm_size c Hc) as [Sz _]. destruct Hc as [(_ & Ha & Hm & _) _]. pose proof (shift_ok big _ _ Sz (proj1 Ha) Hm) as (SH & _).
    destruct c as [o new n a v|n a old new|n a|n a v]; cbn [linux_code plain]; unfold linux_rmw, linux_cmpxchg; cbn [size_of addr_of] in *; rewrite ?SH; reflexivity.
  - intros t s0 c l v _ E. exact E.
  - intros t u s0 c l Hi. exact Hi.
  - intros t s0 c l s' l'. apply linux_step.
  - intros t u s0 c l s' l' c' k _ _ _ _ _ _ Hk. exact Hk.
Qed.

Notation solo c := (alone (fun c t => pstep big (fun _ => linux_code big c) t) (fun _ => done) c).
(** A pending call can always finish on its own. *)
Lemma linux_finishes t s c p : arm_ok c -> bytes (sh_mem s) -> linux_inv t s c p -> exists s' v, solo c t s p s' v.
Proof.
  intros Hc B HI. destruct (arm_size c Hc) as [Sz Sz0]. destruct Hc as [(_ & Ha & Hm & Hv) Hx].
  pose proof (shift_ok big _ _ Sz (proj1 Ha) Hm) as (SH & _).
  assert (exists s' v, solo c t s (linux_code big c) s' v) as ST.
  { destruct c as [o new n a v|n a old new|n a|n a v]; cbn [size_of addr_of] in *; cbn [linux_code plain].
    - unfold linux_rmw. rewrite SH. eexists _, _. eapply al_step; [apply ps_read|]. cbv beta zeta.
      eapply al_step; [apply ps_kcmpxchg; reflexivity|]. apply al_return; reflexivity.
    - unfold linux_cmpxchg. rewrite SH. destruct (Z.eq_dec (extract_aligned (get big (sh_mem s) (align_ptr n a) 4) (8 * offset big n a) (2 ^ (8 * n) - 1)) old) as [E|E].
      + eexists _, _. eapply al_step; [apply ps_read|]. cbv beta zeta. rewrite E, Z.eqb_refl. cbn [negb].
        eapply al_step; [apply ps_kcmpxchg; reflexivity|]. apply al_return; reflexivity.
      + eexists _, _. eapply al_step; [apply ps_read|]. cbv beta zeta. apply Z.eqb_neq in E. rewrite E. cbn [negb]. apply al_return; reflexivity.
    - eexists _, _. eapply al_step; [apply ps_read|]. apply al_return; reflexivity.
    - eexists _, _. eapply al_step; [apply ps_write|]. apply al_return; reflexivity. }
  destruct HI as [->|[->|[(w & -> & D)|(v & ->)]]].
  - exact ST.
  - destruct ST as (s' & v & ST). exists s', v. eapply al_step; [apply ps_jump|exact ST].
  - assert (linux_read c w = linux_code big c \/ exists old new a k, linux_read c w = Kcmpxchg old new a k /\ k false = Jump Loop) as [->|(old & new & a & k & -> & E)]; [|exact ST|].
    { unfold linux_read in *. destruct c as [o new n a v|n a old new|n a|n a v]; cbn [size_of addr_of] in *; cbn [linux_code plain] in *; try discriminate; unfold linux_rmw, linux_cmpxchg in *; rewrite ?SH in *.
      - right; eexists _, _, _, _. split; reflexivity.
      - destruct (negb _); [discriminate|]. right; eexists _, _, _, _. split; reflexivity.
      - left; reflexivity. }
    destruct ST as (s' & v & ST). exists s', v. eapply al_step; [apply ps_kcmpxchg_fail|]. rewrite E.
    eapply al_step; [apply ps_jump|exact ST].
  - exists s, v. apply al_return; reflexivity.
Qed.
End Linux.
