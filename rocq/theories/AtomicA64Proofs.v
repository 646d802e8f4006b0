(** The aarch64 outline atomics: facts about registers and memory, the invariants. *)
From Coq Require Import ZArith Bool List Lia.
From Verif Require Import Base BaseLemmas AtomicSpec AtomicModel AtomicProofs AtomicProofs2 AtomicProofs3 AtomicProofs4 AtomicA64Model.
Open Scope Z_scope.
Import ListNotations.

Definition small (n : Z) : Prop := n = 1 \/ n = 2 \/ n = 4 \/ n = 8.
Lemma small_width n : small n -> 0 < n /\ 8 * n <= width n <= 64.
Proof. intros [->|[->|[->| ->]]]; vm_compute; intuition congruence. Qed.
Lemma mod_mod_le k j x : 0 <= k <= j -> (x mod 2 ^ j) mod 2 ^ k = x mod 2 ^ k.
Proof.
  intros H. assert (2 ^ j = 2 ^ k * 2 ^ (j - k)) as -> by (rewrite <- Z.pow_add_r by lia; f_equal; lia).
  pose proof (pow2_pos k). pose proof (pow2_pos (j - k)). rewrite Z.rem_mul_r by lia. rewrite Z.mul_comm, Z.mod_add by lia. apply Z.mod_mod. lia.
Qed.
Lemma rd_holds n l r : small n -> rd n l r mod 256 ^ n = reg l r mod 256 ^ n.
Proof. intros H. destruct (small_width n H). unfold rd. rewrite pow256 by lia. apply mod_mod_le. lia. Qed.
Lemma rd_small n l r : small n -> 0 <= reg l r < 256 ^ n -> rd n l r = reg l r.
Proof.
  intros H. destruct (small_width n H). unfold rd. rewrite pow256 by lia. intros R. apply Z.mod_small. split; [lia|]. apply Z.lt_le_trans with (2 ^ (8 * n)); [lia|apply Z.pow_le_mono_r; lia].
Qed.

(** The arithmetic. *)
Definition alu_of (o : rmw) : option alu := match o with Add => Some OAdd | Clear => Some OBic | Xor => Some OEor | Or => Some OOrr | _ => None end.
Lemma ldiff_land k x v : 0 <= k -> 0 <= x < 2 ^ k -> 0 <= v < 2 ^ k -> Z.ldiff x v = Z.land x (2 ^ k - 1 - v).
Proof.
  intros Hk Hx Hv. apply Z.bits_inj'. intros i Hi. rewrite Z.ldiff_spec, Z.land_spec.
  destruct (Z.lt_ge_cases i k) as [L|G].
  - f_equal. replace (2 ^ k - 1 - v) with (Z.lnot v + 1 * 2 ^ k) by (unfold Z.lnot; lia).
    rewrite <- (Z.mod_pow2_bits_low (Z.lnot v + 1 * 2 ^ k) k i) by lia. rewrite Z.mod_add by lia. rewrite Z.mod_pow2_bits_low by lia. symmetry. apply Z.lnot_spec. exact Hi.
  - destruct (Z.eq_dec x 0) as [->|N]; [rewrite Z.bits_0; reflexivity|]. rewrite (Z.bits_above_log2 x i); [reflexivity|lia|].
    apply Z.log2_lt_pow2; [lia|]. apply Z.lt_le_trans with (2 ^ k); [lia|apply Z.pow_le_mono_r; lia].
Qed.
Lemma bits_mod k x y : 0 <= k -> (forall i, 0 <= i < k -> Z.testbit x i = Z.testbit y i) -> x mod 2 ^ k = y mod 2 ^ k.
Proof.
  intros Hk H. apply Z.bits_inj'. intros i Hi. destruct (Z.lt_ge_cases i k) as [L|G].
  - rewrite !Z.mod_pow2_bits_low by lia. apply H. lia.
  - rewrite !Z.mod_pow2_bits_high by lia. reflexivity.
Qed.
Lemma alu_apply o u k x y : alu_of o = Some u -> 0 < k -> 0 <= x < 2 ^ k -> alu_op u x y mod 2 ^ k = apply o k x (y mod 2 ^ k).
Proof.
  intros E Hk Hx. pose proof (pow2_pos k ltac:(lia)) as P. pose proof (Z.mod_pos_bound y (2 ^ k) P) as Y.
  rewrite <- (Z.mod_small (apply o k x (y mod 2 ^ k)) (2 ^ k)) by (apply apply_range; assumption).
  destruct o; try discriminate E; injection E as <-; cbn [alu_op apply].
  - rewrite Z.mod_mod, Z.add_mod_idemp_r by lia. reflexivity.
  - apply bits_mod; [lia|]. intros i Hi. rewrite !Z.lor_spec, Z.mod_pow2_bits_low by lia. reflexivity.
  - apply bits_mod; [lia|]. intros i Hi. rewrite !Z.lxor_spec, Z.mod_pow2_bits_low by lia. reflexivity.
  - rewrite <- (ldiff_land k) by (assumption || lia). apply bits_mod; [lia|]. intros i Hi. rewrite !Z.ldiff_spec, Z.mod_pow2_bits_low by lia. reflexivity.
Qed.
Lemma alu_width o u n x y : alu_of o = Some u -> small n -> 0 <= x < 256 ^ n ->
  (alu_op u (x mod 2 ^ width n) (y mod 2 ^ width n) mod 2 ^ width n) mod 256 ^ n = apply o (8 * n) x (y mod 256 ^ n).
Proof.
  intros E S. destruct (small_width n S) as [Hn [W _]]. rewrite pow256 by lia. intros Hx. rewrite mod_mod_le by lia.
  rewrite (Z.mod_small x) by (split; [lia|]; apply Z.lt_le_trans with (2 ^ (8 * n)); [lia|apply Z.pow_le_mono_r; lia]).
  rewrite (alu_apply o u) by (assumption || lia). rewrite mod_mod_le by lia. reflexivity.
Qed.

(** Pairs. *)
Lemma get_pair big m a : get big m a 16 = pair big (get big m a 8) (get big m (a + 8) 8).
Proof.
  unfold get, pair. change (Z.to_nat 16) with (8 + 8)%nat. change (Z.to_nat 8) with 8%nat. destruct big.
  - rewrite split_be. reflexivity.
  - rewrite split_le. reflexivity.
Qed.
Lemma pair_inj big x y x' y' : 0 <= x < 2 ^ 64 -> 0 <= y < 2 ^ 64 -> 0 <= x' < 2 ^ 64 -> 0 <= y' < 2 ^ 64 ->
  pair big x y = pair big x' y' -> x = x' /\ y = y'.
Proof. intros. unfold pair in *. destruct big; lia. Qed.
Lemma pair_eqb big x y x' y' : 0 <= x < 2 ^ 64 -> 0 <= y < 2 ^ 64 -> 0 <= x' < 2 ^ 64 -> 0 <= y' < 2 ^ 64 ->
  (pair big x y =? pair big x' y') = (x =? x') && (y =? y').
Proof.
  intros X Y X' Y'. destruct (Z.eqb_spec (pair big x y) (pair big x' y')) as [E|E].
  - apply pair_inj in E as [-> ->]; [|assumption..]. rewrite !Z.eqb_refl. reflexivity.
  - destruct (Z.eqb_spec x x') as [->|]; [|reflexivity]. destruct (Z.eqb_spec y y') as [->|]; [contradiction|reflexivity].
Qed.

(** The step of another thread and the monitors. *)
Lemma astep_other big whole code t u s l s' l' b k : u <> t -> 0 <= k -> astep big whole code t s l s' l' ->
  sh_mon s' u = Some (b, k) -> sh_mon s u = Some (b, k) /\ forall j o, 0 <= o -> 0 <= j -> o + j <= k -> get big (sh_mem s') (b + o) j = get big (sh_mem s) (b + o) j.
Proof.
  intros N Hk H.
  assert (forall a n v, sh_mon (write big t s a n v) u = Some (b, k) ->
    sh_mon s u = Some (b, k) /\ forall j o, 0 <= o -> 0 <= j -> o + j <= k -> get big (sh_mem (write big t s a n v)) (b + o) j = get big (sh_mem s) (b + o) j) as W.
  { intros a n v. cbn [write sh_mon sh_mem]. destruct (Nat.eqb_spec u t); [contradiction|].
    destruct (sh_mon s u) as [[b' k']|]; [|discriminate]. destruct (overlap a n b' k') eqn:O; [discriminate|]. intros [= -> ->].
    split; [reflexivity|]. intros j o Ho Hj Hoj. apply get_ext; [exact Hj|]. intros x Hx. apply put_other. intros Hx'. rewrite (overlap_in a n b k x Hx') in O by lia. discriminate. }
  assert (forall s1, s' = s1 \/ (exists x, s' = set_mon t x s1) -> s1 = s \/ (exists a n v, s1 = write big t s a n v) ->
    sh_mon s' u = Some (b, k) -> sh_mon s u = Some (b, k) /\ forall j o, 0 <= o -> 0 <= j -> o + j <= k -> get big (sh_mem s') (b + o) j = get big (sh_mem s) (b + o) j) as G.
  { intros s1 [->|[x ->]] H1 M.
    - destruct H1 as [->|(a & n & v & ->)]; [split; [exact M|reflexivity]|apply W; exact M].
    - rewrite set_mon_other in M by exact N. cbn [set_mon sh_mem]. destruct H1 as [->|(a & n & v & ->)]; [split; [exact M|reflexivity]|apply W; exact M]. }
  unfold astep in H. destruct (half l) as [[d a]|].
  - destruct H as [-> _]. apply (G s); auto.
  - destruct (nth_error code (pc l)) as [i|]; [|contradiction].
    destruct i; cbn [istep] in H; try contradiction.
    all: try (destruct H as [-> _]; first [apply (G s); [left; reflexivity|left; reflexivity] | apply (G s); [right; eexists; reflexivity|left; reflexivity]
      | eapply G; [left; reflexivity|right; eexists _, _, _; reflexivity]]; fail).
    all: try (destruct H as [(_ & -> & _)|[-> _]]; [eapply G; [right; eexists; reflexivity|right; eexists _, _, _; reflexivity] | apply (G s); [right; eexists; reflexivity|left; reflexivity]]; fail).
    all: destruct H as [-> _]; destruct (_ =? _); [eapply G; [left; reflexivity|right; eexists _, _, _; reflexivity]|apply (G s); left; reflexivity].
Qed.
