From Coq Require Import ZArith Lia Bool List.
From Verif Require Import Base BaseLemmas IntProofs3 MemModel MemProofs MemProofs2 MemProofs3 MemProofs4 MemProofs5 MemProofs6.
Import ListNotations.
Open Scope Z_scope.

(** * x86_64: string instructions *)

Definition x86_env (e : env) : Prop := W e = 8 /\ be e = false.

Lemma x86_ok e : x86_env e -> env_ok e.
Proof. intros [H _]. right. right. exact H. Qed.

Lemma rep_movs_fwd e sz : 0 < sz -> forall k m d s,
  in_space e d (sz * Z.of_nat k) -> in_space e s (sz * Z.of_nat k) ->
  can_read e s (sz * Z.of_nat k) -> can_write e d (sz * Z.of_nat k) -> fwd_ok d s (sz * Z.of_nat k) -> bytes_ok m ->
  exists m', rep_movs k e sz false m d s = Ok (m', d + sz * Z.of_nat k, s + sz * Z.of_nat k) /\
    copied m m' d s (sz * Z.of_nat k).
Proof.
  intros Hsz. induction k as [|k IH]; intros m d s [HD1 HD2] [HS1 HS2] HR HW HF Hm; cbn [rep_movs].
  - exists m. rewrite Z.mul_0_r, !Z.add_0_r. split; [reflexivity|apply copied_0].
  - assert (Hmul : sz * Z.of_nat (S k) = sz + sz * Z.of_nat k) by lia.
    assert (0 <= sz * Z.of_nat k) by (apply Z.mul_nonneg_nonneg; lia).
    unfold fwd_ok in HF. rewrite Hmul in *.
    rewrite ldu_ok; [|lia|intros x Hx; apply HR; lia]. cbn [bind].
    rewrite stu_ok; [|lia|intros x Hx; apply HW; lia]. cbn [bind].
    rewrite !padd_id by lia.
    set (m1 := upd _ _ _ _ _).
    assert (C1 : copied m m1 d s sz) by (apply upd_word; exact Hm).
    destruct (IH m1 (d + sz) (s + sz)) as (m' & E & C2); unfold in_space, fwd_ok; try lia.
    + intros x Hx. apply HR. lia.
    + intros x Hx. apply HW. lia.
    + eapply copied_bytes; [exact Hm|exact C1].
    + exists m'. split; [rewrite E; do 2 f_equal; [f_equal|]; lia|].
      apply copied_fwd with m1; try assumption; lia.
Qed.

(** Backward: the pointers designate the last element; [d], [s] are the starts. *)
Lemma rep_movs_bwd e sz : 0 < sz <= 8 -> forall k m d s,
  in_space e d (sz * Z.of_nat k) -> in_space e s (sz * Z.of_nat k) ->
  can_read e s (sz * Z.of_nat k) -> can_write e d (sz * Z.of_nat k) -> bwd_ok d s (sz * Z.of_nat k) -> bytes_ok m ->
  exists m', rep_movs k e sz true m (padd e (d + sz * Z.of_nat k) (- sz)) (padd e (s + sz * Z.of_nat k) (- sz))
      = Ok (m', padd e d (- sz), padd e s (- sz)) /\
    copied m m' d s (sz * Z.of_nat k).
Proof.
  intros Hsz. induction k as [|k IH]; intros m d s [HD1 HD2] [HS1 HS2] HR HW HF Hm; cbn [rep_movs].
  - exists m. rewrite Z.mul_0_r, !Z.add_0_r. split; [reflexivity|apply copied_0].
  - assert (Hmul : sz * Z.of_nat (S k) = sz * Z.of_nat k + sz) by lia.
    assert (0 <= sz * Z.of_nat k) by (apply Z.mul_nonneg_nonneg; lia).
    unfold bwd_ok in HF. rewrite Hmul in *.
    rewrite !(padd_id e (_ + (_ + _))) by lia.
    replace (d + (sz * Z.of_nat k + sz) + - sz) with (d + sz * Z.of_nat k) by lia.
    replace (s + (sz * Z.of_nat k + sz) + - sz) with (s + sz * Z.of_nat k) by lia.
    rewrite ldu_ok; [|lia|intros x Hx; apply HR; lia]. cbn [bind].
    rewrite stu_ok; [|lia|intros x Hx; apply HW; lia]. cbn [bind].
    set (m1 := upd _ _ _ _ _).
    assert (C1 : copied m m1 (d + sz * Z.of_nat k) (s + sz * Z.of_nat k) sz) by (apply upd_word; exact Hm).
    destruct (IH m1 d s) as (m' & E & C2); unfold in_space, bwd_ok; try lia.
    + intros x Hx. apply HR. lia.
    + intros x Hx. apply HW. lia.
    + eapply copied_bytes; [exact Hm|exact C1].
    + exists m'. split; [exact E|].
      apply copied_bwd with m1; try assumption; lia.
Qed.

Lemma rep_stos_ok e sz c v : 0 < sz -> (forall i, 0 <= i < sz -> byte v i = c) -> forall k m d,
  in_space e d (sz * Z.of_nat k) -> can_write e d (sz * Z.of_nat k) ->
  exists m', rep_stos k e sz m d v = Ok (m', d + sz * Z.of_nat k) /\ filled m m' d c (sz * Z.of_nat k).
Proof.
  intros Hsz Hv. induction k as [|k IH]; intros m d [HD1 HD2] HW; cbn [rep_stos].
  - exists m. rewrite Z.mul_0_r, !Z.add_0_r. split; [reflexivity|apply filled_0].
  - assert (Hmul : sz * Z.of_nat (S k) = sz + sz * Z.of_nat k) by lia.
    assert (0 <= sz * Z.of_nat k) by (apply Z.mul_nonneg_nonneg; lia).
    rewrite Hmul in *.
    rewrite stu_ok; [|lia|intros x Hx; apply HW; lia]. cbn [bind].
    rewrite !padd_id by lia.
    destruct (IH (upd e sz m d v) (d + sz)) as (m' & E & C2); unfold in_space; try lia.
    + intros x Hx. apply HW. lia.
    + exists m'. split; [rewrite E; do 2 f_equal; lia|].
      eapply filled_app; [lia|lia|apply upd_fill; exact Hv|exact C2].
Qed.

Lemma rep_param_ok e d n : x86_env e -> 0 <= d -> 0 <= n < 2 ^ abits e -> exists pre qw bc,
  rep_param e d n = Ok (pre, qw, bc) /\ 0 <= pre /\ 0 <= qw /\ 0 <= bc /\ n = pre + 8 * qw + bc.
Proof.
  intros He Hd Hn. unfold rep_param. pose proof (A_big e (x86_ok e He)).
  change 7 with (2 ^ 3 - 1). rewrite !land_ones_mod by lia.
  pose proof (Z.mod_pos_bound d (2 ^ 3) ltac:(lia)).
  assert (E8 : 2 ^ 3 = 8) by reflexivity. rewrite csub_u by lia. cbn [bind].
  rewrite land_ones_mod by lia. pose proof (Z.mod_pos_bound (8 - d mod 2 ^ 3) (2 ^ 3) ltac:(lia)).
  set (pre := Z.min _ n). assert (0 <= pre <= n) by lia. clearbody pre.
  rewrite csub_u by lia. cbn [bind]. rewrite land_ones_mod, shiftr_div by lia.
  pose proof (Z.div_mod (n - pre) (2 ^ 3) ltac:(lia)).
  pose proof (Z.mod_pos_bound (n - pre) (2 ^ 3) ltac:(lia)).
  pose proof (Z.div_pos (n - pre) (2 ^ 3) ltac:(lia) ltac:(lia)).
  exists pre, ((n - pre) / 2 ^ 3), ((n - pre) mod 2 ^ 3). split; [reflexivity|]. lia.
Qed.

Theorem x86_copy_forward_ok ermsb e m d s n : x86_env e -> 0 <= n ->
  in_space e d n -> in_space e s n -> can_read e s n -> can_write e d n -> fwd_ok d s n -> bytes_ok m ->
  exists m', x86_copy_forward ermsb e m d s n = Ok m' /\ copied m m' d s n.
Proof.
  intros He Hn [HD1 HD2] [HS1 HS2] HR HW HF Hm. unfold x86_copy_forward. destruct ermsb.
  - destruct (rep_movs_fwd e 1 ltac:(lia) (Z.to_nat n) m d s) as (m' & E & C);
      rewrite ?Z.mul_1_l, ?Z2Nat.id in * by lia; unfold in_space; try assumption; try lia.
    rewrite E. cbn [bind fst]. eauto.
  - destruct (rep_param_ok e d n He HD1 ltac:(lia)) as (pre & qw & bc & Ep & Hp & Hq & Hb & En).
    rewrite Ep. cbn [bind]. unfold fwd_ok in HF.
    destruct (rep_movs_fwd e 1 ltac:(lia) (Z.to_nat pre) m d s) as (m1 & E1 & C1);
      rewrite ?Z.mul_1_l, ?Z2Nat.id in * by lia; unfold in_space, fwd_ok; try assumption; try lia.
    { intros x Hx. apply HR. lia. } { intros x Hx. apply HW. lia. }
    rewrite E1. cbn [bind].
    assert (Hm1 : bytes_ok m1) by (eapply copied_bytes; [exact Hm|exact C1]).
    destruct (rep_movs_fwd e 8 ltac:(lia) (Z.to_nat qw) m1 (d + pre) (s + pre)) as (m2 & E2 & C2);
      rewrite ?Z2Nat.id in * by lia; unfold in_space, fwd_ok; try assumption; try lia.
    { intros x Hx. apply HR. lia. } { intros x Hx. apply HW. lia. }
    rewrite E2. cbn [bind].
    assert (Hm2 : bytes_ok m2) by (eapply copied_bytes; [exact Hm1|exact C2]).
    destruct (rep_movs_fwd e 1 ltac:(lia) (Z.to_nat bc) m2 (d + pre + 8 * qw) (s + pre + 8 * qw)) as (m3 & E3 & C3);
      rewrite ?Z.mul_1_l, ?Z2Nat.id in * by lia; unfold in_space, fwd_ok; try assumption; try lia.
    { intros x Hx. apply HR. lia. } { intros x Hx. apply HW. lia. }
    rewrite E3. cbn [bind fst]. exists m3. split; [reflexivity|]. rewrite En.
    apply copied_fwd with m2; try lia.
    + apply copied_fwd with m1; try assumption; lia.
    + rewrite !Z.add_assoc. exact C3.
Qed.

Lemma padd_padd e p a b : padd e (padd e p a) b = padd e p (a + b).
Proof. unfold padd. rewrite Zplus_mod_idemp_l. f_equal. lia. Qed.

Theorem x86_copy_backward_ok e m d s n : x86_env e -> 0 < n ->
  in_space e d n -> in_space e s n -> can_read e s n -> can_write e d n -> bwd_ok d s n -> bytes_ok m ->
  exists m', x86_copy_backward e m d s n = Ok m' /\ copied m m' d s n.
Proof.
  intros He Hn [HD1 HD2] [HS1 HS2] HR HW HF Hm. unfold x86_copy_backward.
  destruct (rep_param_ok e d n He HD1 ltac:(lia)) as (pre & qw & bc & Ep & Hp & Hq & Hb & En).
  rewrite Ep. cbn [bind]. rewrite csub_u by lia. cbn [bind]. unfold bwd_ok in HF.
  destruct (rep_movs_bwd e 1 ltac:(lia) (Z.to_nat bc) m (d + pre + 8 * qw) (s + pre + 8 * qw)) as (m1 & E1 & C1);
    rewrite ?Z.mul_1_l, ?Z2Nat.id in * by lia; unfold in_space, bwd_ok; try assumption; try lia.
  { intros x Hx. apply HR. lia. } { intros x Hx. apply HW. lia. }
  replace (padd e d (n - 1)) with (padd e (d + pre + 8 * qw + bc) (-1)) by (unfold padd; f_equal; lia).
  replace (padd e s (n - 1)) with (padd e (s + pre + 8 * qw + bc) (-1)) by (unfold padd; f_equal; lia).
  change (- (1)) with (-1) in E1. rewrite E1. cbn [bind]. rewrite !padd_padd. change (-1 + -7) with (-8).
  assert (Hm1 : bytes_ok m1) by (eapply copied_bytes; [exact Hm|exact C1]).
  destruct (rep_movs_bwd e 8 ltac:(lia) (Z.to_nat qw) m1 (d + pre) (s + pre)) as (m2 & E2 & C2);
    rewrite ?Z2Nat.id in * by lia; unfold in_space, bwd_ok; try assumption; try lia.
  { intros x Hx. apply HR. lia. } { intros x Hx. apply HW. lia. }
  change (- (8)) with (-8) in E2. rewrite E2. cbn [bind]. rewrite !padd_padd. change (-8 + 7) with (-1).
  assert (Hm2 : bytes_ok m2) by (eapply copied_bytes; [exact Hm1|exact C2]).
  destruct (rep_movs_bwd e 1 ltac:(lia) (Z.to_nat pre) m2 d s) as (m3 & E3 & C3);
    rewrite ?Z.mul_1_l, ?Z2Nat.id in * by lia; unfold in_space, bwd_ok; try assumption; try lia.
  { intros x Hx. apply HR. lia. } { intros x Hx. apply HW. lia. }
  change (- (1)) with (-1) in E3. rewrite E3. cbn [bind fst]. exists m3. split; [reflexivity|].
  replace n with (pre + (8 * qw + bc)) by lia.
  apply copied_bwd with m2; try assumption; try lia.
  apply copied_bwd with m1; try assumption; lia.
Qed.

Theorem x86_set_bytes_ok ermsb e m d c n : x86_env e -> 0 <= c <= 255 -> 0 <= n -> in_space e d n -> can_write e d n ->
  exists m', x86_set_bytes ermsb e m d c n = Ok m' /\ filled m m' d c n.
Proof.
  intros He Hc Hn [HD1 HD2] HW. unfold x86_set_bytes. destruct ermsb.
  - assert (Hv : forall i, 0 <= i < 1 -> byte c i = c) by (intros i Hi; replace i with 0 by lia; apply byte_0; lia).
    destruct (rep_stos_ok e 1 c c ltac:(lia) Hv (Z.to_nat n) m d) as (m' & E & C);
      rewrite ?Z.mul_1_l, ?Z2Nat.id in * by lia; unfold in_space; try assumption; try lia.
    rewrite E. cbn [bind fst]. eauto.
  - rewrite cmul_u by (change (2 ^ 64) with 18446744073709551616; lia). cbn [bind].
    assert (Hv8 : forall i, 0 <= i < 8 -> byte (c * 72340172838076673) i = c)
      by (apply (broadcast_bytes 72340172838076673 8); [cbn; auto|lia]).
    set (v := c * 72340172838076673) in *. clearbody v.
    assert (Hv1 : forall i, 0 <= i < 1 -> byte v i = c) by (intros i Hi; apply Hv8; lia).
    destruct (rep_param_ok e d n He HD1 ltac:(lia)) as (pre & qw & bc & Ep & Hp & Hq & Hb & En).
    rewrite Ep. cbn [bind].
    destruct (rep_stos_ok e 1 c v ltac:(lia) Hv1 (Z.to_nat pre) m d) as (m1 & E1 & C1);
      rewrite ?Z.mul_1_l, ?Z2Nat.id in * by lia; unfold in_space; try assumption; try lia.
    { intros x Hx. apply HW. lia. }
    rewrite E1. cbn [bind].
    destruct (rep_stos_ok e 8 c v ltac:(lia) Hv8 (Z.to_nat qw) m1 (d + pre)) as (m2 & E2 & C2);
      rewrite ?Z2Nat.id in * by lia; unfold in_space; try assumption; try lia.
    { intros x Hx. apply HW. lia. }
    rewrite E2. cbn [bind].
    destruct (rep_stos_ok e 1 c v ltac:(lia) Hv1 (Z.to_nat bc) m2 (d + pre + 8 * qw)) as (m3 & E3 & C3);
      rewrite ?Z.mul_1_l, ?Z2Nat.id in * by lia; unfold in_space; try assumption; try lia.
    { intros x Hx. apply HW. lia. }
    rewrite E3. cbn [bind fst]. exists m3. split; [reflexivity|].
    replace n with (pre + (8 * qw + bc)) by lia.
    apply filled_app with m1; try assumption; try lia.
    apply filled_app with m2; try assumption; try lia.
Qed.

(** * x86_64: compare_bytes *)

Lemma word_eq_iff b sz m a a' : bytes_ok m -> 0 < sz ->
  word_at b sz m a = word_at b sz m a' <-> (forall i, 0 <= i < sz -> m (a + i) = m (a' + i)).
Proof.
  intros Hm Hs. split.
  - intros E i Hi. rewrite <- (word_at_byte b sz m a i Hm Hi), <- (word_at_byte b sz m a' i Hm Hi), E. reflexivity.
  - intros H. unfold word_at. apply le_word_ext. intros i Hi. apply H. apply idx_range. lia.
Qed.

Lemma x86_c1_ok e m : bytes_ok m -> forall k a b, in_space e a (Z.of_nat k) -> in_space e b (Z.of_nat k) ->
  can_read e a (Z.of_nat k) -> can_read e b (Z.of_nat k) ->
  exists r, x86_c1 k e m a b = Ok r /\ cmp_rel m a b (Z.of_nat k) r.
Proof.
  intros Hm. induction k as [|k IH]; intros a b [HA1 HA2] [HB1 HB2] HRa HRb; cbn [x86_c1].
  - exists 0. split; [reflexivity|]. left. split; [intros; lia|reflexivity].
  - rewrite !ld1; try exact Hm; try (apply HRb; lia); try (apply HRa; lia). cbn [bind].
    pose proof (Hm a). pose proof (Hm b).
    destruct (Z.eqb_spec (m a) (m b)) as [E|E]; cbn [negb].
    + rewrite !padd_id by lia.
      destruct (IH (a + 1) (b + 1)) as (r & Er & Hr); unfold in_space; try lia.
      { intros x Hx. apply HRa. lia. } { intros x Hx. apply HRb. lia. }
      exists r. split; [exact Er|]. destruct Hr as [[Hall Hr]|(j & Hj & Hpre & Hne & Hr)].
      * left. split; [|exact Hr]. intros i Hi. destruct (Z.eq_dec i 0) as [->|]; [rewrite !Z.add_0_r; exact E|].
        specialize (Hall (i - 1) ltac:(lia)).
        replace (a + 1 + (i - 1)) with (a + i) in Hall by lia. replace (b + 1 + (i - 1)) with (b + i) in Hall by lia. exact Hall.
      * right. exists (j + 1). rewrite !(Z.add_comm j 1), !Z.add_assoc. repeat split; try lia; try assumption.
        intros i Hi. destruct (Z.eq_dec i 0) as [->|]; [rewrite !Z.add_0_r; exact E|].
        specialize (Hpre (i - 1) ltac:(lia)).
        replace (a + 1 + (i - 1)) with (a + i) in Hpre by lia. replace (b + 1 + (i - 1)) with (b + i) in Hpre by lia. exact Hpre.
    + exists (m a - m b). split.
      * unfold csub. rewrite chk_ok; [reflexivity|]. apply fits_s. change (2 ^ (32 - 1)) with 2147483648. lia.
      * right. exists 0. rewrite !Z.add_0_r. repeat split; try lia; try assumption.
Qed.

(** A comparison function correct on all ranges. *)
Definition cmp_fun (e : env) (m : mem) (f : Z -> Z -> Z -> res Z) : Prop :=
  forall a b n, 0 <= n -> in_space e a n -> in_space e b n -> can_read e a n -> can_read e b n ->
  exists r, f a b n = Ok r /\ cmp_rel m a b n r.

Lemma cmp_rel_shift m a b k n r : 0 <= k -> (forall i, 0 <= i < k -> m (a + i) = m (b + i)) ->
  cmp_rel m (a + k) (b + k) n r -> cmp_rel m a b (k + n) r.
Proof.
  intros Hk Hpre [[Hall Hr]|(j & Hj & Hp & Hne & Hr)].
  - left. split; [|exact Hr]. intros i Hi. destruct (Z.lt_ge_cases i k); [apply Hpre; lia|].
    specialize (Hall (i - k) ltac:(lia)).
    replace (a + k + (i - k)) with (a + i) in Hall by lia. replace (b + k + (i - k)) with (b + i) in Hall by lia. exact Hall.
  - right. exists (k + j). rewrite !Z.add_assoc. repeat split; try lia; try assumption.
    intros i Hi. destruct (Z.lt_ge_cases i k); [apply Hpre; lia|].
    specialize (Hp (i - k) ltac:(lia)).
    replace (a + k + (i - k)) with (a + i) in Hp by lia. replace (b + k + (i - k)) with (b + i) in Hp by lia. exact Hp.
Qed.
Lemma cmp_rel_more m a b k n r : 0 <= n -> ~ (forall i, 0 <= i < k -> m (a + i) = m (b + i)) ->
  cmp_rel m a b k r -> cmp_rel m a b (k + n) r.
Proof.
  intros Hn Hne [[Hall _]|(j & Hj & H)]; [contradiction|]. right. exists j. split; [lia|exact H].
Qed.

Lemma x86_cmp_loop_ok e m T f rest : bytes_ok m -> 0 < T -> 0 <= rest -> cmp_fun e m f -> forall fuel a b k,
  (Z.to_nat k <= fuel)%nat -> 0 <= k -> let n := T * k + rest in
  in_space e a n -> in_space e b n -> can_read e a n -> can_read e b n ->
  exists r, x86_cmp_loop fuel e m T f a b (a + T * k) rest = Ok r /\ cmp_rel m a b n r.
Proof.
  intros Hm HT Hrest Hf. induction fuel as [|fuel IH]; intros a b k Hfu Hk n [HA1 HA2] [HB1 HB2] HRa HRb;
    cbn [x86_cmp_loop]; destruct (Z.eqb_spec a (a + T * k)) as [E|E]; cbn [negb].
  - assert (k = 0) by nia. subst k n. rewrite Z.mul_0_r, Z.add_0_l in *. apply Hf; unfold in_space; try assumption; lia.
  - nia.
  - assert (k = 0) by nia. subst k n. rewrite Z.mul_0_r, Z.add_0_l in *. apply Hf; unfold in_space; try assumption; lia.
  - assert (1 <= k) by nia.
    assert (Hmul : T * k = T + T * (k - 1)) by lia.
    assert (0 <= T * (k - 1)) by (apply Z.mul_nonneg_nonneg; lia).
    unfold n in *. clear n. rewrite Hmul in *.
    rewrite !ldu_ok; try lia; try (intros x Hx; apply HRb; lia); try (intros x Hx; apply HRa; lia). cbn [bind].
    destruct (Z.eqb_spec (word_at (be e) T m a) (word_at (be e) T m b)) as [Ew|Ew]; cbn [negb];
      rewrite word_eq_iff in Ew by (assumption || lia).
    + rewrite !padd_id by lia. rewrite Z.add_assoc.
      destruct (IH (a + T) (b + T) (k - 1)) as (r & Er & Hr); unfold in_space; try lia.
      { intros x Hx. apply HRa. lia. } { intros x Hx. apply HRb. lia. }
      exists r. split; [exact Er|]. rewrite <- Z.add_assoc. apply cmp_rel_shift; try assumption; lia.
    + destruct (Hf a b T) as (r & Er & Hr); unfold in_space; try lia.
      { intros x Hx. apply HRa. lia. } { intros x Hx. apply HRb. lia. }
      exists r. split; [exact Er|]. rewrite <- Z.add_assoc. apply cmp_rel_more; [lia|exact Ew|exact Hr].
Qed.
Lemma x86_cmp_ok e m T f : bytes_ok m -> 0 < T -> cmp_fun e m f -> cmp_fun e m (x86_cmp e m T f).
Proof.
  intros Hm HT Hf a b n Hn HA HB HRa HRb. unfold x86_cmp.
  pose proof (Z.div_mod n T ltac:(lia)) as En. pose proof (Z.mod_pos_bound n T HT).
  assert (0 <= n / T) by (apply Z.div_pos; lia). assert (0 <= T * (n / T)) by (apply Z.mul_nonneg_nonneg; lia).
  destruct HA as [HA1 HA2].
  rewrite padd_id by lia. rewrite (Z.mul_comm (n / T)).
  cut (exists r, x86_cmp_loop (Z.to_nat (n / T)) e m T f a b (a + T * (n / T)) (n mod T) = Ok r /\
         cmp_rel m a b (T * (n / T) + n mod T) r).
  { intros (r & Er & Hr). exists r. split; [exact Er|]. rewrite <- En in Hr. exact Hr. }
  apply x86_cmp_loop_ok; try assumption; try lia; unfold in_space; rewrite <- En; try assumption; lia.
Qed.
Theorem x86_compare_bytes_ok e m a b n : bytes_ok m -> 0 <= n -> in_space e a n -> in_space e b n ->
  can_read e a n -> can_read e b n -> exists r, x86_compare_bytes e m a b n = Ok r /\ cmp_rel m a b n r.
Proof.
  intros Hm. revert a b n. change (cmp_fun e m (x86_compare_bytes e m)). unfold x86_compare_bytes.
  repeat (apply x86_cmp_ok; [exact Hm|lia|]).
  intros a b n Hn HA HB HRa HRb.
  cut (exists r, x86_c1 (Z.to_nat n) e m a b = Ok r /\ cmp_rel m a b (Z.of_nat (Z.to_nat n)) r).
  { rewrite Z2Nat.id by lia. auto. }
  rewrite <- (Z2Nat.id n) in HA, HB, HRa, HRb by lia. apply x86_c1_ok; assumption.
Qed.
