From Coq Require Import ZArith Lia Bool List.
From Verif Require Import Base BaseLemmas MemModel.
Import ListNotations.
Open Scope Z_scope.

(** * Ranges, bytes and words *)

Lemma range_ok_spec P a n : 0 <= n -> range_ok P a n = true <-> (forall x, a <= x < a + n -> P x = true).
Proof.
  intros Hn. unfold range_ok. rewrite forallb_forall. split.
  - intros H x Hx. specialize (H (Z.to_nat (x - a))).
    replace (a + Z.of_nat (Z.to_nat (x - a))) with x in H by lia. apply H.
    apply in_seq. lia.
  - intros H i Hi. apply in_seq in Hi. apply H. lia.
Qed.

Definition bytes_ok (m : mem) : Prop := forall a, 0 <= m a <= 255.

Lemma byte_div x i : 0 <= i -> byte x i = x / 2 ^ (8 * i) mod 256.
Proof.
  intros Hi. unfold byte. rewrite shiftr_div by lia.
  change 255 with (2 ^ 8 - 1). rewrite land_ones_mod by lia. reflexivity.
Qed.
Lemma byte_range x i : 0 <= byte x i <= 255.
Proof.
  unfold byte. change 255 with (2 ^ 8 - 1). rewrite land_ones_mod by lia.
  pose proof (Z.mod_pos_bound (Z.shiftr x (8 * i)) (2 ^ 8)). lia.
Qed.

Lemma le_word_range n : forall f, (forall i, 0 <= i < Z.of_nat n -> 0 <= f i <= 255) ->
  0 <= le_word n f < 2 ^ (8 * Z.of_nat n).
Proof.
  induction n as [|n IH]; intros f Hf.
  - cbn. lia.
  - cbn [le_word].
    assert (H : 0 <= le_word n (fun i => f (i + 1)) < 2 ^ (8 * Z.of_nat n)).
    { apply IH. intros i Hi. apply Hf. lia. }
    pose proof (Hf 0 ltac:(lia)).
    replace (8 * Z.of_nat (S n)) with (8 + 8 * Z.of_nat n) by lia.
    rewrite pow2_add by lia. change (2 ^ 8) with 256. lia.
Qed.

Lemma le_word_byte n : forall f k, (forall i, 0 <= i < Z.of_nat n -> 0 <= f i <= 255) ->
  0 <= k < Z.of_nat n -> byte (le_word n f) k = f k.
Proof.
  induction n as [|n IH]; intros f k Hf Hk; [lia|].
  rewrite byte_div by lia. cbn [le_word].
  set (R := le_word n (fun i => f (i + 1))).
  pose proof (Hf 0 ltac:(lia)) as H0.
  destruct (Z.eq_dec k 0) as [->|Hne].
  - change (2 ^ (8 * 0)) with 1. rewrite Z.div_1_r.
    replace (f 0 + 256 * R) with (f 0 + R * 256) by lia.
    rewrite Z.mod_add by lia. apply Z.mod_small. lia.
  - replace (8 * k) with (8 + 8 * (k - 1)) by lia. rewrite pow2_add by lia.
    rewrite <- Z.div_div by (try apply pow2_pos; lia).
    replace ((f 0 + 256 * R) / 2 ^ 8) with R.
    2: { change (2 ^ 8) with 256. replace (f 0 + 256 * R) with (f 0 + R * 256) by lia.
         rewrite Z.div_add by lia. rewrite Z.div_small by lia. lia. }
    rewrite <- byte_div by lia. unfold R. rewrite IH; [f_equal; lia | | lia].
    intros i Hi. apply Hf. lia.
Qed.

Lemma le_word_ext n : forall f g, (forall i, 0 <= i < Z.of_nat n -> f i = g i) -> le_word n f = le_word n g.
Proof.
  induction n as [|n IH]; intros f g H; [reflexivity|]. cbn [le_word].
  rewrite (H 0) by lia. rewrite (IH _ (fun i => g (i + 1))); [reflexivity|].
  intros i Hi. apply H. lia.
Qed.

Lemma idx_idx b sz i : idx b sz (idx b sz i) = i.
Proof. destruct b; cbn; lia. Qed.
Lemma idx_range b sz i : 0 <= i < sz -> 0 <= idx b sz i < sz.
Proof. destruct b; cbn; lia. Qed.

Lemma word_at_byte b sz m a i : bytes_ok m -> 0 <= i < sz ->
  byte (word_at b sz m a) (idx b sz i) = m (a + i).
Proof.
  intros Hm Hi. unfold word_at. pose proof (idx_range b sz i Hi).
  rewrite le_word_byte; [rewrite idx_idx; reflexivity | intros; apply Hm | lia].
Qed.
Lemma word_at_range b sz m a : bytes_ok m -> 0 <= sz -> 0 <= word_at b sz m a < 2 ^ (8 * sz).
Proof.
  intros Hm Hs. unfold word_at.
  pose proof (le_word_range (Z.to_nat sz) (fun i => m (a + idx b sz i)) (fun i _ => Hm _)) as H.
  rewrite Z2Nat.id in H by lia. exact H.
Qed.

(** * Targets *)

Definition env_ok (e : env) : Prop := W e = 2 \/ W e = 4 \/ W e = 8.

Lemma env_W e : env_ok e -> 2 <= W e <= 8.
Proof. unfold env_ok. lia. Qed.
Lemma W_pow e : env_ok e -> exists k, 1 <= k <= 3 /\ W e = 2 ^ k.
Proof.
  intros [H|[H|H]]; rewrite H; [exists 1 | exists 2 | exists 3]; (split; [lia|reflexivity]).
Qed.
Lemma A_big e : env_ok e -> 65536 <= 2 ^ abits e.
Proof.
  intros H. unfold abits. pose proof (env_W e H).
  change 65536 with (2 ^ 16). apply pow2_le. lia.
Qed.
Lemma A_W e : env_ok e -> exists k, 2 ^ abits e = k * W e /\ 0 < k.
Proof.
  intros H. destruct (W_pow e H) as (k & Hk & HW).
  exists (2 ^ (abits e - k)). unfold abits. pose proof (env_W e H). split.
  - rewrite HW at 3. rewrite <- pow2_add by lia. f_equal. lia.
  - apply pow2_pos. lia.
Qed.
Lemma land_mask e x : env_ok e -> Z.land x (W e - 1) = x mod W e.
Proof.
  intros H. destruct (W_pow e H) as (k & Hk & ->). apply land_ones_mod. lia.
Qed.
Lemma padd_id e p k : 0 <= p + k < 2 ^ abits e -> padd e p k = p + k.
Proof. intros H. apply Z.mod_small. exact H. Qed.
Lemma neg_mis e d : env_ok e -> Z.land (wrapping_neg (UI (abits e)) d) (W e - 1) = (- d) mod W e.
Proof.
  intros H. rewrite land_mask by auto. unfold wrapping_neg. rewrite norm_u.
  destruct (A_W e H) as (k & -> & Hk). pose proof (env_W e H).
  rewrite Z.mul_comm. rewrite Z.rem_mul_r by lia.
  rewrite Z.mul_comm, Z.mod_add by lia. apply Z.mod_mod. lia.
Qed.
Lemma land_not_mask e n : env_ok e -> 0 <= n < 2 ^ abits e ->
  Z.land n (inot (UI (abits e)) (W e - 1)) = n - n mod W e.
Proof.
  intros H Hn. destruct (W_pow e H) as (k & Hk & HW).
  assert (HA : 0 <= abits e) by (unfold abits; pose proof (env_W e H); lia).
  unfold inot. rewrite norm_u.
  assert (E : Z.land n (Z.lnot (W e - 1) mod 2 ^ abits e) = Z.ldiff n (W e - 1)).
  { apply Z.bits_inj'. intros i Hi. rewrite Z.land_spec, Z.ldiff_spec.
    destruct (Z.lt_ge_cases i (abits e)) as [Hlt|Hge].
    - rewrite Z.mod_pow2_bits_low by lia. rewrite Z.lnot_spec by lia. reflexivity.
    - rewrite Z.mod_pow2_bits_high by lia.
      replace (Z.testbit n i) with false; [reflexivity|].
      symmetry. destruct (Z.eq_dec n 0) as [->|]; [apply Z.bits_0|].
      apply Z.bits_above_log2; [lia|]. apply Z.log2_lt_pow2; [lia|].
      apply Z.lt_le_trans with (2 ^ abits e); [lia|]. apply pow2_le. lia. }
  rewrite E.
  replace (W e - 1) with (Z.ones k) by (rewrite Z.ones_equiv, HW; lia).
  rewrite Z.ldiff_ones_r by lia. rewrite shiftl_mul, shiftr_div by lia. rewrite <- HW.
  pose proof (Z.div_mod n (W e)). pose proof (env_W e H). lia.
Qed.
