(** Proofs about IntModel.v: addsub, shift, mul. *)
From Coq Require Import ZArith Bool List Lia ZifyBool.
From Verif Require Import Base BaseLemmas IntModel.
Import ListNotations.
Open Scope Z_scope.

(** ** Halves *)
Section Halves.
Variable t : ity.
Variable h : Z.
Hypothesis Hh : 0 < h.
Hypothesis Hn : bits t = 2 * h.

Lemma half_bits : bits t / 2 = h.
Proof. rewrite Hn, Z.mul_comm. apply Z.div_mul. lia. Qed.
Lemma half_eq : half t = Ity h (signed t).
Proof. unfold half. now rewrite half_bits. Qed.
Lemma dbl_half : dbl (half t) = t.
Proof. rewrite half_eq. unfold dbl; cbn [bits signed]. rewrite <- Hn. now destruct t. Qed.
Lemma pow_n : 2 ^ bits t = 2 ^ h * 2 ^ h.
Proof. rewrite Hn. apply pow2_dbl; lia. Qed.
Lemma Hbt : 0 < bits t. Proof. lia. Qed.
Lemma Hbh : 0 < bits (half t). Proof. rewrite half_eq; simpl; lia. Qed.

Lemma pow_n1 : 2 ^ (bits t - 1) = 2 ^ h * 2 ^ (h - 1).
Proof. replace (bits t - 1) with (h + (h - 1)) by lia. apply pow2_add; lia. Qed.

Lemma zero_widen_eq x : zero_widen (half t) x = x mod 2 ^ h.
Proof.
  unfold zero_widen. rewrite dbl_half. rewrite half_eq; simpl bits. rewrite norm_u.
  apply norm_id; [exact Hbt|]. unfold fits, imin, imax.
  pose proof (Z.mod_pos_bound x (2 ^ h) (pow2_pos h ltac:(lia))).
  rewrite pow_n1, pow_n. pose proof (pow2_pos (h-1)). pose proof (pow2_S h Hh).
  destruct (signed t); nia.
Qed.

Lemma norm_mul_multiple x : exists k, norm t (x * 2 ^ h) = k * 2 ^ h.
Proof.
  destruct (norm_eq_mod t Hbt (x * 2 ^ h)) as [k ->]. rewrite pow_n.
  exists (x + k * 2 ^ h). ring.
Qed.

Lemma widen_hi_eq x : widen_hi (half t) x = norm t (x * 2 ^ h).
Proof.
  unfold widen_hi. rewrite dbl_half, half_eq; simpl bits.
  rewrite shiftl_mul by lia. now rewrite norm_mul_l by exact Hbt.
Qed.

Lemma from_lo_hi_eq l x : from_lo_hi t l x = norm t (l mod 2 ^ h + x * 2 ^ h).
Proof.
  unfold from_lo_hi. rewrite zero_widen_eq, widen_hi_eq.
  pose proof (Z.mod_pos_bound l (2 ^ h) (pow2_pos h ltac:(lia))) as Hl.
  destruct (norm_eq_mod t Hbt (x * 2 ^ h)) as [k Hk].
  pose proof (norm_fits t Hbt (x * 2 ^ h)) as Hf.
  assert (norm t (x * 2 ^ h) = (x + k * 2 ^ h) * 2 ^ h) as E by (rewrite Hk, pow_n; ring).
  rewrite E in *. rewrite lor_add_low by lia.
  symmetry. apply norm_unique with (k := k); [exact Hbt| |rewrite pow_n; ring].
  unfold fits, imin, imax in *. rewrite pow_n1, pow_n in *.
  pose proof (pow2_pos (h-1)). pose proof (pow2_S h Hh).
  set (m := x + k * 2 ^ h) in *. destruct (signed t).
  - assert (m < 2 ^ (h - 1)) by nia. nia.
  - assert (m < 2 ^ h) by nia. nia.
Qed.

Lemma lo_mod x : exists k, lo t x = x + k * 2 ^ h.
Proof. unfold lo. rewrite half_eq. apply (norm_eq_mod (Ity h (signed t))). simpl; lia. Qed.
Lemma hi_mod x : exists k, hi t x = x / 2 ^ h + k * 2 ^ h.
Proof.
  unfold hi. rewrite half_bits, shiftr_div, half_eq by lia.
  apply (norm_eq_mod (Ity h (signed t))). simpl; lia.
Qed.
Lemma lo_mod_eq x : lo t x mod 2 ^ h = x mod 2 ^ h.
Proof. destruct (lo_mod x) as [k ->]. apply Z_mod_plus_full. Qed.
Lemma hi_fit x : fits t x -> hi t x = x / 2 ^ h.
Proof.
  intros Hx. unfold hi. rewrite half_bits, shiftr_div, half_eq by lia.
  apply norm_id; [simpl; lia|]. unfold fits, imin, imax in *. simpl bits; simpl signed.
  rewrite pow_n1, pow_n in *. pose proof (pow2_pos (h-1) ltac:(lia)). pose proof (pow2_pos h ltac:(lia)).
  destruct (signed t).
  - split. { apply Z.div_le_lower_bound; [lia|]. nia. }
    enough (x / 2 ^ h < 2 ^ (h - 1)) by lia. apply Z.div_lt_upper_bound; nia.
  - split. { apply Z.div_le_lower_bound; lia. }
    enough (x / 2 ^ h < 2 ^ h) by lia. apply Z.div_lt_upper_bound; nia.
Qed.
End Halves.

(** Unsigned versions of the halves. *)
Lemma lo_u h x : 0 < h -> lo (UI (2 * h)) x = x mod 2 ^ h.
Proof. intros. unfold lo. rewrite (half_eq _ h); auto. Qed.
Lemma hi_u h x : 0 < h -> 0 <= x < 2 ^ (2 * h) -> hi (UI (2 * h)) x = x / 2 ^ h.
Proof. intros. apply (hi_fit _ h); auto. now apply fits_u. Qed.
Lemma half_u h : 0 < h -> half (UI (2 * h)) = UI h.
Proof. intros. rewrite (half_eq _ h); auto. Qed.

Ltac bnd x h := pose proof (Z.mod_pos_bound x (2 ^ h) ltac:(apply pow2_pos; lia)).

(** ** addsub *)
Lemma uadd_correct h a b : 0 < h -> 0 <= a < 2 ^ (2 * h) -> 0 <= b < 2 ^ (2 * h) ->
  uadd (UI (2 * h)) a b = (a + b) mod 2 ^ (2 * h).
Proof.
  intros Hh Ha Hb. unfold uadd. cbn [fst snd overflowing_add].
  unfold overflowing_add, wrapping_add. rewrite !lo_u, !hi_u, half_u by auto.
  rewrite (from_lo_hi_eq _ h) by auto. rewrite !norm_u.
  bnd a h. bnd b h. rewrite pow2_dbl in * by lia. pose proof (pow2_pos h).
  pose proof (Z.div_mod a (2 ^ h)). pose proof (Z.div_mod b (2 ^ h)).
  rewrite Zmod_mod.
  apply mod_congr.
  set (al := a mod 2 ^ h) in *. set (bl := b mod 2 ^ h) in *.
  set (ah := a / 2 ^ h) in *. set (bh := b / 2 ^ h) in *.
  destruct (fitsb (UI h) (al + bl)) eqn:E; cbn [negb].
  - apply fitsb_spec, fits_u in E. rewrite (Z.mod_small (al + bl)) by lia.
    pose proof (Z.div_mod ((ah + bh) mod 2 ^ h + 0) (2 ^ h)).
    pose proof (Z.div_mod (ah + bh) (2 ^ h)).
    exists (- ((ah + bh) / 2 ^ h) - ((ah + bh) mod 2 ^ h + 0) / 2 ^ h). nia.
  - apply fitsb_false in E. rewrite fits_u in E.
    assert ((al + bl) mod 2 ^ h = al + bl - 2 ^ h) as ->.
    { symmetry. apply Z.mod_unique with (q := 1); lia. }
    pose proof (Z.div_mod ((ah + bh) mod 2 ^ h + 1) (2 ^ h)).
    pose proof (Z.div_mod (ah + bh) (2 ^ h)).
    exists (- ((ah + bh) / 2 ^ h) - ((ah + bh) mod 2 ^ h + 1) / 2 ^ h). nia.
Qed.

Lemma uadd_one_correct h a : 0 < h -> 0 <= a < 2 ^ (2 * h) ->
  uadd_one (UI (2 * h)) a = (a + 1) mod 2 ^ (2 * h).
Proof.
  intros Hh Ha. unfold uadd_one.
  unfold overflowing_add, wrapping_add. rewrite !lo_u, !hi_u, half_u by auto.
  rewrite (from_lo_hi_eq _ h) by auto. rewrite !norm_u.
  bnd a h. rewrite pow2_dbl in * by lia. pose proof (pow2_pos h).
  pose proof (Z.div_mod a (2 ^ h)).
  rewrite Zmod_mod.
  apply mod_congr.
  set (al := a mod 2 ^ h) in *. set (ah := a / 2 ^ h) in *.
  destruct (fitsb (UI h) (al + 1)) eqn:E; cbn [negb].
  - apply fitsb_spec, fits_u in E. rewrite (Z.mod_small (al + 1)) by lia.
    pose proof (Z.div_mod (ah + 0) (2 ^ h)).
    exists (- ((ah + 0) / 2 ^ h)). nia.
  - apply fitsb_false in E. rewrite fits_u in E.
    assert ((al + 1) mod 2 ^ h = al + 1 - 2 ^ h) as ->.
    { symmetry. apply Z.mod_unique with (q := 1); lia. }
    pose proof (Z.div_mod (ah + 1) (2 ^ h)).
    exists (- ((ah + 1) / 2 ^ h)). nia.
Qed.

Lemma usub_correct h a b : 0 < h -> 0 <= a < 2 ^ (2 * h) -> 0 <= b < 2 ^ (2 * h) ->
  usub (UI (2 * h)) a b = (a - b) mod 2 ^ (2 * h).
Proof.
  intros Hh Ha Hb. unfold usub, inot. rewrite norm_u.
  change (bits (UI (2 * h))) with (2 * h).
  assert (0 < 2 ^ (2 * h)) by (apply pow2_pos; lia).
  rewrite uadd_one_correct by (auto; apply Z.mod_pos_bound; lia).
  rewrite uadd_correct; auto.
  2:{ apply Z.mod_pos_bound; lia. }
  rewrite Zplus_mod_idemp_r, Z.add_assoc. rewrite (Z.add_comm a), <- Z.add_assoc.
  rewrite Zplus_mod_idemp_l. f_equal. pose proof (Z.add_lnot_diag b). lia.
Qed.

Lemma addsub_add_correct t h a b : 0 < h -> bits t = 2 * h -> addsub_add t a b = norm t (a + b).
Proof.
  intros Hh Hn. unfold addsub_add. rewrite !norm_u. rewrite Hn.
  assert (0 < 2 ^ (2 * h)) by (apply pow2_pos; lia).
  rewrite uadd_correct by (auto; apply Z.mod_pos_bound; lia).
  rewrite <- Zplus_mod. rewrite <- Hn. apply norm_congr.
  exists (- ((a + b) / 2 ^ bits t)). rewrite Z.mod_eq by (rewrite Hn; lia). ring.
Qed.
Lemma addsub_sub_correct t h a b : 0 < h -> bits t = 2 * h -> addsub_sub t a b = norm t (a - b).
Proof.
  intros Hh Hn. unfold addsub_sub. rewrite !norm_u. rewrite Hn.
  assert (0 < 2 ^ (2 * h)) by (apply pow2_pos; lia).
  rewrite usub_correct by (auto; apply Z.mod_pos_bound; lia).
  rewrite <- Zminus_mod. rewrite <- Hn. apply norm_congr.
  exists (- ((a - b) / 2 ^ bits t)). rewrite Z.mod_eq by (rewrite Hn; lia). ring.
Qed.

Lemma addo_correct t h a b : 0 < h -> bits t = 2 * h -> fits t a -> fits t b ->
  addo t a b = (norm t (a + b), negb (fitsb t (a + b))).
Proof.
  intros Hh Hn Ha Hb. unfold addo. rewrite (addsub_add_correct t h) by auto. f_equal.
  assert (0 < bits t) as Hbt by lia.
  destruct (norm_eq_mod t Hbt (a + b)) as [k Hk]. pose proof (norm_fits t Hbt (a + b)) as Hf.
  rewrite Hk in *. f_equal.
  pose proof (pow2_S (bits t) Hbt). pose proof (pow2_pos (bits t - 1)).
  unfold fits, fitsb, imin, imax in *.
  assert (k = -1 \/ k = 0 \/ k = 1) as [-> | [-> | ->]] by (destruct (signed t); nia);
    destruct (signed t); lia.
Qed.
Lemma subo_correct t h a b : 0 < h -> bits t = 2 * h -> fits t a -> fits t b ->
  subo t a b = (norm t (a - b), negb (fitsb t (a - b))).
Proof.
  intros Hh Hn Ha Hb. unfold subo. rewrite (addsub_sub_correct t h) by auto. f_equal.
  assert (0 < bits t) as Hbt by lia.
  destruct (norm_eq_mod t Hbt (a - b)) as [k Hk]. pose proof (norm_fits t Hbt (a - b)) as Hf.
  rewrite Hk in *. f_equal.
  pose proof (pow2_S (bits t) Hbt). pose proof (pow2_pos (bits t - 1)).
  unfold fits, fitsb, imin, imax in *.
  assert (k = -1 \/ k = 0 \/ k = 1) as [-> | [-> | ->]] by (destruct (signed t); nia);
    destruct (signed t); lia.
Qed.
