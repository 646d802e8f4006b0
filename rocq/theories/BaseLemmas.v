(** Lemmas about Base.v (no modelling here). *)
From Coq Require Import ZArith Bool List Lia ZifyBool Btauto.
From Verif Require Import Base.
Open Scope Z_scope.

Lemma pow2_pos n : 0 <= n -> 0 < 2 ^ n.
Proof. intros; apply Z.pow_pos_nonneg; lia. Qed.

Lemma pow2_add a b : 0 <= a -> 0 <= b -> 2 ^ (a + b) = 2 ^ a * 2 ^ b.
Proof. intros; apply Z.pow_add_r; lia. Qed.

Lemma pow2_S n : 0 < n -> 2 ^ n = 2 * 2 ^ (n - 1).
Proof. intros. replace n with (1 + (n - 1)) at 1 by lia. rewrite pow2_add by lia. reflexivity. Qed.

Lemma pow2_dbl n : 0 <= n -> 2 ^ (2 * n) = 2 ^ n * 2 ^ n.
Proof. intros. replace (2 * n) with (n + n) by lia. apply pow2_add; lia. Qed.

Lemma pow2_le a b : a <= b -> 2 ^ a <= 2 ^ b.
Proof. intros. destruct (Z_lt_le_dec a 0). { rewrite (Z.pow_neg_r 2 a) by lia. apply Z.pow_nonneg; lia. } apply Z.pow_le_mono_r; lia. Qed.

Lemma pow2_lt a b : 0 <= b -> a < b -> 2 ^ a < 2 ^ b.
Proof. intros. apply Z.pow_lt_mono_r; lia. Qed.

Lemma shiftl_mul x s : 0 <= s -> Z.shiftl x s = x * 2 ^ s.
Proof. intros; apply Z.shiftl_mul_pow2; lia. Qed.
Lemma shiftr_div x s : 0 <= s -> Z.shiftr x s = x / 2 ^ s.
Proof. intros; apply Z.shiftr_div_pow2; lia. Qed.

(** Disjoint [lor] is addition. *)
Lemma lor_add_low a b h : 0 <= h -> 0 <= a < 2 ^ h -> Z.lor a (b * 2 ^ h) = a + b * 2 ^ h.
Proof.
  intros Hh Ha.
  rewrite <- Z.shiftl_mul_pow2 by lia.
  rewrite <- Z.lxor_lor.
  - rewrite <- Z.add_nocarry_lxor; [reflexivity|].
    apply Z.bits_inj'; intros i Hi. rewrite Z.land_spec, Z.bits_0.
    destruct (Z_lt_le_dec i h).
    + rewrite Z.shiftl_spec_low by lia. apply andb_false_r.
    + assert (Z.testbit a i = false) as ->; [|reflexivity].
      destruct (Z.eq_dec a 0) as [->|]; [apply Z.bits_0|].
      apply Z.bits_above_log2; [lia|]. apply Z.log2_lt_pow2; [lia|].
      pose proof (pow2_le h i). lia.
  - apply Z.bits_inj'; intros i Hi. rewrite Z.land_spec, Z.bits_0.
    destruct (Z_lt_le_dec i h).
    + rewrite Z.shiftl_spec_low by lia. apply andb_false_r.
    + assert (Z.testbit a i = false) as ->; [|reflexivity].
      destruct (Z.eq_dec a 0) as [->|]; [apply Z.bits_0|].
      apply Z.bits_above_log2; [lia|]. apply Z.log2_lt_pow2; [lia|].
      pose proof (pow2_le h i). lia.
Qed.

Lemma land_ones_mod a h : 0 <= h -> Z.land a (2 ^ h - 1) = a mod 2 ^ h.
Proof. intros. rewrite <- Z.land_ones by lia. f_equal. rewrite Z.ones_equiv. lia. Qed.

(** ** Division helpers *)
Lemma div_mod_unique a b q r : 0 <= r < b -> a = b * q + r -> a / b = q /\ a mod b = r.
Proof. intros. split; [symmetry; eapply Z.div_unique | symmetry; eapply Z.mod_unique]; eauto; lia. Qed.

Lemma mod_congr x y m : (exists k, x = y + k * m) -> x mod m = y mod m.
Proof. intros [k ->]. apply Z_mod_plus_full. Qed.

(** ** [norm] *)
Section NormFacts.
Variable t : ity.
Hypothesis Hb : 0 < bits t.

Lemma norm_fits x : fits t (norm t x).
Proof.
  unfold fits, norm, imin, imax. pose proof (pow2_S (bits t) Hb).
  pose proof (pow2_pos (bits t - 1)).
  destruct (signed t).
  - pose proof (Z.mod_pos_bound (x + 2 ^ (bits t - 1)) (2 ^ bits t)). lia.
  - pose proof (Z.mod_pos_bound x (2 ^ bits t)). lia.
Qed.

Lemma norm_eq_mod x : exists k, norm t x = x + k * 2 ^ bits t.
Proof.
  unfold norm. pose proof (pow2_pos (bits t)). destruct (signed t).
  - exists (- ((x + 2 ^ (bits t - 1)) / 2 ^ bits t)).
    rewrite Z.mod_eq by lia. ring.
  - exists (- (x / 2 ^ bits t)). rewrite Z.mod_eq by lia. ring.
Qed.

Lemma norm_add_mul x k : norm t (x + k * 2 ^ bits t) = norm t x.
Proof.
  unfold norm. pose proof (pow2_pos (bits t)). destruct (signed t).
  - replace (x + k * 2 ^ bits t + 2 ^ (bits t - 1)) with (x + 2 ^ (bits t - 1) + k * 2 ^ bits t) by ring.
    now rewrite Z_mod_plus_full.
  - now rewrite Z_mod_plus_full.
Qed.

Lemma norm_id x : fits t x -> norm t x = x.
Proof.
  unfold fits, norm, imin, imax. pose proof (pow2_S (bits t) Hb).
  pose proof (pow2_pos (bits t - 1)).
  destruct (signed t); intros.
  - rewrite Z.mod_small; lia.
  - rewrite Z.mod_small; lia.
Qed.

Lemma fits_unique x k : fits t x -> fits t (x + k * 2 ^ bits t) -> k = 0.
Proof.
  intros Hx Hy. unfold fits, imin, imax in *.
  pose proof (pow2_S (bits t) Hb). pose proof (pow2_pos (bits t - 1)).
  destruct (signed t); nia.
Qed.

Lemma norm_unique x y k : fits t y -> y = x + k * 2 ^ bits t -> norm t x = y.
Proof. intros Hy ->. rewrite <- norm_add_mul with (k := k). now apply norm_id. Qed.

Lemma norm_congr x y : (exists k, x = y + k * 2 ^ bits t) -> norm t x = norm t y.
Proof. intros [k ->]. apply norm_add_mul. Qed.

Lemma norm_norm x : norm t (norm t x) = norm t x.
Proof. apply norm_id, norm_fits. Qed.

Lemma norm_add_l x y : norm t (norm t x + y) = norm t (x + y).
Proof. destruct (norm_eq_mod x) as [k ->]. apply norm_congr; exists k; ring. Qed.
Lemma norm_add_r x y : norm t (x + norm t y) = norm t (x + y).
Proof. destruct (norm_eq_mod y) as [k ->]. apply norm_congr; exists k; ring. Qed.
Lemma norm_sub_l x y : norm t (norm t x - y) = norm t (x - y).
Proof. destruct (norm_eq_mod x) as [k ->]. apply norm_congr; exists k; ring. Qed.
Lemma norm_sub_r x y : norm t (x - norm t y) = norm t (x - y).
Proof. destruct (norm_eq_mod y) as [k ->]. apply norm_congr; exists (-k); ring. Qed.
Lemma norm_mul_l x y : norm t (norm t x * y) = norm t (x * y).
Proof. destruct (norm_eq_mod x) as [k ->]. apply norm_congr; exists (k * y); ring. Qed.
Lemma norm_mul_r x y : norm t (x * norm t y) = norm t (x * y).
Proof. destruct (norm_eq_mod y) as [k ->]. apply norm_congr; exists (x * k); ring. Qed.

Lemma fitsb_spec x : fitsb t x = true <-> fits t x.
Proof. unfold fitsb, fits. lia. Qed.
Lemma fitsb_false x : fitsb t x = false <-> ~ fits t x.
Proof. unfold fitsb, fits. lia. Qed.

Lemma chk_ok x : fits t x -> chk t x = Ok x.
Proof. intros H. unfold chk. now rewrite (proj2 (fitsb_spec x) H). Qed.
End NormFacts.

Lemma fits_u n x : fits (UI n) x <-> 0 <= x < 2 ^ n.
Proof. unfold fits, imin, imax, UI; simpl. lia. Qed.
Lemma fits_s n x : fits (SI n) x <-> - 2 ^ (n - 1) <= x < 2 ^ (n - 1).
Proof. unfold fits, imin, imax, SI; simpl. lia. Qed.
Lemma bits_u n : bits (UI n) = n.
Proof. reflexivity. Qed.
Lemma bits_s n : bits (SI n) = n.
Proof. reflexivity. Qed.
Lemma norm_u n x : norm (UI n) x = x mod 2 ^ n.
Proof. reflexivity. Qed.

Lemma cadd_u n a b : 0 <= a + b < 2 ^ n -> cadd (UI n) a b = Ok (a + b).
Proof. intros. apply chk_ok. now apply fits_u. Qed.
Lemma csub_u n a b : 0 <= a - b < 2 ^ n -> csub (UI n) a b = Ok (a - b).
Proof. intros. apply chk_ok. now apply fits_u. Qed.
Lemma cmul_u n a b : 0 <= a * b < 2 ^ n -> cmul (UI n) a b = Ok (a * b).
Proof. intros. apply chk_ok. now apply fits_u. Qed.
Lemma cshl_ok t a s : 0 <= s < bits t -> cshl t a s = Ok (norm t (a * 2 ^ s)).
Proof. intros. unfold cshl. rewrite <- shiftl_mul by lia. now replace ((0 <=? s) && (s <? bits t)) with true by lia. Qed.
Lemma cshl_u_exact n a s : 0 <= s < n -> 0 <= a -> a * 2 ^ s < 2 ^ n -> cshl (UI n) a s = Ok (a * 2 ^ s).
Proof.
  intros. rewrite cshl_ok by (simpl; lia). f_equal. apply norm_id; [simpl; lia|]. apply fits_u.
  pose proof (pow2_pos s). nia.
Qed.
Lemma cshr_ok t a s : 0 <= s < bits t -> cshr t a s = Ok (a / 2 ^ s).
Proof. intros. unfold cshr. rewrite <- shiftr_div by lia. now replace ((0 <=? s) && (s <? bits t)) with true by lia. Qed.

(** ** Leading zeros *)
Lemma nlz_spec n x : 0 < x < 2 ^ n -> 0 <= nlz n x < n /\ 2 ^ (n - 1 - nlz n x) <= x < 2 ^ (n - nlz n x).
Proof.
  intros Hx. unfold nlz. replace (x <=? 0) with false by lia.
  pose proof (Z.log2_spec x ltac:(lia)). pose proof (Z.log2_nonneg x).
  assert (Z.log2 x < n) by (apply Z.log2_lt_pow2; lia).
  replace (n - 1 - (n - 1 - Z.log2 x)) with (Z.log2 x) by lia.
  replace (n - (n - 1 - Z.log2 x)) with (Z.succ (Z.log2 x)) by lia. lia.
Qed.
Lemma nlz_unique n x k : 2 ^ (n - 1 - k) <= x < 2 ^ (n - k) -> k < n -> nlz n x = k.
Proof.
  intros Hx Hk. unfold nlz.
  assert (0 < 2 ^ (n - 1 - k)) by (apply pow2_pos; lia).
  replace (x <=? 0) with false by lia.
  rewrite (Z.log2_unique x (n - 1 - k)); [lia|lia|].
  replace (Z.succ (n - 1 - k)) with (n - k) by lia. lia.
Qed.
Lemma nlz_0 n : nlz n 0 = n.
Proof. reflexivity. Qed.
