(** arm_linux.rs and thumbv6k.rs: the words, the closures and the simulations. *)
From Coq Require Import ZArith Bool List Lia.
From Verif Require Import Base BaseLemmas AtomicSpec AtomicModel AtomicProofs LibmProofs.
Open Scope Z_scope.
Import ListNotations.

Lemma pow256 n : 0 <= n -> 256 ^ n = 2 ^ (8 * n).
Proof. intros H. rewrite Z.pow_mul_r by lia. reflexivity. Qed.

(** * Cells inside words *)
Lemma sizes n : In n [1; 2; 4] -> n = 1 \/ n = 2 \/ n = 4.
Proof. cbn. lia. Qed.

Lemma align_ptr_ok n a : In n [1; 2; 4] -> 0 <= a < 2 ^ 32 -> a mod n = 0 -> align_ptr n a = a - a mod 4.
Proof.
  intros Hn Ha Hm. unfold align_ptr.
  destruct (sizes n Hn) as [->|[->| ->]].
  - apply (land_inot_low 32 2); lia.
  - pose proof (land_inot_low 32 2 a ltac:(lia) Ha) as G2. change (2 ^ 2 - 1) with 3 in G2. change (2 ^ 2) with 4 in G2. rewrite <- G2.
    change (Z.land 3 (4 - 2)) with 2. unfold inot. rewrite !norm_u. apply Z.bits_inj'. intros i Hi. rewrite !Z.land_spec.
    destruct (Z_lt_dec i 32) as [L|L]; [|rewrite !Z.mod_pow2_bits_high by lia; reflexivity].
    rewrite !Z.mod_pow2_bits_low, !Z.lnot_spec by lia.
    destruct (Z.eq_dec i 0) as [->|N].
    + rewrite Z.bit0_odd. assert (Z.odd a = false) as ->; [|reflexivity]. rewrite Zmod_odd in Hm. destruct (Z.odd a); [discriminate|reflexivity].
    + f_equal. f_equal. change 2 with (2 * 1). change 3 with (2 * 1 + 1). replace i with (Z.succ (i - 1)) by lia.
      rewrite Z.testbit_even_succ, Z.testbit_odd_succ by lia. reflexivity.
  - pose proof (land_inot_low 32 0 a ltac:(lia) Ha) as G0. change (2 ^ 0 - 1) with 0 in G0. change (Z.land 3 (4 - 4)) with 0. rewrite G0, Hm. change (2 ^ 0) with 1. rewrite Z.mod_1_r. lia.
Qed.

Definition offset (big : bool) (n a : Z) : Z := if big then 4 - n - a mod 4 else a mod 4.
Lemma shift_ok big n a : In n [1; 2; 4] -> 0 <= a -> a mod n = 0 ->
  get_shift_mask big n a = (8 * offset big n a, 2 ^ (8 * n) - 1) /\ 0 <= offset big n a /\ offset big n a + n <= 4 /\ a mod 4 + n <= 4.
Proof.
  intros Hn Ha Hm. unfold get_shift_mask, offset.
  assert (Z.land a (2 ^ 2 - 1) = a mod 4) as L3 by (apply land_ones_mod; lia).
  pose proof (Z.mod_pos_bound a 4 ltac:(lia)) as MB.
  destruct (sizes n Hn) as [->|[->| ->]]; cbn [Z.eqb Pos.eqb].
  - change (Z.land 3 (4 - 1)) with (2 ^ 2 - 1). rewrite L3. assert (a mod 4 = 0 \/ a mod 4 = 1 \/ a mod 4 = 2 \/ a mod 4 = 3) as [->|[->|[->| ->]]] by lia; destruct big; cbn; repeat split; lia.
  - change (Z.land 3 (4 - 2)) with 2. assert (Z.land a 2 = a mod 4) as ->.
    { rewrite <- L3. apply Z.bits_inj'. intros i Hi. rewrite !Z.land_spec. destruct (Z.eq_dec i 0) as [->|N].
      + rewrite Z.bit0_odd. assert (Z.odd a = false) as ->; [|reflexivity]. rewrite Zmod_odd in Hm. destruct (Z.odd a); [discriminate|reflexivity].
      + f_equal. change 2 with (2 * 1) at 1. change (2 ^ 2 - 1) with (2 * 1 + 1). replace i with (Z.succ (i - 1)) by lia.
        rewrite Z.testbit_even_succ, Z.testbit_odd_succ by lia. reflexivity. }
    assert (a mod 4 = 0 \/ a mod 4 = 2) as [->| ->].
    { pose proof (Z.div_mod a 4 ltac:(lia)). pose proof (Z.div_mod a 2 ltac:(lia)). lia. }
    all: destruct big; cbn; repeat split; lia.
  - change (Z.land 3 (4 - 4)) with 0. rewrite Z.land_0_r, Hm. destruct big; cbn; repeat split; lia.
Qed.

(** Reading and replacing the cell in the word. *)
Lemma extract_ok big m n a : bytes m -> In n [1; 2; 4] -> 0 <= a -> a mod n = 0 ->
  extract_aligned (get big m (a - a mod 4) 4) (8 * offset big n a) (2 ^ (8 * n) - 1) = get big m a n.
Proof.
  intros B Hn Ha Hm. destruct (shift_ok big n a Hn Ha Hm) as (_ & H0 & H1 & H2). assert (0 < n) by (destruct (sizes n Hn); lia).
  unfold extract_aligned. rewrite shiftr_div, land_ones_mod by lia. rewrite <- !pow256 by lia.
  pose proof (Z.mod_pos_bound a 4 ltac:(lia)).
  replace a with (a - a mod 4 + a mod 4) at 4 by lia. rewrite <- get_part with (w := 4) by (assumption || lia). unfold offset. reflexivity.
Qed.

Lemma insert_bits w v s k i : 0 <= s -> 0 <= k -> s + k <= 32 -> 0 <= w < 2 ^ 32 -> 0 <= i < 32 ->
  Z.testbit (insert_aligned w v s (2 ^ k - 1)) i = if (s <=? i) && (i <? s + k) then Z.testbit v (i - s) else Z.testbit w i.
Proof.
  intros Hs Hk Hsk Hw Hi. unfold insert_aligned, inot. rewrite !norm_u, Z.lor_spec, Z.land_spec.
  rewrite !Z.mod_pow2_bits_low, Z.lnot_spec, Z.mod_pow2_bits_low by lia. rewrite !Z.shiftl_spec, Z.land_spec by lia.
  replace (2 ^ k - 1) with (Z.ones k) by (rewrite Z.ones_equiv; lia).
  destruct (Z.leb_spec s i) as [L|L]; cbn [andb].
  - destruct (Z.ltb_spec i (s + k)).
    + rewrite Z.ones_spec_low by lia. cbn [negb]. rewrite andb_false_r, andb_true_r. reflexivity.
    + rewrite Z.ones_spec_high by lia. cbn [negb]. rewrite andb_true_r, andb_false_r, orb_false_r. reflexivity.
  - rewrite !(Z.testbit_neg_r _ (i - s)) by lia. cbn. rewrite andb_true_r, orb_false_r. reflexivity.
Qed.
Lemma insert_byte w v o n j : 0 <= o -> 0 <= n -> o + n <= 4 -> 0 <= w < 2 ^ 32 -> 0 <= j < 4 ->
  (insert_aligned w v (8 * o) (2 ^ (8 * n) - 1) / 256 ^ j) mod 256 = if (o <=? j) && (j <? o + n) then (v / 256 ^ (j - o)) mod 256 else (w / 256 ^ j) mod 256.
Proof.
  intros Ho Hn Hon Hw Hj. change 256 with (2 ^ 8) at 2 4 6. rewrite (pow256 j) by lia.
  assert (forall X i, 0 <= i < 8 -> Z.testbit ((X / 2 ^ (8 * j)) mod 2 ^ 8) i = Z.testbit X (8 * j + i)) as T.
  { intros X i Hi. rewrite Z.mod_pow2_bits_low, Z.div_pow2_bits by lia. f_equal. lia. }
  apply Z.bits_inj'. intros i Hi. destruct (Z_lt_dec i 8) as [L|L].
  - rewrite T by lia. rewrite insert_bits by lia.
    destruct (Z.leb_spec o j), (Z.ltb_spec j (o + n)), (Z.leb_spec (8 * o) (8 * j + i)), (Z.ltb_spec (8 * j + i) (8 * o + 8 * n)); cbn [andb]; try lia; try (rewrite T by lia; reflexivity).
    rewrite (pow256 (j - o)) by lia. rewrite Z.mod_pow2_bits_low, Z.div_pow2_bits by lia. f_equal. lia.
  - rewrite Z.mod_pow2_bits_high by lia. destruct (_ && _); rewrite Z.mod_pow2_bits_high by lia; reflexivity.
Qed.
Lemma put_word big m n a v : bytes m -> In n [1; 2; 4] -> 0 <= a -> a mod n = 0 ->
  same (put big m (a - a mod 4) 4 (insert_aligned (get big m (a - a mod 4) 4) v (8 * offset big n a) (2 ^ (8 * n) - 1))) (put big m a n v).
Proof.
  intros B Hn Ha Hm b. destruct (shift_ok big n a Hn Ha Hm) as (_ & H0 & H1 & H2). assert (0 < n) by (destruct (sizes n Hn); lia).
  pose proof (Z.mod_pos_bound a 4 ltac:(lia)) as MB. set (A := a - a mod 4) in *.
  pose proof (get_range big m A 4 ltac:(lia) B) as GR. change (256 ^ 4) with (2 ^ 32) in GR.
  assert (A <= b < A + 4 \/ ~ (A <= b < A + 4)) as [I|O] by lia.
  - rewrite put_in by exact I. rewrite insert_byte by (destruct big; lia).
    rewrite get_byte by (assumption || destruct big; lia). unfold offset in *.
    assert (a <= b < a + n \/ ~ (a <= b < a + n)) as [I2|O2] by lia.
    + rewrite (put_in big m a n v b I2). destruct big.
      * destruct (Z.leb_spec (4 - n - a mod 4) (A + 4 - 1 - b)), (Z.ltb_spec (A + 4 - 1 - b) (4 - n - a mod 4 + n)); cbn [andb]; try (unfold A in *; lia). do 3 f_equal. unfold A. lia.
      * destruct (Z.leb_spec (a mod 4) (b - A)), (Z.ltb_spec (b - A) (a mod 4 + n)); cbn [andb]; try (unfold A in *; lia). do 3 f_equal. unfold A. lia.
    + rewrite (put_other big m a n v b O2). destruct big.
      * destruct (Z.leb_spec (4 - n - a mod 4) (A + 4 - 1 - b)), (Z.ltb_spec (A + 4 - 1 - b) (4 - n - a mod 4 + n)); cbn [andb]; try (unfold A in *; lia); f_equal; lia.
      * destruct (Z.leb_spec (a mod 4) (b - A)), (Z.ltb_spec (b - A) (a mod 4 + n)); cbn [andb]; try (unfold A in *; lia); f_equal; lia.
  - rewrite !put_other; [reflexivity|unfold A in *; lia|exact O].
Qed.

(** * The closures *)
Lemma small_sizes n : In n [1; 2; 4] -> 1 <= n <= 4.
Proof. intros H. destruct (sizes n H); lia. Qed.
Lemma norm_s_signed k x : 0 < k -> 0 <= x < 2 ^ k -> norm (SI k) x = to_signed k x.
Proof.
  intros Hk Hx. unfold to_signed. pose proof (pow2_pos (k - 1) ltac:(lia)). assert (2 ^ k = 2 * 2 ^ (k - 1)) by (apply pow2_S; lia).
  assert (0 < bits (SI k)) as HB by (rewrite bits_s; lia).
  destruct (Z.ltb_spec x (2 ^ (k - 1))).
  - apply (norm_id (SI k) HB). apply fits_s. lia.
  - apply (norm_unique (SI k) HB) with (k := -1); [apply fits_s; lia|rewrite bits_s; lia].
Qed.
Lemma norm_u_norm k j x : 0 < k <= j -> norm (UI k) (norm (UI j) x) = norm (UI k) x.
Proof.
  intros H. rewrite !norm_u. assert (2 ^ j = 2 ^ k * 2 ^ (j - k)) as -> by (rewrite <- Z.pow_add_r by lia; f_equal; lia).
  pose proof (pow2_pos k). pose proof (pow2_pos (j - k)). rewrite Z.rem_mul_r by lia. rewrite Z.mul_comm, Z.mod_add by lia. apply Z.mod_mod. lia.
Qed.
Lemma norm_u_s k x : 0 < k -> norm (UI k) (norm (SI k) x) = norm (UI k) x.
Proof.
  intros H. destruct (norm_eq_mod (SI k) ltac:(rewrite bits_s; lia) x) as [j ->]. rewrite bits_s, !norm_u. apply Z.mod_add. pose proof (pow2_pos k). lia.
Qed.
Lemma norm_u_ty o n x : 0 < n -> norm (UI (8 * n)) (norm (ty o n) x) = norm (UI (8 * n)) x.
Proof. intros H. unfold ty. destruct o; try (apply norm_u_norm; lia); apply norm_u_s; lia. Qed.
Lemma norm_ty_u o n x : 0 < n -> norm (ty o n) (norm (UI (8 * n)) x) = norm (ty o n) x.
Proof.
  intros H. assert (0 < bits (ty o n)) as HB by (unfold ty; destruct o; rewrite ?bits_s, ?bits_u; lia).
  rewrite norm_u. rewrite Z.mod_eq by (pose proof (pow2_pos (8 * n)); lia).
  apply (norm_congr (ty o n)). exists (- (x / 2 ^ (8 * n))). replace (bits (ty o n)) with (8 * n) by (unfold ty; destruct o; reflexivity). ring.
Qed.
Lemma land_bound k a b : 0 <= k -> 0 <= a < 2 ^ k -> 0 <= b < 2 ^ k -> 0 <= Z.land a b < 2 ^ k.
Proof. intros. apply FloatProofs2.land_small; assumption. Qed.
Lemma apply_range o k x v : 0 < k -> 0 <= x < 2 ^ k -> 0 <= v < 2 ^ k -> 0 <= apply o k x v < 2 ^ k.
Proof.
  intros Hk Hx Hv. pose proof (pow2_pos k). pose proof (land_bound k x v ltac:(lia) Hx Hv).
  destruct o; cbn [apply]; try (apply Z.mod_pos_bound; lia); try lia.
  - apply FloatProofs2.lor_small; lia.
  - apply FloatProofs2.lxor_small; lia.
  - apply land_bound; lia.
  - destruct (_ <? _); lia.
  - destruct (_ <? _); lia.
Qed.
Lemma op_ok o n x v : 0 < n -> o <> Clear -> 0 <= x < 2 ^ (8 * n) -> 0 <= v < 2 ^ (8 * n) ->
  norm (UI (8 * n)) (op_expr o n (norm (ty o n) x) (norm (ty o n) v)) = apply o (8 * n) x v.
Proof.
  intros Hn Ho Hx Hv. pose proof (pow2_pos (8 * n) ltac:(lia)) as P.
  assert (forall y, 0 <= y < 2 ^ (8 * n) -> norm (UI (8 * n)) y = y) as NU by (intros y Hy; rewrite norm_u; apply Z.mod_small; lia).
  pose proof (apply_range o (8 * n) x v ltac:(lia) Hx Hv) as R.
  destruct o; cbn [op_expr ty] in *; rewrite ?(NU x), ?(NU v) by assumption; cbn [apply] in *.
  - unfold wrapping_add. rewrite norm_u_norm, norm_u by lia. reflexivity.
  - unfold wrapping_sub. rewrite norm_u_norm, norm_u by lia. reflexivity.
  - apply NU. exact R.
  - apply NU. exact R.
  - apply NU. exact R.
  - unfold inot. rewrite norm_u_norm, norm_u by lia. pose proof (land_bound (8 * n) x v ltac:(lia) Hx Hv).
    symmetry. apply (Z.mod_unique _ _ (-1)); [lia|]. unfold Z.lnot. lia.
  - contradiction.
  - rewrite !norm_s_signed by lia. rewrite Z.gtb_ltb. destruct (Z.ltb_spec (to_signed (8 * n) v) (to_signed (8 * n) x)), (Z.ltb_spec (to_signed (8 * n) x) (to_signed (8 * n) v)); try lia.
    + rewrite <- norm_s_signed, norm_u_s by lia. apply NU. lia.
    + rewrite <- norm_s_signed, norm_u_s by lia. apply NU. lia.
    + assert (to_signed (8 * n) x = to_signed (8 * n) v) as E by lia. rewrite <- E, <- norm_s_signed, norm_u_s by lia. apply NU. lia.
  - rewrite Z.gtb_ltb. destruct (Z.ltb_spec v x); rewrite NU by lia; lia.
  - rewrite !norm_s_signed by lia. destruct (Z.ltb_spec (to_signed (8 * n) v) (to_signed (8 * n) x)), (Z.ltb_spec (to_signed (8 * n) x) (to_signed (8 * n) v)); try lia.
    + rewrite <- norm_s_signed, norm_u_s by lia. apply NU. lia.
    + rewrite <- norm_s_signed, norm_u_s by lia. apply NU. lia.
    + assert (to_signed (8 * n) x = to_signed (8 * n) v) as E by lia. rewrite <- E, <- norm_s_signed, norm_u_s by lia. apply NU. lia.
  - destruct (Z.ltb_spec x v); rewrite NU by lia; lia.
  - reflexivity.
Qed.

(** Only the low bytes of what is stored matter. *)
Lemma put_mod big m a n v : 0 <= n -> same (put big m a n (v mod 256 ^ n)) (put big m a n v).
Proof.
  intros Hn b. assert (a <= b < a + n \/ ~ (a <= b < a + n)) as [I|O] by lia; [|rewrite !put_other by exact O; reflexivity].
  rewrite !put_in by exact I. set (i := if big then a + n - 1 - b else b - a). assert (0 <= i < n) as Hi by (unfold i; destruct big; lia).
  replace n with (i + (1 + (n - i - 1))) by lia. rewrite !Z.pow_add_r, Z.pow_1_r by lia.
  pose proof (Z.pow_pos_nonneg 256 i ltac:(lia) ltac:(lia)). pose proof (Z.pow_pos_nonneg 256 (n - i - 1) ltac:(lia) ltac:(lia)).
  rewrite (Z.rem_mul_r v (256 ^ i)) by lia. rewrite (Z.mul_comm (256 ^ i)), Z.div_add by lia. rewrite (Z.div_small (_ mod _)) by (apply Z.mod_pos_bound; lia).
  rewrite Z.add_0_l, Z.rem_mul_r by lia. rewrite (Z.mul_comm 256), Z.mod_add by lia. apply Z.mod_mod. lia.
Qed.
