(** Sticky shifts, field manipulation and packing (no modelling here). *)
From Coq Require Import ZArith Reals Bool Lia Lra Psatz.
From Flocq Require Import Core.
From Verif Require Import Base BaseLemmas FloatModel FloatSpec FloatProofs.
Open Scope Z_scope.

(** * Bits *)
Lemma testbit_mk k s n i : 0 <= k -> 0 <= n < 2 ^ k -> 0 <= i ->
  Z.testbit (b2z s * 2 ^ k + n) i = if i <? k then Z.testbit n i else (i =? k) && s.
Proof.
  intros Hk Hn Hi. destruct (Z.ltb_spec i k).
  - rewrite <- (Z.mod_pow2_bits_low _ k i) by lia. rewrite Z.add_comm, Z.mod_add, Z.mod_small by lia. reflexivity.
  - rewrite <- (Z.add_0_l i). replace (0 + i) with (i - k + k) by lia. rewrite <- Z.shiftr_spec by lia.
    rewrite Z.shiftr_div_pow2, Z.add_comm, Z.div_add, Z.div_small by lia.
    destruct (Z.eqb_spec (i - k + k) k).
    + replace (i - k) with 0 by lia. destruct s; reflexivity.
    + destruct s; cbn [b2z andb]; [|apply Z.testbit_0_l]. change (0 + 1) with (2 ^ 0). rewrite Z.pow2_bits_eqb by lia.
      apply Z.eqb_neq. lia.
Qed.
Lemma high_bits_0 k n i : 0 <= n < 2 ^ k -> k <= i -> Z.testbit n i = false.
Proof.
  intros Hn Hi. destruct (Z.eq_dec n 0) as [->|]; [apply Z.testbit_0_l|].
  apply Z.bits_above_log2; [lia|]. apply Z.log2_lt_pow2; [lia|]. pose proof (pow2_le k i). lia.
Qed.
Lemma small_of_bits k n : 0 <= k -> 0 <= n -> (forall i, k <= i -> Z.testbit n i = false) -> n < 2 ^ k.
Proof.
  intros Hk Hn H. destruct (Z.eq_dec n 0) as [->|]; [apply pow2_pos; lia|].
  apply Z.log2_lt_pow2; [lia|]. destruct (Z_lt_ge_dec (Z.log2 n) k); [lia|].
  specialize (H (Z.log2 n)). rewrite Z.bit_log2 in H by lia. discriminate H. lia.
Qed.
Lemma land_small k n m : 0 <= k -> 0 <= n < 2 ^ k -> 0 <= m < 2 ^ k -> 0 <= Z.land n m < 2 ^ k.
Proof.
  intros. split; [apply Z.land_nonneg; lia|]. apply small_of_bits; [lia|apply Z.land_nonneg; lia|].
  intros. rewrite Z.land_spec, (high_bits_0 k n) by lia. reflexivity.
Qed.
Lemma lor_small k n m : 0 <= k -> 0 <= n < 2 ^ k -> 0 <= m < 2 ^ k -> 0 <= Z.lor n m < 2 ^ k.
Proof.
  intros. split; [apply Z.lor_nonneg; lia|]. apply small_of_bits; [lia|apply Z.lor_nonneg; lia|].
  intros. rewrite Z.lor_spec, (high_bits_0 k n), (high_bits_0 k m) by lia. reflexivity.
Qed.
Lemma lxor_small k n m : 0 <= k -> 0 <= n < 2 ^ k -> 0 <= m < 2 ^ k -> 0 <= Z.lxor n m < 2 ^ k.
Proof.
  intros. assert (0 <= Z.lxor n m) by (apply Z.lxor_nonneg; lia). split; [lia|]. apply small_of_bits; [lia|lia|].
  intros. rewrite Z.lxor_spec, (high_bits_0 k n), (high_bits_0 k m) by lia. reflexivity.
Qed.
Lemma land_mk k s t n m : 0 <= k -> 0 <= n < 2 ^ k -> 0 <= m < 2 ^ k ->
  Z.land (b2z s * 2 ^ k + n) (b2z t * 2 ^ k + m) = b2z (s && t) * 2 ^ k + Z.land n m.
Proof.
  intros. apply Z.bits_inj'. intros i Hi. pose proof (land_small k n m).
  rewrite Z.land_spec, !testbit_mk by lia. rewrite Z.land_spec. destruct (i <? k), (i =? k), s, t; reflexivity.
Qed.
Lemma lor_mk k s t n m : 0 <= k -> 0 <= n < 2 ^ k -> 0 <= m < 2 ^ k ->
  Z.lor (b2z s * 2 ^ k + n) (b2z t * 2 ^ k + m) = b2z (s || t) * 2 ^ k + Z.lor n m.
Proof.
  intros. apply Z.bits_inj'. intros i Hi. pose proof (lor_small k n m).
  rewrite Z.lor_spec, !testbit_mk by lia. rewrite Z.lor_spec. destruct (i <? k), (i =? k), s, t; reflexivity.
Qed.
Lemma lxor_mk k s t n m : 0 <= k -> 0 <= n < 2 ^ k -> 0 <= m < 2 ^ k ->
  Z.lxor (b2z s * 2 ^ k + n) (b2z t * 2 ^ k + m) = b2z (xorb s t) * 2 ^ k + Z.lxor n m.
Proof.
  intros. apply Z.bits_inj'. intros i Hi. pose proof (lxor_small k n m).
  rewrite Z.lxor_spec, !testbit_mk by lia. rewrite Z.lxor_spec. destruct (i <? k), (i =? k), s, t; reflexivity.
Qed.
Lemma mk0 k n : n = b2z false * 2 ^ k + n. Proof. cbn [b2z]. lia. Qed.
Lemma mk1 k : 2 ^ k = b2z true * 2 ^ k + 0. Proof. cbn [b2z]. lia. Qed.

Lemma land_top k x : 0 <= k -> 0 <= x < 2 * 2 ^ k -> (Z.land x (2 ^ k) =? 0) = (x <? 2 ^ k).
Proof.
  intros Hk Hx. pose proof (pow2_pos k Hk).
  assert (exists s n, x = b2z s * 2 ^ k + n /\ 0 <= n < 2 ^ k) as (s & n & -> & Hn).
  { destruct (Z_lt_ge_dec x (2 ^ k)); [exists false, x|exists true, (x - 2 ^ k)]; cbn [b2z]; lia. }
  rewrite (mk1 k) at 2. rewrite land_mk by lia. rewrite Z.land_0_r. destruct s; cbn [b2z andb].
  - destruct (Z.eqb_spec (1 * 2 ^ k + 0) 0), (Z.ltb_spec (1 * 2 ^ k + n) (2 ^ k)); lia.
  - destruct (Z.eqb_spec (0 * 2 ^ k + 0) 0), (Z.ltb_spec (0 * 2 ^ k + n) (2 ^ k)); lia.
Qed.
Lemma land_top_val k s n : 0 <= k -> 0 <= n < 2 ^ k -> Z.land (b2z s * 2 ^ k + n) (2 ^ k) = b2z s * 2 ^ k.
Proof.
  intros. rewrite (mk1 k) at 2. rewrite land_mk, Z.land_0_r, andb_true_r by lia. lia.
Qed.
Lemma lor_top k x : 0 <= k -> 2 ^ k <= x < 2 * 2 ^ k -> Z.lor x (2 ^ k) = x.
Proof.
  intros. replace x with (b2z true * 2 ^ k + (x - 2 ^ k)) by (cbn [b2z]; lia).
  rewrite (mk1 k) at 3. rewrite lor_mk by lia. rewrite Z.lor_0_r. reflexivity.
Qed.
Lemma land_low_val k s n : 0 <= k -> 0 <= n < 2 ^ k -> Z.land (b2z s * 2 ^ k + n) (2 ^ k - 1) = n.
Proof. intros. rewrite land_ones_mod by lia. rewrite Z.add_comm, Z.mod_add, Z.mod_small by lia. reflexivity. Qed.
Lemma lor_1 x : 0 <= x -> Z.lor x 1 = x + 1 - x mod 2.
Proof.
  intros. pose proof (Z.div_mod x 2 ltac:(lia)). pose proof (Z.mod_pos_bound x 2 ltac:(lia)).
  replace x with (x mod 2 + (x / 2) * 2 ^ 1) at 1 by lia. rewrite <- lor_add_low by lia.
  rewrite Z.lor_comm, Z.lor_assoc. replace (Z.lor 1 (x mod 2)) with 1.
  2:{ assert (x mod 2 = 0 \/ x mod 2 = 1) as [->| ->] by lia; reflexivity. }
  rewrite lor_add_low by lia. lia.
Qed.
Lemma lor_b2z x b : 0 <= x -> Z.lor x (b2z b) = if b then x + 1 - x mod 2 else x.
Proof. intros. destruct b; cbn [b2z]; [apply lor_1; lia|apply Z.lor_0_r]. Qed.
Lemma land_1 x : Z.land x 1 = x mod 2.
Proof. change 1 with (2 ^ 1 - 1). rewrite land_ones_mod by lia. reflexivity. Qed.

(** * Sticky approximations: [M] stands for the rational [A / D]. *)
Definition stk (k A D M : Z) : Prop :=
  M * D = A \/ (M mod 2 ^ (k + 1) = 2 ^ k /\ (M - 2 ^ k) * D < A < (M + 2 ^ k) * D).
Definition stkr (M s : Z) : Z := Z.lor (M / 2 ^ s) (b2z (negb (M mod 2 ^ s =? 0))).

Lemma mod_pow_decomp k M : 0 <= k -> M mod 2 ^ (k + 1) = 2 ^ k -> exists j, M = 2 ^ (k + 1) * j + 2 ^ k.
Proof. intros. exists (M / 2 ^ (k + 1)). pose proof (pow2_pos (k + 1)). pose proof (Z.div_mod M (2 ^ (k + 1))). lia. Qed.

Lemma stk_shr k A D M s : 0 <= k <= 1 -> 1 <= s -> 0 < D -> 0 <= M -> stk k A D M -> stk 0 A (2 ^ s * D) (stkr M s).
Proof.
  intros Hk Hs HD HM H. pose proof (pow2_pos s ltac:(lia)) as P.
  pose proof (Z.div_mod M (2 ^ s) ltac:(lia)) as E. pose proof (Z.mod_pos_bound M (2 ^ s) P) as R.
  assert (0 <= M / 2 ^ s) as Q by (apply Z.div_pos; lia).
  unfold stkr. rewrite lor_b2z by assumption.
  set (q := M / 2 ^ s) in *. set (r := M mod 2 ^ s) in *. clearbody q r.
  pose proof (Z.mod_pos_bound q 2 ltac:(lia)) as Q2. pose proof (Z.div_mod q 2 ltac:(lia)) as E2.
  destruct (Z.eqb_spec r 0) as [r0|r0]; cbn [negb].
  - destruct H as [H|[H1 H2]]; [left; nia|]. right.
    destruct (mod_pow_decomp k M ltac:(lia) H1) as (j & J).
    assert (s = 1 /\ k = 1) as [-> ->].
    { assert (k = 0 \/ k = 1) as [-> | ->] by lia.
      - exfalso. rewrite pow2_S in E by lia. change (2 ^ (0 + 1)) with 2 in J. change (2 ^ 0) with 1 in J. lia.
      - split; [|reflexivity]. destruct (Z.eq_dec s 1); [assumption|]. exfalso.
        replace s with (2 + (s - 2)) in E by lia. rewrite pow2_add in E by lia. change (2 ^ 2) with 4 in E.
        change (2 ^ (1 + 1)) with 4 in J. change (2 ^ 1) with 2 in J. lia. }
    change (2 ^ 1) with 2 in *. change (2 ^ (1 + 1)) with 4 in *. change (2 ^ (0 + 1)) with 2. change (2 ^ 0) with 1.
    split; [|nia]. replace q with (1 + j * 2) by lia. rewrite Z.mod_add by lia. reflexivity.
  - right. change (2 ^ (0 + 1)) with 2. change (2 ^ 0) with 1. split.
    { replace (q + 1 - q mod 2) with (1 + (q / 2) * 2) by lia. rewrite Z.mod_add by lia. reflexivity. }
    assert (q * (2 ^ s * D) < A < (q + 1) * (2 ^ s * D)) as [L U].
    { destruct H as [H|[H1 H2]]; [nia|].
      destruct (mod_pow_decomp k M ltac:(lia) H1) as (j & J).
      assert (2 ^ k <= r <= 2 ^ s - 2 ^ k) as Rk.
      { assert (k = 0 \/ k = 1) as [-> | ->] by lia.
        - change (2 ^ 0) with 1. lia.
        - change (2 ^ (1 + 1)) with 4 in J. change (2 ^ 1) with 2 in *. pose proof (pow2_S s ltac:(lia)) as PS. rewrite PS in *. lia. }
      assert ((M - 2 ^ k) * D >= q * (2 ^ s * D)) by nia.
      assert ((M + 2 ^ k) * D <= (q + 1) * (2 ^ s * D)) by nia. lia. }
    assert (0 < 2 ^ s * D) by nia. set (D' := 2 ^ s * D) in *. clearbody D'. nia.
Qed.

Lemma odd_range K T i r PP : 0 < K -> 0 < T -> r = 2 * K * i + K -> PP = 4 * K * T -> 0 <= r < PP -> K <= r <= PP - K.
Proof.
  intros HK HT Hr HP H. assert (0 <= i) by (clear HP; nia).
  assert (i < 2 * T). { apply Z.mul_lt_mono_pos_l with (2 * K); [lia|]. lia. }
  pose proof (Z.mul_le_mono_nonneg_l 0 i (2 * K)). pose proof (Z.mul_le_mono_nonneg_l (i + 1) (2 * T) (2 * K)). lia.
Qed.
Lemma odd_side K T i r : 0 < K -> 0 < T -> r = 2 * K * i + K -> r + K <= 2 * K * T \/ 2 * K * T <= r - K.
Proof.
  intros HK HT Hr. destruct (Z_lt_ge_dec i T); [left|right].
  - pose proof (Z.mul_le_mono_nonneg_l (i + 1) T (2 * K)). lia.
  - pose proof (Z.mul_le_mono_nonneg_l T i (2 * K)). lia.
Qed.
Lemma stk_round k A D M G : 0 <= k <= G - 2 -> 0 < D -> stk k A D M ->
  A / (2 ^ G * D) = M / 2 ^ G /\ rup A (2 ^ G * D) = rup M (2 ^ G) /\
  (forall n, A < n * (2 ^ G * D) <-> M < n * 2 ^ G) .
Proof.
  intros Hk HD H. pose proof (pow2_pos G ltac:(lia)) as P.
  pose proof (Z.div_mod M (2 ^ G) ltac:(lia)) as E. pose proof (Z.mod_pos_bound M (2 ^ G) P) as R.
  assert (0 < 2 ^ G * D) as PD by nia.
  set (q := M / 2 ^ G) in *. set (r := M mod 2 ^ G) in *.
  destruct H as [H|[H1 [H2 H3]]].
  - assert (A / (2 ^ G * D) = q /\ A mod (2 ^ G * D) = r * D) as [Hq Hr].
    { apply div_mod_unique; nia. }
    split; [exact Hq|]. split.
    + unfold rup. rewrite Hq, Hr. fold q r.
      replace (2 * (r * D)) with (2 * r * D) by ring. rewrite <- (Zmult_compare_compat_r (2 * r) (2 ^ G) D) by lia. reflexivity.
    + intros n. rewrite <- H, Z.mul_assoc. symmetry. apply Z.mul_lt_mono_pos_r. assumption.
  - destruct (mod_pow_decomp k M ltac:(lia) H1) as (j & J).
    assert (2 ^ G = 2 ^ (k + 1) * 2 ^ (G - 1 - k)) as PG by (rewrite <- pow2_add by lia; f_equal; lia).
    assert (2 ^ (G - 1 - k) = 2 * 2 ^ (G - 2 - k)) as PG2 by (rewrite (pow2_S (G - 1 - k)) by lia; do 2 f_equal; lia).
    assert (2 ^ (k + 1) = 2 * 2 ^ k) as PK by (rewrite pow2_add by lia; lia).
    pose proof (pow2_pos k ltac:(lia)) as Pk. pose proof (pow2_pos (G - 2 - k) ltac:(lia)) as Pg.
    set (K := 2 ^ k) in *. set (T := 2 ^ (G - 2 - k)) in *. set (PP := 2 ^ G) in *. clearbody q r.
    assert (exists i, r = 2 * K * i + K) as (i & I).
    { exists (j - q * (2 * T)). rewrite PG, PG2, PK in E. rewrite PK in J. lia. }
    assert (PP = 4 * K * T) as PPe by (rewrite PG, PG2, PK; ring).
    assert (K <= r <= PP - K) as RB.
    { apply (odd_range K T i r PP); assumption || lia. }
    assert (q * PP * D < A < (q * PP + PP) * D) as AB.
    { pose proof (Z.mul_le_mono_nonneg_r (q * PP) (M - K) D). pose proof (Z.mul_le_mono_nonneg_r (M + K) (q * PP + PP) D). lia. }
    assert (A / (PP * D) = q /\ A mod (PP * D) = A - q * PP * D) as [Hq Hr].
    { apply div_mod_unique; lia. }
    split; [exact Hq|]. split.
    + unfold rup. rewrite Hq, Hr.
      assert (M / PP = q /\ M mod PP = r) as [-> ->] by (apply div_mod_unique; lia).
      assert (r + K <= 2 * K * T \/ 2 * K * T <= r - K) as [C|C] by (apply (odd_side K T i r); assumption || lia).
      * pose proof (Z.mul_le_mono_nonneg_r (M + K) (q * PP + 2 * K * T) D ltac:(lia) ltac:(lia)).
        destruct (Z.compare_spec (2 * (A - q * PP * D)) (PP * D)), (Z.compare_spec (2 * r) PP); try reflexivity; lia.
      * pose proof (Z.mul_le_mono_nonneg_r (q * PP + 2 * K * T) (M - K) D ltac:(lia) ltac:(lia)).
        destruct (Z.compare_spec (2 * (A - q * PP * D)) (PP * D)), (Z.compare_spec (2 * r) PP); try reflexivity; lia.
    + intros n. assert (A < n * (PP * D) <-> q < n) as ->.
      { split; intros.
        - apply Z.mul_lt_mono_pos_r with (PP * D); lia.
        - pose proof (Z.mul_le_mono_nonneg_r (q + 1) n (PP * D)). lia. }
      split; intros.
      * pose proof (Z.mul_le_mono_nonneg_r (q + 1) n PP). lia.
      * apply Z.mul_lt_mono_pos_r with PP; lia.
Qed.

Section Fmt.
Context (f : fmt) (W : wf f).
Notation S := (2 ^ fs f).
Notation B := (2 ^ (fb f - 1)).
Notation u := (bpow radix2 (emin f)).

Lemma mag_of s n : 0 <= n < B -> Z.land (b2z s * B + n) (abs_mask f) = n.
Proof using W. destruct W. intros. rewrite abs_mask_eq by assumption. apply land_low_val; lia. Qed.
Lemma sgn_of s n : 0 <= n < B -> Z.land (b2z s * B + n) (SIGN_MASK f) = b2z s * B.
Proof using W. destruct W. intros. rewrite SIGN_MASK_eq by assumption. apply land_top_val; lia. Qed.
Lemma frac_of s n : Z.land (b2z s * B + n) (SIG_MASK f) = n mod S.
Proof using W.
  pose proof (wf_s f W). pose proof (S_pos f W).
  rewrite SIG_MASK_eq, land_ones_mod by (assumption || lia).
  replace (b2z s * B + n) with (n + (b2z s * 2 ^ eb f) * S) by (pose proof (B_eq f W); nia). apply Z.mod_add. lia.
Qed.
Lemma exp_of s n : 0 <= n < B -> Z.land (Z.shiftr (b2z s * B + n) (fs f)) (EXP_SAT f) = n / S.
Proof using W.
  intros. destruct W. pose proof (S_pos f W).
  rewrite EXP_SAT_eq, land_ones_mod, shiftr_div by (assumption || lia).
  pose proof (exp_field_mk f W s n ltac:(lia)) as Q. unfold exp_field in Q. exact Q.
Qed.
Lemma expm_of s n : 0 <= n < B -> Z.shiftr (Z.land (b2z s * B + n) (EXP_MASK f)) (fs f) = n / S.
Proof using W.
  intros. destruct W. rewrite EXP_MASK_eq by assumption. pose proof (S_pos f W). pose proof (B_eq f W).
  rewrite Z.shiftr_land. rewrite (shiftr_div (inf f)) by lia. rewrite inf_eq by assumption. rewrite Z.div_mul by lia.
  rewrite <- EXP_SAT_eq by assumption. apply exp_of. lia.
Qed.

Lemma rounds_mag s X r zs : (0 <= X)%R -> rmag f X r -> (X = 0%R -> zs = s) ->
  rounds_to f zs (if s then - X else X)%R (b2z s * B + r).
Proof using W.
  intros HX (Hr & H1 & H2) Hz. pose proof (inf_pos f W). pose proof (S_pos f W).
  unfold rounds_to. split; [apply is_float_mk; [assumption|lia]|]. rewrite sign_of_mk by (assumption || lia). split.
  - destruct (Req_dec X 0) as [->|N].
    + replace (if s then - 0 else 0)%R with 0%R by (destruct s; ring). rewrite Rcompare_Eq by reflexivity. symmetry; auto.
    + destruct s; [rewrite Rcompare_Lt by lra|rewrite Rcompare_Gt by lra]; reflexivity.
  - assert (Rabs (rne f (if s then - X else X)) = rne f X) as ->.
    { assert (0 <= rne f X)%R by (rewrite <- (rne_0 f); apply rne_mono; [assumption|lra]).
      destruct s; [rewrite rne_opp, Rabs_Ropp|]; apply Rabs_pos_eq; assumption. }
    destruct (Z_lt_ge_dec r (inf f)) as [L|G].
    + rewrite H1 by assumption. rewrite Rlt_bool_true.
      * rewrite is_finite_mk, value_mk by (assumption || lia). split; [assumption|].
        destruct s; [rewrite rne_opp|]; rewrite H1 by assumption; reflexivity.
      * rewrite <- V_inf by assumption. apply Rmult_lt_compat_r; [apply bpow_gt_0|]. apply IZR_lt. apply V_lt; [assumption|lia].
    + rewrite Rlt_bool_false by (apply H2; lia). rewrite is_inf_mk by (assumption || lia). lia.
Qed.

(** Packing a rational significand. *)
Lemma pack E A D : 1 <= E < 2 ^ eb f - 1 -> 0 < D -> 0 <= A < 2 * S * D -> (E = 1 \/ S * D <= A) ->
  rmag f (IZR A / IZR D * bpow radix2 (E - 1) * u) (enc f E (A / D) + rup A D).
Proof using W.
  intros HE HD HA Hn. assert (0 < IZR D)%R by (apply IZR_lt; lia).
  pose proof (rmag_scaled f W E (IZR A / IZR D)) as P. rewrite ZnearestE_div in P by lia.
  replace (enc f E (A / D) + rup A D) with (enc f E (A / D + rup A D)) by (unfold enc; ring).
  rewrite Rmult_assoc, <- bpow_plus. apply P; [lia| |].
  - split.
    + apply Rmult_le_pos; [apply IZR_le; lia|]. left. apply Rinv_0_lt_compat. assumption.
    + apply Rmult_lt_reg_r with (IZR D); [assumption|]. unfold Rdiv. rewrite Rmult_assoc, Rinv_l, Rmult_1_r, <- mult_IZR by lra.
      apply IZR_lt. lia.
  - destruct Hn as [|Hn]; [tauto|right].
    apply Rmult_le_reg_r with (IZR D); [assumption|]. unfold Rdiv. rewrite Rmult_assoc, Rinv_l, Rmult_1_r, <- mult_IZR by lra.
    apply IZR_le. lia.
Qed.
Lemma pack_over E A D : 2 ^ eb f - 1 <= E -> 0 < D -> S * D <= A ->
  rmag f (IZR A / IZR D * bpow radix2 (E - 1) * u) (inf f).
Proof using W.
  intros HE HD HA. assert (0 < IZR D)%R by (apply IZR_lt; lia). apply rmag_overflow; [assumption|].
  pose proof (EB_big f W).
  rewrite Rmult_assoc, <- bpow_plus.
  apply Rle_trans with (IZR S * bpow radix2 (E - 1 + emin f))%R.
  - pose proof (wf_s f W). pose proof (wf_e f W). rewrite (IZR_Zpower radix2), <- bpow_plus by lia. apply bpow_le.
    unfold emin, emax. rewrite bias_eq by assumption. pose proof (pow2_S (eb f)). lia.
  - apply Rmult_le_compat_r; [apply bpow_ge_0|].
    apply Rmult_le_reg_r with (IZR D); [assumption|]. unfold Rdiv. rewrite Rmult_assoc, Rinv_l, Rmult_1_r, <- mult_IZR by lra.
    apply IZR_le. lia.
Qed.
(** A value below half of the least subnormal. *)
Lemma pack_tiny X : (0 <= X)%R -> (X < / 2)%R -> rmag f (X * u) 0.
Proof using W.
  intros H0 H1. pose proof (rmag_scaled f W 1 X) as P. pose proof (EB_big f W). pose proof (S_big f W).
  replace (1 - 1 + emin f) with (emin f) in P by lia.
  assert (ZnearestE X = 0) as Z0.
  { apply Znearest_imp. rewrite Rminus_0_r, Rabs_pos_eq; assumption. }
  rewrite Z0 in P. replace (enc f 1 0) with 0 in P by (unfold enc; ring). apply P; [lia| |tauto].
  split; [assumption|]. apply Rlt_le_trans with 1%R; [lra|]. apply IZR_le. lia.
Qed.
Lemma pack_stk E k A D M G : 1 <= E < 2 ^ eb f - 1 -> 0 < D -> 0 <= k <= G - 2 -> stk k A D M ->
  0 <= M < 2 * S * 2 ^ G -> (E = 1 \/ S * 2 ^ G <= M) ->
  rmag f (IZR A / IZR (2 ^ G * D) * bpow radix2 (E - 1) * u) (enc f E (M / 2 ^ G) + rup M (2 ^ G)).
Proof using W.
  intros HE HD Hk HM HR Hn. destruct (stk_round k A D M G Hk HD HM) as (Hq & Hu & Hc).
  pose proof (pow2_pos G ltac:(lia)). rewrite <- Hq, <- Hu. apply pack; [assumption|nia| |].
  - split; [|apply Hc; lia]. pose proof (Hc 0). lia.
  - destruct Hn as [|Hn]; [tauto|right]. pose proof (Hc S). lia.
Qed.
End Fmt.
