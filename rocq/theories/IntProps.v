(** Properties C01-C06: 128-bit addition and subtraction, multiplication,
    overflow-checked multiplication, shifts, bit counting and byte swaps. *)
From Coq Require Import ZArith Bool Lia ZifyBool.
From Verif Require Import Base BaseLemmas IntModel IntProofs IntProofs2 IntProofs3 IntSpec.
Open Scope Z_scope.

(** ** Bridging lemmas from the model's vocabulary to IntSpec *)
Lemma wraps_u_mod n x : 0 < n -> wraps_u n x (x mod 2 ^ n).
Proof.
  intros Hn. pose proof (pow2_pos n ltac:(lia)). split; [apply Z.mod_pos_bound; lia|].
  exists (- (x / 2 ^ n)). rewrite Z.mod_eq by lia. ring.
Qed.
Lemma wraps_u_norm n x : 0 < n -> wraps_u n x (norm (UI n) x).
Proof. intros. rewrite norm_u. now apply wraps_u_mod. Qed.
Lemma wraps_i_norm n x : 0 < n -> wraps_i n x (norm (SI n) x).
Proof.
  intros Hn. split.
  - pose proof (norm_fits (SI n) Hn x) as H. rewrite fits_s in H. exact H.
  - apply (norm_eq_mod (SI n) Hn).
Qed.
Lemma flag_u n x : 0 < n -> overflow_flag (b2z (negb (fitsb (UI n) x))) (is_u n x).
Proof.
  intros Hn. unfold overflow_flag, is_u, fitsb, imin, imax, UI, b2z; cbn [signed bits].
  split; intros; [replace (negb _) with false by lia|replace (negb _) with true by lia]; reflexivity.
Qed.
Lemma flag_i n x : 0 < n -> overflow_flag (b2z (negb (fitsb (SI n) x))) (is_i n x).
Proof.
  intros Hn. unfold overflow_flag, is_i, fitsb, imin, imax, SI, b2z; cbn [signed bits].
  split; intros; [replace (negb _) with false by lia|replace (negb _) with true by lia]; reflexivity.
Qed.
Lemma fits_of_u n x : is_u n x -> fits (UI n) x.
Proof. intros. apply fits_u. exact H. Qed.
Lemma fits_of_i n x : is_i n x -> fits (SI n) x.
Proof. intros. apply fits_s. exact H. Qed.
#[local] Hint Resolve fits_of_u fits_of_i : core.

(** * C01: 128-bit addition and subtraction *)

Theorem C01_u128_add : forall a b, is_u 128 a -> is_u 128 b -> wraps_u 128 (a + b) (rust_u128_add a b).
Proof. intros. unfold rust_u128_add. rewrite (addsub_add_correct _ 64) by (reflexivity || lia). apply wraps_u_norm; lia. Qed.
Theorem C01_i128_add : forall a b, is_i 128 a -> is_i 128 b -> wraps_i 128 (a + b) (rust_i128_add a b).
Proof. intros. unfold rust_i128_add. rewrite (addsub_add_correct _ 64) by (reflexivity || lia). apply wraps_i_norm; lia. Qed.
Theorem C01_u128_sub : forall a b, is_u 128 a -> is_u 128 b -> wraps_u 128 (a - b) (rust_u128_sub a b).
Proof. intros. unfold rust_u128_sub. rewrite (addsub_sub_correct _ 64) by (reflexivity || lia). apply wraps_u_norm; lia. Qed.
Theorem C01_i128_sub : forall a b, is_i 128 a -> is_i 128 b -> wraps_i 128 (a - b) (rust_i128_sub a b).
Proof. intros. unfold rust_i128_sub. rewrite (addsub_sub_correct _ 64) by (reflexivity || lia). apply wraps_i_norm; lia. Qed.

Theorem C01_u128_addo : forall a b, is_u 128 a -> is_u 128 b ->
  wraps_u 128 (a + b) (fst (rust_u128_addo a b)) /\ overflow_flag (snd (rust_u128_addo a b)) (is_u 128 (a + b)).
Proof.
  intros. unfold rust_u128_addo. rewrite (addo_correct _ 64) by (auto || reflexivity || lia). cbn [fst snd].
  split; [apply wraps_u_norm; lia|apply flag_u; lia].
Qed.
Theorem C01_i128_addo : forall a b, is_i 128 a -> is_i 128 b ->
  wraps_i 128 (a + b) (fst (rust_i128_addo a b)) /\ overflow_flag (snd (rust_i128_addo a b)) (is_i 128 (a + b)).
Proof.
  intros. unfold rust_i128_addo. rewrite (addo_correct _ 64) by (auto || reflexivity || lia). cbn [fst snd].
  split; [apply wraps_i_norm; lia|apply flag_i; lia].
Qed.
Theorem C01_u128_subo : forall a b, is_u 128 a -> is_u 128 b ->
  wraps_u 128 (a - b) (fst (rust_u128_subo a b)) /\ overflow_flag (snd (rust_u128_subo a b)) (is_u 128 (a - b)).
Proof.
  intros. unfold rust_u128_subo. rewrite (subo_correct _ 64) by (auto || reflexivity || lia). cbn [fst snd].
  split; [apply wraps_u_norm; lia|apply flag_u; lia].
Qed.
Theorem C01_i128_subo : forall a b, is_i 128 a -> is_i 128 b ->
  wraps_i 128 (a - b) (fst (rust_i128_subo a b)) /\ overflow_flag (snd (rust_i128_subo a b)) (is_i 128 (a - b)).
Proof.
  intros. unfold rust_i128_subo. rewrite (subo_correct _ 64) by (auto || reflexivity || lia). cbn [fst snd].
  split; [apply wraps_i_norm; lia|apply flag_i; lia].
Qed.
(** The operand ranges are met by overflowing and non-overflowing pairs. *)
Example C01_ex : is_u 128 (2 ^ 128 - 1) /\ is_i 128 (- 2 ^ 127) /\
  rust_u128_addo (2 ^ 128 - 1) 2 = (1, 1) /\ rust_u128_addo (2 ^ 64 - 1) 1 = (2 ^ 64, 0) /\
  rust_i128_subo (- 2 ^ 127) 1 = (2 ^ 127 - 1, 1) /\ rust_i128_addo (2 ^ 127 - 1) (- 2 ^ 127) = (-1, 0).
Proof. unfold is_u, is_i. repeat split; vm_compute; congruence. Qed.

(** * C02: multiplication returns the low half of the product *)
Theorem C02_mulsi3 : forall a b, is_u 32 a -> is_u 32 b -> exists r, mulsi3 a b = Ok r /\ wraps_u 32 (a * b) r.
Proof.
  intros. unfold mulsi3. rewrite peasant_mul_correct by (auto || lia).
  eexists; split; [reflexivity|]. apply wraps_u_mod; lia.
Qed.
Theorem C02_muldi3 : forall no_m a b, is_u 64 a -> is_u 64 b ->
  exists r, muldi3 no_m a b = Ok r /\ wraps_u 64 (a * b) r.
Proof.
  intros. unfold muldi3. destruct no_m.
  - rewrite peasant_mul_correct by (auto || lia). eexists; split; [reflexivity|]. apply wraps_u_mod; lia.
  - rewrite (mul_correct _ 16) by (reflexivity || lia). eexists; split; [reflexivity|]. apply wraps_u_norm; lia.
Qed.
Theorem C02_multi3 : forall a b, is_i 128 a -> is_i 128 b -> exists r, multi3 a b = Ok r /\ wraps_i 128 (a * b) r.
Proof.
  intros. unfold multi3. rewrite (mul_correct _ 32) by (reflexivity || lia).
  eexists; split; [reflexivity|]. apply wraps_i_norm; lia.
Qed.
Example C02_ex : is_u 32 4294967295 /\ is_i 128 (- 2 ^ 127) /\
  mulsi3 4294967295 4294967295 = Ok 1 /\ muldi3 true 4294967296 4294967297 = Ok 4294967296 /\
  muldi3 false (2 ^ 64 - 1) (2 ^ 64 - 1) = Ok 1 /\ multi3 (- 2 ^ 127) 3 = Ok (- 2 ^ 127).
Proof. unfold is_u, is_i. repeat split; vm_compute; congruence. Qed.

(** * C03: overflow-checked multiplication *)
Lemma signed_mulo_spec n a b : n = 32 \/ n = 64 \/ n = 128 -> is_i n a -> is_i n b ->
  let '(m, o) := signed_mulo n a b in wraps_i n (a * b) m /\ overflow_flag (b2z o) (is_i n (a * b)).
Proof.
  intros Hn Ha Hb. assert (n = 2 * (n / 2)) as E by (destruct Hn as [-> | [-> | ->]]; reflexivity).
  pose proof (signed_mulo_correct (n / 2) a b) as H. rewrite <- E in H. rewrite H by (auto; lia).
  split; [apply wraps_i_norm; lia|apply flag_i; lia].
Qed.
Theorem C03_mulosi4 : forall a b, is_i 32 a -> is_i 32 b ->
  wraps_i 32 (a * b) (fst (mulosi4 a b)) /\ overflow_flag (snd (mulosi4 a b)) (is_i 32 (a * b)).
Proof. intros a b Ha Hb. unfold mulosi4. pose proof (signed_mulo_spec 32 a b ltac:(auto) Ha Hb). now destruct signed_mulo. Qed.
Theorem C03_mulodi4 : forall a b, is_i 64 a -> is_i 64 b ->
  wraps_i 64 (a * b) (fst (mulodi4 a b)) /\ overflow_flag (snd (mulodi4 a b)) (is_i 64 (a * b)).
Proof. intros a b Ha Hb. unfold mulodi4. pose proof (signed_mulo_spec 64 a b ltac:(auto) Ha Hb). now destruct signed_mulo. Qed.
Theorem C03_muloti4 : forall a b, is_i 128 a -> is_i 128 b ->
  wraps_i 128 (a * b) (fst (muloti4 a b)) /\ overflow_flag (snd (muloti4 a b)) (is_i 128 (a * b)).
Proof. intros a b Ha Hb. unfold muloti4. pose proof (signed_mulo_spec 128 a b ltac:(auto) Ha Hb). now destruct signed_mulo. Qed.
Theorem C03_rust_i128_mulo : forall a b, is_i 128 a -> is_i 128 b ->
  wraps_i 128 (a * b) (fst (rust_i128_mulo a b)) /\ overflow_flag (snd (rust_i128_mulo a b)) (is_i 128 (a * b)).
Proof. exact C03_muloti4. Qed.
Theorem C03_rust_u128_mulo : forall a b, is_u 128 a -> is_u 128 b ->
  wraps_u 128 (a * b) (fst (rust_u128_mulo a b)) /\ overflow_flag (snd (rust_u128_mulo a b)) (is_u 128 (a * b)).
Proof.
  intros a b Ha Hb. unfold rust_u128_mulo. pose proof (umulo_correct 64 a b ltac:(lia) Ha Hb) as H. change (2 * 64) with 128 in H.
  rewrite H. cbn [fst snd].
  split; [apply wraps_u_mod; lia|]. unfold is_u in *.
  assert (0 <= a * b) by nia. unfold overflow_flag, b2z.
  destruct (Z.leb_spec (2 ^ 128) (a * b)); split; intros; lia.
Qed.
(** The UEFI x86-64 entry point receives each operand as two 64-bit halves. *)
Theorem C03_muloti4_uefi : forall a b, is_i 128 a -> is_i 128 b ->
  exists m o, muloti4_uefi (a mod 2 ^ 64) ((a / 2 ^ 64) mod 2 ^ 64) (b mod 2 ^ 64) ((b / 2 ^ 64) mod 2 ^ 64) = Ok (m, o) /\
  wraps_i 128 (a * b) m /\ overflow_flag o (is_i 128 (a * b)).
Proof.
  intros a b Ha Hb.
  assert (forall x, is_i 128 x -> cshl (SI 128) ((x / 2 ^ 64) mod 2 ^ 64) 64 = Ok (x - x mod 2 ^ 64) /\
            Z.lor (x - x mod 2 ^ 64) (x mod 2 ^ 64) = x) as Hx.
  { intros x Hx. pose proof (Z.div_mod x (2 ^ 64) ltac:(lia)). pose proof (Z.mod_pos_bound x (2 ^ 64) ltac:(lia)).
    unfold is_i in Hx. split.
    - rewrite cshl_ok by (rewrite bits_s; lia). f_equal.
      apply norm_unique with (k := (x / 2 ^ 64 / 2 ^ 64)); [reflexivity|apply fits_s|].
      + change (2 ^ 127) with (2 ^ 63 * 2 ^ 64) in *. change (2 ^ (128 - 1)) with (2 ^ 63 * 2 ^ 64) in *. lia.
      + rewrite bits_s. rewrite (Z.mod_eq (x / 2 ^ 64)) by lia.
        change (2 ^ 128) with (2 ^ 64 * 2 ^ 64). lia.
    - rewrite Z.lor_comm. replace (x - x mod 2 ^ 64) with (x / 2 ^ 64 * 2 ^ 64) by lia.
      rewrite lor_add_low by lia. lia. }
  destruct (Hx a Ha) as [Ea La], (Hx b Hb) as [Eb Lb].
  unfold muloti4_uefi. rewrite Ea, Eb. cbn [bind]. rewrite La, Lb.
  pose proof (signed_mulo_spec 128 a b ltac:(auto) Ha Hb). destruct (signed_mulo 128 a b) as [m o]. eauto.
Qed.
Example C03_ex : is_i 32 (-2147483648) /\ is_u 128 (2 ^ 64) /\
  mulosi4 (-2147483648) (-1) = (-2147483648, 1) /\ mulosi4 (-65536) 32768 = (-2147483648, 0) /\
  mulodi4 3037000500 3037000500 = (3037000500 * 3037000500 - 2 ^ 64, 1) /\
  rust_u128_mulo (2 ^ 64) (2 ^ 64) = (0, 1) /\ rust_u128_mulo (2 ^ 64 - 1) (2 ^ 64 + 1) = (2 ^ 128 - 1, 0) /\
  muloti4_uefi 5 0 (2 ^ 64 - 7) (2 ^ 64 - 1) = Ok (-35, 0).
Proof. unfold is_u, is_i. repeat split; vm_compute; congruence. Qed.

(** * C04: shifts *)
Theorem C04_ashl : forall n a s, n = 32 \/ n = 64 \/ n = 128 -> is_u n a -> 0 <= s < n ->
  exists r, ashl (UI n) a s = Ok r /\ wraps_u n (a * 2 ^ s) r.
Proof.
  intros n a s Hn Ha Hs.
  assert (exists m, 0 <= m /\ n = 2 * 2 ^ m) as (m & Hm & E).
  { destruct Hn as [-> | [-> | ->]]; [exists 4|exists 5|exists 6]; split; reflexivity || lia. }
  rewrite E in *. rewrite (ashl_correct _ m) by (try assumption; try reflexivity; unfold is_u in Ha; lia).
  eexists; split; [reflexivity|]. rewrite <- E in *. apply wraps_u_mod; lia.
Qed.
Theorem C04_lshr : forall n a s, n = 32 \/ n = 64 \/ n = 128 -> is_u n a -> 0 <= s < n ->
  lshr (UI n) a s = Ok (a / 2 ^ s).
Proof.
  intros n a s Hn Ha Hs.
  assert (exists m, 0 <= m /\ n = 2 * 2 ^ m) as (m & Hm & E).
  { destruct Hn as [-> | [-> | ->]]; [exists 4|exists 5|exists 6]; split; reflexivity || lia. }
  rewrite E in *. apply (lshr_correct _ m); try assumption; try reflexivity; unfold is_u in Ha; lia.
Qed.
Theorem C04_ashr : forall n a s, n = 32 \/ n = 64 \/ n = 128 -> is_i n a -> 0 <= s < n ->
  ashr (SI n) a s = Ok (a / 2 ^ s).
Proof.
  intros n a s Hn Ha Hs.
  assert (exists m, 0 <= m /\ n = 2 * 2 ^ m) as (m & Hm & E).
  { destruct Hn as [-> | [-> | ->]]; [exists 4|exists 5|exists 6]; split; reflexivity || lia. }
  rewrite E in *. apply (ashr_correct _ m); try assumption; try reflexivity; auto; unfold is_u in Ha; lia.
Qed.
(** The nine exported symbols are instances. [Z.div] rounds towards minus
    infinity, which is what an arithmetic right shift does. *)
Theorem C04_symbols : forall a s,
  (is_u 32 a -> 0 <= s < 32 -> (exists r, ashlsi3 a s = Ok r /\ wraps_u 32 (a * 2 ^ s) r) /\ lshrsi3 a s = Ok (a / 2 ^ s)) /\
  (is_u 64 a -> 0 <= s < 64 -> (exists r, ashldi3 a s = Ok r /\ wraps_u 64 (a * 2 ^ s) r) /\ lshrdi3 a s = Ok (a / 2 ^ s)) /\
  (is_u 128 a -> 0 <= s < 128 -> (exists r, ashlti3 a s = Ok r /\ wraps_u 128 (a * 2 ^ s) r) /\ lshrti3 a s = Ok (a / 2 ^ s)) /\
  (is_i 32 a -> 0 <= s < 32 -> ashrsi3 a s = Ok (a / 2 ^ s)) /\
  (is_i 64 a -> 0 <= s < 64 -> ashrdi3 a s = Ok (a / 2 ^ s)) /\
  (is_i 128 a -> 0 <= s < 128 -> ashrti3 a s = Ok (a / 2 ^ s)).
Proof.
  intros. repeat split; intros; try apply C04_ashl; try apply C04_lshr; try apply C04_ashr; auto.
Qed.
Example C04_ex : ashlti3 (2 ^ 100 + 3) 70 = Ok (3 * 2 ^ 70) /\ ashrdi3 (-5) 1 = Ok (-3) /\ ashrdi3 (-5) 40 = Ok (-1) /\
  lshrsi3 4294967295 31 = Ok 1 /\ ashldi3 1 0 = Ok 1 /\ is_i 64 (-5).
Proof. unfold is_u, is_i. repeat split; vm_compute; congruence. Qed.

(** * C05: bit counting *)
Lemma nlz_are n x : 0 < n -> is_u n x -> leading_zeros_are n x (nlz n x).
Proof.
  intros Hn Hx. unfold is_u in Hx. unfold leading_zeros_are, nlz.
  destruct (Z.leb_spec x 0); [left; lia|right].
  pose proof (Z.log2_spec x ltac:(lia)) as [L1 L2]. pose proof (Z.log2_nonneg x).
  assert (Z.log2 x < n) by (apply Z.log2_lt_pow2; lia).
  split; [lia|]. replace (n - 1 - (n - 1 - Z.log2 x)) with (Z.log2 x) by lia.
  replace (n - (n - 1 - Z.log2 x)) with (Z.succ (Z.log2 x)) by lia. lia.
Qed.
(** For every pointer width (at least 16 bits) and both cfg-selected algorithms. *)
Theorem C05_clz : forall usz condset x, 16 <= usz ->
  (is_u 32 x -> exists k, clzsi2 usz condset x = Ok k /\ leading_zeros_are 32 x k) /\
  (is_u 64 x -> exists k, clzdi2 usz condset x = Ok k /\ leading_zeros_are 64 x k) /\
  (is_u 128 x -> exists k, clzti2 usz condset x = Ok k /\ leading_zeros_are 128 x k).
Proof.
  intros usz c x Hu. repeat split; intros Hx; eexists; (split; [|apply nlz_are; [lia|exact Hx]]).
  - apply clzsi2_correct; auto.
  - apply clzdi2_correct; auto.
  - apply clzti2_correct; auto.
Qed.
(** The generic routine is also used at 16 bits by the library. *)
Theorem C05_clz16 : forall usz x, 16 <= usz -> is_u 16 x ->
  (exists k, leading_zeros_default usz 16 x = Ok k /\ leading_zeros_are 16 x k) /\
  (exists k, leading_zeros_condset usz 16 x = Ok k /\ leading_zeros_are 16 x k).
Proof.
  intros. split; eexists; (split; [|apply nlz_are; [lia|eassumption]]).
  - apply leading_zeros_default_correct; auto.
  - apply leading_zeros_condset_correct; auto.
Qed.
Theorem C05_ctz : forall usz x, 16 <= usz ->
  (is_u 32 x -> exists k, ctzsi2 usz x = Ok k /\ trailing_zeros_are 32 x k) /\
  (is_u 64 x -> exists k, ctzdi2 usz x = Ok k /\ trailing_zeros_are 64 x k) /\
  (is_u 128 x -> exists k, ctzti2 usz x = Ok k /\ trailing_zeros_are 128 x k).
Proof.
  intros usz x Hu. unfold is_u, trailing_zeros_are. repeat split; intros Hx.
  - destruct (Z.eq_dec x 0) as [->|]; [exists 32; split; [apply trailing_zeros_zero; auto|auto]|].
    destruct (trailing_zeros_correct usz 32 x) as (k & E & (H1 & H2) & H3); [lia|auto|lia|].
    exists k. split; [exact E|right]. split; [lia|exact H2].
  - destruct (Z.eq_dec x 0) as [->|]; [exists 64; split; [apply trailing_zeros_zero; auto|auto]|].
    destruct (trailing_zeros_correct usz 64 x) as (k & E & (H1 & H2) & H3); [lia|auto|lia|].
    exists k. split; [exact E|right]. split; [lia|exact H2].
  - destruct (Z.eq_dec x 0) as [->|]; [exists 128; split; [apply ctzti2_zero; auto|auto]|].
    destruct (ctzti2_correct usz x) as (k & E & (H1 & m & H2)); [lia|lia|].
    exists k. split; [exact E|right]. split; [|eauto].
    split; [lia|]. destruct (Z_lt_le_dec k 128); auto.
    assert (2 ^ 128 <= 2 ^ k) by (apply pow2_le; lia). pose proof (pow2_pos k H1).
    assert (0 < 2 * m + 1) by nia.
    assert (1 * 2 ^ k <= (2 * m + 1) * 2 ^ k) by (apply Z.mul_le_mono_nonneg_r; lia). lia.
Qed.
Example C05_ex : clzti2 64 false (2 ^ 70) = Ok 57 /\ clzdi2 32 true 0 = Ok 64 /\ clzsi2 16 true 255 = Ok 24 /\
  ctzti2 64 (2 ^ 70 + 2 ^ 90) = Ok 70 /\ ctzsi2 32 0 = Ok 32 /\ ctzdi2 64 48 = Ok 4 /\ is_u 128 (2 ^ 70).
Proof. unfold is_u. repeat split; vm_compute; congruence. Qed.

(** * C06: byte swaps *)
Theorem C06_bswap : forall x,
  (is_u 32 x -> is_u 32 (bswapsi2 x) /\ (forall i, 0 <= i < 4 -> byte_of (bswapsi2 x) i = byte_of x (3 - i)) /\
                bswapsi2 (bswapsi2 x) = x) /\
  (is_u 64 x -> is_u 64 (bswapdi2 x) /\ (forall i, 0 <= i < 8 -> byte_of (bswapdi2 x) i = byte_of x (7 - i)) /\
                bswapdi2 (bswapdi2 x) = x) /\
  (is_u 128 x -> is_u 128 (bswapti2 x) /\ (forall i, 0 <= i < 16 -> byte_of (bswapti2 x) i = byte_of x (15 - i)) /\
                bswapti2 (bswapti2 x) = x).
Proof.
  intros x.
  assert (forall k n, n = Z.of_nat k -> is_u (8 * n) x ->
    is_u (8 * n) (swap_bytes_loop k x 0) /\
    (forall i, 0 <= i < n -> byte_of (swap_bytes_loop k x 0) i = byte_of x (n - 1 - i)) /\
    swap_bytes_loop k (swap_bytes_loop k x 0) 0 = x) as H.
  { intros k n -> Hx. split; [apply swap_range|]. split.
    - intros i Hi. now apply swap_bytes_rev.
    - now apply swap_involutive. }
  unfold bswapsi2, bswapdi2, bswapti2.
  split; [|split]; intros Hx.
  - apply (H 4%nat 4); auto.
  - apply (H 8%nat 8); auto.
  - apply (H 16%nat 16); auto.
Qed.
Example C06_ex : bswapsi2 0x11223344 = 0x44332211 /\ bswapdi2 1 = 2 ^ 56 /\ is_u 32 0x11223344.
Proof. unfold is_u. repeat split; vm_compute; congruence. Qed.

Print Assumptions C01_u128_add. Print Assumptions C01_i128_add.
Print Assumptions C01_u128_sub. Print Assumptions C01_i128_sub.
Print Assumptions C01_u128_addo. Print Assumptions C01_i128_addo.
Print Assumptions C01_u128_subo. Print Assumptions C01_i128_subo.
Print Assumptions C02_mulsi3. Print Assumptions C02_muldi3. Print Assumptions C02_multi3.
Print Assumptions C03_mulosi4. Print Assumptions C03_mulodi4. Print Assumptions C03_muloti4.
Print Assumptions C03_rust_i128_mulo. Print Assumptions C03_rust_u128_mulo. Print Assumptions C03_muloti4_uefi.
Print Assumptions C04_ashl. Print Assumptions C04_lshr. Print Assumptions C04_ashr. Print Assumptions C04_symbols.
Print Assumptions C05_clz. Print Assumptions C05_clz16. Print Assumptions C05_ctz.
Print Assumptions C06_bswap.
