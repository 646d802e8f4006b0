(** C10-C12: wide-integer support of libm. *)
From Coq Require Import ZArith Bool List Lia.
From Verif Require Import Base BaseLemmas IntSpec DivSpec BigModel BigProofs BigProofs2 BigProofs3.
Open Scope Z_scope.

(** The 256-bit integer represented by the two limbs of a [u256] / [i256]. *)
Definition is_u256 (a : big) (v : Z) : Prop :=
  is_u 128 (b_hi a) /\ is_u 128 (b_lo a) /\ v = b_hi a * 2 ^ 128 + b_lo a.
Definition is_i256 (a : big) (v : Z) : Prop :=
  is_i 128 (b_hi a) /\ is_u 128 (b_lo a) /\ v = b_hi a * 2 ^ 128 + b_lo a.
Notation U := (UI 128). Notation S := (SI 128).

Lemma is_u256_okb a v : is_u256 a v <-> okb U a /\ v = bval a.
Proof. unfold is_u256, okb, bval, is_u. rewrite fits_u. tauto. Qed.
Lemma is_i256_okb a v : is_i256 a v <-> okb S a /\ v = bval a.
Proof. unfold is_i256, okb, bval, is_u, is_i. rewrite fits_s. tauto. Qed.
Lemma fitsb_u x : fitsb (wide U) x = true <-> is_u 256 x.
Proof. rewrite fitsb_spec. apply (fits_u 256). Qed.
Lemma fitsb_i x : fitsb (wide S) x = true <-> is_i 256 x.
Proof. rewrite fitsb_spec. apply (fits_s 256). Qed.
Lemma wraps_norm_u x : wraps_u 256 x (norm (wide U) x).
Proof. split; [apply (fits_u 256), norm_fits; reflexivity|]. apply norm_eq_mod. reflexivity. Qed.
Lemma wraps_norm_i x : wraps_i 256 x (norm (wide S) x).
Proof. split; [apply (fits_s 256), norm_fits; reflexivity|]. apply norm_eq_mod. reflexivity. Qed.

(** A two-operand operation agrees with the integer result [v]: exact when it fits
    (debug assertions on or off); otherwise it wraps when debug assertions are off
    and panics when they are on. *)
Definition wide_result (is : big -> Z -> Prop) (fits : Z -> Prop) (wraps : Z -> Z -> Prop) (op : bool -> res big) (v : Z) : Prop :=
  (fits v -> forall dbg, exists r, op dbg = Ok r /\ is r v) /\
  (~ fits v -> op true = Err Panic /\ exists r w, op false = Ok r /\ is r w /\ wraps v w).

Lemma wide_result_u op v :
  (forall dbg, exists r, okb U r /\ bval r = norm (wide U) v /\ op dbg = (if dbg && negb (fitsb (wide U) v) then Err Panic else Ok r)) ->
  wide_result is_u256 (is_u 256) (wraps_u 256) op v.
Proof.
  intros H. split.
  - intros Hf dbg. destruct (H dbg) as (r & Hr & Hv & ->). rewrite (proj2 (fitsb_u v) Hf), andb_false_r.
    exists r. split; [reflexivity|]. apply is_u256_okb. split; [exact Hr|]. rewrite Hv. symmetry. apply norm_id; [reflexivity|]. apply (fits_u 256). exact Hf.
  - intros Hf. assert (Hb : fitsb (wide U) v = false) by (apply not_true_is_false; intros C; apply fitsb_u in C; auto).
    split.
    + destruct (H true) as (r & _ & _ & ->). rewrite Hb. reflexivity.
    + destruct (H false) as (r & Hr & Hv & ->). exists r, (bval r). split; [reflexivity|]. split; [now apply is_u256_okb|].
      rewrite Hv. apply wraps_norm_u.
Qed.
Lemma wide_result_i op v :
  (forall dbg, exists r, okb S r /\ bval r = norm (wide S) v /\ op dbg = (if dbg && negb (fitsb (wide S) v) then Err Panic else Ok r)) ->
  wide_result is_i256 (is_i 256) (wraps_i 256) op v.
Proof.
  intros H. split.
  - intros Hf dbg. destruct (H dbg) as (r & Hr & Hv & ->). rewrite (proj2 (fitsb_i v) Hf), andb_false_r.
    exists r. split; [reflexivity|]. apply is_i256_okb. split; [exact Hr|]. rewrite Hv. symmetry. apply norm_id; [reflexivity|]. apply (fits_s 256). exact Hf.
  - intros Hf. assert (Hb : fitsb (wide S) v = false) by (apply not_true_is_false; intros C; apply fitsb_i in C; auto).
    split.
    + destruct (H true) as (r & _ & _ & ->). rewrite Hb. reflexivity.
    + destruct (H false) as (r & Hr & Hv & ->). exists r, (bval r). split; [reflexivity|]. split; [now apply is_i256_okb|].
      rewrite Hv. apply wraps_norm_i.
Qed.

(** ** C10 *)
Theorem C10_add : forall a b x y,
  (is_u256 a x -> is_u256 b y -> wide_result is_u256 (is_u 256) (wraps_u 256) (fun dbg => big_add dbg U a b) (x + y)) /\
  (is_i256 a x -> is_i256 b y -> wide_result is_i256 (is_i 256) (wraps_i 256) (fun dbg => big_add dbg S a b) (x + y)).
Proof.
  intros. split; rewrite ?is_u256_okb, ?is_i256_okb; intros [Ha ->] [Hb ->].
  - apply wide_result_u. intros. now apply big_add_spec.
  - apply wide_result_i. intros. now apply big_add_spec.
Qed.
Theorem C10_sub : forall a b x y,
  (is_u256 a x -> is_u256 b y -> wide_result is_u256 (is_u 256) (wraps_u 256) (fun dbg => big_sub dbg U a b) (x - y)) /\
  (is_i256 a x -> is_i256 b y -> wide_result is_i256 (is_i 256) (wraps_i 256) (fun dbg => big_sub dbg S a b) (x - y)).
Proof.
  intros. split; rewrite ?is_u256_okb, ?is_i256_okb; intros [Ha ->] [Hb ->].
  - apply wide_result_u. intros. now apply big_sub_spec.
  - apply wide_result_i. intros. now apply big_sub_spec.
Qed.
(** Shifting left multiplies by a power of two modulo 2^256; shifting right is floor
    division by a power of two. *)
Theorem C10_shifts : forall dbg a x s, 0 <= s < 256 ->
  (is_u256 a x -> exists r v, big_shl dbg U a s = Ok r /\ is_u256 r v /\ wraps_u 256 (x * 2 ^ s) v) /\
  (is_i256 a x -> exists r v, big_shl dbg S a s = Ok r /\ is_i256 r v /\ wraps_i 256 (x * 2 ^ s) v) /\
  (is_u256 a x -> exists r, big_shr dbg U a s = Ok r /\ is_u256 r (x / 2 ^ s)) /\
  (is_i256 a x -> exists r, big_shr dbg S a s = Ok r /\ is_i256 r (x / 2 ^ s)).
Proof.
  intros dbg a x s Hs. rewrite is_u256_okb, is_i256_okb. repeat split; intros [Ha ->].
  - destruct (big_shl_spec U eq_refl dbg a s Ha Hs) as (r & E & Hr & Hv). exists r, (bval r). rewrite is_u256_okb, Hv. auto using wraps_norm_u.
  - destruct (big_shl_spec S eq_refl dbg a s Ha Hs) as (r & E & Hr & Hv). exists r, (bval r). rewrite is_i256_okb, Hv. auto using wraps_norm_i.
  - destruct (big_shr_spec U eq_refl dbg a s Ha Hs) as (r & E & Hr & Hv). exists r. rewrite is_u256_okb, Hv. auto.
  - destruct (big_shr_spec S eq_refl dbg a s Ha Hs) as (r & E & Hr & Hv). exists r. rewrite is_i256_okb, Hv. auto.
Qed.
(** Bitwise or and not act on the (two's complement) bits of the 256-bit value. *)
Theorem C10_bits : forall a b x y,
  (is_u256 a x -> is_u256 b y -> is_u256 (big_or a b) (Z.lor x y)) /\
  (is_i256 a x -> is_i256 b y -> is_i256 (big_or a b) (Z.lor x y)) /\
  (is_u256 a x -> is_u256 (big_not U a) (2 ^ 256 - 1 - x)) /\
  (is_i256 a x -> is_i256 (big_not S a) (- x - 1)).
Proof.
  intros. rewrite !is_u256_okb, !is_i256_okb. split; [|split; [|split]].
  - intros [Ha ->] [Hb ->]. destruct (big_or_spec U eq_refl a b Ha Hb) as [H ->]; auto.
  - intros [Ha ->] [Hb ->]. destruct (big_or_spec S eq_refl a b Ha Hb) as [H ->]; auto.
  - intros [Ha ->]. destruct (big_not_spec U eq_refl a Ha) as [H ->]. split; [auto|].
    apply okb_fits in Ha; [|reflexivity]. apply (fits_u 256) in Ha.
    symmetry. apply norm_unique with (k := 1); [reflexivity| |change (bits (wide U)) with 256; lia]. apply (fits_u 256). lia.
  - intros [Ha ->]. destruct (big_not_spec S eq_refl a Ha) as [H ->]. split; [auto|].
    apply okb_fits in Ha; [|reflexivity]. apply (fits_s 256) in Ha.
    symmetry. apply norm_id; [reflexivity|]. apply (fits_s 256). lia.
Qed.
(** Comparison is comparison of values. *)
Theorem C10_cmp : forall a b x y,
  (is_u256 a x -> is_u256 b y -> big_ltb a b = (x <? y) /\ big_eqb a b = (x =? y)) /\
  (is_i256 a x -> is_i256 b y -> big_ltb a b = (x <? y) /\ big_eqb a b = (x =? y)).
Proof.
  intros. rewrite !is_u256_okb, !is_i256_okb. split; intros [Ha ->] [Hb ->]; split;
    first [now apply (big_ltb_spec U) | now apply (big_eqb_spec U) | now apply (big_ltb_spec S) | now apply (big_eqb_spec S)].
Qed.
(** Widening multiplication never panics and is exact; for i128 the factors and the
    product are reinterpreted as unsigned bit patterns ("zero widening"). *)
Theorem C10_widen_mul :
  (forall x y, is_u 128 x -> is_u 128 y -> exists r, u128_widen_mul x y = Ok r /\ is_u256 r (x * y)) /\
  (forall x y px py, denotes_i 128 px x -> denotes_i 128 py y ->
     exists r v, i128_zero_widen_mul x y = Ok r /\ is_i256 r v /\ wraps_i 256 (px * py) v).
Proof.
  split.
  - intros x y Hx Hy. destruct (u128_widen_mul_spec x y Hx Hy) as (r & E & Hr & Hv). exists r. rewrite is_u256_okb, Hv. auto.
  - intros x y px py Hx Hy. unfold i128_zero_widen_mul.
    assert (N : forall p v, denotes_i 128 p v -> norm U v = p /\ 0 <= p < 2 ^ 128).
    { intros p v (Hp & Hv & Hd). split; [|exact Hp]. destruct Hd as [-> | ->].
      - apply norm_id; [reflexivity|]. now apply fits_u.
      - apply norm_unique with (k := 1); [reflexivity|now apply fits_u|]. rewrite bits_u. lia. }
    destruct (N _ _ Hx) as [-> Hpx]. destruct (N _ _ Hy) as [-> Hpy].
    destruct (u128_widen_mul_spec px py Hpx Hpy) as (r & -> & Hr & Hv). cbn [bind].
    assert (Ho : okb S (big_signed r)) by (split; cbn [b_hi b_lo big_signed]; [apply norm_fits; reflexivity|apply Hr]).
    exists (big_signed r), (bval (big_signed r)). split; [reflexivity|]. split; [now apply is_i256_okb|].
    split; [apply (fits_s 256); exact (okb_fits S eq_refl _ Ho)|].
    unfold bval, big_signed; cbn [b_hi b_lo]. destruct (norm_eq_mod S ltac:(reflexivity) (b_hi r)) as [k ->].
    exists k. rewrite bits_s, p256. rewrite <- Hv. unfold bval. ring.
Qed.
(** Splitting and joining halves, sign reinterpretation. *)
Theorem C10_halves :
  (forall x, is_u 128 x -> is_u256 (u128_widen x) x /\ is_u256 (u128_widen_hi x) (x * 2 ^ 128)) /\
  (forall x, is_i 128 x -> is_i256 (i128_widen x) x /\ is_i256 (i128_widen_hi x) (x * 2 ^ 128) /\
     (forall p, denotes_i 128 p x -> is_i256 (i128_zero_widen x) p)) /\
  (forall a x, is_u256 a x -> u256_lo a = x mod 2 ^ 128 /\ big_hi a = x / 2 ^ 128) /\
  (forall a x, is_i256 a x -> wraps_i 128 x (i256_lo a) /\ big_hi a = x / 2 ^ 128) /\
  (forall l h, is_u 128 l -> is_u 128 h -> is_u256 (u256_from_lo_hi l h) (h * 2 ^ 128 + l)) /\
  (forall a x, is_u256 a x -> exists v, is_i256 (big_signed a) v /\ wraps_i 256 x v) /\
  (forall a x, is_i256 a x -> exists v, is_u256 (big_unsigned a) v /\ wraps_u 256 x v).
Proof.
  split; [|split; [|split; [|split; [|split; [|split]]]]].
  - intros x Hx. unfold is_u256, is_u in *; cbn [u128_widen u128_widen_hi b_hi b_lo]. lia.
  - intros x Hx. unfold is_i256, is_u, is_i, i128_widen, i128_widen_hi, i128_zero_widen, big_signed, u128_widen in *. cbn [b_hi b_lo].
    rewrite !norm_u. split; [|split].
    + destruct (Z.ltb_spec x 0).
      * destruct (div_mod_unique x (2 ^ 128) (-1) (x + 2 ^ 128)) as [_ ->]; lia.
      * rewrite Z.mod_small; lia.
    + lia.
    + intros p (Hp & _ & Hd). unfold is_u in Hp. change (norm S 0) with 0.
      assert (x mod 2 ^ 128 = p) as ->.
      { destruct Hd as [-> | ->]; [apply Z.mod_small; lia|]. symmetry. apply Z.mod_unique with (-1); lia. }
      lia.
  - intros a x (Hh & Hl & ->). unfold is_u, u256_lo, big_hi in *.
    destruct (div_mod_unique (b_hi a * 2 ^ 128 + b_lo a) (2 ^ 128) (b_hi a) (b_lo a)) as [-> ->]; [lia|lia|auto].
  - intros a x (Hh & Hl & ->). unfold is_u, i256_lo, big_hi in *. split.
    + split; [apply (fits_s 128), norm_fits; reflexivity|]. destruct (norm_eq_mod S ltac:(reflexivity) (b_lo a)) as [k ->].
      rewrite bits_s. exists (k - b_hi a). ring.
    + destruct (div_mod_unique (b_hi a * 2 ^ 128 + b_lo a) (2 ^ 128) (b_hi a) (b_lo a)) as [-> _]; [lia|lia|auto].
  - intros l h Hl Hh. unfold is_u256, u256_from_lo_hi, big_or, u128_widen, u128_widen_hi. cbn [b_hi b_lo]. rewrite Z.lor_0_l, Z.lor_0_r. auto.
  - intros a x Ha. apply is_u256_okb in Ha. destruct Ha as [Ha ->]. exists (bval (big_signed a)).
    assert (Ho : okb S (big_signed a)) by (split; cbn [b_hi b_lo big_signed]; [apply norm_fits; reflexivity|apply Ha]).
    split; [now apply is_i256_okb|]. split; [apply (fits_s 256); exact (okb_fits S eq_refl _ Ho)|].
    unfold bval, big_signed; cbn [b_hi b_lo]. destruct (norm_eq_mod S ltac:(reflexivity) (b_hi a)) as [k ->].
    exists k. rewrite bits_s, p256. ring.
  - intros a x Ha. apply is_i256_okb in Ha. destruct Ha as [Ha ->]. exists (bval (big_unsigned a)).
    assert (Ho : okb U (big_unsigned a)) by (split; cbn [b_hi b_lo big_unsigned]; [apply norm_fits; reflexivity|apply Ha]).
    split; [now apply is_u256_okb|]. split; [apply (fits_u 256); exact (okb_fits U eq_refl _ Ho)|].
    unfold bval, big_unsigned; cbn [b_hi b_lo]. destruct (norm_eq_mod U ltac:(reflexivity) (b_hi a)) as [k ->].
    exists k. rewrite bits_u, p256. ring.
Qed.
Example C10_ex :
  is_u256 (Big 5 (2 ^ 128 - 1)) (6 * 2 ^ 128 - 1) /\ is_i256 (Big (-3) 7) (-3 * 2 ^ 128 + 7) /\
  big_add true U (Big 5 (2 ^ 128 - 1)) (Big 1 1) = Ok (Big 7 0) /\
  big_add true U (Big (2 ^ 128 - 1) 1) (Big 1 1) = Err Panic /\
  big_shr true S (Big (-3) 7) 129 = Ok (Big (-1) (2 ^ 128 - 2)) /\
  u128_widen_mul (2 ^ 128 - 1) (2 ^ 128 - 1) = Ok (Big (2 ^ 128 - 2) 1).
Proof. unfold is_u256, is_i256, is_u, is_i; cbn [b_hi b_lo]. repeat match goal with |- _ /\ _ => split end; first [lia | vm_compute; reflexivity]. Qed.

(** ** C11. For dividends of width [2w] and divisors of width [w]: the primitive
    types (w = 8, 16, 32, 64) and u256 (w = 128). *)
Theorem C11_narrowing_div : forall w n d, 0 < w -> is_u (2 * w) n -> is_u w d ->
  (n < d * 2 ^ w -> exists q r, nd_checked_prim (2 * w) n d = Ok (Some (q, r)) /\ divides_to n d q r /\ is_u w q) /\
  (d * 2 ^ w <= n -> nd_checked_prim (2 * w) n d = Ok None).
Proof.
  intros w n d Hw Hn Hd. unfold is_u in *. rewrite nd_prim_ok by auto. pose proof (pow2_pos w ltac:(lia)). split; intros H1.
  - assert (n / 2 ^ w < d) by (apply Z.div_lt_upper_bound; lia).
    assert (0 < d) by (pose proof (Z.div_pos n (2 ^ w)); lia).
    replace (n / 2 ^ w <? d) with true by lia. exists (n / d), (n mod d). split; [reflexivity|].
    pose proof (Z.div_mod n d ltac:(lia)). pose proof (Z.mod_pos_bound n d ltac:(lia)). unfold divides_to.
    split; [lia|]. split; [apply Z.div_pos; lia|apply Z.div_lt_upper_bound; lia].
  - assert (d <= n / 2 ^ w) by (apply Z.div_le_lower_bound; lia). replace (n / 2 ^ w <? d) with false by lia. reflexivity.
Qed.
Theorem C11_narrowing_div_u256 : forall dbg a n d, is_u256 a n -> is_u 128 d ->
  (n < d * 2 ^ 128 -> exists q r, nd_checked_u256 dbg a d = Ok (Some (q, r)) /\ divides_to n d q r /\ is_u 128 q) /\
  (d * 2 ^ 128 <= n -> nd_checked_u256 dbg a d = Ok None).
Proof.
  intros dbg a n d Ha Hd. apply is_u256_okb in Ha. destruct Ha as [Ha ->]. rewrite nd_u256_ok by auto.
  pose proof Ha as [Hh Hl]. apply fits_u in Hh. unfold bval, is_u in *. split; intros H1.
  - replace (b_hi a <? d) with true by lia.
    set (n := b_hi a * 2 ^ 128 + b_lo a) in *. exists (n / d), (n mod d). split; [reflexivity|].
    pose proof (Z.div_mod n d ltac:(lia)). pose proof (Z.mod_pos_bound n d ltac:(lia)). unfold divides_to.
    split; [lia|]. split; [apply Z.div_pos; lia|apply Z.div_lt_upper_bound; lia].
  - replace (b_hi a <? d) with false by lia. reflexivity.
Qed.
Example C11_ex :
  is_u256 (Big 12345678901234567890123 98765) (12345678901234567890123 * 2 ^ 128 + 98765) /\
  12345678901234567890123 * 2 ^ 128 + 98765 < (2 ^ 100 + 3) * 2 ^ 128 /\
  match nd_checked_u256 true (Big 12345678901234567890123 98765) (2 ^ 100 + 3) with
  | Ok (Some (q, r)) => (q * (2 ^ 100 + 3) + r =? 12345678901234567890123 * 2 ^ 128 + 98765) && (r <? 2 ^ 100 + 3) && (0 <? r)
  | _ => false end = true /\
  (* the correction path of div_three_digits_by_two *)
  match nd_checked_u256 true (Big (2 ^ 127) (2 ^ 128 - 1)) (2 ^ 127 + 2 ^ 64 - 1) with
  | Ok (Some (q, r)) => (q * (2 ^ 127 + 2 ^ 64 - 1) + r =? 2 ^ 127 * 2 ^ 128 + 2 ^ 128 - 1) | _ => false end = true /\
  nd_checked_u256 true (Big 7 0) 7 = Ok None /\ nd_checked_u256 true (Big 0 9) 0 = Ok None /\
  nd_checked_prim 16 (255 * 100 + 99) 100 = Ok (Some (255, 99)).
Proof. unfold is_u256, is_u; cbn [b_hi b_lo]. repeat match goal with |- _ /\ _ => split end; first [lia | vm_compute; reflexivity]. Qed.

(** ** C12. [w]: width of the unsigned type. The two assertions at the head of the
    function are the hypotheses on x and y; the exponent must leave room in a u32 for
    the normalisation shift. *)
Theorem C12_linear_mul_reduction : forall w x e y, 8 <= w < 2 ^ 31 -> 0 < y < 2 ^ (w - 2) -> 0 <= x < 2 * y ->
  0 <= e -> e + w <= 2 ^ 32 ->
  exists r, linear_mul_reduction w (prim_dict w) x e y = Ok r /\ 0 <= r < y /\ exists k, x * 2 ^ e = k * y + r.
Proof.
  intros w x e y Hw Hy Hx He Hew. rewrite (lmr_ok w _ _ _ ltac:(lia) (prim_ok w ltac:(lia))) by lia.
  eexists. split; [reflexivity|]. split; [apply Z.mod_pos_bound; lia|].
  exists (x * 2 ^ e / y). pose proof (Z.div_mod (x * 2 ^ e) y ltac:(lia)). lia.
Qed.
Theorem C12_linear_mul_reduction_u128 : forall dbg x e y, 0 < y < 2 ^ 126 -> 0 <= x < 2 * y -> 0 <= e -> e + 128 <= 2 ^ 32 ->
  exists r, linear_mul_reduction 128 (u256_dict dbg) x e y = Ok r /\ 0 <= r < y /\ exists k, x * 2 ^ e = k * y + r.
Proof.
  intros dbg x e y Hy Hx He Hew. rewrite (lmr_ok 128 _ _ _ ltac:(lia) (u256_ok dbg)) by lia.
  eexists. split; [reflexivity|]. split; [apply Z.mod_pos_bound; lia|].
  exists (x * 2 ^ e / y). pose proof (Z.div_mod (x * 2 ^ e) y ltac:(lia)). lia.
Qed.
Example C12_ex :
  linear_mul_reduction 64 (prim_dict 64) 1234567890123 2000 6700417000019 = Ok ((1234567890123 * 2 ^ 2000) mod 6700417000019) /\
  linear_mul_reduction 128 (u256_dict true) (10 ^ 37) 1000 (11 ^ 36) = Ok ((10 ^ 37 * 2 ^ 1000) mod 11 ^ 36) /\
  linear_mul_reduction 16 (prim_dict 16) 5 30 8 = Ok 0 /\ 0 < 11 ^ 36 < 2 ^ 126 /\ 10 ^ 37 < 2 * 11 ^ 36.
Proof. repeat match goal with |- _ /\ _ => split end; first [lia | vm_compute; reflexivity]. Qed.
(** The bound on [e] is needed: near [u32::MAX] the addition [e += s] overflows. *)
Theorem C12_huge_exponent_refuted : exists x e y, 0 < y < 2 ^ 62 /\ 0 <= x < 2 * y /\ is_u 32 e /\
  linear_mul_reduction 64 (prim_dict 64) x e y = Err Panic.
Proof. exists 1, (2 ^ 32 - 1), 3. unfold is_u. split; [lia|]. split; [lia|]. split; [lia|]. vm_compute. reflexivity. Qed.

Definition C10_C12_all := (C10_add, C10_sub, C10_shifts, C10_bits, C10_cmp, C10_widen_mul, C10_halves,
  C11_narrowing_div, C11_narrowing_div_u256, C12_linear_mul_reduction, C12_linear_mul_reduction_u128, C12_huge_exponent_refuted).
Print Assumptions C10_C12_all.
