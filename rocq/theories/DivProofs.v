(** Proofs about DivModel.v, part 1: normalization shift and binary long
    division. *)
From Coq Require Import ZArith Bool List Lia ZifyBool.
From Verif Require Import Base BaseLemmas IntProofs IntProofs2 DivModel.
Open Scope Z_scope.

Definition correct_div (n : Z) (dr : Z -> Z -> res (Z * Z)) : Prop :=
  forall a b, 0 <= a < 2 ^ n -> 0 < b < 2 ^ n -> dr a b = Ok (a / b, a mod b).

Lemma hw_div_correct n : correct_div n hw_div_rem.
Proof. intros a b Ha Hb. unfold hw_div_rem. now replace (b =? 0) with false by lia. Qed.

Lemma divmod_ok (a b q r : Z) : 0 <= r < b -> a = b * q + r -> (q, r) = (a / b, a mod b).
Proof. intros H1 H2. destruct (div_mod_unique a b q r H1 H2) as [-> ->]. reflexivity. Qed.

(** ** normalization shift *)
Lemma norm_bisect_ok k : forall fuel usz n div duo test shl,
  8 <= usz -> 0 < n <= 128 -> (Z.to_nat k < fuel)%nat -> 0 <= k -> 2 ^ k < n ->
  0 < div -> 0 <= shl -> shl + 2 * 2 ^ k <= n -> 0 <= duo ->
  test = duo / 2 ^ shl -> div <= test < div * 2 ^ (2 * 2 ^ k) ->
  exists s, norm_bisect fuel usz n div test shl (2 ^ k) = Ok s /\ 0 <= s < n /\
    div * 2 ^ s <= duo < div * 2 ^ (s + 1).
Proof.
  intros fuel. revert k. induction fuel as [|fuel IH]; intros k usz n div duo test shl Hu Hn Hf Hk Hkn Hd Hs Hsn Hduo Et Ht; [lia|].
  cbn [norm_bisect].
  assert (0 < 2 ^ k) by (apply pow2_pos; lia).
  assert (0 < 2 ^ shl) by (apply pow2_pos; lia).
  assert (0 < 2 ^ 2 ^ k) by (apply pow2_pos; lia).
  assert (2 ^ 8 <= 2 ^ usz) by (apply pow2_le; lia). change (2 ^ 8) with 256 in *.
  rewrite cshr_ok by (rewrite bits_u; lia). cbn [bind].
  rewrite pow2_dbl in Ht by lia.
  set (tmp := test / 2 ^ 2 ^ k).
  assert (exists test' shl', (if div <=? tmp then let* s := cadd (UI usz) shl (2 ^ k) in Ok (tmp, s) else Ok (test, shl))
      = Ok (test', shl') /\ test' = duo / 2 ^ shl' /\ div <= test' < div * 2 ^ 2 ^ k /\ 0 <= shl' /\ shl' + 2 ^ k <= n)
    as (test' & shl' & -> & E' & Ht' & Hs' & Hsn').
  { destruct (Z.leb_spec div tmp).
    - rewrite cadd_u by lia. cbn [bind]. exists tmp, (shl + 2 ^ k). split; [reflexivity|].
      repeat split; try lia.
      + unfold tmp. rewrite Et, Z.div_div by lia. rewrite <- pow2_add by lia. reflexivity.
      + unfold tmp. apply Z.div_lt_upper_bound; [lia|]. nia.
    - exists test, shl. split; [reflexivity|]. repeat split; try lia.
      unfold tmp in *. pose proof (Z.div_mod test (2 ^ 2 ^ k) ltac:(lia)).
      pose proof (Z.mod_pos_bound test (2 ^ 2 ^ k) ltac:(lia)). nia. }
  cbn [bind]. rewrite shiftr_div by lia. change (2 ^ 1) with 2.
  destruct (Z.eq_dec k 0) as [->|Hk0].
  - change (2 ^ 0) with 1 in *. change (1 / 2 =? 0) with true. cbn match.
    exists shl'. split; [reflexivity|]. split; [lia|].
    change (2 ^ 1) with 2 in Ht'. rewrite pow2_add by lia. change (2 ^ 1) with 2.
    assert (0 < 2 ^ shl') by (apply pow2_pos; lia).
    pose proof (Z.div_mod duo (2 ^ shl') ltac:(lia)). pose proof (Z.mod_pos_bound duo (2 ^ shl') ltac:(lia)).
    rewrite <- E' in *. nia.
  - assert (2 ^ k / 2 = 2 ^ (k - 1)) as E2.
    { rewrite (pow2_S k) by lia. rewrite Z.mul_comm. apply Z.div_mul; lia. }
    rewrite E2. assert (0 < 2 ^ (k - 1)) by (apply pow2_pos; lia).
    replace (2 ^ (k - 1) =? 0) with false by lia.
    rewrite (pow2_S k) in * by lia.
    apply (IH (k - 1) usz n div duo test' shl'); try lia.
Qed.

Lemma nlz_diff n a b : 0 < b <= a -> a < 2 ^ n -> nlz n b - nlz n a = Z.log2 a - Z.log2 b /\ 0 <= Z.log2 a - Z.log2 b < n.
Proof.
  intros Hb Ha. unfold nlz. replace (a <=? 0) with false by lia. replace (b <=? 0) with false by lia.
  pose proof (Z.log2_le_mono b a ltac:(lia)). assert (Z.log2 a < n) by (apply Z.log2_lt_pow2; lia).
  pose proof (Z.log2_nonneg b). lia.
Qed.

Definition pow2_width (n : Z) : Prop := exists k, 0 <= k /\ n = 2 * 2 ^ k /\ n <= 128.

Lemma norm_bisect_top usz n duo div : 8 <= usz -> pow2_width n -> 0 < div <= duo -> duo < 2 ^ n ->
  exists s, norm_bisect (Z.to_nat n) usz n div duo 0 (Z.shiftr n 1) = Ok s /\ 0 <= s < n /\
    div * 2 ^ s <= duo < div * 2 ^ (s + 1).
Proof.
  intros Hu (k & Hk & En & Hn) Hd Hduo. rewrite shiftr_div by lia. change (2 ^ 1) with 2.
  assert (0 < 2 ^ k) by (apply pow2_pos; lia).
  assert (n / 2 = 2 ^ k) as -> by (rewrite En, Z.mul_comm; apply Z.div_mul; lia).
  assert (k < 2 ^ k) by (apply Z.pow_gt_lin_r; lia).
  apply (norm_bisect_ok k); try lia.
  - change (2 ^ 0) with 1. now rewrite Z.div_1_r.
  - rewrite <- En. nia.
Qed.

Lemma normalization_full usz lz n duo div : 8 <= usz -> pow2_width n -> 0 < div <= duo -> duo < 2 ^ n ->
  exists s, normalization_shift usz lz n duo div true = Ok s /\ 0 <= s < n /\
    div * 2 ^ s <= duo < div * 2 ^ (s + 1).
Proof.
  intros Hu Hn Hd Hduo. unfold normalization_shift. destruct lz; [|now apply norm_bisect_top].
  destruct Hn as (k & Hk & En & Hn).
  destruct (nlz_diff n duo div Hd Hduo) as [E Hr].
  assert (2 ^ 8 <= 2 ^ usz) by (apply pow2_le; lia). change (2 ^ 8) with 256 in *.
  assert (2 ^ 32 = 4294967296) by reflexivity.
  rewrite csub_u by lia. cbn [bind]. rewrite E. set (s := Z.log2 duo - Z.log2 div) in *.
  pose proof (Z.log2_spec duo ltac:(lia)) as [L1 L2]. pose proof (Z.log2_spec div ltac:(lia)) as [L3 L4].
  rewrite Z.pow_succ_r in L2, L4 by apply Z.log2_nonneg.
  assert (2 ^ Z.log2 duo = 2 ^ Z.log2 div * 2 ^ s) as Ep.
  { rewrite <- pow2_add by (try apply Z.log2_nonneg; lia). f_equal. unfold s. lia. }
  assert (0 < 2 ^ s) by (apply pow2_pos; lia).
  assert (Z.log2 duo < n) by (apply Z.log2_lt_pow2; lia).
  assert (2 * 2 ^ Z.log2 duo <= 2 ^ n).
  { rewrite <- Z.pow_succ_r by apply Z.log2_nonneg. apply pow2_le. lia. }
  assert (div * 2 ^ s < 2 ^ n) by nia.
  rewrite cshl_u_exact by (try lia). cbn [bind].
  destruct (Z.ltb_spec duo (div * 2 ^ s)).
  - assert (s <> 0) by (intros E0; rewrite E0 in *; change (2 ^ 0) with 1 in *; lia).
    rewrite csub_u by lia. exists (s - 1). split; [reflexivity|].
    replace (s - 1 + 1) with s by lia. split; [lia|]. split; [|lia].
    rewrite (pow2_S s) in * by lia. nia.
  - exists s. split; [reflexivity|]. split; [lia|]. split; [lia|].
    rewrite pow2_add by lia. change (2 ^ 1) with 2. nia.
Qed.

(** With full_normalization = false the two algorithms differ; this is what both
    guarantee. *)
Lemma normalization_half usz lz n duo div : 8 <= usz -> pow2_width n -> 0 < div <= duo -> duo < 2 ^ n ->
  exists s, normalization_shift usz lz n duo div false = Ok s /\ 0 <= s < n /\
    duo < div * 2 ^ (s + 1) /\ (div + 1) * 2 ^ s <= 2 ^ n /\ (div + 1) * 2 ^ s <= 2 * duo.
Proof.
  intros Hu Hn Hd Hduo. unfold normalization_shift. destruct lz.
  - destruct Hn as (k & Hk & En & Hn).
    destruct (nlz_diff n duo div Hd Hduo) as [E Hr].
    assert (2 ^ 32 = 4294967296) by reflexivity.
    rewrite csub_u by lia. cbn [bind]. rewrite E. set (s := Z.log2 duo - Z.log2 div) in *.
    pose proof (Z.log2_spec duo ltac:(lia)) as [L1 L2]. pose proof (Z.log2_spec div ltac:(lia)) as [L3 L4].
    rewrite Z.pow_succ_r in L2, L4 by apply Z.log2_nonneg.
    assert (2 ^ Z.log2 duo = 2 ^ Z.log2 div * 2 ^ s) as Ep.
    { rewrite <- pow2_add by (try apply Z.log2_nonneg; lia). f_equal. unfold s. lia. }
    assert (0 < 2 ^ s) by (apply pow2_pos; lia).
    assert (Z.log2 duo < n) by (apply Z.log2_lt_pow2; lia).
    assert (2 * 2 ^ Z.log2 duo <= 2 ^ n).
    { rewrite <- Z.pow_succ_r by apply Z.log2_nonneg. apply pow2_le. lia. }
    exists s. split; [reflexivity|]. split; [lia|].
    rewrite pow2_add by lia. change (2 ^ 1) with 2.
    assert ((div + 1) * 2 ^ s <= 2 * 2 ^ Z.log2 duo) by nia. nia.
  - destruct (norm_bisect_top usz n duo div Hu Hn Hd Hduo) as (s & -> & Hs & H1 & H2).
    exists s. split; [reflexivity|]. split; [lia|]. split; [lia|].
    assert (0 < 2 ^ s) by (apply pow2_pos; lia).
    split; [|nia].
    assert (2 ^ n = 2 ^ (n - s) * 2 ^ s) as En by (rewrite <- pow2_add by lia; f_equal; lia).
    rewrite En in *. assert (div < 2 ^ (n - s)) by nia. nia.
Qed.

(** ** binary long division *)
Lemma norm_s_lt0 n x : 0 < n -> 0 <= x < 2 ^ n -> (norm (SI n) x <? 0) = (2 ^ (n - 1) <=? x).
Proof.
  intros Hn Hx. pose proof (pow2_S n Hn).
  assert (0 < bits (SI n)) as Hb by exact Hn.
  destruct (Z.leb_spec (2 ^ (n - 1)) x).
  - rewrite (norm_unique (SI n) Hb x (x - 2 ^ n) (-1)).
    + lia.
    + apply fits_s. lia.
    + rewrite bits_s. lia.
  - rewrite (norm_id (SI n) Hb); [lia|]. apply fits_s. lia.
Qed.

Lemma bl_step n duo D : 1 < n -> 0 <= duo < D -> D <= 2 ^ (n - 1) ->
  let div := D - 1 in
  let d1 := wrapping_sub (UI n) (wrapping_shl (UI n) duo 1) div in
  let mask := norm (UI n) (wrapping_shr (SI n) (norm (SI n) d1) (n - 1)) in
  wrapping_add (UI n) d1 (Z.land div mask) = if 2 * duo - div <? 0 then 2 * duo else 2 * duo - div.
Proof.
  intros Hn Hd HD. cbv zeta. pose proof (pow2_S n ltac:(lia)) as EP.
  assert (0 < 2 ^ (n - 1)) by (apply pow2_pos; lia).
  unfold wrapping_shl, wrapping_shr, wrapping_sub, wrapping_add. rewrite !bits_u, !bits_s, !norm_u.
  rewrite (Z.mod_small 1) by lia. rewrite (Z.mod_small (n - 1)) by lia.
  rewrite shiftl_mul, shiftr_div by lia. change (2 ^ 1) with 2.
  rewrite (Z.mod_small (duo * 2)) by lia.
  set (d1 := (duo * 2 - (D - 1)) mod 2 ^ n).
  assert (0 <= d1 < 2 ^ n) as Hd1 by (apply Z.mod_pos_bound; lia).
  pose proof (norm_s_lt0 n d1 ltac:(lia) Hd1) as Hs.
  assert (0 < bits (SI n)) as Hb by (rewrite bits_s; lia).
  pose proof (norm_fits (SI n) Hb d1) as Hf. apply fits_s in Hf.
  destruct (Z.ltb_spec (2 * duo - (D - 1)) 0).
  - assert (d1 = 2 * duo - (D - 1) + 2 ^ n) as E.
    { unfold d1. symmetry. apply Z.mod_unique with (q := -1); lia. }
    assert (norm (SI n) d1 < 0) by lia.
    assert (norm (SI n) d1 / 2 ^ (n - 1) = -1) as ->.
    { symmetry. apply Z.div_unique with (r := norm (SI n) d1 + 2 ^ (n - 1)); lia. }
    replace (-1 mod 2 ^ n) with (2 ^ n - 1) by (apply Z.mod_unique with (q := -1); lia).
    rewrite land_ones_mod by lia. rewrite (Z.mod_small (D - 1)) by lia.
    rewrite E. symmetry. apply Z.mod_unique with (q := 1); lia.
  - assert (d1 = 2 * duo - (D - 1)) as E.
    { unfold d1. rewrite Z.mod_small; lia. }
    assert (0 <= norm (SI n) d1) by lia.
    assert (norm (SI n) d1 / 2 ^ (n - 1) = 0) as -> by (apply Z.div_small; lia).
    rewrite Z.mod_0_l by lia. rewrite Z.land_0_r, Z.add_0_r. rewrite Z.mod_small by lia. exact E.
Qed.

Lemma bl_loop_ok n D : 1 < n -> D <= 2 ^ (n - 1) ->
  forall i j d a q, D = d * 2 ^ (j + Z.of_nat i) -> 0 < d -> 0 <= j ->
  0 <= q < 2 ^ j -> 0 <= 2 ^ j * a - q * D < D ->
  exists q', bl_loop i n (2 ^ j * a - q * D + q) (D - 1) = 2 ^ (j + Z.of_nat i) * a - q' * D + q' /\
    0 <= q' < 2 ^ (j + Z.of_nat i) /\ 0 <= 2 ^ (j + Z.of_nat i) * a - q' * D < D.
Proof.
  intros Hn HD. induction i as [|i IH]; intros j d a q ED Hd Hj Hq Hr.
  - cbn [bl_loop]. rewrite Z.add_0_r in *. exists q. auto.
  - cbn [bl_loop].
    replace (j + Z.of_nat (S i)) with (j + 1 + Z.of_nat i) in * by lia.
    set (r := 2 ^ j * a - q * D) in *.
    set (P := 2 ^ j) in *. assert (0 < P) by (apply pow2_pos; lia).
    assert (exists D', D = 2 * P * D') as (D' & ED').
    { exists (d * 2 ^ Z.of_nat i). rewrite ED, !pow2_add by lia. change (2 ^ 1) with 2. unfold P. ring. }
    assert (r = P * (a - 2 * q * D')) as Er by (unfold r; rewrite ED'; ring).
    set (r' := a - 2 * q * D') in *.
    assert (r' < 2 * D') by nia.
    assert (r + P <= D) by nia.
    rewrite bl_step by lia.
    assert (2 ^ (j + 1) = 2 * P) as EP1 by (rewrite pow2_add by lia; change (2 ^ 1) with 2; unfold P; ring).
    destruct (Z.ltb_spec (2 * (r + q) - (D - 1)) 0).
    + assert (2 * r < D) by (destruct (Z_lt_le_dec (2 * r) D); lia).
      destruct (IH (j + 1) d a (2 * q)) as (q' & E & Hq1 & Hq2); auto; try lia.
      all: try (rewrite EP1; unfold r in *; lia).
      exists q'. split; [|auto]. rewrite <- E. f_equal. rewrite EP1. unfold r. ring.
    + assert (D <= 2 * r).
      { destruct (Z_lt_le_dec (2 * r) D); [|lia]. exfalso.
        assert (r' < D') by nia. assert (2 * r + 2 * P <= D) by nia. lia. }
      destruct (IH (j + 1) d a (2 * q + 1)) as (q' & E & Hq1 & Hq2); auto; try lia.
      all: try (rewrite EP1; unfold r in *; lia).
      exists q'. split; [|auto]. rewrite <- E. f_equal. rewrite EP1. unfold r. ring.
Qed.

(** lines 427-438 as a lemma *)
Lemma bl_finish n shl d a Q : 1 < n -> 0 <= shl < n -> 0 < d -> d * 2 ^ shl <= 2 ^ (n - 1) ->
  0 <= a < d * 2 ^ shl -> 0 <= Q ->
  (let div := wrapping_sub (UI n) (d * 2 ^ shl) 1 in
   let duo := bl_loop (Z.to_nat shl) n a div in
   let* r := cshr (UI n) duo shl in
   Ok (Z.lor (Z.land duo (2 ^ shl - 1)) (Q * 2 ^ shl), r)) = Ok (Q * 2 ^ shl + a / d, a mod d).
Proof.
  intros Hn Hs Hd HD Ha HQ. cbv zeta.
  assert (0 < 2 ^ shl) by (apply pow2_pos; lia).
  pose proof (pow2_S n ltac:(lia)).
  unfold wrapping_sub. rewrite norm_u, Z.mod_small by nia.
  destruct (bl_loop_ok n (d * 2 ^ shl) Hn HD (Z.to_nat shl) 0 d a 0) as (q & E & Hq & Hr); try lia.
  { rewrite Z2Nat.id by lia. reflexivity. }
  rewrite Z2Nat.id in E, Hq, Hr by lia. rewrite Z.add_0_l in E, Hq, Hr. change (2 ^ 0) with 1 in E.
  replace (1 * a - 0 * (d * 2 ^ shl) + 0) with a in E by ring. rewrite E.
  rewrite cshr_ok by (rewrite bits_u; lia). cbn [bind].
  rewrite land_ones_mod by lia.
  assert (2 ^ shl * a - q * (d * 2 ^ shl) + q = 2 ^ shl * (a - q * d) + q) as E2 by ring. rewrite E2.
  destruct (div_mod_unique (2 ^ shl * (a - q * d) + q) (2 ^ shl) (a - q * d) q) as [-> ->]; try lia.
  rewrite lor_add_low by lia.
  assert (0 <= a - q * d < d) by nia.
  destruct (div_mod_unique a d q (a - q * d)) as [-> ->]; try lia.
  f_equal. f_equal. ring.
Qed.

Theorem binary_long_correct usz lz n : 8 <= usz -> pow2_width n -> correct_div n (binary_long usz lz n).
Proof.
  intros Hu Hn duo div Hduo Hdiv. unfold binary_long.
  assert (1 < n) as Hn1.
  { destruct Hn as (k & Hk & En & _). assert (0 < 2 ^ k) by (apply pow2_pos; lia). lia. }
  replace (div =? 0) with false by lia.
  destruct (Z.ltb_spec duo div).
  { rewrite Z.div_small, Z.mod_small by lia. reflexivity. }
  assert (n <= 128) as Hn128 by (destruct Hn as (k & _ & _ & ?); auto).
  destruct (normalization_full usz lz n duo div Hu Hn ltac:(lia) ltac:(lia)) as (shl & -> & Hs & H1 & H2).
  cbn [bind].
  assert (0 < 2 ^ shl) by (apply pow2_pos; lia).
  rewrite pow2_add in H2 by lia. change (2 ^ 1) with 2 in H2.
  rewrite cshl_u_exact by lia. cbn [bind].
  rewrite cshl_u_exact by nia. cbn [bind]. rewrite Z.mul_1_l.
  assert (wrapping_sub (UI n) duo (div * 2 ^ shl) = duo - div * 2 ^ shl) as ->.
  { unfold wrapping_sub. rewrite norm_u. apply Z.mod_small. nia. }
  remember (duo - div * 2 ^ shl) as a eqn:Ea.
  assert (0 <= a < div * 2 ^ shl) as Ha by nia.
  destruct (Z.ltb_spec a div).
  { f_equal. apply divmod_ok; nia. }
  assert (duo = div * 2 ^ shl + a) as Eduo by lia. clear Ea.
  pose proof (pow2_S n ltac:(lia)) as EPn.
  rewrite norm_s_lt0 by nia.
  destruct (Z.leb_spec (2 ^ (n - 1)) (div * 2 ^ shl)).
  - assert (1 <= shl) as Hs1.
    { destruct (Z.eq_dec shl 0); [|lia]. subst shl. change (2 ^ 0) with 1 in *. lia. }
    rewrite cshr_ok by (rewrite bits_u; lia). cbn [bind]. change (2 ^ 1) with 2.
    rewrite (pow2_S shl) in * by lia. set (P := 2 ^ (shl - 1)) in *.
    assert (0 < P) by (apply pow2_pos; lia).
    replace (div * (2 * P) / 2) with (div * P) by (replace (div * (2 * P)) with (div * P * 2) by ring; now rewrite Z.div_mul by lia).
    assert (2 ^ 8 <= 2 ^ usz) by (apply pow2_le; lia). change (2 ^ 8) with 256 in *.
    rewrite csub_u by lia. cbn [bind].
    rewrite cshl_u_exact by (fold P; nia). cbn [bind]. fold P. rewrite Z.mul_1_l.
    rewrite csub_u by nia. cbn [bind].
    set (sub := wrapping_sub (UI n) a (div * P)).
    assert (sub = (a - div * P) mod 2 ^ n) as Esub by reflexivity. clearbody sub.
    assert (0 <= sub < 2 ^ n) as Hsub by (rewrite Esub; apply Z.mod_pos_bound; lia).
    assert ((0 <=? norm (SI n) sub) = (div * P <=? a)) as Esgn.
    { pose proof (norm_s_lt0 n sub ltac:(lia) Hsub) as Hsg.
      destruct (Z.leb_spec (div * P) a).
      - assert (sub = a - div * P) by (rewrite Esub, Z.mod_small; nia). lia.
      - assert (sub = a - div * P + 2 ^ n).
        { rewrite Esub. symmetry. apply Z.mod_unique with (q := -1); nia. } nia. }
    rewrite Esgn. destruct (Z.leb_spec (div * P) a).
    + assert (sub = a - div * P) as -> by (rewrite Esub, Z.mod_small; nia).
      assert (Z.lor (2 * P) P = 3 * P) as ->.
      { rewrite Z.lor_comm. replace (2 * P) with (1 * 2 ^ shl) by (rewrite (pow2_S shl) by lia; fold P; ring).
        rewrite lor_add_low; try lia. all: rewrite (pow2_S shl) by lia; fold P; lia. }
      destruct (Z.ltb_spec (a - div * P) div).
      * f_equal. apply divmod_ok; nia.
      * unfold P at 1 2 3 4 5. rewrite bl_finish; fold P; try lia; try nia.
        f_equal. pose proof (Z.div_mod (a - div * P) div ltac:(lia)).
        pose proof (Z.mod_pos_bound (a - div * P) div ltac:(lia)).
        apply divmod_ok; nia.
    + destruct (Z.ltb_spec a div); [lia|].
      unfold P at 1 2. rewrite bl_finish; fold P; try lia; try nia.
      f_equal. pose proof (Z.div_mod a div ltac:(lia)).
      pose proof (Z.mod_pos_bound a div ltac:(lia)).
      apply divmod_ok; nia.
  - rewrite csub_u by nia. cbn [bind].
    pose proof (bl_finish n shl div a 1 ltac:(lia) ltac:(lia) ltac:(lia) ltac:(nia) ltac:(nia) ltac:(lia)) as HF.
    cbv zeta in HF. rewrite Z.mul_1_l in HF. rewrite HF.
    f_equal. pose proof (Z.div_mod a div ltac:(lia)).
    pose proof (Z.mod_pos_bound a div ltac:(lia)).
    apply divmod_ok; nia.
Qed.
