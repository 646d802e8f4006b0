(** hypot: the exact path. *)
From Coq Require Import ZArith Reals Bool Lia Lra Psatz.
From Flocq Require Import Core.
From Verif Require Import Base BaseLemmas FloatModel FloatSpec FloatProofs FloatProofs2 FloatLib LibmModel LibmSpec LibmProofs RemModel FmaModel FmaSpec FmaProofs FmaProofs2 FmaProofs6 FmaProps SqrtModel SqrtSpec SqrtProps F64Lib FloatErr ExpProofs3 ExpProofs4 ExpProofs8 TrigRed HypotModel HypotProofs HypotProofs2 HypotProofs3.
Open Scope Z_scope.

(** A difference computed modulo 2^64. *)
Lemma sub_wrap Q T : - 2 ^ 63 <= Q - T < 2 ^ 63 ->
  sub_i64 false (norm (SI 64) (Q mod 2 ^ 64)) (norm (SI 64) (T mod 2 ^ 64)) = Ok (Q - T).
Proof.
  intros H. unfold sub_i64, wrapping_sub. rewrite norm_sub_l, norm_sub_r by reflexivity. f_equal. rewrite <- (norm_id (SI 64) eq_refl (Q - T)) by (apply fits_s; exact H).
  apply norm_congr. exists (T / 2 ^ 64 - Q / 2 ^ 64). change (bits (SI 64)) with 64. pose proof (Z.div_mod Q (2 ^ 64) ltac:(lia)). pose proof (Z.div_mod T (2 ^ 64) ltac:(lia)). lia.
Qed.

(** * The sum of the squares *)
(** [Q] compares with an even number as the real [s] does. *)
Definition stands_for (Q : Z) (s : R) : Prop :=
  (Rabs (IZR Q - s) <= 1)%R /\ forall t, Z.even t = true -> ((IZR t < s)%R -> t < Q) /\ ((s < IZR t)%R -> Q < t) /\ (s = IZR t -> Q = t).
Lemma stands_exact Q : stands_for Q (IZR Q).
Proof. split; [rewrite Rminus_eq_0, Rabs_R0; lra|]. intros t _. split; [apply lt_IZR|]. split; [apply lt_IZR|]. apply eq_IZR. Qed.
Lemma stands_sticky q f : 0 <= q -> (0 < f < 1)%R -> stands_for (Z.lor q 1) (IZR q + f).
Proof.
  intros Hq Hf. change 1 with (b2z true). rewrite lor_b2z by exact Hq. pose proof (Z.mod_pos_bound q 2 ltac:(lia)) as M. pose proof (Z.div_mod q 2 ltac:(lia)) as D. assert (q mod 2 = 0 \/ q mod 2 = 1) as Hm by lia. split.
  - apply Rabs_le. destruct Hm as [E|E]; rewrite E, minus_IZR, plus_IZR; lra.
  - intros t Ht. apply Z.even_spec in Ht. destruct Ht as (k & ->). split; [|split]; intros H.
    + assert (2 * k < q + 1) by (apply lt_IZR; rewrite (plus_IZR q 1); lra). lia.
    + assert (q < 2 * k) by (apply lt_IZR; lra). lia.
    + assert (q < 2 * k < q + 1); [|lia]. split; apply lt_IZR; rewrite ?(plus_IZR q 1); lra.
Qed.

Lemma lor_mod_b2z a b : Z.lor (a mod 2 ^ 64) (b2z b) = Z.lor a (b2z b) mod 2 ^ 64.
Proof. rewrite <- !(land_ones_mod _ 64) by lia. rewrite Z.land_lor_distr_l. f_equal. destruct b; reflexivity. Qed.

Lemma square_sum_ok bm lm de : 2 ^ 52 <= bm < 2 ^ 53 -> 2 ^ 52 <= lm < 2 ^ 53 -> 0 <= de <= 27 ->
  exists Q, square_sum bm lm 1023 (1023 - de) = Ok (Q mod 2 ^ 64) /\ stands_for Q (IZR (4 * bm * (4 * bm)) + IZR (lm * lm) * bpow radix2 (4 - 2 * de)).
Proof.
  intros Hb Hl Hd. unfold square_sum. rewrite cshl_u_exact by lia. cbn [bind]. replace (bm * 2 ^ 2) with (4 * bm) by lia.
  replace (csub (SI 32) 1023 (1023 - de)) with (Ok de) by (symmetry; replace de with (1023 - (1023 - de)) at 2 by lia; apply chk_ok, fits_s; lia). cbn [bind].
  replace (csub (SI 32) 2 de) with (Ok (2 - de)) by (symmetry; apply chk_ok, fits_s; lia). cbn [bind]. unfold wrapping_add, wrapping_mul.
  destruct (Z.leb_spec 0 (2 - de)) as [L|L].
  - assert (2 ^ (2 - de) <= 2 ^ 2) by (apply pow2_le; lia). assert (0 < 2 ^ (2 - de)) by (apply pow2_pos; lia). assert (lm * 2 ^ (2 - de) <= lm * 2 ^ 2) by (apply Z.mul_le_mono_nonneg_l; lia). rewrite cshl_u_exact by lia. cbn [bind]. rewrite norm_add_l, norm_add_r by reflexivity. rewrite norm_u. eexists. split; [reflexivity|].
    replace (IZR (4 * bm * (4 * bm)) + IZR (lm * lm) * bpow radix2 (4 - 2 * de))%R with (IZR (4 * bm * (4 * bm) + lm * 2 ^ (2 - de) * (lm * 2 ^ (2 - de)))); [apply stands_exact|].
    rewrite plus_IZR. f_equal. replace (4 - 2 * de) with (2 - de + (2 - de)) by lia. rewrite bpow_plus, <- (IZR_pow (2 - de)) by lia. rewrite <- !mult_IZR. f_equal. ring.
  - assert (0 <= lm * lm < 2 ^ 106) by (change (2 ^ 106) with (2 ^ 53 * 2 ^ 53); nia). rewrite cmul_u by lia. cbn [bind]. replace (cmul (SI 32) (2 - de) 2) with (Ok (- (2 * de - 4))) by (symmetry; replace (- (2 * de - 4)) with ((2 - de) * 2) by lia; apply chk_ok, fits_s; lia). cbn [bind].
    set (sh := 2 * de - 4) in *. replace (cneg (SI 32) (- sh)) with (Ok sh) by (symmetry; replace sh with (- - sh) at 2 by lia; apply chk_ok, fits_s; lia). cbn [bind].
    rewrite cshr_ok by (change (bits (UI 128)) with 128; lia). cbn [bind]. replace (cadd (SI 32) 128 (- sh)) with (Ok (128 - sh)) by (symmetry; apply chk_ok, fits_s; lia). cbn [bind]. rewrite cshl_ok by (change (bits (UI 128)) with 128; lia). cbn [bind].
    rewrite norm_add_l, norm_add_r by reflexivity. rewrite norm_u, lor_mod_b2z. eexists. split; [reflexivity|].
    assert (0 < 2 ^ sh) as P by (apply pow2_pos; lia). set (q := lm * lm / 2 ^ sh). set (f := lm * lm mod 2 ^ sh). assert (lm * lm = 2 ^ sh * q + f) as D by (apply Z.div_mod; lia). assert (0 <= f < 2 ^ sh) as Hf by (apply Z.mod_pos_bound; lia).
    assert (0 <= q) by (apply Z.div_pos; nia).
    assert (norm (UI 128) (lm * lm * 2 ^ (128 - sh)) = f * 2 ^ (128 - sh)) as ->.
    { rewrite norm_u. symmetry. apply Z.mod_unique with q. - left. assert (0 < 2 ^ (128 - sh)) by (apply pow2_pos; lia). replace (2 ^ 128) with (2 ^ sh * 2 ^ (128 - sh)) by (rewrite <- pow2_add by lia; f_equal; lia). split; [nia|]. apply Z.mul_lt_mono_pos_r; lia.
      - rewrite D. replace (2 ^ 128) with (2 ^ sh * 2 ^ (128 - sh)) by (rewrite <- pow2_add by lia; f_equal; lia). ring. }
    replace (4 - 2 * de) with (- sh) by lia. assert (0 < 2 ^ (128 - sh)) as P2 by (apply pow2_pos; lia).
    assert (IZR (lm * lm) * bpow radix2 (- sh) = IZR q + IZR f * bpow radix2 (- sh))%R as ->.
    { rewrite D at 1. rewrite plus_IZR, mult_IZR, (IZR_pow sh) by lia. rewrite Rmult_plus_distr_r. f_equal. rewrite Rmult_assoc, (Rmult_comm (IZR q)), <- Rmult_assoc, <- bpow_plus. replace (sh + - sh) with 0 by lia. cbn. ring. }
    rewrite <- Rplus_assoc, <- plus_IZR. destruct (Z.eq_dec f 0) as [F|F].
    + rewrite F. rewrite Z.mul_0_l. cbn [negb Z.eqb b2z]. rewrite Z.lor_0_r, Rmult_0_l, Rplus_0_r. apply stands_exact.
    + destruct (Z.eqb_spec (f * 2 ^ (128 - sh)) 0) as [E|E]; [nia|]. cbn [negb b2z]. apply stands_sticky; [nia|]. pose proof (bpow_gt_0 radix2 (- sh)) as B. assert (bpow radix2 sh * bpow radix2 (- sh) = 1)%R as B1 by (rewrite <- bpow_plus, Z.add_opp_diag_r; reflexivity).
      split; [apply Rmult_lt_0_compat; [apply IZR_lt; lia|exact B]|]. rewrite <- B1. apply Rmult_lt_compat_r; [exact B|]. rewrite <- (IZR_pow sh) by lia. apply IZR_lt. lia.
Qed.
