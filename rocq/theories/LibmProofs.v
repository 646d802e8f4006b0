(** Bit-level lemmas for libm: C29 and C32. *)
From Coq Require Import ZArith Reals Bool Lia Lra.
From Flocq Require Import Core.
From Verif Require Import Base BaseLemmas FloatModel FloatSpec FloatConvSpec FloatConvModel FloatProofs FloatProofs2 FloatProofs3 FloatProofs5 FloatProofs7 FloatLib LibmModel LibmSpec.
Open Scope Z_scope.

Lemma lxor_low x k : 0 <= k -> 0 <= x -> Z.lxor x (x mod 2 ^ k) = x - x mod 2 ^ k.
Proof.
  intros Hk Hx. pose proof (pow2_pos k Hk). pose proof (Z.div_mod x (2 ^ k) ltac:(lia)) as D. pose proof (Z.mod_pos_bound x (2 ^ k) ltac:(lia)).
  set (l := x mod 2 ^ k) in *. set (h := x / 2 ^ k) in *. rewrite D at 1. rewrite Z.mul_comm.
  assert (h * 2 ^ k + l = Z.lxor (h * 2 ^ k) l) as ->.
  { apply Z.add_nocarry_lxor. apply Z.bits_inj'. intros i Hi. rewrite Z.land_spec, Z.bits_0.
    destruct (Z_lt_ge_dec i k); [rewrite Z.mul_pow2_bits_low by lia; reflexivity|].
    rewrite (high_bits_0 k l i) by lia. apply andb_false_r. }
  rewrite Z.lxor_assoc, Z.lxor_nilpotent, Z.lxor_0_r. lia.
Qed.
Lemma land_inot_low n k x : 0 <= k <= n -> 0 <= x < 2 ^ n -> Z.land x (inot (UI n) (2 ^ k - 1)) = x - x mod 2 ^ k.
Proof.
  intros Hk Hx. pose proof (pow2_pos k ltac:(lia)). pose proof (pow2_pos n ltac:(lia)).
  pose proof (Z.div_mod x (2 ^ k) ltac:(lia)) as D.
  replace (x - x mod 2 ^ k) with (x / 2 ^ k * 2 ^ k) by lia.
  unfold inot. rewrite norm_u. apply Z.bits_inj'. intros i Hi. rewrite Z.land_spec.
  destruct (Z_lt_ge_dec i k).
  - rewrite Z.mul_pow2_bits_low, Z.mod_pow2_bits_low, Z.lnot_spec by lia.
    replace (2 ^ k - 1) with (Z.ones k) by (rewrite Z.ones_equiv; lia).
    rewrite Z.ones_spec_low by lia. apply andb_false_r.
  - rewrite Z.mul_pow2_bits by lia. rewrite Z.div_pow2_bits by lia. replace (i - k + k) with i by lia.
    destruct (Z_lt_ge_dec i n).
    + rewrite Z.mod_pow2_bits_low, Z.lnot_spec by lia. replace (2 ^ k - 1) with (Z.ones k) by (rewrite Z.ones_equiv; lia).
      rewrite Z.ones_spec_high by lia. apply andb_true_r.
    + rewrite (high_bits_0 n x i) by lia. reflexivity.
Qed.

Lemma std_wl f : std f -> fs f + 2 <= bias f.
Proof. intros [->|[->|[->| ->]]]; cbv; discriminate. Qed.

Section Fmt.
Context (f : fmt) (W : wf f) (WL : fs f + 2 <= bias f).
Notation S := (2 ^ fs f).
Notation B := (2 ^ (fb f - 1)).
Notation u := (bpow radix2 (emin f)).
Notation mk s n := (b2z s * B + n).

Lemma inot_sign : inot (fI f) (SIGN_MASK f) = abs_mask f.
Proof using W.
  rewrite SIGN_MASK_eq, abs_mask_eq by assumption. unfold inot, fI. pose proof (inf_pos f W). pose proof (S_pos f W).
  replace (Z.lnot B) with (B - 1 + (-1) * 2 ^ fb f) by (rewrite fb_eq by assumption; unfold Z.lnot; lia).
  rewrite norm_u, Z.mod_add by (rewrite fb_eq by assumption; lia). apply Z.mod_small. rewrite fb_eq by assumption. lia.
Qed.
Lemma fabs_mk s n : 0 <= n < B -> fabs f (mk s n) = n.
Proof using W. intros. unfold fabs. rewrite inot_sign. apply mag_of; assumption. Qed.
Lemma copysign_mk s n t m : 0 <= n < B -> 0 <= m < B -> copysign f (mk s n) (mk t m) = mk t n.
Proof using W.
  intros. unfold copysign. rewrite inot_sign, mag_of, sgn_of by assumption.
  rewrite Z.lor_comm. replace (b2z t * B) with (mk t 0) at 1 by lia. rewrite lor_sign by (assumption || lia). rewrite Z.lor_0_l. reflexivity.
Qed.
Lemma sign_negative_mk s n : 0 <= n < B -> sign_negative f (mk s n) = s.
Proof using W.
  intros. unfold sign_negative. rewrite sgn_of by assumption. pose proof (inf_pos f W). pose proof (S_pos f W). destruct s; cbn [b2z].
  - destruct (Z.eqb_spec (1 * B) 0); [lia|reflexivity].
  - reflexivity.
Qed.
Lemma sign_positive_mk s n : 0 <= n < B -> sign_positive f (mk s n) = negb s.
Proof using W. intros. unfold sign_positive. rewrite sign_negative_mk by assumption. reflexivity. Qed.
Lemma is_nanb_mk s n : 0 <= n < B -> is_nanb f (mk s n) = (inf f <? n).
Proof using W. intros. unfold is_nanb. rewrite mag_of, EXP_MASK_eq by assumption. reflexivity. Qed.
Lemma ex_mk s n : 0 <= n < B -> ex f (mk s n) = n / S.
Proof using W. intros. apply exp_of; assumption. Qed.
Lemma div_range n : 0 <= n < B -> 0 <= n / S < 2 ^ eb f.
Proof using W.
  intros H. pose proof (S_pos f W). rewrite B_eq in H by assumption. split; [apply Z.div_pos; lia|apply Z.div_lt_upper_bound; lia].
Qed.
Lemma exp_unbiased_mk s n : 0 <= n < B -> exp_unbiased f (mk s n) = Ok (n / S - bias f).
Proof using W.
  intros H. unfold exp_unbiased. rewrite ex_mk by assumption. pose proof (div_range n H). pose proof (EB_big f W). pose proof (bias_range f W) as (? & -> & _).
  rewrite norm_s32 by lia. unfold csub. apply chk_s32. lia.
Qed.
Lemma mask_ok e : 0 <= e < fs f -> cshr (fI f) (SIG_MASK f) e = Ok (2 ^ (fs f - e) - 1).
Proof using W.
  intros H. rewrite cshr_ok by (cbn [bits fI UI]; destruct W; lia). f_equal. rewrite SIG_MASK_eq by assumption.
  pose proof (pow2_pos e ltac:(lia)). pose proof (pow2_pos (fs f - e) ltac:(lia)).
  assert (S = 2 ^ (fs f - e) * 2 ^ e) as -> by (rewrite <- pow2_add by lia; f_equal; lia).
  symmetry. apply Z.div_unique with (2 ^ e - 1); nia.
Qed.
Lemma low_mk s n k : 0 <= k <= fs f -> (mk s n) mod 2 ^ k = n mod 2 ^ k.
Proof using W.
  intros H. destruct W. pose proof (pow2_pos k ltac:(lia)).
  assert (B = 2 ^ (fb f - 1 - k) * 2 ^ k) as E by (rewrite <- pow2_add by lia; f_equal; lia).
  replace (mk s n) with (n + b2z s * 2 ^ (fb f - 1 - k) * 2 ^ k) by (rewrite E; ring). apply Z.mod_add. lia.
Qed.

(** The number with magnitude pattern [n] of exponent field [E]. *)
Notation mag n := (IZR (V f n) * u)%R.
Lemma mag_enc E q : 1 <= E -> 0 <= q <= 2 * S -> (E = 1 \/ S <= q) -> mag (enc f E q) = (IZR q * bpow radix2 (E - bias f - fs f))%R.
Proof using W.
  intros. rewrite (IZR_V f W E q (enc f E q)) by (reflexivity || assumption).
  rewrite Rmult_assoc, <- bpow_plus. do 2 f_equal. unfold emin. lia.
Qed.
Lemma mag_nonneg n : 0 <= n -> (0 <= mag n)%R.
Proof using W. intros. apply Rmult_le_pos; [apply IZR_le, (V_nonneg f W); lia|apply bpow_ge_0]. Qed.
Lemma mag_lt n m : 0 <= n < m -> (mag n < mag m)%R.
Proof using W. intros. apply Rmult_lt_compat_r; [apply bpow_gt_0|]. apply IZR_lt, (V_lt f W). lia. Qed.
Lemma mag_pos n : 0 < n -> (0 < mag n)%R.
Proof using W. intros. apply Rmult_lt_0_compat; [apply (IZR_lt 0), (V_pos f W); lia|apply bpow_gt_0]. Qed.
Lemma mag_0 : mag 0 = 0%R.
Proof using W. rewrite (V_0 f W). ring. Qed.
Lemma mag_inj n m : 0 <= n -> 0 <= m -> mag n = mag m -> n = m.
Proof using W.
  intros Hn Hm E. destruct (Z.lt_trichotomy n m) as [L|[L|L]]; [|assumption|].
  - pose proof (mag_lt n m ltac:(lia)). lra.
  - pose proof (mag_lt m n ltac:(lia)). lra.
Qed.

(** The patterns of powers of two. *)
Definition p2 (k : Z) : Z := (k + bias f) * S.
Lemma mag_p2 k : 1 - bias f <= k -> mag (p2 k) = bpow radix2 k.
Proof using W.
  intros H. pose proof (S_pos f W). replace (p2 k) with (enc f (k + bias f) S) by (unfold p2, enc; ring).
  rewrite mag_enc by lia. rewrite (IZR_Zpower radix2) by (destruct W; lia). rewrite <- bpow_plus. f_equal. lia.
Qed.
Lemma p2_range k : - bias f <= k <= bias f -> 0 <= p2 k < inf f.
Proof using W.
  intros H. unfold p2. pose proof (S_pos f W). pose proof (EB_big f W). rewrite inf_eq by assumption.
  pose proof (bias_eq f W) as E. pose proof (pow2_S (eb f)) as E2. destruct W. rewrite E2 by lia.
  split; [apply Z.mul_nonneg_nonneg; lia|]. apply Z.mul_lt_mono_pos_r; lia.
Qed.
Lemma ONE_eq : ONE f = p2 0.
Proof using W.
  unfold ONE, ONE_bits, p2. rewrite shiftl_mul by (destruct W; lia). pose proof (bias_range f W) as (_ & -> & _). reflexivity.
Qed.

(** The three regions of the exponent. *)
Lemma region_low n : 0 <= n < B -> n / S - bias f < 0 -> (mag n < 1)%R.
Proof using W.
  intros H H1. change 1%R with (bpow radix2 0). pose proof (bias_range f W) as (? & E & _).
  rewrite <- (mag_p2 0) by lia. apply mag_lt. unfold p2.
  pose proof (S_pos f W). pose proof (Z.div_mod n S ltac:(lia)). pose proof (Z.mod_pos_bound n S ltac:(lia)). split; [lia|].
  pose proof (Z.mul_le_mono_nonneg_r (n / S + 1) (0 + bias f) S). lia.
Qed.
(** Exponent between 0 and the number of fraction bits. *)
Lemma region_mid n e : 0 <= n < B -> e = n / S - bias f -> 0 <= e < fs f -> let K := 2 ^ (fs f - e) in
  exists q, n = enc f (e + bias f) q /\ S <= q < 2 * S /\ n < inf f /\
    (forall q', S <= q' <= 2 * S -> enc f (e + bias f) q' < inf f /\ (mag (enc f (e + bias f) q') = IZR q' / IZR K)%R) /\
    n mod K = q mod K /\ 2 <= K /\ (exists j, S = j * K /\ 0 < j).
Proof using W WL.
  intros H -> He K. set (e := n / S - bias f) in *. pose proof (S_pos f W). pose proof (bias_range f W) as (Hb & _ & _).
  pose proof (bias_range f W) as (_ & Eb & _). rewrite <- Eb in Hb.
  pose proof (Z.div_mod n S ltac:(lia)) as D. pose proof (Z.mod_pos_bound n S ltac:(lia)) as M.
  assert (2 <= K) as HK. { unfold K. change 2 with (2 ^ 1) at 1. apply pow2_le. lia. }
  assert (S = 2 ^ e * K) as ES. { unfold K. rewrite <- pow2_add by lia. f_equal. lia. }
  exists (S + n mod S). assert (n / S = e + bias f) as Q by (unfold e; lia).
  assert (e + bias f + 1 < 2 ^ eb f - 1) as HE.
  { pose proof (bias_eq f W). rewrite (pow2_S (eb f)) by (destruct W; lia). lia. }
  split; [unfold enc; rewrite <- Q; lia|]. split; [lia|].
  split. { rewrite inf_eq by assumption. pose proof (Z.mul_le_mono_nonneg_r (n / S + 1) (2 ^ eb f - 1) S). lia. }
  split.
  { intros q' Hq'. split. { unfold enc. rewrite inf_eq by assumption. pose proof (Z.mul_lt_mono_pos_r S (e + bias f + 1) (2 ^ eb f - 1)). lia. }
    rewrite mag_enc by lia. unfold Rdiv. f_equal. unfold K. rewrite (IZR_Zpower radix2) by lia. rewrite <- bpow_opp. f_equal. lia. }
  split.
  { assert (S + n mod S = n + 2 ^ e * (1 - n / S) * K) as ->; [|symmetry; apply Z.mod_add; lia].
    transitivity (n + (1 - n / S) * (2 ^ e * K)); [rewrite <- ES; lia|ring]. }
  split; [exact HK|]. exists (2 ^ e). split; [exact ES|apply pow2_pos; lia].
Qed.

(** Exponents from the number of fraction bits on: an integer. *)
Lemma region_high n : 0 <= n < inf f -> fs f <= n / S - bias f -> exists N, mag n = IZR N /\ 0 <= N.
Proof using W.
  intros H He. pose proof (S_pos f W). pose proof (Z.div_mod n S ltac:(lia)) as D. pose proof (Z.mod_pos_bound n S ltac:(lia)) as M.
  pose proof (bias_range f W) as (Hb & Eb & _). rewrite <- Eb in Hb. pose proof (wf_s f W).
  exists ((S + n mod S) * 2 ^ (n / S - bias f - fs f)). pose proof (pow2_pos (n / S - bias f - fs f) ltac:(lia)). split; [|nia].
  replace n with (enc f (n / S) (S + n mod S)) at 1 by (unfold enc; lia).
  rewrite mag_enc by lia. rewrite mult_IZR, (IZR_Zpower radix2) by lia. reflexivity.
Qed.

(** * Rounding a quotient to an integer *)
Lemma Ztrunc_quot q K : 0 <= q -> 0 < K -> Ztrunc (IZR q / IZR K) = q / K.
Proof using.
  intros. rewrite Ztrunc_floor; [apply Zfloor_div; lia|]. apply Rmult_le_pos; [apply IZR_le; lia|].
  apply Rlt_le, Rinv_0_lt_compat, IZR_lt; lia.
Qed.
Lemma Zfloor_opp_quot q K : 0 < K -> Zfloor (- (IZR q / IZR K)) = - (q / K) - (if q mod K =? 0 then 0 else 1).
Proof using.
  intros HK. assert (IZR K <> 0)%R by (apply not_0_IZR; lia). replace (- (IZR q / IZR K))%R with (IZR (- q) / IZR K)%R by (rewrite opp_IZR; field; assumption).
  rewrite Zfloor_div by lia. pose proof (Z.div_mod q K ltac:(lia)) as D. pose proof (Z.mod_pos_bound q K HK) as M.
  destruct (Z.eqb_spec (q mod K) 0) as [e|e].
  - rewrite Z.div_opp_l_z by lia. lia.
  - rewrite Z.div_opp_l_nz by lia. lia.
Qed.
Lemma Zceil_quot q K : 0 < K -> Zceil (IZR q / IZR K) = q / K + (if q mod K =? 0 then 0 else 1).
Proof using. intros HK. unfold Zceil. rewrite Zfloor_opp_quot by assumption. destruct (_ =? _); lia. Qed.

Lemma trunc_status_ok x : is_float f x -> exists r st, trunc_status f x = Ok (r, st) /\
  (is_finite f x -> rounded_to_integer f Ztrunc x r /\ (st = true <-> value f r <> value f x)) /\
  (~ is_finite f x -> r = x /\ st = false).
Proof using W WL.
  intros Fx. destruct (split_float f W x Fx) as (s & n & -> & Hn). unfold trunc_status. rewrite exp_unbiased_mk by assumption. cbn [bind].
  pose proof (bias_range f W) as (Hb & Eb & _). rewrite <- Eb in Hb. pose proof (inf_pos f W) as IP. pose proof (S_pos f W) as SP.
  set (e := n / S - bias f). pose proof (is_finite_mk f W s n Hn) as FM. unfold rounded_to_integer.
  destruct (Z.leb_spec (fs f) e) as [He|He].
  - exists (mk s n), false. split; [reflexivity|]. rewrite !FM. split; [|intros; split; reflexivity]. intros Hi.
    destruct (region_high n ltac:(lia) He) as (N & EN & PN).
    rewrite value_mk, EN by assumption. split; [|split; [discriminate|congruence]].
    split; [assumption|]. split; [reflexivity|]. split; [assumption|]. destruct s; [rewrite <- opp_IZR|]; rewrite Ztrunc_IZR; reflexivity.
  - destruct (Z.ltb_spec e 0) as [H0|H0]; cbn [bind].
    + rewrite inot_sign, mag_of by assumption. pose proof (region_low n Hn H0) as L1. pose proof (mag_nonneg n ltac:(lia)) as L0.
      exists (mk s 0), (negb (n =? 0)). split.
      { f_equal. f_equal. rewrite <- (Z.add_0_l n) at 2. replace (0 + n) with (mk false n) by (cbn [b2z]; lia).
        rewrite lxor_mk by (assumption || (destruct W; lia)). rewrite Z.lxor_nilpotent, xorb_false_r. reflexivity. }
      assert (n < inf f) as Hi.
      { destruct (Z_lt_ge_dec n (inf f)) as [|G]; [assumption|]. exfalso. pose proof (proj2 (div_inf f W n Hn) ltac:(lia)) as X.
        pose proof (bias_eq f W). rewrite (pow2_S (eb f)) in X by (destruct W; lia). lia. }
      split; [intros _|rewrite FM; lia]. assert (0 <= 0 < B) as HB by lia. rewrite is_finite_mk, !value_mk, !sign_of_mk, (V_0 f W), Rmult_0_l by assumption.
      split.
      * split; [apply is_float_mk; assumption|]. split; [reflexivity|]. split; [lia|].
        assert (Ztrunc (mag n) = 0) as Z0. { rewrite Ztrunc_floor by assumption. apply Zfloor_imp. cbn. split; [assumption|lra]. }
        destruct s; [rewrite Ztrunc_opp|]; rewrite Z0; cbn; lra.
      * destruct (Z.eqb_spec n 0) as [->|N0]; cbn [negb]; split; intros; try congruence.
        { exfalso. revert H. rewrite mag_0. destruct s; lra. }
        { pose proof (mag_pos n ltac:(lia)). destruct s; lra. }
    + destruct (region_mid n e Hn eq_refl ltac:(lia)) as (q & En & Hq & Hi & MQ & Low & HK & (j & ES & Hj)).
      set (K := 2 ^ (fs f - e)) in *. rewrite mask_ok by lia. cbn [bind]. fold K.
      assert (Z.land (mk s n) (K - 1) = n mod K) as ->. { unfold K. rewrite land_ones_mod by lia. apply low_mk. lia. }
      pose proof (Z.mod_pos_bound q K ltac:(lia)) as MB. pose proof (Z.div_mod q K ltac:(lia)) as D.
      assert (n mod K <= n) as LE by (apply Z.mod_le; lia).
      exists (mk s (n - n mod K)), (negb (n mod K =? 0)).
      assert (n - n mod K = enc f (e + bias f) (q - q mod K)) as ER by (rewrite Low, En; unfold enc; lia).
      assert (S <= q - q mod K) as Hq2.
      { assert (j <= q / K) by (apply Z.div_le_lower_bound; lia). replace (q - q mod K) with (q / K * K) by lia.
        rewrite ES. apply Z.mul_le_mono_nonneg_r; lia. }
      split.
      { do 2 f_equal. assert (mk s n mod K = n mod K) as LK by (apply low_mk; lia). rewrite <- LK at 1. unfold K at 1.
        rewrite lxor_low by (lia || (destruct s; cbn [b2z]; lia)). fold K. lia. }
      split; [intros _|rewrite FM; lia]. assert (0 <= n - n mod K < B) as HB by (rewrite Low in *; lia).
      destruct (MQ (q - q mod K) ltac:(lia)) as [_ M2]. destruct (MQ q ltac:(lia)) as [_ M1]. rewrite <- En in M1. rewrite <- ER in M2.
      assert (IZR (q - q mod K) / IZR K = IZR (q / K))%R as M3.
      { replace (q - q mod K) with (q / K * K) by lia. rewrite mult_IZR. field. apply not_0_IZR. lia. }
      rewrite is_finite_mk, !value_mk, !sign_of_mk, M1, M2, M3 by assumption. split.
      * split; [apply is_float_mk; assumption|]. split; [reflexivity|]. split; [lia|].
        destruct s; [rewrite Ztrunc_opp, opp_IZR|]; rewrite Ztrunc_quot by lia; reflexivity.
      * rewrite Low. assert ((IZR (q / K) = IZR q / IZR K)%R <-> q mod K = 0) as EQ.
        { rewrite <- M3. split; intros X.
          - apply Rmult_eq_reg_r in X; [apply eq_IZR in X; lia|]. apply Rinv_neq_0_compat, not_0_IZR. lia.
          - rewrite X, Z.sub_0_r. reflexivity. }
        destruct (Z.eqb_spec (q mod K) 0) as [z|z]; cbn [negb]; split; intros X; try congruence.
        { exfalso. apply X. rewrite (proj2 EQ z). reflexivity. }
        { intros Y. apply z, EQ. destruct s; lra. }
Qed.

Lemma integer_mk rnd s n n' N : 0 <= n < B -> 0 <= n' < inf f -> mag n' = IZR N -> rnd (value f (mk s n)) = (if s then - N else N) ->
  rounded_to_integer f rnd (mk s n) (mk s n').
Proof using W.
  intros Hn Hn' EN ER. pose proof (inf_pos f W). unfold rounded_to_integer. rewrite ER, is_finite_mk, value_mk, !sign_of_mk, EN by (assumption || lia).
  split; [apply is_float_mk; [assumption|lia]|]. split; [reflexivity|]. split; [lia|]. destruct s; [rewrite opp_IZR|]; reflexivity.
Qed.
Lemma mag_neq s n n' : 0 <= n < B -> 0 <= n' < B -> (value f (mk s n') <> value f (mk s n) <-> n' <> n).
Proof using W.
  intros Hn Hn'. rewrite !value_mk by assumption. split; [intros N E; apply N; rewrite E; reflexivity|]. intros N E. apply N. apply mag_inj; [lia|lia|]. destruct s; lra.
Qed.
(** What the masking of the fraction bits gives when 0 <= e < SIG_BITS. *)
Lemma mid_facts s n e : 0 <= n < B -> e = n / S - bias f -> 0 <= e < fs f -> exists q K, cshr (fI f) (SIG_MASK f) e = Ok (K - 1) /\ 2 <= K /\
  n < inf f /\ mag n = (IZR q / IZR K)%R /\ 0 <= q /\ (n mod K = 0 <-> q mod K = 0) /\ Z.land (mk s n) (K - 1) = n mod K /\ 0 < n /\
  Z.land (mk s n) (inot (fI f) (K - 1)) = mk s (n - n mod K) /\ 0 <= n - n mod K /\ mag (n - n mod K) = IZR (q / K) /\
  (n mod K <> 0 -> cadd (fI f) (mk s n) (K - 1) = Ok (mk s n + (K - 1)) /\
    Z.land (mk s n + (K - 1)) (inot (fI f) (K - 1)) = mk s (n - n mod K + K) /\ n - n mod K + K < inf f /\
    mag (n - n mod K + K) = IZR (q / K + 1)).
Proof using W WL.
  intros Hn Ee He. destruct (region_mid n e Hn Ee He) as (q & En & Hq & Hi & MQ & Low & HK & (j & ES & Hj)). pose proof (inf_pos f W) as IP.
  pose proof (S_pos f W) as SP. pose proof (fb_eq f W) as FE.
  exists q, (2 ^ (fs f - e)). set (K := 2 ^ (fs f - e)) in *. split; [apply mask_ok; assumption|]. split; [assumption|]. split; [assumption|].
  destruct (MQ q ltac:(lia)) as [_ M1]. rewrite <- En in M1. split; [assumption|]. split; [lia|]. rewrite Low. split; [reflexivity|].
  assert (forall n', mk s n' mod K = n' mod K) as LK by (intros; apply low_mk; lia).
  split. { unfold K at 1. rewrite land_ones_mod by lia. fold K. rewrite LK. exact Low. }
  pose proof (Z.mod_pos_bound q K ltac:(lia)) as MB. pose proof (Z.div_mod q K ltac:(lia)) as D.
  assert (n mod K <= n) as LE by (apply Z.mod_le; lia).
  assert (j <= q / K) as JQ by (apply Z.div_le_lower_bound; lia).
  assert (S <= q / K * K) as Hq2 by (rewrite ES; apply Z.mul_le_mono_nonneg_r; lia).
  assert (0 < n) as Hn0.
  { rewrite En. unfold enc. pose proof (bias_range f W) as (Hb & Eb & _). pose proof (Z.mul_nonneg_nonneg (e + bias f - 1) S). lia. }
  split; [assumption|].
  assert (forall k, IZR (k * K) / IZR K = IZR k)%R as QK. { intros k. rewrite mult_IZR. field. apply not_0_IZR. lia. }
  split. { unfold K at 1, fI. rewrite land_inot_low; [|destruct W; lia|rewrite FE; destruct s; cbn [b2z]; lia]. fold K. rewrite LK. lia. }
  split; [lia|]. split.
  { replace (n - q mod K) with (enc f (e + bias f) (q / K * K)) by (rewrite En; unfold enc; lia).
    destruct (MQ (q / K * K) ltac:(lia)) as [_ ->]. apply QK. }
  intros NZ.
  assert ((q / K + 1) * K <= 2 * S) as Hq3.
  { assert (q / K < 2 * j) by (apply Z.div_lt_upper_bound; lia). replace (2 * S) with (2 * j * K) by (rewrite ES; ring). apply Z.mul_le_mono_nonneg_r; lia. }
  assert (n - q mod K + K = enc f (e + bias f) ((q / K + 1) * K)) as ER by (rewrite En; unfold enc; lia).
  destruct (MQ ((q / K + 1) * K) ltac:(lia)) as [M2 M3]. rewrite <- ER, QK in M3. rewrite <- ER in M2.
  assert (0 <= mk s n + (K - 1) < 2 ^ fb f) as RB.
  { assert (K <= S) by (rewrite ES; pose proof (Z.mul_le_mono_nonneg_r 1 j K); lia). unfold inf in M2. rewrite FE. destruct s; cbn [b2z]; lia. }
  split. { unfold cadd, fI. apply chk_u. assumption. }
  split; [|split; assumption].
  unfold K at 2, fI. rewrite land_inot_low by (destruct W; lia). fold K.
  replace (mk s n + (K - 1)) with (mk s (n + (K - 1))) by lia. rewrite LK.
  assert ((n + (K - 1)) mod K = q mod K - 1) as ->; [|lia].
  pose proof (Z.div_mod n K ltac:(lia)) as Dn. rewrite Low in Dn.
  symmetry. apply Z.mod_unique with (n / K + 1); lia.
Qed.
Lemma finite_low n : 0 <= n < B -> n / S - bias f < fs f -> n < inf f.
Proof using W WL.
  intros Hn H. destruct (Z_lt_ge_dec n (inf f)) as [|G]; [assumption|]. exfalso. pose proof (proj2 (div_inf f W n Hn) ltac:(lia)) as X.
  pose proof (bias_eq f W). rewrite (pow2_S (eb f)) in X by (destruct W; lia). lia.
Qed.
Lemma NEG_ONE_eq : NEG_ONE f = mk true (p2 0).
Proof using W.
  unfold NEG_ONE. fold (ONE f). rewrite ONE_eq, SIGN_MASK_eq by assumption. pose proof (p2_range 0). pose proof (bias_range f W) as (? & ? & _). pose proof (inf_pos f W).
  replace B with (mk true 0) at 1 by (cbn [b2z]; lia). rewrite lor_sign by (assumption || lia). rewrite Z.lor_0_l. reflexivity.
Qed.
Lemma mag_1 : mag (p2 0) = 1%R.
Proof using W. pose proof (bias_range f W) as (? & ? & _). rewrite mag_p2 by lia. reflexivity. Qed.

Lemma floor_status_ok x : is_float f x -> exists r st, floor_status f x = Ok (r, st) /\
  (is_finite f x -> rounded_to_integer f Zfloor x r /\ (st = true <-> value f r <> value f x)) /\
  (~ is_finite f x -> r = x /\ st = false).
Proof using W WL.
  intros Fx. destruct (split_float f W x Fx) as (s & n & -> & Hn). unfold floor_status. rewrite exp_unbiased_mk by assumption. cbn [bind].
  pose proof (bias_range f W) as (Hb & Eb & _). rewrite <- Eb in Hb. pose proof (inf_pos f W) as IP. pose proof (S_pos f W) as SP.
  set (e := n / S - bias f). pose proof (is_finite_mk f W s n Hn) as FM.
  assert (forall N, mag n = IZR N -> Zfloor (value f (mk s n)) = if s then - N else N) as EX.
  { intros N EN. rewrite value_mk, EN by assumption. destruct s; [rewrite <- opp_IZR|]; rewrite Zfloor_IZR; reflexivity. }
  destruct (Z.leb_spec (fs f) e) as [He|He].
  - exists (mk s n), false. split; [reflexivity|]. rewrite !FM. split; [|intros; split; reflexivity]. intros Hi.
    destruct (region_high n ltac:(lia) He) as (N & EN & PN). split; [|split; [discriminate|congruence]].
    apply integer_mk with N; [assumption|lia|assumption|]. apply EX, EN.
  - pose proof (finite_low n Hn He) as Hi. destruct (Z.leb_spec 0 e) as [H0|H0].
    + destruct (mid_facts s n e Hn eq_refl ltac:(lia)) as (q & K & MO & HK & _ & M1 & Hq & LZ & L1 & Hn0 & L2 & G0 & M2 & UP).
      rewrite MO. cbn [bind]. rewrite L1, sign_negative_mk by assumption.
      pose proof (Z.mod_pos_bound n K ltac:(lia)) as MB.
      destruct (Z.eqb_spec (n mod K) 0) as [z|z].
      * exists (mk s n), false. split; [reflexivity|]. split; [intros _|rewrite FM; lia]. split; [|split; [discriminate|congruence]].
        rewrite z, Z.sub_0_r in M2. apply integer_mk with (q / K); [assumption|lia|assumption|apply EX, M2].
      * destruct (UP z) as (A1 & A2 & A3 & A4). destruct s; cbn [bind].
        { rewrite A1. cbn [bind]. rewrite A2. eexists _, true. split; [reflexivity|]. split; [intros _|rewrite FM; lia]. split.
          - apply integer_mk with (q / K + 1); [assumption|lia|assumption|]. rewrite value_mk, M1 by assumption.
            rewrite Zfloor_opp_quot by lia. destruct (Z.eqb_spec (q mod K) 0); [tauto|lia].
          - rewrite mag_neq by (assumption || lia). split; [lia|reflexivity]. }
        { rewrite L2. eexists _, true. split; [reflexivity|]. split; [intros _|rewrite FM; lia]. split.
          - apply integer_mk with (q / K); [assumption|lia|assumption|]. rewrite value_mk, M1 by assumption.
            apply Zfloor_div. lia.
          - rewrite mag_neq by (assumption || lia). split; [lia|reflexivity]. }
    + rewrite inot_sign, mag_of, sign_positive_mk by assumption. pose proof (region_low n Hn H0) as L1.
      pose proof (mag_nonneg n ltac:(lia)) as L0.
      destruct (Z.eqb_spec n 0) as [->|N0].
      * exists (mk s 0), false. split; [reflexivity|]. split; [intros _|rewrite FM; lia]. split; [|split; [discriminate|congruence]].
        apply integer_mk with 0; [assumption|lia|apply mag_0|]. rewrite EX with 0; [reflexivity|apply mag_0].
      * pose proof (mag_pos n ltac:(lia)) as P. destruct s; cbn [negb].
        { rewrite NEG_ONE_eq. pose proof (p2_range 0 ltac:(lia)) as P0. eexists _, true. split; [reflexivity|]. split; [intros _|rewrite FM; lia]. split.
          - apply integer_mk with 1; [assumption|lia|apply mag_1|]. rewrite value_mk by assumption. apply Zfloor_imp. cbn. split; lra.
          - rewrite mag_neq by (assumption || lia). split; [intros _|reflexivity]. intros E. rewrite <- E, mag_1 in L1. lra. }
        { exists (mk false 0), true. split; [reflexivity|]. split; [intros _|rewrite FM; lia]. split.
          - apply integer_mk with 0; [assumption|lia|apply mag_0|]. rewrite value_mk by assumption. apply Zfloor_imp. cbn. split; lra.
          - rewrite mag_neq by (assumption || lia). split; [lia|reflexivity]. }
Qed.

Lemma ceil_status_ok x : is_float f x -> exists r st, ceil_status f x = Ok (r, st) /\
  (is_finite f x -> rounded_to_integer f Zceil x r /\ (st = true <-> value f r <> value f x)) /\
  (~ is_finite f x -> r = x /\ st = false).
Proof using W WL.
  intros Fx. destruct (split_float f W x Fx) as (s & n & -> & Hn). unfold ceil_status. rewrite exp_unbiased_mk by assumption. cbn [bind].
  pose proof (bias_range f W) as (Hb & Eb & _). rewrite <- Eb in Hb. pose proof (inf_pos f W) as IP. pose proof (S_pos f W) as SP.
  set (e := n / S - bias f). pose proof (is_finite_mk f W s n Hn) as FM.
  assert (forall N, mag n = IZR N -> Zceil (value f (mk s n)) = if s then - N else N) as EX.
  { intros N EN. rewrite value_mk, EN by assumption. destruct s; [rewrite <- opp_IZR|]; rewrite Zceil_IZR; reflexivity. }
  destruct (Z.leb_spec (fs f) e) as [He|He].
  - exists (mk s n), false. split; [reflexivity|]. rewrite !FM. split; [|intros; split; reflexivity]. intros Hi.
    destruct (region_high n ltac:(lia) He) as (N & EN & PN). split; [|split; [discriminate|congruence]].
    apply integer_mk with N; [assumption|lia|assumption|]. apply EX, EN.
  - pose proof (finite_low n Hn He) as Hi. destruct (Z.leb_spec 0 e) as [H0|H0].
    + destruct (mid_facts s n e Hn eq_refl ltac:(lia)) as (q & K & MO & HK & _ & M1 & Hq & LZ & L1 & Hn0 & L2 & G0 & M2 & UP).
      rewrite MO. cbn [bind]. rewrite L1, sign_positive_mk by assumption.
      pose proof (Z.mod_pos_bound n K ltac:(lia)) as MB.
      destruct (Z.eqb_spec (n mod K) 0) as [z|z].
      * exists (mk s n), false. split; [reflexivity|]. split; [intros _|rewrite FM; lia]. split; [|split; [discriminate|congruence]].
        rewrite z, Z.sub_0_r in M2. apply integer_mk with (q / K); [assumption|lia|assumption|apply EX, M2].
      * destruct (UP z) as (A1 & A2 & A3 & A4). destruct s; cbn [bind negb].
        { rewrite L2. eexists _, true. split; [reflexivity|]. split; [intros _|rewrite FM; lia]. split.
          - apply integer_mk with (q / K); [assumption|lia|assumption|]. rewrite value_mk, M1 by assumption.
            unfold Zceil. rewrite Ropp_involutive. f_equal. apply Zfloor_div. lia.
          - rewrite mag_neq by (assumption || lia). split; [lia|reflexivity]. }
        { rewrite A1. cbn [bind]. rewrite A2. eexists _, true. split; [reflexivity|]. split; [intros _|rewrite FM; lia]. split.
          - apply integer_mk with (q / K + 1); [assumption|lia|assumption|]. rewrite value_mk, M1 by assumption.
            rewrite Zceil_quot by lia. destruct (Z.eqb_spec (q mod K) 0); [tauto|lia].
          - rewrite mag_neq by (assumption || lia). split; [lia|reflexivity]. }
    + rewrite inot_sign, mag_of, sign_negative_mk by assumption. pose proof (region_low n Hn H0) as L1.
      pose proof (mag_nonneg n ltac:(lia)) as L0. unfold NEG_ZERO. rewrite SIGN_MASK_eq by assumption.
      destruct s.
      * exists (mk true 0), (negb (n =? 0)). split; [cbn [b2z]; do 2 f_equal; lia|]. split; [intros _|rewrite FM; lia]. split.
        { apply integer_mk with 0; [assumption|lia|apply mag_0|]. rewrite value_mk by assumption. unfold Zceil. rewrite Ropp_involutive.
          f_equal. apply Zfloor_imp. cbn. split; lra. }
        { rewrite mag_neq by (assumption || lia). destruct (Z.eqb_spec n 0); cbn [negb]; split; (congruence || lia). }
      * cbn [b2z]. rewrite Z.mul_0_l, Z.add_0_l. pose proof (fb_eq f W) as FE.
        unfold fI. rewrite cshl_u_exact by (rewrite ?FE; (destruct W; lia)). cbn [bind]. change (2 ^ 1) with 2.
        destruct (Z.eqb_spec n 0) as [->|N0].
        { cbn. exists (mk false 0), false. split; [reflexivity|]. split; [intros _|cbn in FM; rewrite FM; lia]. split; [|split; [discriminate|intros X; exfalso; apply X; reflexivity]].
          apply (integer_mk Zceil false 0 0 0); [assumption|lia|apply mag_0|]. rewrite EX with 0; [reflexivity|apply mag_0]. }
        { destruct (Z.eqb_spec (n * 2) 0); [lia|]. cbn [negb]. rewrite ONE_eq. pose proof (p2_range 0 ltac:(lia)) as P0. pose proof (mag_pos n ltac:(lia)) as P.
          exists (p2 0), true. split; [reflexivity|]. split; [intros _|cbn in FM; rewrite FM; lia]. split.
          - apply (integer_mk Zceil false n (p2 0) 1); [assumption|lia|apply mag_1|]. rewrite value_mk by assumption. apply Zceil_imp. cbn. split; lra.
          - pose proof (mag_neq false n (p2 0)) as MN. cbn [b2z] in MN. rewrite Z.mul_0_l, !Z.add_0_l in MN. rewrite MN by (assumption || lia).
            split; [intros _|reflexivity]. intros E. rewrite <- E, mag_1 in L1. lra. }
Qed.
End Fmt.
