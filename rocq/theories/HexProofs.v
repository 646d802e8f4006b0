(** Formats with any supported field widths (the parser is generic in them): the facts of
    FloatProofs.v under weaker bounds, rounding in the four directions. *)
From Coq Require Import ZArith Reals Bool Lia Lra Psatz.
From Flocq Require Import Core.
From Verif Require Import Base BaseLemmas FloatModel FloatSpec HexSpec.
From Verif Require FloatProofs.
Open Scope Z_scope.

Notation eb := FloatProofs.eb.
Notation inf := FloatProofs.inf.
Notation V := FloatProofs.V.
Notation enc := FloatProofs.enc.
Record cfg (f : fmt) : Prop := Cfg {
  cfg_s : 1 <= fs f <= 119; cfg_e : 2 <= eb f <= 29; cfg_b : fb f = fs f + eb f + 1; cfg_128 : fb f <= 128 }.

Section Fmt.
Context (f : fmt) (W : cfg f).
Notation S := (2 ^ fs f).
Notation B := (2 ^ (fb f - 1)).

Lemma S_pos : 0 < S. Proof using W. destruct W; apply pow2_pos; lia. Qed.
Lemma S_big : 2 <= S. Proof using W. destruct W. change 2 with (2 ^ 1) at 1. apply pow2_le; lia. Qed.
Lemma S_even : S = 2 * 2 ^ (fs f - 1). Proof using W. destruct W. apply pow2_S; lia. Qed.
Lemma EB_big : 4 <= 2 ^ eb f <= 536870912.
Proof using W. destruct W. change 4 with (2 ^ 2). change 536870912 with (2 ^ 29). split; apply pow2_le; lia. Qed.
Lemma B_eq : B = S * 2 ^ eb f.
Proof using W. destruct W. rewrite <- pow2_add by lia. f_equal. lia. Qed.
Lemma fb_eq : 2 ^ fb f = 2 * B.
Proof using W. destruct W. apply pow2_S. lia. Qed.
Lemma inf_eq : inf f = (2 ^ eb f - 1) * S.
Proof using W. unfold FloatProofs.inf. rewrite B_eq. ring. Qed.
Lemma inf_pos : S < inf f < B.
Proof using W. rewrite inf_eq, B_eq. pose proof S_big. pose proof EB_big. nia. Qed.

Lemma bias_eq : bias f = 2 ^ (eb f - 1) - 1.
Proof using W. destruct W. unfold bias, FloatProofs.eb. do 2 f_equal. lia. Qed.
(** Splitting a pattern. *)
Lemma split_float x : is_float f x -> exists s n, x = b2z s * B + n /\ 0 <= n < B.
Proof using W.
  unfold is_float. rewrite fb_eq. intros H. pose proof inf_pos.
  destruct (Z_lt_ge_dec x B).
  - exists false, x. unfold b2z. lia.
  - exists true, (x - B). unfold b2z. lia.
Qed.
Lemma is_float_mk s n : 0 <= n < B -> is_float f (b2z s * B + n).
Proof using W. unfold is_float. rewrite fb_eq. destruct s; unfold b2z; lia. Qed.
Lemma sign_of_mk s n : 0 <= n < B -> sign_of f (b2z s * B + n) = s.
Proof using W.
  intros H. unfold sign_of. rewrite Z.add_comm, Z.div_add by lia. rewrite Z.div_small by lia. destruct s; reflexivity.
Qed.
Lemma exp_field_mk s n : 0 <= n < B -> exp_field f (b2z s * B + n) = n / S.
Proof using W.
  intros H. pose proof S_pos. pose proof B_eq. pose proof EB_big. unfold exp_field. fold (eb f).
  replace (b2z s * B + n) with (n + (b2z s * 2 ^ eb f) * S) by nia.
  rewrite Z.div_add by lia. rewrite Z.mod_add by lia. apply Z.mod_small.
  split; [apply Z.div_pos; lia|]. apply Z.div_lt_upper_bound; lia.
Qed.
Lemma frac_field_mk s n : frac_field f (b2z s * B + n) = n mod S.
Proof using W.
  pose proof S_pos. unfold frac_field.
  replace (b2z s * B + n) with (n + (b2z s * 2 ^ eb f) * S) by (pose proof B_eq; nia).
  apply Z.mod_add. lia.
Qed.
Lemma exp_all_ones_eq : exp_all_ones f = 2 ^ eb f - 1.
Proof using W. reflexivity. Qed.
Lemma div_inf n : 0 <= n < B -> (n / S = 2 ^ eb f - 1 <-> inf f <= n).
Proof using W.
  intros H. pose proof S_pos. pose proof inf_eq. pose proof B_eq.
  pose proof (Z.div_mod n S ltac:(lia)). pose proof (Z.mod_pos_bound n S ltac:(lia)).
  set (q := n / S) in *. set (m := n mod S) in *. clearbody q m. nia.
Qed.
Lemma is_nan_mk s n : 0 <= n < B -> (is_nan f (b2z s * B + n) <-> inf f < n).
Proof using W.
  intros H. unfold is_nan. rewrite exp_field_mk, frac_field_mk, exp_all_ones_eq, div_inf by lia.
  pose proof S_pos. pose proof inf_eq as I. pose proof B_eq.
  split.
  - intros [P Q]. assert (n <> inf f); [|lia]. intros E. apply Q. rewrite E, I. apply Z.mod_mul. lia.
  - intros P. split; [lia|]. intros E. pose proof (Z.div_mod n S ltac:(lia)).
    assert (n / S = 2 ^ eb f - 1) as Q by (apply div_inf; lia). nia.
Qed.
Lemma is_inf_mk s n : 0 <= n < B -> (is_inf f (b2z s * B + n) <-> n = inf f).
Proof using W.
  intros H. unfold is_inf. rewrite exp_field_mk, frac_field_mk, exp_all_ones_eq by lia.
  pose proof S_pos. pose proof inf_eq as I.
  split.
  - intros [P Q]. pose proof (Z.div_mod n S ltac:(lia)). nia.
  - intros ->. rewrite I, Z.div_mul, Z.mod_mul by lia. lia.
Qed.
Lemma is_finite_mk s n : 0 <= n < B -> (is_finite f (b2z s * B + n) <-> n < inf f).
Proof using W.
  intros H. unfold is_finite. rewrite exp_field_mk, exp_all_ones_eq, div_inf by lia. lia.
Qed.
Lemma is_zero_mk s n : 0 <= n < B -> (is_zero f (b2z s * B + n) <-> n = 0).
Proof using W.
  intros H. unfold is_zero. rewrite exp_field_mk, frac_field_mk by lia. pose proof S_pos.
  split.
  - intros [P Q]. pose proof (Z.div_mod n S ltac:(lia)). nia.
  - intros ->. rewrite Z.div_0_l, Z.mod_0_l by lia. lia.
Qed.
Lemma is_qnan_mk s n : 0 <= n < B -> (is_qnan f (b2z s * B + n) <-> inf f + 2 ^ (fs f - 1) <= n).
Proof using W.
  intros H. unfold is_qnan. rewrite is_nan_mk, frac_field_mk by lia.
  pose proof S_pos. pose proof S_even. pose proof inf_eq. pose proof B_eq.
  assert (inf f <= n -> n mod S = n - inf f) as M.
  { intros. symmetry. apply Z.mod_unique with (2 ^ eb f - 1); lia. }
  split.
  - intros [P Q]. rewrite M in Q; lia.
  - intros. rewrite M; lia.
Qed.

Notation u := (bpow radix2 (emin f)).
Lemma value_mk s n : 0 <= n < B ->
  value f (b2z s * B + n) = (if s then - (IZR (V f n) * u) else IZR (V f n) * u)%R.
Proof using W.
  intros H. unfold value. rewrite exp_field_mk, frac_field_mk, sign_of_mk by lia. unfold FloatProofs.V.
  destruct (Z.eqb_spec (n / S) 0); [reflexivity|].
  pose proof S_pos. assert (0 <= n / S) by (apply Z.div_pos; lia).
  rewrite mult_IZR, (IZR_Zpower radix2) by lia.
  rewrite Rmult_assoc, <- bpow_plus. unfold emin.
  replace (n / S - 1 + (1 - bias f - fs f)) with (n / S - bias f - fs f) by lia. reflexivity.
Qed.

Lemma V_enc E q : 1 <= E -> 0 <= q <= 2 * S -> (E = 1 \/ S <= q) -> V f (enc f E q) = q * 2 ^ (E - 1).
Proof using W.
  intros HE Hq Hn. pose proof S_pos. unfold FloatProofs.V, FloatProofs.enc.
  destruct (Z_lt_ge_dec q S).
  - destruct Hn as [->|]; [|lia]. replace ((1 - 1) * S + q) with q by lia.
    rewrite Z.div_small, Z.mod_small by lia. cbn [Z.eqb]. change (2 ^ (1 - 1)) with 1. lia.
  - destruct (Z.eq_dec q (2 * S)) as [->|].
    + replace ((E - 1) * S + 2 * S) with ((E + 1) * S) by ring. rewrite Z.div_mul, Z.mod_mul by lia.
      destruct (Z.eqb_spec (E + 1) 0); [lia|]. replace (E + 1 - 1) with (E - 1 + 1) by lia. rewrite pow2_add by lia. change (2 ^ 1) with 2. ring.
    + replace ((E - 1) * S + q) with (q - S + E * S) by ring. rewrite Z.div_add, Z.mod_add by lia.
      rewrite Z.div_small, Z.mod_small by lia. destruct (Z.eqb_spec (0 + E) 0); [lia|]. replace (0 + E - 1) with (E - 1) by lia. ring.
Qed.
Lemma V_inf : (IZR (V f (inf f)) * u)%R = bpow radix2 (emax f).
Proof using W.
  pose proof EB_big. pose proof S_pos. destruct W.
  replace (inf f) with (enc f (2 ^ eb f - 1) S) by (rewrite inf_eq; unfold FloatProofs.enc; ring).
  rewrite V_enc by lia. rewrite <- pow2_add by lia. rewrite (IZR_Zpower radix2) by lia.
  rewrite <- bpow_plus. f_equal. unfold emin, emax. rewrite bias_eq, (pow2_S (eb f)) by lia. lia.
Qed.
(** Every magnitude has a canonical exponent and significand. *)
Lemma enc_dec n : 0 <= n < inf f -> exists E q, n = enc f E q /\ 1 <= E < 2 ^ eb f - 1 /\ 0 <= q < 2 * S /\ (E = 1 \/ S <= q).
Proof using W.
  intros H. pose proof S_pos. pose proof inf_eq. pose proof EB_big.
  pose proof (Z.div_mod n S ltac:(lia)). pose proof (Z.mod_pos_bound n S ltac:(lia)).
  assert (0 <= n / S) by (apply Z.div_pos; lia).
  destruct (Z.eq_dec (n / S) 0) as [e|e].
  - exists 1, n. unfold FloatProofs.enc. nia.
  - exists (n / S), (S + n mod S). unfold FloatProofs.enc. nia.
Qed.
Lemma V_nonneg n : 0 <= n -> 0 <= V f n.
Proof using W.
  intros H. pose proof S_pos. unfold FloatProofs.V. pose proof (Z.mod_pos_bound n S ltac:(lia)).
  destruct (Z.eqb_spec (n / S) 0); [lia|]. assert (0 <= n / S) by (apply Z.div_pos; lia).
  pose proof (pow2_pos (n / S - 1)). nia.
Qed.
Lemma V_0 : V f 0 = 0.
Proof using W. pose proof S_pos. unfold FloatProofs.V. rewrite Z.div_0_l, Z.mod_0_l by lia. reflexivity. Qed.
Lemma V_S n : 0 <= n -> V f n < V f (n + 1).
Proof using W.
  intros H. pose proof S_pos.
  assert (exists E q, n = enc f E q /\ 1 <= E /\ 0 <= q < 2 * S /\ (E = 1 \/ S <= q)) as (E & q & -> & ? & ? & ?).
  { pose proof (Z.div_mod n S ltac:(lia)). pose proof (Z.mod_pos_bound n S ltac:(lia)).
    assert (0 <= n / S) by (apply Z.div_pos; lia).
    destruct (Z.eq_dec (n / S) 0) as [e|e].
    - exists 1, n. unfold FloatProofs.enc. nia.
    - exists (n / S), (S + n mod S). unfold FloatProofs.enc. nia. }
  replace (enc f E q + 1) with (enc f E (q + 1)) by (unfold FloatProofs.enc; ring).
  rewrite !V_enc by lia. pose proof (pow2_pos (E - 1)). nia.
Qed.
Lemma V_mono n m : 0 <= n <= m -> V f n <= V f m.
Proof using W.
  intros H. replace m with (n + (m - n)) by lia. assert (0 <= m - n) as H0 by lia. revert H0. generalize (m - n) as k.
  apply natlike_ind; [|intros k Hk IH].
  - rewrite Z.add_0_r. lia.
  - rewrite Z.add_succ_r. pose proof (V_S (n + k)). change (Z.succ (n + k)) with (n + k + 1). lia.
Qed.
Lemma V_lt n m : 0 <= n < m -> V f n < V f m.
Proof using W. intros H. pose proof (V_S n). pose proof (V_mono (n + 1) m). lia. Qed.
Lemma V_pos n : 0 < n -> 0 < V f n.
Proof using W. intros. pose proof (V_lt 0 n). rewrite V_0 in *. lia. Qed.


(** * Rounding *)
Notation fexp := (FLT_exp (emin f) (prec f)).
Local Instance prec_gt_0 : Prec_gt_0 (prec f).
Proof using W. unfold Prec_gt_0, prec. destruct W. lia. Qed.
Local Instance valid_fexp : Valid_exp fexp.
Proof using W. apply FLT_exp_valid. exact prec_gt_0. Qed.
Local Instance valid_rnd d : Valid_rnd (rnd d).
Proof using. destruct d; cbn [rnd]; auto with typeclass_instances. Qed.

Lemma round_in_0 d : round_in f d 0 = 0%R.
Proof using. unfold round_in. apply round_0. auto with typeclass_instances. Qed.
(** The direction seen from the other side of zero. *)
Definition flip_dir (d : dir) : dir := match d with Down => Up | Up => Down | d => d end.
Lemma rnd_opp d x : rnd d (- x) = (- rnd (flip_dir d) x).
Proof using.
  destruct d; cbn [rnd flip_dir].
  - rewrite Znearest_opp. f_equal. unfold Znearest. destruct (Rcompare _ _); try reflexivity.
    rewrite Z.even_opp, <- Z.succ_pred with (n := Zfloor x) at 1.
    replace (- (Zfloor x + 1)) with (- (Zfloor x + 1)) by reflexivity.
    rewrite Z.succ_pred, Z.even_add. destruct (Z.even (Zfloor x)); reflexivity.
  - unfold Zceil. lia.
  - unfold Zceil. rewrite Ropp_involutive. reflexivity.
  - apply Ztrunc_opp.
Qed.
Lemma round_in_opp d x : round_in f d (- x) = (- round_in f (flip_dir d) x)%R.
Proof using.
  unfold round_in, round. rewrite scaled_mantissa_opp, rnd_opp, cexp_opp. unfold F2R; cbn [Fnum Fexp].
  rewrite opp_IZR. ring.
Qed.

(** [y] in units of 2^(E-1) least subnormals. *)
Lemma round_scaled d (E : Z) (y : R) : 1 <= E -> (0 <= y < IZR (2 * S))%R -> (E = 1 \/ (IZR S <= y)%R) ->
  round_in f d (y * bpow radix2 (E - 1 + emin f)) = (IZR (rnd d y) * bpow radix2 (E - 1 + emin f))%R.
Proof using W.
  intros HE Hy Hn. pose proof S_pos.
  destruct (Req_dec y 0) as [->|Hy0].
  - rewrite Rmult_0_l, round_in_0, (Zrnd_IZR (rnd d) 0). ring.
  - assert (cexp radix2 fexp (y * bpow radix2 (E - 1 + emin f)) = E - 1 + emin f) as C.
    { unfold cexp, FLT_exp. rewrite mag_mult_bpow by assumption.
      assert (2 * S = 2 ^ (fs f + 1)) as S2 by (destruct W; rewrite pow2_add by lia; lia).
      assert (mag radix2 y <= fs f + 1).
      { apply mag_le_bpow; [assumption|]. rewrite Rabs_pos_eq by lra.
        rewrite <- IZR_Zpower by (destruct W; lia). change (radix2 : Z) with 2. rewrite <- S2. lra. }
      destruct Hn as [->|Hn].
      - unfold prec. lia.
      - assert (fs f + 1 <= mag radix2 y).
        { apply mag_ge_bpow. rewrite Rabs_pos_eq by lra. replace (fs f + 1 - 1) with (fs f) by lia.
          rewrite <- IZR_Zpower by (destruct W; lia). exact Hn. }
        unfold prec. lia. }
    unfold round_in, round, scaled_mantissa. rewrite C, Rmult_assoc, <- bpow_plus, Z.add_opp_diag_r. cbn [bpow].
    rewrite Rmult_1_r. reflexivity.
Qed.
Lemma rnd_bounds d y a b : (IZR a <= y <= IZR b)%R -> a <= rnd d y <= b.
Proof using.
  intros H. split.
  - rewrite <- (Zrnd_IZR (rnd d) a). apply Zrnd_le; [apply valid_rnd|lra].
  - rewrite <- (Zrnd_IZR (rnd d) b). apply Zrnd_le; [apply valid_rnd|lra].
Qed.
(** The rounded magnitude is the encoding of the rounded significand. *)
Lemma round_enc d E y : 1 <= E -> (0 <= y < IZR (2 * S))%R -> (E = 1 \/ (IZR S <= y)%R) ->
  0 <= enc f E (rnd d y) /\
  round_in f d (y * bpow radix2 (E - 1 + emin f)) = (IZR (V f (enc f E (rnd d y))) * u)%R.
Proof using W.
  intros HE Hy Hn. pose proof S_pos.
  assert (0 <= rnd d y <= 2 * S) as Hz by (apply rnd_bounds; lra).
  assert (E = 1 \/ S <= rnd d y) as Hz2.
  { destruct Hn as [|Hn]; [tauto|right]. apply (rnd_bounds d y S (2 * S)). lra. }
  split; [unfold FloatProofs.enc; nia|].
  rewrite round_scaled by (assumption || lia). rewrite V_enc by (assumption || lia).
  rewrite mult_IZR, (IZR_Zpower radix2) by lia. rewrite Rmult_assoc, <- bpow_plus. reflexivity.
Qed.
End Fmt.
