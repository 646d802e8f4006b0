(** Formats, encodings and correct rounding (no modelling here). *)
From Coq Require Import ZArith Reals Bool Lia Lra Psatz.
From Flocq Require Import Core.
From Verif Require Import Base BaseLemmas FloatModel FloatSpec.
Open Scope Z_scope.

(** Width of the exponent field. *)
Definition eb (f : fmt) : Z := fb f - 1 - fs f.
Record wf (f : fmt) : Prop := Wf {
  wf_s : 10 <= fs f; wf_e : 5 <= eb f <= 15; wf_b : fb f = fs f + eb f + 1; wf_128 : fb f <= 128; wf_es : eb f <= fs f }.
Lemma std_wf f : std f -> wf f.
Proof. intros [->|[->|[->| ->]]]; split; unfold eb; cbn; lia. Qed.

Definition inf (f : fmt) : Z := 2 ^ (fb f - 1) - 2 ^ fs f.
(** Magnitude in units of the least subnormal. *)
Definition V (f : fmt) (n : Z) : Z :=
  if n / 2 ^ fs f =? 0 then n mod 2 ^ fs f else (2 ^ fs f + n mod 2 ^ fs f) * 2 ^ (n / 2 ^ fs f - 1).
Definition enc (f : fmt) (E q : Z) : Z := (E - 1) * 2 ^ fs f + q.

Section Fmt.
Context (f : fmt) (W : wf f).
Notation S := (2 ^ fs f).
Notation B := (2 ^ (fb f - 1)).

Lemma S_pos : 0 < S. Proof using W. destruct W; apply pow2_pos; lia. Qed.
Lemma S_big : 1024 <= S. Proof using W. destruct W. change 1024 with (2 ^ 10). apply pow2_le; lia. Qed.
Lemma S_even : S = 2 * 2 ^ (fs f - 1). Proof using W. destruct W. apply pow2_S; lia. Qed.
Lemma EB_big : 32 <= 2 ^ eb f <= 32768.
Proof using W. destruct W. change 32 with (2 ^ 5). change 32768 with (2 ^ 15). split; apply pow2_le; lia. Qed.
Lemma B_eq : B = S * 2 ^ eb f.
Proof using W. destruct W. rewrite <- pow2_add by lia. f_equal. lia. Qed.
Lemma fb_eq : 2 ^ fb f = 2 * B.
Proof using W. destruct W. apply pow2_S. lia. Qed.
Lemma inf_eq : inf f = (2 ^ eb f - 1) * S.
Proof using W. unfold inf. rewrite B_eq. ring. Qed.
Lemma inf_pos : S < inf f < B.
Proof using W. rewrite inf_eq, B_eq. pose proof S_big. pose proof EB_big. nia. Qed.

Lemma SIGN_MASK_eq : SIGN_MASK f = B.
Proof using W. destruct W. unfold SIGN_MASK. rewrite shiftl_mul by lia. lia. Qed.
Lemma SIG_MASK_eq : SIG_MASK f = S - 1.
Proof using W. destruct W. unfold SIG_MASK. rewrite shiftl_mul by lia. lia. Qed.
Lemma IMPLICIT_BIT_eq : IMPLICIT_BIT f = S.
Proof using W. destruct W. unfold IMPLICIT_BIT. rewrite shiftl_mul by lia. lia. Qed.
Lemma EXP_BITS_eq : EXP_BITS f = eb f.
Proof using W. destruct W. unfold EXP_BITS, eb. lia. Qed.
Lemma EXP_SAT_eq : EXP_SAT f = 2 ^ eb f - 1.
Proof using W. destruct W. unfold EXP_SAT. rewrite EXP_BITS_eq, shiftl_mul by lia. lia. Qed.
Lemma EXP_BIAS_eq : EXP_BIAS f = 2 ^ (eb f - 1) - 1.
Proof using W.
  destruct W. unfold EXP_BIAS. rewrite EXP_SAT_eq, shiftr_div by lia. change (2 ^ 1) with 2.
  rewrite (pow2_S (eb f)) by lia. symmetry. apply Z.div_unique with 1; lia.
Qed.
Lemma bias_eq : bias f = 2 ^ (eb f - 1) - 1.
Proof using W. destruct W. unfold bias, eb. do 2 f_equal. lia. Qed.
Lemma EXP_MASK_eq : EXP_MASK f = inf f.
Proof using W.
  destruct W. unfold EXP_MASK, inot, fI. rewrite SIGN_MASK_eq, SIG_MASK_eq.
  pose proof S_pos. pose proof B_eq. pose proof inf_pos.
  rewrite Z.lor_comm. replace B with (2 ^ eb f * S) by lia.
  rewrite lor_add_low by lia.
  apply norm_unique with 1.
  - rewrite bits_u. lia.
  - apply fits_u. rewrite fb_eq. lia.
  - rewrite bits_u, fb_eq. unfold Z.lnot, inf in *. lia.
Qed.
Lemma abs_mask_eq : abs_mask f = B - 1.
Proof using W. unfold abs_mask. rewrite SIGN_MASK_eq. lia. Qed.
Lemma quiet_bit_eq : quiet_bit f = 2 ^ (fs f - 1).
Proof using W.
  destruct W. unfold quiet_bit. rewrite IMPLICIT_BIT_eq, shiftr_div by lia. change (2 ^ 1) with 2.
  rewrite S_even. rewrite Z.mul_comm. apply Z.div_mul. lia.
Qed.

(** Splitting a pattern. *)
Lemma split_float x : is_float f x -> exists s n, x = b2z s * B + n /\ 0 <= n < B.
Proof using W.
  unfold is_float. rewrite fb_eq. intros H. pose proof inf_pos.
  destruct (Z_lt_ge_dec x B).
  - exists false, x. unfold b2z. lia.
  - exists true, (x - B). unfold b2z. lia.
Qed.
Lemma is_float_mk s n : 0 <= n < B -> is_float f (b2z s * B + n).
Proof using W. unfold is_float. rewrite fb_eq. destruct s; unfold b2z; lia. Qed.
Lemma sign_of_mk s n : 0 <= n < B -> sign_of f (b2z s * B + n) = s.
Proof using W.
  intros H. unfold sign_of. rewrite Z.add_comm, Z.div_add by lia. rewrite Z.div_small by lia. destruct s; reflexivity.
Qed.
Lemma exp_field_mk s n : 0 <= n < B -> exp_field f (b2z s * B + n) = n / S.
Proof using W.
  intros H. pose proof S_pos. pose proof B_eq. pose proof EB_big. unfold exp_field. fold (eb f).
  replace (b2z s * B + n) with (n + (b2z s * 2 ^ eb f) * S) by nia.
  rewrite Z.div_add by lia. rewrite Z.mod_add by lia. apply Z.mod_small.
  split; [apply Z.div_pos; lia|]. apply Z.div_lt_upper_bound; lia.
Qed.
Lemma frac_field_mk s n : frac_field f (b2z s * B + n) = n mod S.
Proof using W.
  pose proof S_pos. unfold frac_field.
  replace (b2z s * B + n) with (n + (b2z s * 2 ^ eb f) * S) by (pose proof B_eq; nia).
  apply Z.mod_add. lia.
Qed.
Lemma exp_all_ones_eq : exp_all_ones f = 2 ^ eb f - 1.
Proof using W. reflexivity. Qed.
Lemma div_inf n : 0 <= n < B -> (n / S = 2 ^ eb f - 1 <-> inf f <= n).
Proof using W.
  intros H. pose proof S_pos. pose proof inf_eq. pose proof B_eq.
  pose proof (Z.div_mod n S ltac:(lia)). pose proof (Z.mod_pos_bound n S ltac:(lia)).
  set (q := n / S) in *. set (m := n mod S) in *. clearbody q m. nia.
Qed.
Lemma is_nan_mk s n : 0 <= n < B -> (is_nan f (b2z s * B + n) <-> inf f < n).
Proof using W.
  intros H. unfold is_nan. rewrite exp_field_mk, frac_field_mk, exp_all_ones_eq, div_inf by lia.
  pose proof S_pos. pose proof inf_eq as I. pose proof B_eq.
  split.
  - intros [P Q]. assert (n <> inf f); [|lia]. intros E. apply Q. rewrite E, I. apply Z.mod_mul. lia.
  - intros P. split; [lia|]. intros E. pose proof (Z.div_mod n S ltac:(lia)).
    assert (n / S = 2 ^ eb f - 1) as Q by (apply div_inf; lia). nia.
Qed.
Lemma is_inf_mk s n : 0 <= n < B -> (is_inf f (b2z s * B + n) <-> n = inf f).
Proof using W.
  intros H. unfold is_inf. rewrite exp_field_mk, frac_field_mk, exp_all_ones_eq by lia.
  pose proof S_pos. pose proof inf_eq as I.
  split.
  - intros [P Q]. pose proof (Z.div_mod n S ltac:(lia)). nia.
  - intros ->. rewrite I, Z.div_mul, Z.mod_mul by lia. lia.
Qed.
Lemma is_finite_mk s n : 0 <= n < B -> (is_finite f (b2z s * B + n) <-> n < inf f).
Proof using W.
  intros H. unfold is_finite. rewrite exp_field_mk, exp_all_ones_eq, div_inf by lia. lia.
Qed.
Lemma is_zero_mk s n : 0 <= n < B -> (is_zero f (b2z s * B + n) <-> n = 0).
Proof using W.
  intros H. unfold is_zero. rewrite exp_field_mk, frac_field_mk by lia. pose proof S_pos.
  split.
  - intros [P Q]. pose proof (Z.div_mod n S ltac:(lia)). nia.
  - intros ->. rewrite Z.div_0_l, Z.mod_0_l by lia. lia.
Qed.
Lemma is_qnan_mk s n : 0 <= n < B -> (is_qnan f (b2z s * B + n) <-> inf f + 2 ^ (fs f - 1) <= n).
Proof using W.
  intros H. unfold is_qnan. rewrite is_nan_mk, frac_field_mk by lia.
  pose proof S_pos. pose proof S_even. pose proof inf_eq. pose proof B_eq.
  assert (inf f <= n -> n mod S = n - inf f) as M.
  { intros. symmetry. apply Z.mod_unique with (2 ^ eb f - 1); lia. }
  split.
  - intros [P Q]. rewrite M in Q; lia.
  - intros. rewrite M; lia.
Qed.

Notation u := (bpow radix2 (emin f)).
Lemma value_mk s n : 0 <= n < B ->
  value f (b2z s * B + n) = (if s then - (IZR (V f n) * u) else IZR (V f n) * u)%R.
Proof using W.
  intros H. unfold value. rewrite exp_field_mk, frac_field_mk, sign_of_mk by lia. unfold V.
  destruct (Z.eqb_spec (n / S) 0); [reflexivity|].
  pose proof S_pos. assert (0 <= n / S) by (apply Z.div_pos; lia).
  rewrite mult_IZR, (IZR_Zpower radix2) by lia.
  rewrite Rmult_assoc, <- bpow_plus. unfold emin.
  replace (n / S - 1 + (1 - bias f - fs f)) with (n / S - bias f - fs f) by lia. reflexivity.
Qed.

Lemma V_enc E q : 1 <= E -> 0 <= q <= 2 * S -> (E = 1 \/ S <= q) -> V f (enc f E q) = q * 2 ^ (E - 1).
Proof using W.
  intros HE Hq Hn. pose proof S_pos. unfold V, enc.
  destruct (Z_lt_ge_dec q S).
  - destruct Hn as [->|]; [|lia]. replace ((1 - 1) * S + q) with q by lia.
    rewrite Z.div_small, Z.mod_small by lia. cbn [Z.eqb]. change (2 ^ (1 - 1)) with 1. lia.
  - destruct (Z.eq_dec q (2 * S)) as [->|].
    + replace ((E - 1) * S + 2 * S) with ((E + 1) * S) by ring. rewrite Z.div_mul, Z.mod_mul by lia.
      destruct (Z.eqb_spec (E + 1) 0); [lia|]. replace (E + 1 - 1) with (E - 1 + 1) by lia. rewrite pow2_add by lia. change (2 ^ 1) with 2. ring.
    + replace ((E - 1) * S + q) with (q - S + E * S) by ring. rewrite Z.div_add, Z.mod_add by lia.
      rewrite Z.div_small, Z.mod_small by lia. destruct (Z.eqb_spec (0 + E) 0); [lia|]. replace (0 + E - 1) with (E - 1) by lia. ring.
Qed.
Lemma V_inf : (IZR (V f (inf f)) * u)%R = bpow radix2 (emax f).
Proof using W.
  pose proof EB_big. pose proof S_pos. destruct W.
  replace (inf f) with (enc f (2 ^ eb f - 1) S) by (rewrite inf_eq; unfold enc; ring).
  rewrite V_enc by lia. rewrite <- pow2_add by lia. rewrite (IZR_Zpower radix2) by lia.
  rewrite <- bpow_plus. f_equal. unfold emin, emax. rewrite bias_eq, (pow2_S (eb f)) by lia. lia.
Qed.
(** Every magnitude has a canonical exponent and significand. *)
Lemma enc_dec n : 0 <= n < inf f -> exists E q, n = enc f E q /\ 1 <= E < 2 ^ eb f - 1 /\ 0 <= q < 2 * S /\ (E = 1 \/ S <= q).
Proof using W.
  intros H. pose proof S_pos. pose proof inf_eq. pose proof EB_big.
  pose proof (Z.div_mod n S ltac:(lia)). pose proof (Z.mod_pos_bound n S ltac:(lia)).
  assert (0 <= n / S) by (apply Z.div_pos; lia).
  destruct (Z.eq_dec (n / S) 0) as [e|e].
  - exists 1, n. unfold enc. nia.
  - exists (n / S), (S + n mod S). unfold enc. nia.
Qed.
Lemma V_nonneg n : 0 <= n -> 0 <= V f n.
Proof using W.
  intros H. pose proof S_pos. unfold V. pose proof (Z.mod_pos_bound n S ltac:(lia)).
  destruct (Z.eqb_spec (n / S) 0); [lia|]. assert (0 <= n / S) by (apply Z.div_pos; lia).
  pose proof (pow2_pos (n / S - 1)). nia.
Qed.
Lemma V_0 : V f 0 = 0.
Proof using W. pose proof S_pos. unfold V. rewrite Z.div_0_l, Z.mod_0_l by lia. reflexivity. Qed.
Lemma V_S n : 0 <= n -> V f n < V f (n + 1).
Proof using W.
  intros H. pose proof S_pos.
  assert (exists E q, n = enc f E q /\ 1 <= E /\ 0 <= q < 2 * S /\ (E = 1 \/ S <= q)) as (E & q & -> & ? & ? & ?).
  { pose proof (Z.div_mod n S ltac:(lia)). pose proof (Z.mod_pos_bound n S ltac:(lia)).
    assert (0 <= n / S) by (apply Z.div_pos; lia).
    destruct (Z.eq_dec (n / S) 0) as [e|e].
    - exists 1, n. unfold enc. nia.
    - exists (n / S), (S + n mod S). unfold enc. nia. }
  replace (enc f E q + 1) with (enc f E (q + 1)) by (unfold enc; ring).
  rewrite !V_enc by lia. pose proof (pow2_pos (E - 1)). nia.
Qed.
Lemma V_mono n m : 0 <= n <= m -> V f n <= V f m.
Proof using W.
  intros H. replace m with (n + (m - n)) by lia. assert (0 <= m - n) as H0 by lia. revert H0. generalize (m - n) as k.
  apply natlike_ind; [|intros k Hk IH].
  - rewrite Z.add_0_r. lia.
  - rewrite Z.add_succ_r. pose proof (V_S (n + k)). change (Z.succ (n + k)) with (n + k + 1). lia.
Qed.
Lemma V_lt n m : 0 <= n < m -> V f n < V f m.
Proof using W. intros H. pose proof (V_S n). pose proof (V_mono (n + 1) m). lia. Qed.
Lemma V_pos n : 0 < n -> 0 < V f n.
Proof using W. intros. pose proof (V_lt 0 n). rewrite V_0 in *. lia. Qed.

(** * Rounding *)
Notation fexp := (FLT_exp (emin f) (prec f)).
Local Instance prec_gt_0 : Prec_gt_0 (prec f).
Proof using W. unfold Prec_gt_0, prec. destruct W. lia. Qed.
Local Instance valid_fexp : Valid_exp fexp.
Proof using W. apply FLT_exp_valid. exact prec_gt_0. Qed.

(** [r] encodes the correct rounding of the nonnegative real [X]. *)
Definition rmag (X : R) (r : Z) : Prop :=
  0 <= r <= inf f /\ (r < inf f -> rne f X = (IZR (V f r) * u)%R) /\
  (r = inf f -> (bpow radix2 (emax f) <= rne f X)%R).

Lemma rne_opp x : rne f (- x) = (- rne f x)%R.
Proof using. apply round_NE_opp. Qed.
Lemma rne_mono x y : (x <= y)%R -> (rne f x <= rne f y)%R.
Proof using W. intros. unfold rne. apply round_le; auto with typeclass_instances. Qed.
Lemma rne_0 : rne f 0 = 0%R.
Proof using. unfold rne. apply round_0. auto with typeclass_instances. Qed.

(** [y] in units of 2^(E-1) least subnormals. *)
Lemma rne_scaled (E : Z) (y : R) : 1 <= E -> (0 <= y < IZR (2 * S))%R -> (E = 1 \/ (IZR S <= y)%R) ->
  rne f (y * bpow radix2 (E - 1 + emin f)) = (IZR (ZnearestE y) * bpow radix2 (E - 1 + emin f))%R.
Proof using W.
  intros HE Hy Hn. pose proof S_pos.
  destruct (Req_dec y 0) as [->|Hy0].
  - rewrite Rmult_0_l, rne_0, (Zrnd_IZR ZnearestE 0). ring.
  - assert (cexp radix2 fexp (y * bpow radix2 (E - 1 + emin f)) = E - 1 + emin f) as C.
    { unfold cexp, FLT_exp. rewrite mag_mult_bpow by assumption.
      assert (2 * S = 2 ^ (fs f + 1)) as S2 by (destruct W; rewrite pow2_add by lia; lia).
      assert (mag radix2 y <= fs f + 1).
      { apply mag_le_bpow; [assumption|]. rewrite Rabs_pos_eq by lra.
        rewrite <- IZR_Zpower by (destruct W; lia). change (radix2 : Z) with 2. rewrite <- S2. lra. }
      destruct Hn as [->|Hn].
      - unfold prec. lia.
      - assert (fs f + 1 <= mag radix2 y).
        { apply mag_ge_bpow. rewrite Rabs_pos_eq by lra. replace (fs f + 1 - 1) with (fs f) by lia.
          rewrite <- IZR_Zpower by (destruct W; lia). exact Hn. }
        unfold prec. lia. }
    unfold rne, round, scaled_mantissa. rewrite C, Rmult_assoc, <- bpow_plus, Z.add_opp_diag_r. cbn [bpow].
    rewrite Rmult_1_r. reflexivity.
Qed.

Lemma rmag_scaled E y : 1 <= E < 2 ^ eb f - 1 -> (0 <= y < IZR (2 * S))%R -> (E = 1 \/ (IZR S <= y)%R) ->
  rmag (y * bpow radix2 (E - 1 + emin f)) (enc f E (ZnearestE y)).
Proof using W.
  intros HE Hy Hn. pose proof S_pos.
  assert (0 <= ZnearestE y <= 2 * S) as Hz.
  { split.
    - apply (Z.le_trans _ (Zfloor y)); [|apply Znearest_ge_floor]. apply Zfloor_lub. lra.
    - apply (Z.le_trans _ (Zceil y)); [apply Znearest_le_ceil|]. apply Zceil_glb. lra. }
  assert (E = 1 \/ S <= ZnearestE y) as Hz2.
  { destruct Hn as [|Hn]; [tauto|right]. apply (Z.le_trans _ (Zfloor y)); [|apply Znearest_ge_floor]. apply Zfloor_lub. lra. }
  assert (0 <= enc f E (ZnearestE y) <= inf f) as Hr.
  { unfold enc. rewrite inf_eq. nia. }
  assert (rne f (y * bpow radix2 (E - 1 + emin f)) = (IZR (V f (enc f E (ZnearestE y))) * u)%R) as Q.
  { rewrite rne_scaled by (assumption || lia). rewrite V_enc by (assumption || lia).
    rewrite mult_IZR, (IZR_Zpower radix2) by lia. rewrite Rmult_assoc, <- bpow_plus. reflexivity. }
  split; [exact Hr|]. split; [intros _; exact Q|]. intros e. rewrite Q, e, V_inf. lra.
Qed.
Lemma rmag_overflow X : (bpow radix2 (emax f) <= X)%R -> rmag X (inf f).
Proof using W.
  intros H. pose proof inf_pos. pose proof S_pos. split; [lia|]. split; [lia|]. intros _.
  rewrite <- V_inf. assert (rne f (IZR (V f (inf f)) * u) = (IZR (V f (inf f)) * u)%R) as <-.
  { unfold rne. apply round_generic; auto with typeclass_instances.
    rewrite V_inf. apply generic_format_bpow. unfold FLT_exp, prec, emin, emax.
    pose proof EB_big. destruct W. rewrite bias_eq. pose proof (pow2_S (eb f)). lia. }
  apply rne_mono. rewrite V_inf. exact H.
Qed.

(** Rational significands. *)
Definition rup (A Bd : Z) : Z :=
  match 2 * (A mod Bd) ?= Bd with Lt => 0 | Gt => 1 | Eq => (A / Bd) mod 2 end.
Lemma ZnearestE_div A Bd : 0 < Bd -> ZnearestE (IZR A / IZR Bd) = A / Bd + rup A Bd.
Proof using.
  intros HB. assert (0 < IZR Bd)%R by (apply IZR_lt; lia).
  unfold Znearest, rup. rewrite (Zfloor_div A Bd) by lia.
  pose proof (Z.div_mod A Bd ltac:(lia)) as D. pose proof (Z.mod_pos_bound A Bd HB) as M.
  assert (IZR A / IZR Bd - IZR (A / Bd) = IZR (A mod Bd) / IZR Bd)%R as F.
  { apply (Rmult_eq_reg_r (IZR Bd)); [|lra]. field_simplify; [|lra|lra]. rewrite <- mult_IZR, <- minus_IZR.
    f_equal. lia. }
  assert (A mod Bd <> 0 -> Zceil (IZR A / IZR Bd) = A / Bd + 1) as C.
  { intros N. rewrite Zceil_floor_neq; rewrite (Zfloor_div A Bd) by lia; [reflexivity|].
    intros e. assert (IZR (A mod Bd) / IZR Bd = 0)%R as e2 by lra.
    apply N. apply eq_IZR. apply (f_equal (fun z => z * IZR Bd)%R) in e2. field_simplify in e2; lra. }
  rewrite F.
  destruct (Z.compare_spec (2 * (A mod Bd)) Bd) as [e|l|g].
  - rewrite Rcompare_Eq.
    + destruct (Z.even (A / Bd)) eqn:Ev; cbn [negb].
      * rewrite Zmod_even, Ev. lia.
      * rewrite Zmod_even, Ev. rewrite C by lia. reflexivity.
    + apply Rmult_eq_reg_r with (IZR Bd); [|lra].
      unfold Rdiv. rewrite Rmult_assoc, Rinv_l, Rmult_1_r by lra.
      apply (f_equal IZR) in e. rewrite mult_IZR in e. lra.
  - rewrite Rcompare_Lt; [lia|]. apply Rmult_lt_reg_r with (IZR Bd); [assumption|].
    unfold Rdiv. rewrite Rmult_assoc, Rinv_l, Rmult_1_r by lra.
    apply IZR_lt in l. rewrite mult_IZR in l. lra.
  - rewrite Rcompare_Gt; [rewrite C by lia; reflexivity|]. apply Rmult_lt_reg_r with (IZR Bd); [assumption|].
    unfold Rdiv. rewrite Rmult_assoc, Rinv_l, Rmult_1_r by lra.
    apply IZR_lt in g. rewrite mult_IZR in g. lra.
Qed.
End Fmt.
