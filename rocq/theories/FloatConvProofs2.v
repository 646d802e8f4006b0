(** Proofs for widening (extend.rs). *)
From Coq Require Import ZArith Reals Bool List Lia Lra.
From Flocq Require Import Core.
From Verif Require Import Base BaseLemmas FloatModel FloatSpec FloatProofs FloatProofs2 FloatProofs3 FloatProofs5 FloatProofs7 FloatConvModel FloatConvSpec.
Open Scope Z_scope.

Lemma wrapping_shl_u n a s : 0 <= s < n -> 0 <= a -> a * 2 ^ s < 2 ^ n -> wrapping_shl (UI n) a s = a * 2 ^ s.
Proof.
  intros Hs Ha H. unfold wrapping_shl. cbn [bits UI]. rewrite Z.mod_small by lia. rewrite shiftl_mul by lia.
  apply norm_u_id. pose proof (pow2_pos s ltac:(lia)). split; [|assumption]. apply Z.mul_nonneg_nonneg; lia.
Qed.
Lemma wrapping_sub_u n a b : 0 <= n -> 0 <= a < 2 ^ n -> 0 <= b < 2 ^ n ->
  wrapping_sub (UI n) a b = if b <=? a then a - b else a - b + 2 ^ n.
Proof.
  intros Hn Ha Hb. unfold wrapping_sub. rewrite norm_u. destruct (Z.leb_spec b a).
  - apply Z.mod_small; lia.
  - rewrite <- (Z.mod_add _ 1) by lia. rewrite Z.mod_small; lia.
Qed.

Lemma scale_window a b x k : a <= x < b -> 0 < k -> a * k <= x * k < b * k.
Proof. intros H Hk. split; [apply Z.mul_le_mono_pos_r|apply Z.mul_lt_mono_pos_r]; lia. Qed.
Lemma enc_range f E q : wf f -> 1 <= E < 2 ^ eb f - 1 -> 0 <= q < 2 * 2 ^ fs f -> 0 <= enc f E q < inf f.
Proof.
  intros W HE Hq. unfold enc. rewrite (inf_eq f W). pose proof (S_pos f W) as SP.
  pose proof (Z.mul_le_mono_nonneg_r 0 (E - 1) (2 ^ fs f) ltac:(lia) ltac:(lia)).
  pose proof (Z.mul_le_mono_nonneg_r (E - 1) (2 ^ eb f - 1 - 2) (2 ^ fs f) ltac:(lia) ltac:(lia)). lia.
Qed.

(** Facts common to the six pairs. *)
Record wider (f g : fmt) : Prop := Wider {
  wi_f : wf f; wi_g : wf g; wi_s : fs f + 2 <= fs g; wi_e : eb f < eb g; wi_b : fs g + 2 <= EXP_BIAS g - EXP_BIAS f }.
Lemma conv_pair_wider f g : conv_pair f g -> wider f g.
Proof.
  intros H. unfold conv_pair in H. cbn [In] in H.
  repeat (destruct H as [H|H]; [injection H as <- <-; split; [apply std_wf; unfold std; tauto|apply std_wf; unfold std; tauto|vm_compute; congruence..]|]).
  destruct H.
Qed.

Section Pair.
Context (f g : fmt) (W : wider f g).
Notation Sf := (2 ^ fs f).
Notation Sg := (2 ^ fs g).
Notation Bf := (2 ^ (fb f - 1)).
Notation Bg := (2 ^ (fb g - 1)).
Let Wf := wi_f _ _ W.
Let Wg := wi_g _ _ W.
Notation dl := (fs g - fs f).
Notation bd := (EXP_BIAS g - EXP_BIAS f).

Lemma Sg_eq : Sg = Sf * 2 ^ dl.
Proof using W. destruct W, Wf. rewrite <- pow2_add by lia. f_equal; lia. Qed.
Lemma bd_eq : bd = 2 ^ (eb g - 1) - 2 ^ (eb f - 1).
Proof using W. rewrite (EXP_BIAS_eq f Wf), (EXP_BIAS_eq g Wg). lia. Qed.
(** The widest exponent of [f] is inside the range of [g]. *)
Lemma bd_range : 2 ^ eb f - 1 + bd <= 2 ^ eb g - 1 - 1 /\ 0 < bd < 32768.
Proof using W.
  pose proof bd_eq. pose proof (EB_big g Wg). destruct W, Wf.
  pose proof (pow2_S (eb g) ltac:(lia)). pose proof (pow2_S (eb f) ltac:(lia)).
  pose proof (pow2_le (eb f) (eb g - 1) ltac:(lia)). pose proof (pow2_pos (eb f - 1) ltac:(lia)).
  pose proof (pow2_lt (eb f - 1) (eb f) ltac:(lia) ltac:(lia)). 
  pose proof (pow2_le 4 (eb f - 1) ltac:(lia)). change (2 ^ 4) with 16 in *. lia.
Qed.
Lemma emin_rel : emin g = emin f - bd - dl.
Proof using W.
  unfold emin. destruct (bias_range f Wf) as (_ & -> & _). destruct (bias_range g Wg) as (_ & -> & _). lia.
Qed.
Lemma fbs : 10 <= fs f < fs g /\ fb f < fb g /\ fs f < fb f /\ fs g < fb g /\ 0 < fb f /\ dl < fb g /\ fb g - fb f < fb g /\ fb g <= 128.
Proof using W. destruct W, Wf, Wg. lia. Qed.
Lemma pow_bias t : fb g = t -> bd < 2 ^ fb g.
Proof using W. intros _. pose proof bd_range. pose proof (fb_big g Wg). change (2 ^ 16) with 65536 in *. lia. Qed.

(** The value of a pattern of [f] re-encoded in [g]. *)
Lemma value_scaled k E q E' q' : 0 <= k -> q' = q * 2 ^ k -> E' = E + bd + dl - k ->
  1 <= E -> 0 <= q <= 2 * Sf -> (E = 1 \/ Sf <= q) -> 1 <= E' -> 0 <= q' <= 2 * Sg -> (E' = 1 \/ Sg <= q') ->
  (IZR (V g (enc g E' q')) * bpow radix2 (emin g) = IZR (V f (enc f E q)) * bpow radix2 (emin f))%R.
Proof using W.
  intros Hk Eq EE HE Hq Hn HE' Hq' Hn'.
  rewrite (IZR_V g Wg E' q' _ eq_refl), (IZR_V f Wf E q _ eq_refl) by assumption.
  rewrite Eq, mult_IZR. rewrite (IZR_Zpower radix2) by lia. rewrite !Rmult_assoc, <- !bpow_plus. do 2 f_equal.
  rewrite emin_rel. lia.
Qed.

Lemma shl_sign s : wrapping_shl (fI g) (b2z s * Bf) (fb g - fb f) = b2z s * Bg.
Proof using W.
  pose proof fbs. assert (b2z s * Bf * 2 ^ (fb g - fb f) = b2z s * Bg) as E.
  { rewrite <- Z.mul_assoc, <- pow2_add by lia. do 2 f_equal. lia. }
  unfold fI. rewrite wrapping_shl_u; try lia.
  - destruct s; cbn [b2z]; pose proof (pow2_pos (fb f - 1) ltac:(lia)); lia.
  - rewrite E, (fb_eq g Wg). pose proof (pow2_pos (fb g - 1) ltac:(lia)). destruct s; cbn [b2z]; lia.
Qed.

Lemma shl_exp e : 0 <= e < 2 ^ eb g -> wrapping_shl (fI g) e (fs g) = e * Sg.
Proof using W.
  intros He. pose proof fbs. apply wrapping_shl_u; [destruct Wg; lia|lia|]. rewrite (fb_eq g Wg), (B_eq g Wg).
  pose proof (pow2_pos (fs g) ltac:(lia)). nia.
Qed.
Lemma shl_sig q k : 0 <= q -> 0 <= k < fb g -> q * 2 ^ k < Bg -> wrapping_shl (fI g) q k = q * 2 ^ k.
Proof using W.
  intros Hq Hk H. apply wrapping_shl_u; try lia. rewrite (fb_eq g Wg). pose proof (pow2_pos k ltac:(lia)). nia.
Qed.
Lemma Bg_le : 2 ^ fb f <= Bg.
Proof using W. pose proof fbs. apply pow2_le. lia. Qed.

(** The magnitude computed by [extend]. *)
Definition ext_mag (n : Z) : res Z :=
  let* src_nan_code := csub (fI f) (SIG_MASK f) 1 in
  let* sig_bits_delta := csub (UI 32) (fs g) (fs f) in
  let* exp_bias_delta := csub (UI 32) (EXP_BIAS g) (EXP_BIAS f) in
  let a_abs := n in
    (if wrapping_sub (fI f) a_abs (IMPLICIT_BIT f)
        <? wrapping_sub (fI f) (EXP_MASK f) (IMPLICIT_BIT f) then
       let* abs_dst := ccast (fI g) a_abs in
       let* bias_dst := ccast (fI g) exp_bias_delta in
       cadd (fI g) (wrapping_shl (fI g) abs_dst sig_bits_delta)
                   (wrapping_shl (fI g) bias_dst (fs g))
     else if EXP_MASK f <=? a_abs then
       let* qnan_dst := ccast (fI g) (Z.land a_abs (SIG_MASK f)) in
       let* nan_code_dst := ccast (fI g) (Z.land a_abs src_nan_code) in
       let* inf_exp_dst := ccast (fI g) (EXP_SAT g) in
       Ok (Z.lor (Z.lor (wrapping_shl (fI g) inf_exp_dst (fs g))
                        (wrapping_shl (fI g) qnan_dst sig_bits_delta))
                 (wrapping_shl (fI g) nan_code_dst sig_bits_delta))
     else if negb (a_abs =? 0) then
       let* scale := csub (UI 32) (nlz (fb f) a_abs) (nlz (fb f) (IMPLICIT_BIT f)) in
       let* abs_dst := ccast (fI g) a_abs in
       let* d := csub (UI 32) exp_bias_delta scale in
       let* d := cadd (UI 32) d 1 in
       let* bias_dst := ccast (fI g) d in
       let* sh := cadd (UI 32) sig_bits_delta scale in
       let abs_result := wrapping_shl (fI g) abs_dst sh in
       Ok (Z.lor (Z.lxor abs_result (IMPLICIT_BIT g)) (wrapping_shl (fI g) bias_dst (fs g)))
     else Ok 0).

Lemma extend_split s n r : 0 <= n < Bf -> ext_mag n = Ok r -> 0 <= r < Bg ->
  extend f g (b2z s * Bf + n) = Ok (b2z s * Bg + r).
Proof using W.
  intros Hn Hr Hb. pose proof fbs. unfold extend.
  assert (csub (fI f) (SIGN_MASK f) 1 = Ok (abs_mask f)) as ->.
  { unfold fI, abs_mask. rewrite csub_u; [reflexivity|]. rewrite (SIGN_MASK_eq f Wf), (fb_eq f Wf). pose proof (pow2_pos (fb f - 1) ltac:(lia)). lia. }
  cbn [bind]. rewrite (mag_of f Wf) by assumption. rewrite (sgn_of f Wf) by assumption.
  unfold ext_mag in Hr.
  destruct (csub (fI f) (SIG_MASK f) 1) as [nc|]; [|discriminate Hr]. cbn [bind] in *.
  destruct (csub (UI 32) (fs g) (fs f)) as [sd|]; [|discriminate Hr]. cbn [bind] in *.
  destruct (csub (UI 32) (EXP_BIAS g) (EXP_BIAS f)) as [xd|]; [|discriminate Hr]. cbn [bind] in *.
  cbv zeta in Hr |- *. rewrite Hr. cbn [bind].
  unfold ccast. unfold fI at 1. rewrite chk_u.
  2:{ rewrite (fb_eq g Wg). pose proof Bg_le. rewrite (fb_eq f Wf) in *. pose proof (pow2_pos (fb f - 1) ltac:(lia)). destruct s; cbn [b2z]; lia. }
  cbn [bind]. rewrite csub_u by (change (2 ^ 32) with 4294967296; lia). cbn [bind].
  rewrite shl_sign. f_equal. rewrite Z.lor_comm.
  replace (b2z s * Bg) with (b2z s * Bg + 0) by lia. rewrite (lor_sign g Wg) by lia. rewrite Z.lor_0_l. lia.
Qed.

Lemma ext_mag_ok n : 0 <= n < Bf -> exists r, ext_mag n = Ok r /\ 0 <= r < Bg /\
  (n < inf f -> r < inf g /\ (IZR (V g r) * bpow radix2 (emin g) = IZR (V f n) * bpow radix2 (emin f))%R) /\
  (inf f <= n -> r = inf g + n mod Sf * 2 ^ dl).
Proof using W.
  intros Hn. pose proof fbs as FB. pose proof bd_range as BR. pose proof Sg_eq as SE. pose proof Bg_le as BG.
  pose proof (fb_eq f Wf) as FE. pose proof (fb_eq g Wg) as GE. pose proof (inf_pos f Wf) as IP. pose proof (inf_pos g Wg) as IG.
  pose proof (S_big f Wf) as SB. pose proof (pow2_pos dl ltac:(destruct W; lia)) as DP.
  pose proof (B_eq f Wf) as BF. pose proof (B_eq g Wg) as BGE. pose proof (inf_eq f Wf) as IE. pose proof (inf_eq g Wg) as IEG.
  pose proof (fb_big g Wg) as (FB1 & FB2 & _). change (2 ^ 16) with 65536 in FB2.
  unfold ext_mag. unfold fI at 1. rewrite (SIG_MASK_eq f Wf). rewrite csub_u by lia. cbn [bind].
  rewrite csub_u by (change (2 ^ 32) with 4294967296; destruct W; lia). cbn [bind].
  rewrite csub_u by (change (2 ^ 32) with 4294967296; lia). cbn [bind]. cbv zeta.
  rewrite (EXP_MASK_eq f Wf), (IMPLICIT_BIT_eq f Wf), (IMPLICIT_BIT_eq g Wg).
  assert ((wrapping_sub (fI f) n Sf <? wrapping_sub (fI f) (inf f) Sf) = (Sf <=? n) && (n <? inf f)) as ->.
  { unfold fI. rewrite !wrapping_sub_u by lia. replace (Sf <=? inf f) with true by (symmetry; apply Z.leb_le; lia).
    destruct (Z.leb_spec Sf n); cbn [andb]; [|apply Z.ltb_ge; lia].
    destruct (Z.ltb_spec n (inf f)); [apply Z.ltb_lt|apply Z.ltb_ge]; lia. }
  pose proof (Z.div_mod n Sf ltac:(lia)) as DM. pose proof (Z.mod_pos_bound n Sf ltac:(lia)) as MB.
  destruct (Z.leb_spec Sf n) as [L|L]; cbn [andb].
  destruct (Z.ltb_spec n (inf f)) as [L2|L2].
  - (* normal *)
    assert (1 <= n / Sf < 2 ^ eb f - 1) as DB.
    { split; [apply Z.div_le_lower_bound; lia|apply Z.div_lt_upper_bound; lia]. }
    unfold ccast, fI. rewrite !chk_u by lia. cbn [bind].
    fold (fI g). assert (n * 2 ^ dl < Bg) as NB.
    { apply Z.lt_le_trans with (Bf * 2 ^ dl); [apply Z.mul_lt_mono_pos_r; lia|]. rewrite BF, BGE, SE.
      pose proof (pow2_le (eb f) (eb g) ltac:(destruct W; lia)) as PL.
      replace (Sf * 2 ^ eb f * 2 ^ dl) with (2 ^ eb f * (Sf * 2 ^ dl)) by ring. rewrite (Z.mul_comm (Sf * 2 ^ dl)).
      apply Z.mul_le_mono_nonneg_r; [|exact PL]. apply Z.mul_nonneg_nonneg; lia. }
    rewrite shl_exp by lia. rewrite shl_sig by (try lia; destruct W; lia).
    assert (n * 2 ^ dl + bd * Sg = enc g (n / Sf + bd) ((Sf + n mod Sf) * 2 ^ dl)) as EE.
    { unfold enc. rewrite SE. rewrite DM at 1. ring. }
    assert (Sg <= (Sf + n mod Sf) * 2 ^ dl < 2 * Sg) as QB.
    { pose proof (scale_window Sf (2 * Sf) (Sf + n mod Sf) (2 ^ dl) ltac:(lia) DP). rewrite SE. lia. }
    assert (0 <= enc g (n / Sf + bd) ((Sf + n mod Sf) * 2 ^ dl) < inf g) as EB.
    { apply (enc_range g _ _ Wg); lia. }
    unfold fI. rewrite cadd_u by lia. rewrite EE. eexists. split; [reflexivity|]. split; [lia|]. split; [|lia].
    intros _. split; [lia|].
    replace n with (enc f (n / Sf) (Sf + n mod Sf)) at 3 by (unfold enc; rewrite DM at 3; ring).
    apply value_scaled with dl; lia.
  - (* inf, nan *)
    replace (inf f <=? n) with true by (symmetry; apply Z.leb_le; lia).
    rewrite land_ones_mod by (destruct Wf; lia).
    assert (0 <= Z.land n (Sf - 1 - 1) < Sf /\ Z.lor (n mod Sf) (Z.land n (Sf - 1 - 1)) = n mod Sf) as (LB & LO).
    { assert (Z.land n (Sf - 1 - 1) = Z.land (n mod Sf) (Sf - 1 - 1)) as ->.
      { rewrite <- (land_ones_mod n) by (destruct Wf; lia). rewrite <- Z.land_assoc. f_equal.
        rewrite Z.land_comm, land_ones_mod, Z.mod_small by (destruct Wf; lia). reflexivity. }
      split.
      - apply land_small; try lia; destruct Wf; lia.
      - apply Z.bits_inj'; intros i _; rewrite Z.lor_spec, Z.land_spec; destruct (Z.testbit (n mod Sf) i), (Z.testbit (Sf - 1 - 1) i); reflexivity. }
    set (c := Z.land n (Sf - 1 - 1)) in *.
    assert (forall x, 0 <= x < Sf -> 0 <= x * 2 ^ dl < Sg) as XB by (intros x Hx; rewrite SE; pose proof (scale_window 0 Sf x (2 ^ dl) Hx DP); lia).
    pose proof (XB (n mod Sf) MB). pose proof (XB c ltac:(lia)).
    rewrite (EXP_SAT_eq g Wg). pose proof (EB_big g Wg).
    unfold ccast, fI. rewrite !chk_u by lia. cbn [bind]. fold (fI g).
    rewrite shl_exp by lia. rewrite !shl_sig by (try lia; destruct W; lia). rewrite <- Z.lor_assoc.
    rewrite <- !shiftl_mul with (x := n mod Sf) by (destruct W; lia). rewrite <- !shiftl_mul with (x := c) by (destruct W; lia).
    rewrite <- Z.shiftl_lor, LO. rewrite shiftl_mul by (destruct W; lia).
    rewrite Z.lor_comm, lor_add_low by (try lia; destruct Wg; lia).
    eexists. split; [reflexivity|]. split; [lia|]. split; [lia|]. intros _. rewrite IEG. ring.
  - (* subnormal or zero *)
    replace (inf f <=? n) with false by (symmetry; apply Z.leb_gt; lia).
    destruct (Z.eqb_spec n 0) as [->|NZ]; cbn [negb].
    + exists 0. split; [reflexivity|]. split; [lia|]. split; [|lia]. intros _. split; [lia|].
      rewrite (V_0 f Wf), (V_0 g Wg). lra.
    + assert (nlz (fb f) Sf = fb f - 1 - fs f) as N2.
      { apply nlz_unique; [|destruct Wf; lia]. split; [apply pow2_le; lia|apply pow2_lt; destruct Wf; lia]. }
      destruct (nlz_spec (fb f) n ltac:(lia)) as (NB & N1). rewrite N2.
      set (h := nlz (fb f) n - (fb f - 1 - fs f)) in *.
      replace (fb f - 1 - nlz (fb f) n) with (fs f - h) in N1 by (unfold h; lia).
      replace (fb f - nlz (fb f) n) with (fs f - h + 1) in N1 by (unfold h; lia).
      assert (1 <= h) as H1.
      { destruct (Z_lt_le_dec h 1); [|lia]. pose proof (pow2_le (fs f) (fs f - h) ltac:(lia)). lia. }
      assert (h <= fs f) as H2.
      { destruct (Z_le_gt_dec h (fs f)); [assumption|]. unfold h in *. destruct Wf. lia. }
      rewrite csub_u by (change (2 ^ 32) with 4294967296; lia). cbn [bind]. fold h.
      unfold ccast at 1. unfold fI at 1. rewrite chk_u by lia. cbn [bind]. pose proof (wi_s _ _ W) as W1. pose proof (wi_e _ _ W) as W2. pose proof (wi_b _ _ W) as W3.
      rewrite csub_u by (change (2 ^ 32) with 4294967296; lia). cbn [bind].
      rewrite cadd_u by (change (2 ^ 32) with 4294967296; lia). cbn [bind].
      unfold ccast. unfold fI at 1. rewrite chk_u by lia. cbn [bind].
      rewrite cadd_u by (change (2 ^ 32) with 4294967296; lia). cbn [bind].
      assert (Sf <= n * 2 ^ h < 2 * Sf) as HB.
      { replace (fs f) with (fs f - h + h) by lia. rewrite pow2_add by lia. replace (fs f - h + 1) with (1 + (fs f - h)) in N1 by lia.
        rewrite pow2_add in N1 by lia. pose proof (scale_window _ _ _ (2 ^ h) N1 (pow2_pos h ltac:(lia))). lia. }
      assert (n * 2 ^ (dl + h) = n * 2 ^ h * 2 ^ dl) as PE by (rewrite pow2_add by lia; ring).
      assert (Sg <= n * 2 ^ (dl + h) < 2 * Sg) as QB by (rewrite PE, SE; pose proof (scale_window Sf (2 * Sf) (n * 2 ^ h) (2 ^ dl) HB DP); lia).
      rewrite shl_exp by (pose proof (EB_big g Wg); lia). rewrite shl_sig by (try lia; rewrite BGE; pose proof (EB_big g Wg); pose proof (Z.mul_le_mono_nonneg_l 2 (2 ^ eb g) Sg ltac:(lia) ltac:(lia)); lia).
      replace (Z.lxor (n * 2 ^ (dl + h)) Sg) with (n * 2 ^ (dl + h) - Sg).
      2:{ replace (n * 2 ^ (dl + h)) with (b2z true * Sg + (n * 2 ^ (dl + h) - Sg)) at 2 by (cbn [b2z]; lia).
          rewrite lxor_mk_top by lia. cbn [negb b2z]. lia. }
      rewrite lor_add_low by lia.
      replace (n * 2 ^ (dl + h) - Sg + (bd - h + 1) * Sg) with (enc g (1 + bd - h) (n * 2 ^ (dl + h))) by (unfold enc; ring).
      assert (0 <= enc g (1 + bd - h) (n * 2 ^ (dl + h)) < inf g) as EB.
      { apply (enc_range g _ _ Wg); pose proof (EB_big f Wf); lia. }
      eexists. split; [reflexivity|]. split; [lia|]. split; [|lia]. intros _. split; [lia|].
      replace n with (enc f 1 n) at 2 by (unfold enc; ring).
      apply value_scaled with (dl + h); lia.
Qed.

Theorem extend_correct a : is_float f a -> exists r, extend f g a = Ok r /\ ieee_extend f g a r.
Proof using W.
  intros Ha. destruct (split_float f Wf a Ha) as (s & n & -> & Hn).
  destruct (ext_mag_ok n Hn) as (r & E & Hr & Hfin & Hnan).
  exists (b2z s * Bg + r). split; [apply extend_split; assumption|].
  pose proof (S_pos f Wf). pose proof (Z.mod_pos_bound n Sf ltac:(lia)) as MB. pose proof Sg_eq as SE. pose proof (inf_eq g Wg) as IG. pose proof (inf_eq f Wf) as IFe.
  pose proof (pow2_pos dl ltac:(destruct W; lia)) as DP.
  unfold ieee_extend. rewrite (is_nan_mk f Wf), (is_inf_mk f Wf), (is_finite_mk f Wf), (is_nan_mk g Wg), (is_inf_mk g Wg), (is_finite_mk g Wg) by assumption.
  rewrite (sign_of_mk f Wf), (sign_of_mk g Wg) by assumption. rewrite !frac_field_mk by assumption.
  split; [apply (is_float_mk g Wg); assumption|]. split; [reflexivity|]. split; [|split].
  - intros Hl. specialize (Hnan ltac:(lia)).
    assert (n mod Sf <> 0) as NZ.
    { intros Z. pose proof (Z.div_mod n Sf ltac:(lia)) as DM. rewrite Z in DM.
      assert (n / Sf = 2 ^ eb f - 1) by (apply (div_inf f Wf); lia). nia. }
    pose proof (scale_window 0 Sf (n mod Sf) (2 ^ dl) MB DP). pose proof (Z.mul_pos_pos (n mod Sf) (2 ^ dl) ltac:(lia) DP).
    rewrite Hnan. split; [lia|]. rewrite IG, Z.add_comm, Z.mod_add by (pose proof (S_pos g Wg); lia).
    apply Z.mod_small. rewrite SE. lia.
  - intros ->. rewrite (Hnan ltac:(lia)). rewrite IFe, Z.mod_mul by lia. lia.
  - intros Hl. destruct (Hfin Hl) as (L & V). split; [assumption|].
    rewrite (value_mk f Wf), (value_mk g Wg) by assumption. rewrite V. reflexivity.
Qed.
End Pair.
