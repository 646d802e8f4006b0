(** Proofs for narrowing (trunc.rs). *)
From Coq Require Import ZArith Reals Bool List Lia Lra.
From Flocq Require Import Core.
From Verif Require Import Base BaseLemmas FloatModel FloatSpec FloatProofs FloatProofs2 FloatProofs3 FloatProofs5 FloatProofs7 FloatConvModel FloatConvSpec FloatConvProofs2.
Open Scope Z_scope.

Lemma rup_pow M d : 1 <= d -> rup M (2 ^ d) =
  if 2 ^ (d - 1) <? M mod 2 ^ d then 1 else if M mod 2 ^ d =? 2 ^ (d - 1) then (M / 2 ^ d) mod 2 else 0.
Proof.
  intros Hd. unfold rup. rewrite (pow2_S d) at 2 by lia.
  destruct (Z.ltb_spec (2 ^ (d - 1)) (M mod 2 ^ d)), (Z.eqb_spec (M mod 2 ^ d) (2 ^ (d - 1))), (Z.compare_spec (2 * (M mod 2 ^ d)) (2 * 2 ^ (d - 1))); try lia; reflexivity.
Qed.
Lemma rup_bound A D : 0 <= rup A D <= 1.
Proof. unfold rup. pose proof (Z.mod_pos_bound (A / D) 2 ltac:(lia)). destruct (_ ?= _); lia. Qed.

Section Pair.
Context (f g : fmt) (W : wider g f).
Notation Sf := (2 ^ fs f).
Notation Sg := (2 ^ fs g).
Notation Bf := (2 ^ (fb f - 1)).
Notation Bg := (2 ^ (fb g - 1)).
Let Wf := wi_g _ _ W.
Let Wg := wi_f _ _ W.
Notation dl := (fs f - fs g).
Notation bd := (EXP_BIAS f - EXP_BIAS g).
Notation UN := ((bd + 1) * Sf).
Notation OV := ((2 ^ eb g - 1 + bd) * Sf).

Lemma trunc_round_ok q A : 0 <= q -> q + 1 < 2 ^ fb g -> q mod 2 = (A / 2 ^ dl) mod 2 ->
  trunc_round g q (A mod 2 ^ dl) (2 ^ (dl - 1)) = Ok (q + rup A (2 ^ dl)).
Proof using W.
  intros Hq Hb Hp. rewrite rup_pow by (destruct W; lia). unfold trunc_round, fI. rewrite land_1, Hp.
  pose proof (Z.mod_pos_bound (A / 2 ^ dl) 2 ltac:(lia)).
  destruct (_ <? _); [apply cadd_u; lia|]. destruct (_ =? _); [apply cadd_u; lia|]. f_equal. lia.
Qed.

(** The magnitude computed by [trunc], its constants evaluated. *)
Definition tr_mag (n : Z) : res Z :=
  if wrapping_sub (fI f) n UN <? wrapping_sub (fI f) n OV then
    trunc_round g (wrapping_sub (fI g) (norm (fI g) (n / 2 ^ dl)) (bd * Sg)) (n mod 2 ^ dl) (2 ^ (dl - 1))
  else if inf f <? n then
    Ok (Z.lor (Z.lor (inf g) (2 ^ (fs g - 1))) (Z.land (2 ^ (fs g - 1) - 1) (n mod 2 ^ (fs f - 1) / 2 ^ dl)))
  else if OV <=? n then Ok (inf g)
  else
    let* d := csub (UI 32) bd (n / Sf) in
    let* shift := cadd (UI 32) d 1 in
    let significand := Sf + n mod Sf in
    if fs f <? shift then Ok 0
    else
      let* st := csub (UI 32) (fb f) shift in
      let* st := cshl (fI f) significand st in
      let sticky := b2z (negb (st =? 0)) in
      let* h := cshr (fI f) significand shift in
      let denormalized_significand := Z.lor h sticky in
      let* x := cshr (fI f) denormalized_significand dl in
      let* abs_result := ccast (fI g) x in
      trunc_round g abs_result (Z.land denormalized_significand (2 ^ dl - 1)) (2 ^ (dl - 1)).

Lemma facts : 10 <= fs g /\ fs g + 2 <= fs f /\ fs f < fb f <= 128 /\ fb g < fb f /\ fs g < fb g /\ fs g < fb f /\
  EXP_SAT g = 2 ^ eb g - 1 /\ 2 ^ eb g - 1 + bd <= 2 ^ eb f - 2 /\ 0 < bd < 32768 /\ 32 <= 2 ^ eb g <= 32768 /\ 32 <= 2 ^ eb f <= 32768.
Proof using W.
  pose proof (fbs g f W). pose proof (bd_range g f W). pose proof (EXP_SAT_eq g Wg). pose proof (EB_big g Wg). pose proof (EB_big f Wf).
  pose proof (wi_s _ _ W). pose proof (pow2_S (eb g)).
  assert (2 ^ eb g - 1 + bd <= 2 ^ eb f - 2); [|lia]. lia.
Qed.
Lemma dl_eq : Sf = Sg * 2 ^ dl.
Proof using W. rewrite (Sg_eq g f W). reflexivity. Qed.
Lemma shl32 : 2 ^ 32 = 4294967296. Proof. reflexivity. Qed.
Lemma bias_small : 15 <= EXP_BIAS f <= 16383 /\ 15 <= EXP_BIAS g <= 16383.
Proof using W. split; apply bias_range; assumption. Qed.

Lemma scale_lt e K : 0 <= e < K -> 0 <= e * Sf <= (K - 1) * Sf.
Proof using W. intros H. pose proof (S_pos f Wf). split; [apply Z.mul_nonneg_nonneg; lia|apply Z.mul_le_mono_nonneg_r; lia]. Qed.

Lemma trunc_split s n r : 0 <= n < Bf -> tr_mag n = Ok r -> 0 <= r < Bg -> trunc f g (b2z s * Bf + n) = Ok (b2z s * Bg + r).
Proof using W.
  intros Hn Hr Hb. pose proof facts as (F1 & F2 & F3 & F4 & F5 & F6 & F7 & F8 & F9 & F10 & F11). pose proof bias_small as BS. pose proof dl_eq as DE.
  pose proof (fb_eq f Wf) as FE. pose proof (fb_eq g Wg) as GE. pose proof (B_eq f Wf) as BF. pose proof (B_eq g Wg) as BGE.
  pose proof (S_big f Wf) as SB. pose proof (S_big g Wg) as SBg. pose proof (pow2_pos dl ltac:(lia)) as DP.
  pose proof (pow2_lt dl (fs f) ltac:(lia) ltac:(lia)) as D1. pose proof (pow2_lt (dl - 1) dl ltac:(lia) ltac:(lia)) as D2. 
  pose proof (pow2_pos (dl - 1) ltac:(lia)) as D3. pose proof (inf_pos f Wf) as IP.
  pose proof (pow2_pos (fs f - 1) ltac:(lia)) as Q1. pose proof (pow2_lt (fs f - 1) (fs f) ltac:(lia) ltac:(lia)) as Q2.
  pose proof (pow2_pos (fs g - 1) ltac:(lia)) as Q3. pose proof (pow2_lt (fs g - 1) (fs g) ltac:(lia) ltac:(lia)) as Q4. pose proof (inf_pos g Wg) as IG.
  pose proof (fb_big f Wf) as (_ & FB2 & _). change (2 ^ 16) with 65536 in FB2. pose proof (fb_big g Wg) as (_ & FB3 & _). change (2 ^ 16) with 65536 in FB3.
  pose proof (scale_lt (bd + 1) (2 ^ eb f) ltac:(lia)) as U1. pose proof (scale_lt (2 ^ eb g - 1 + bd) (2 ^ eb f) ltac:(lia)) as U2.
  unfold trunc.
  assert (csub (fI f) (SIGN_MASK f) 1 = Ok (abs_mask f)) as ->.
  { unfold fI, abs_mask. rewrite csub_u; [reflexivity|]. rewrite (SIGN_MASK_eq f Wf). lia. }
  cbn [bind]. rewrite csub_u by (rewrite shl32; lia). cbn [bind].
  unfold fI at 1. rewrite cshl_u_exact by lia. cbn [bind]. rewrite !Z.mul_1_l. unfold fI at 1. rewrite csub_u by lia. cbn [bind].
  rewrite csub_u by (rewrite shl32; lia). cbn [bind].
  unfold fI at 1. rewrite cshl_u_exact by lia. cbn [bind]. rewrite !Z.mul_1_l. 
  unfold fI at 1. rewrite cshl_u_exact by lia. cbn [bind]. rewrite !Z.mul_1_l. unfold fI at 1. rewrite csub_u by lia. cbn [bind].
  rewrite csub_u by (rewrite shl32; lia). cbn [bind].
  unfold ccast at 1. unfold fI at 1. rewrite chk_u by lia. cbn [bind].
  rewrite F7. rewrite csub_u by (rewrite shl32; lia). cbn [bind].
  unfold ccast at 1. unfold fI at 1. rewrite chk_u by lia. cbn [bind].
  replace (EXP_BIAS f + 1 - EXP_BIAS g) with (bd + 1) by lia. replace (EXP_BIAS f + (2 ^ eb g - 1) - EXP_BIAS g) with (2 ^ eb g - 1 + bd) by lia.
  unfold fI at 1. rewrite cshl_u_exact by lia. cbn [bind].
  unfold fI at 1. rewrite cshl_u_exact by lia. cbn [bind].
  unfold fI at 1. rewrite cshl_u_exact by lia. cbn [bind]. rewrite !Z.mul_1_l.
  unfold fI at 1. rewrite csub_u by lia. cbn [bind].
  rewrite (mag_of f Wf), (sgn_of f Wf), (frac_of f Wf) by assumption. rewrite (EXP_MASK_eq f Wf), (IMPLICIT_BIT_eq f Wf).
  match goal with |- bind ?m ?k = _ => assert (m = tr_mag n) as -> end.
  { unfold tr_mag. destruct (_ <? _).
    { unfold fI at 1. rewrite cshr_ok by (cbn [bits UI]; lia). cbn [bind].
      assert (wrapping_sub (UI 32) (EXP_BIAS f) (EXP_BIAS g) = bd) as ->.
      { unfold wrapping_sub. apply norm_u_id. rewrite shl32. lia. }
      unfold ccast. unfold fI at 1. rewrite chk_u by lia. cbn [bind].
      unfold fI at 1. rewrite cshl_ok by (cbn [bits UI]; lia). cbn [bind].
      rewrite land_ones_mod by lia. f_equal. unfold wrapping_sub, fI. rewrite norm_sub_r by (cbn [bits UI]; lia). reflexivity. }
    assert (cshl (fI g) (2 ^ eb g - 1) (fs g) = Ok (inf g)) as CI.
    { unfold fI. rewrite cshl_u_exact; try lia. rewrite (inf_eq g Wg). reflexivity. }
    assert (ccast (fI g) (2 ^ eb g - 1) = Ok (2 ^ eb g - 1)) as CC by (unfold ccast, fI; apply chk_u; lia).
    destruct (_ <? _).
    { rewrite CC. cbn [bind]. rewrite CI. cbn [bind]. rewrite land_ones_mod by lia.
      unfold fI at 1. rewrite cshr_ok by (cbn [bits UI]; lia). cbn [bind].
      unfold ccast, fI. rewrite chk_u; [reflexivity|].
      pose proof (Z.mod_pos_bound n (2 ^ (fs f - 1)) ltac:(lia)). split; [apply Z.div_pos; lia|].
      apply Z.div_lt_upper_bound; [lia|]. apply Z.lt_le_trans with Sf; [lia|]. rewrite DE, Z.mul_comm. apply Z.mul_le_mono_nonneg_l; lia. }
    destruct (_ <=? _). { rewrite CC. cbn [bind]. exact CI. }
    unfold fI at 1. rewrite cshr_ok by (cbn [bits UI]; lia). cbn [bind].
    unfold ccast at 1. rewrite chk_u.
    2:{ rewrite shl32. split; [apply Z.div_pos; lia|]. apply Z.div_lt_upper_bound; [lia|]. apply Z.lt_le_trans with Bf; [lia|]. rewrite BF. apply Z.mul_le_mono_nonneg_l; lia. }
    cbn [bind]. rewrite csub_u by (rewrite shl32; lia). cbn [bind].
    assert (Z.lor (n mod Sf) Sf = Sf + n mod Sf) as ->.
    { pose proof (Z.mod_pos_bound n Sf ltac:(lia)). pose proof (lor_add_low (n mod Sf) 1 (fs f) ltac:(lia) ltac:(lia)) as L. rewrite Z.mul_1_l in L. lia. }
    reflexivity. }
  rewrite Hr. cbn [bind]. rewrite csub_u by (rewrite shl32; lia). cbn [bind].
  assert (wrapping_shr (fI f) (b2z s * Bf) (fb f - fb g) = b2z s * Bg) as ->.
  { unfold wrapping_shr. cbn [bits fI UI]. rewrite Z.mod_small by lia. rewrite shiftr_div by lia.
    replace (b2z s * Bf) with (b2z s * Bg * 2 ^ (fb f - fb g)). - apply Z.div_mul. pose proof (pow2_pos (fb f - fb g)). lia.
    - rewrite <- Z.mul_assoc, <- pow2_add by lia. do 2 f_equal. lia. }
  unfold ccast, fI. rewrite chk_u by (destruct s; cbn [b2z]; lia). cbn [bind]. f_equal. rewrite Z.lor_comm.
  replace (b2z s * Bg) with (b2z s * Bg + 0) by lia. rewrite (lor_sign g Wg) by lia. rewrite Z.lor_0_l. lia.
Qed.

Notation uf := (bpow radix2 (emin f)).
Notation ug := (bpow radix2 (emin g)).

Lemma tr_value E q n : n = enc f E q -> 1 <= E -> 0 <= q <= 2 * Sf -> (E = 1 \/ Sf <= q) ->
  (IZR (V f n) * uf = IZR q / IZR (2 ^ dl) * bpow radix2 (E - bd - 1) * ug)%R.
Proof using W.
  intros En HE Hq Hn. rewrite (IZR_V f Wf E q n En) by assumption.
  pose proof facts as (F1 & F2 & _). rewrite (IZR_Zpower radix2) by lia. unfold Rdiv. rewrite <- bpow_opp.
  rewrite !Rmult_assoc, <- !bpow_plus. do 2 f_equal. rewrite (emin_rel g f W). lia.
Qed.

Lemma tr_mag_ok n : 0 <= n < Bf -> exists r, tr_mag n = Ok r /\ 0 <= r < Bg /\
  (n < inf f -> rmag g (IZR (V f n) * uf) r) /\ (n = inf f -> r = inf g) /\
  (inf f < n -> r = inf g + (2 ^ (fs g - 1) + n mod 2 ^ (fs f - 1) / 2 ^ dl) /\ 0 <= n mod 2 ^ (fs f - 1) / 2 ^ dl < 2 ^ (fs g - 1)).
Proof using W.
  intros Hn. pose proof facts as (F1 & F2 & F3 & F4 & F5 & F6 & F7 & F8 & F9 & F10 & F11). pose proof bias_small as BS. pose proof dl_eq as DE.
  pose proof (fb_eq f Wf) as FE. pose proof (fb_eq g Wg) as GE. pose proof (B_eq f Wf) as BF. pose proof (B_eq g Wg) as BGE.
  pose proof (S_big f Wf) as SB. pose proof (S_big g Wg) as SBg. pose proof (pow2_pos dl ltac:(lia)) as DP.
  pose proof (inf_pos f Wf) as IP. pose proof (inf_pos g Wg) as IG. pose proof (inf_eq f Wf) as IE. pose proof (inf_eq g Wg) as IEg.
  pose proof (scale_lt (bd + 1) (2 ^ eb f) ltac:(lia)) as U1. pose proof (scale_lt (2 ^ eb g - 1 + bd) (2 ^ eb f - 1) ltac:(lia)) as U2.
  assert (UN < OV) as UO by (apply Z.mul_lt_mono_pos_r; lia).
  assert (OV <= inf f) as OI by (rewrite IE; apply Z.mul_le_mono_nonneg_r; lia).
  pose proof (S_even g Wg) as SEv. pose proof (pow2_pos (fs g - 1) ltac:(lia)) as Q3.
  pose proof (Z.div_mod n Sf ltac:(lia)) as DM. pose proof (Z.mod_pos_bound n Sf ltac:(lia)) as MB.
  unfold tr_mag. unfold fI at 1 2.
  assert ((wrapping_sub (UI (fb f)) n UN <? wrapping_sub (UI (fb f)) n OV) = (UN <=? n) && (n <? OV)) as ->.
  { rewrite !wrapping_sub_u by lia. destruct (Z.leb_spec UN n), (Z.leb_spec OV n); cbn [andb].
    - replace (n <? OV) with false by (symmetry; apply Z.ltb_ge; lia). apply Z.ltb_ge. lia.
    - replace (n <? OV) with true by (symmetry; apply Z.ltb_lt; lia). apply Z.ltb_lt. lia.
    - lia.
    - apply Z.ltb_ge. lia. }
  destruct (Z.leb_spec UN n) as [L1|L1]; cbn [andb]; [destruct (Z.ltb_spec n OV) as [L2|L2]|].
  - (* normal *)
    set (e := n / Sf) in *. set (A := Sf + n mod Sf) in *.
    assert (bd + 1 <= e < 2 ^ eb g - 1 + bd) as EB.
    { unfold e. split; [apply Z.div_le_lower_bound; lia|apply Z.div_lt_upper_bound; lia]. }
    assert (n = A + (e - 1) * Sg * 2 ^ dl) as NA by (unfold A; rewrite <- Z.mul_assoc, <- DE; rewrite DM at 1; ring).
    assert (n / 2 ^ dl = A / 2 ^ dl + (e - 1) * Sg) as ND by (rewrite NA at 1; rewrite Z.div_add by lia; reflexivity).
    assert (n mod 2 ^ dl = A mod 2 ^ dl) as NM by (rewrite NA at 1; rewrite Z.mod_add by lia; reflexivity).
    assert (Sg <= A / 2 ^ dl < 2 * Sg) as QB.
    { unfold A. split; [apply Z.div_le_lower_bound; [lia|]; rewrite Z.mul_comm, <- DE; lia|].
      apply Z.div_lt_upper_bound; [lia|]. replace (2 ^ dl * (2 * Sg)) with (2 * Sf) by (rewrite DE; ring). lia. }
    pose proof (enc_range g (e - bd) (A / 2 ^ dl) Wg ltac:(lia) ltac:(lia)) as ER.
    assert (wrapping_sub (fI g) (norm (fI g) (n / 2 ^ dl)) (bd * Sg) = enc g (e - bd) (A / 2 ^ dl)) as ->.
    { unfold wrapping_sub, fI. rewrite norm_sub_l by (cbn [bits UI]; lia). rewrite ND.
      replace (A / 2 ^ dl + (e - 1) * Sg - bd * Sg) with (enc g (e - bd) (A / 2 ^ dl)) by (unfold enc; ring). apply norm_u_id. lia. }
    rewrite NM. rewrite trunc_round_ok; try lia.
    2:{ unfold enc. replace ((e - bd - 1) * Sg + A / 2 ^ dl) with (A / 2 ^ dl + (e - bd - 1) * 2 ^ (fs g - 1) * 2) by (rewrite SEv; ring). apply Z.mod_add. lia. }
    pose proof (rup_bound A (2 ^ dl)) as RB.
    eexists. split; [reflexivity|]. split; [clear - RB ER IG; lia|]. split; [|split; intros; exfalso; clear - L2 OI H; lia]. intros _.
    assert (Sf <= A < 2 * Sf) as AB by (unfold A; clear - MB; lia).
    assert (n = enc f e A) as NE by (unfold enc, A; rewrite DM at 1; ring).
    assert (1 <= e) as E1 by (clear - EB F9; lia).
    rewrite (tr_value e A n NE E1) by (clear - AB; lia).
    assert (Sg * 2 ^ dl <= A < 2 * Sg * 2 ^ dl) as AB2.
    { replace (2 * Sg * 2 ^ dl) with (2 * Sf) by (rewrite DE; ring). rewrite <- DE. exact AB. }
    apply (pack g Wg); [clear - EB; lia|exact DP|clear - AB2 SBg DP AB SB; lia|right; apply AB2].
  - (* overflow, inf, nan *)
    replace (OV <=? n) with true by (symmetry; apply Z.leb_le; lia).
    destruct (Z.ltb_spec (inf f) n) as [L3|L3].
    + assert (0 <= n mod 2 ^ (fs f - 1) / 2 ^ dl < 2 ^ (fs g - 1)) as PB.
      { pose proof (Z.mod_pos_bound n (2 ^ (fs f - 1)) (pow2_pos (fs f - 1) ltac:(lia))). split; [apply Z.div_pos; lia|].
        apply Z.div_lt_upper_bound; [lia|]. rewrite <- pow2_add by lia. replace (dl + (fs g - 1)) with (fs f - 1) by lia. lia. }
      set (p := n mod 2 ^ (fs f - 1) / 2 ^ dl) in *.
      assert (Z.land (2 ^ (fs g - 1) - 1) p = p) as -> by (rewrite Z.land_comm, land_ones_mod, Z.mod_small; lia).
      rewrite <- Z.lor_assoc. assert (Z.lor (2 ^ (fs g - 1)) p = 2 ^ (fs g - 1) + p) as ->.
      { pose proof (lor_add_low p 1 (fs g - 1) ltac:(lia) PB) as L. rewrite Z.mul_1_l in L. rewrite Z.lor_comm. lia. }
      assert (Z.lor (inf g) (2 ^ (fs g - 1) + p) = inf g + (2 ^ (fs g - 1) + p)) as ->.
      { rewrite IEg, Z.lor_comm, lor_add_low by lia. ring. }
      eexists. split; [reflexivity|]. lia.
    + eexists. split; [reflexivity|]. split; [lia|]. split; [|lia]. intros L4. apply (rmag_overflow g Wg).
      assert (OV = enc f (2 ^ eb g - 1 + bd) Sf) as OE by (unfold enc; ring).
      apply Rle_trans with (IZR (V f OV) * uf)%R.
      * rewrite (tr_value _ _ _ OE) by lia. rewrite DE at 1. rewrite mult_IZR. pose proof (IZR_lt _ _ DP) as DR.
        replace (IZR Sg * IZR (2 ^ dl) / IZR (2 ^ dl))%R with (IZR Sg) by (field; lra).
        rewrite (IZR_Zpower radix2) by lia. rewrite <- !bpow_plus. apply bpow_le.
        unfold emax, emin. destruct (bias_range g Wg) as (_ & -> & _). pose proof (EXP_BIAS_eq g Wg). pose proof (pow2_S (eb g) ltac:(destruct Wg; lia)). lia.
      * apply Rmult_le_compat_r; [apply bpow_ge_0|]. apply IZR_le. apply (V_mono f Wf). lia.
  - (* underflow *)
    replace (inf f <? n) with false by (symmetry; apply Z.ltb_ge; lia).
    replace (OV <=? n) with false by (symmetry; apply Z.leb_gt; lia).
    set (e := n / Sf) in *.
    assert (0 <= e <= bd) as EB.
    { unfold e. split; [apply Z.div_pos; lia|]. apply Z.lt_succ_r. apply Z.div_lt_upper_bound; lia. }
    rewrite csub_u by (rewrite shl32; lia). cbn [bind]. rewrite cadd_u by (rewrite shl32; lia). cbn [bind]. cbv zeta.
    set (sh := bd - e + 1). destruct (Z.ltb_spec (fs f) sh) as [L3|L3].
    + exists 0. split; [reflexivity|]. split; [lia|]. split; [|split; intros; exfalso; clear - H L1 OI UO; lia]. intros _.
      pose proof (wi_b _ _ W) as WB. pose proof (wi_s _ _ W) as WS.
      assert (n <= enc f (bd - fs f + 1) Sf) as NB.
      { unfold enc. replace ((bd - fs f + 1 - 1) * Sf + Sf) with ((bd - fs f + 1) * Sf) by ring.
        assert (Sf * e <= (bd - fs f) * Sf); [rewrite Z.mul_comm; apply Z.mul_le_mono_nonneg_r; unfold sh in L3; lia|]. lia. }
      destruct (Z_lt_le_dec (bd - fs f + 1) 1) as [C|C].
      { pose proof (wi_b g f W). exfalso. assert (e <= bd - fs f) by (unfold sh in L3; lia). lia. }
      pose proof (V_mono f Wf _ _ (conj (proj1 Hn) NB)) as VM. rewrite (V_enc f Wf) in VM by lia.
      replace (bd - fs f + 1 - 1) with (bd - fs f) in VM by lia. rewrite <- pow2_add in VM by lia. replace (fs f + (bd - fs f)) with bd in VM by lia.
      replace (IZR (V f n) * uf)%R with (IZR (V f n) * bpow radix2 (- bd - dl) * ug)%R.
      2:{ rewrite Rmult_assoc, <- bpow_plus. do 2 f_equal. rewrite (emin_rel g f W). lia. }
      apply (pack_tiny g Wg).
      * apply Rmult_le_pos; [apply IZR_le, (V_nonneg f Wf); lia|apply bpow_ge_0].
      * apply Rle_lt_trans with (bpow radix2 bd * bpow radix2 (- bd - dl))%R.
        -- apply Rmult_le_compat_r; [apply bpow_ge_0|]. rewrite <- (IZR_Zpower radix2) by lia. apply IZR_le. exact VM.
        -- rewrite <- bpow_plus. replace (/ 2)%R with (bpow radix2 (-1)) by reflexivity. apply bpow_lt. lia.
    + assert (1 <= sh) as S1 by (unfold sh; lia).
      assert (1 <= e) as E1. { pose proof (wi_b g f W). pose proof (wi_s g f W). unfold sh in L3. lia. }
      rewrite csub_u by (rewrite shl32; lia). cbn [bind].
      set (A := Sf + n mod Sf) in *. assert (Sf <= A < 2 * Sf) as SG by (unfold A; clear - MB; lia).
      assert (shr_sticky f A sh = Ok (stkr A sh)) as SS.
      { apply (shr_sticky_ok f Wf); [|clear - S1 L3 F3; lia]. rewrite FE, BF. pose proof (Z.mul_le_mono_nonneg_l 32 (2 ^ eb f) Sf ltac:(clear - SB; lia) ltac:(clear - F11; lia)). clear - H SG MB SB. lia. }
      unfold shr_sticky in SS. unfold fI at 2 in SS. unfold wrapping_sub in SS.
      rewrite norm_u_id in SS by (pose proof (fb_big f Wf); lia). 
      destruct (cshl (fI f) A (fb f - sh)) as [st|]; [|discriminate SS]. cbn [bind] in SS |- *.
      destruct (cshr (fI f) A sh) as [h|]; [|discriminate SS]. cbn [bind] in SS |- *.
      injection SS as ->.
      assert (stk 0 A (2 ^ sh * 1) (stkr A sh)) as ST.
      { apply stk_shr with 0; try (clear - S1 SG SB; lia). left. lia. }
      rewrite Z.mul_1_r in ST.
      pose proof (stkr_bound A sh Sf ltac:(lia)) as SBd. specialize (SBd ltac:(pose proof (Z.mul_le_mono_nonneg_l 1 (2 ^ sh) (2 * Sf) ltac:(clear - SB; lia) ltac:(pose proof (pow2_pos sh ltac:(clear - S1; lia)); lia)); clear - H SG MB SB; lia)).
      set (M := stkr A sh) in *.
      unfold fI at 1. rewrite cshr_ok by (cbn [bits UI]; lia). cbn [bind].
      assert (0 <= M / 2 ^ dl < 2 * Sg) as QB.
      { split; [apply Z.div_pos; lia|]. apply Z.div_lt_upper_bound; [lia|]. replace (2 ^ dl * (2 * Sg)) with (2 * Sf) by (rewrite DE; ring). lia. }
      assert (2 * Sg < inf g) as SI. { rewrite IEg. pose proof (Z.mul_le_mono_nonneg_r 3 (2 ^ eb g - 1) Sg ltac:(lia) ltac:(lia)). lia. }
      unfold ccast, fI. rewrite chk_u by lia. cbn [bind]. rewrite land_ones_mod by lia.
      rewrite trunc_round_ok by lia. pose proof (rup_bound M (2 ^ dl)) as RB.
      eexists. split; [reflexivity|]. split; [lia|]. split; [|split; intros; exfalso; clear - H L1 OI UO; lia]. intros _.
      rewrite (tr_value e A n); try (unfold A; lia).
      2:{ unfold enc, A. rewrite DM at 1. ring. }
      replace (M / 2 ^ dl + rup M (2 ^ dl)) with (enc g 1 (M / 2 ^ dl) + rup M (2 ^ dl)) by (unfold enc; ring).
      replace (IZR A / IZR (2 ^ dl) * bpow radix2 (e - bd - 1))%R with (IZR A / IZR (2 ^ dl * 2 ^ sh) * bpow radix2 (1 - 1))%R.
      * apply (pack_stk g Wg 1 0 A (2 ^ sh) M dl); [clear - F10; lia|apply pow2_pos; clear - S1; lia|clear - F2; lia|exact ST| |left; reflexivity]. rewrite <- Z.mul_assoc, <- DE. exact SBd.
      * rewrite mult_IZR, !(IZR_Zpower radix2) by lia. unfold Rdiv. rewrite <- bpow_plus, <- !bpow_opp, !Rmult_assoc, <- !bpow_plus. do 2 f_equal. unfold sh. lia.
Qed.

Theorem trunc_correct a : is_float f a -> exists r, trunc f g a = Ok r /\ ieee_narrow f g a r.
Proof using W.
  intros Ha. destruct (split_float f Wf a Ha) as (s & n & -> & Hn).
  destruct (tr_mag_ok n Hn) as (r & E & Hr & Hfin & Hinf & Hnan).
  exists (b2z s * Bg + r). split; [apply trunc_split; assumption|].
  pose proof facts as (F1 & F2 & F3 & _). pose proof (inf_eq g Wg) as IG.
  unfold ieee_narrow. rewrite (is_nan_mk f Wf), (is_inf_mk f Wf), (is_finite_mk f Wf), (is_qnan_mk g Wg), (is_inf_mk g Wg) by assumption.
  rewrite (sign_of_mk f Wf), (sign_of_mk g Wg) by assumption. rewrite !frac_field_mk by assumption.
  split; [apply (is_float_mk g Wg); assumption|]. split; [reflexivity|]. split; [|split].
  - intros Hl. destruct (Hnan Hl) as (-> & P). split; [lia|].
    pose proof (S_even g Wg) as SE. pose proof (S_pos g Wg) as SP.
    rewrite IG, Z.add_comm, Z.mod_add by lia. rewrite (Z.mod_small (_ + _)) by lia.
    assert (forall p m, 0 < m -> (m + p) mod m = p mod m) as AM by (intros p m Hm; replace (m + p) with (p + 1 * m) by ring; apply Z.mod_add; lia).
    rewrite AM by lia.
    replace (2 ^ (fs f - 1)) with (2 ^ dl * 2 ^ (fs g - 1)) by (rewrite <- pow2_add by lia; f_equal; lia).
    replace Sf with (2 ^ dl * Sg) by (rewrite <- pow2_add by lia; f_equal; lia).
    pose proof (pow2_pos dl ltac:(lia)).
    assert (forall m, 0 < m -> n mod (2 ^ dl * m) / 2 ^ dl = (n / 2 ^ dl) mod m) as DMm.
    { intros m Hm. rewrite Z.rem_mul_r by lia. rewrite Z.mul_comm, Z.div_add by lia. rewrite Z.div_small by (apply Z.mod_pos_bound; lia). lia. }
    rewrite !DMm by lia. rewrite Z.mod_mod by lia. rewrite SE, (Z.mul_comm 2). rewrite Z.rem_mul_r by lia.
    rewrite Z.mul_comm, Z.mod_add, Z.mod_mod by lia. reflexivity.
  - exact Hinf.
  - intros Hl. rewrite (value_mk f Wf) by assumption. apply (rounds_mag g Wg); [|apply Hfin; assumption|reflexivity].
    apply Rmult_le_pos; [apply IZR_le, (V_nonneg f Wf); lia|apply bpow_ge_0].
Qed.
End Pair.
