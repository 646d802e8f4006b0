(** Proofs for the conversions from integers to floats (conv.rs). *)
From Coq Require Import ZArith Reals Bool List Lia Lra.
From Flocq Require Import Core.
From Verif Require Import Base BaseLemmas FloatModel FloatSpec FloatProofs FloatProofs2 FloatProofs3 FloatProofs5 FloatProofs7 FloatConvModel FloatConvSpec FloatConvProofs2 FloatConvProofs3.
Open Scope Z_scope.

Lemma mod_mul_div x a b : 0 < a -> 0 < b -> x mod (a * b) / a = (x / a) mod b.
Proof.
  intros Ha Hb. rewrite Z.rem_mul_r by lia. rewrite Z.mul_comm, Z.div_add by lia. rewrite Z.div_small by (apply Z.mod_pos_bound; lia). lia.
Qed.
Lemma mod_mul_mod x a b : 0 < a -> 0 < b -> x mod (a * b) mod a = x mod a.
Proof. intros Ha Hb. rewrite Z.rem_mul_r by lia. rewrite Z.mul_comm, Z.mod_add, Z.mod_mod by lia. reflexivity. Qed.

(** Compressing dropped bits with a sticky part keeps their place relative to one half. *)
Lemma sticky_class k j w R sg : 0 <= j <= w -> w <= k - 1 -> 0 <= R < 2 ^ k -> 0 <= sg < 2 ^ (k - 1 - j) ->
  (sg = 0 <-> R mod 2 ^ w = 0) ->
  let d := Z.lor (R / 2 ^ j) sg in
  0 <= d < 2 ^ (k - j) /\ (2 ^ (k - 1 - j) <? d) = (2 ^ (k - 1) <? R) /\ (d =? 2 ^ (k - 1 - j)) = (R =? 2 ^ (k - 1)).
Proof.
  intros Hj Hw HR Hs HS d.
  pose proof (pow2_pos j ltac:(lia)) as PJ. set (B := 2 ^ (k - 1 - j)) in *.
  assert (2 ^ (k - 1) = B * 2 ^ j) as KE by (unfold B; rewrite <- pow2_add by lia; f_equal; lia).
  assert (2 ^ k = 2 * (B * 2 ^ j)) as KK by (rewrite <- KE; apply pow2_S; lia).
  assert (2 ^ (k - j) = 2 * B) as KJ. { unfold B. rewrite (pow2_S (k - j)) by lia. do 2 f_equal. lia. }
  pose proof (pow2_pos (k - 1 - j) ltac:(lia)) as PB. fold B in PB.
  pose proof (Z.div_mod R (2 ^ j) ltac:(lia)) as DM. pose proof (Z.mod_pos_bound R (2 ^ j) ltac:(lia)) as MB.
  assert (0 <= R / 2 ^ j < 2 * B) as HB.
  { split; [apply Z.div_pos; lia|]. apply Z.div_lt_upper_bound; [lia|]. lia. }
  set (h := R / 2 ^ j) in *. unfold d. rewrite KJ.
  destruct (Z_lt_le_dec h B) as [L|L].
  - pose proof (lor_small (k - 1 - j) h sg ltac:(lia) ltac:(fold B; lia) Hs) as LS. fold B in LS.
    pose proof (Z.mul_le_mono_nonneg_r (h + 1) B (2 ^ j) ltac:(lia) ltac:(lia)) as HM.
    split; [lia|]. rewrite KE. split.
    + rewrite !(proj2 (Z.ltb_ge _ _)) by lia. reflexivity.
    + rewrite !(proj2 (Z.eqb_neq _ _)) by lia. reflexivity.
  - assert (Z.lor h sg = B + Z.lor (h - B) sg) as LE.
    { pose proof (lor_mk (k - 1 - j) true false (h - B) sg ltac:(lia)) as LM. fold B in LM. cbn [b2z orb] in LM.
      specialize (LM ltac:(lia) Hs). replace (1 * B + (h - B)) with h in LM by lia. rewrite Z.add_0_l in LM. lia. }
    pose proof (lor_small (k - 1 - j) (h - B) sg ltac:(lia) ltac:(fold B; lia) Hs) as LS. fold B in LS.
    rewrite LE. split; [lia|].
    assert (R = B * 2 ^ j + ((h - B) * 2 ^ j + R mod 2 ^ j)) as RE by (rewrite DM at 1; ring).
    set (x := (h - B) * 2 ^ j + R mod 2 ^ j) in *.
    assert (0 <= x) as X0. { unfold x. pose proof (Z.mul_nonneg_nonneg (h - B) (2 ^ j)). lia. }
    assert (Z.lor (h - B) sg = 0 <-> x = 0) as Q.
    { rewrite Z.lor_eq_0_iff. split.
      - intros [E1 E2]. apply HS in E2.
        assert (x = R mod 2 ^ j) as XE by (unfold x; rewrite E1; ring). rewrite XE.
        replace (2 ^ w) with (2 ^ j * 2 ^ (w - j)) in E2 by (rewrite <- pow2_add by lia; f_equal; lia).
        rewrite Z.rem_mul_r in E2 by (try apply Z.pow_nonzero; lia).
        pose proof (Z.mod_pos_bound (R / 2 ^ j) (2 ^ (w - j)) (pow2_pos (w - j) ltac:(lia))).
        pose proof (Z.mul_nonneg_nonneg (2 ^ j) ((R / 2 ^ j) mod 2 ^ (w - j))). lia.
      - intros XE. assert (h - B = 0) as E1.
        { destruct (Z.eq_dec (h - B) 0); [assumption|]. pose proof (Z.mul_pos_pos (h - B) (2 ^ j)). unfold x in XE. lia. }
        split; [exact E1|]. apply HS. rewrite RE, XE, Z.add_0_r. unfold B. rewrite <- pow2_add by lia.
        replace (k - 1 - j + j) with (k - 1 - w + w) by lia. rewrite pow2_add by lia. apply Z.mod_mul. apply Z.pow_nonzero; lia. }
    rewrite KE. split; apply eq_true_iff_eq; rewrite ?Z.ltb_lt, ?Z.eqb_eq; lia.
Qed.

Section Fmt.
Context (f : fmt) (W : wf f).
Notation S := (2 ^ fs f).
Notation B := (2 ^ (fb f - 1)).
Notation u := (bpow radix2 (emin f)).

Lemma m_adj_ok mb d : 0 <= mb -> mb + 1 < 2 ^ fb f -> 0 <= d < 2 ^ fb f ->
  m_adj f mb d = Ok (mb + (if B <? d then 1 else if d =? B then mb mod 2 else 0)).
Proof using W.
  intros Hm Hm1 Hd. unfold m_adj, fI. pose proof (fb_eq f W) as FE. assert (0 < fb f) as FP by (destruct W; lia).
  rewrite cshr_ok by (cbn [bits UI]; lia). cbn [bind].
  assert (inot (UI (fb f)) mb = 2 ^ fb f - 1 - mb) as ->.
  { unfold inot. rewrite norm_u. unfold Z.lnot. replace (Z.pred (- mb)) with (2 ^ fb f - 1 - mb + (-1) * 2 ^ fb f) by lia.
    rewrite Z.mod_add, Z.mod_small by lia. reflexivity. }
  assert ((2 ^ fb f - 1 - mb) mod 2 = 1 - mb mod 2) as PA.
  { rewrite FE. replace (2 * B - 1 - mb) with (1 - mb + (B - 1) * 2) by ring. rewrite Z.mod_add by lia. 
    pose proof (Z.div_mod mb 2 ltac:(lia)). pose proof (Z.mod_pos_bound mb 2 ltac:(lia)).
    symmetry. apply Z.mod_unique with (- (mb / 2)); lia. }
  pose proof (Z.mod_pos_bound mb 2 ltac:(lia)) as MB.
  pose proof (pow2_pos (fb f - 1) ltac:(lia)) as BP.
  assert (d / B = if B <=? d then 1 else 0) as ->.
  { destruct (Z.leb_spec B d); symmetry; [apply Z.div_unique with (d - B); lia|apply Z.div_unique with d; lia]. }
  assert (Z.land (if B <=? d then 1 else 0) (2 ^ fb f - 1 - mb) = if B <=? d then 1 - mb mod 2 else 0) as ->.
  { destruct (B <=? d); [|apply Z.land_0_l]. rewrite Z.land_comm, land_1. exact PA. }
  rewrite csub_u by (destruct (Z.leb_spec B d); lia). cbn [bind].
  rewrite cshr_ok by (cbn [bits UI]; lia). cbn [bind].
  assert ((d - (if B <=? d then 1 - mb mod 2 else 0)) / B = if B <? d then 1 else if d =? B then mb mod 2 else 0) as ->.
  { destruct (Z.leb_spec B d), (Z.ltb_spec B d), (Z.eqb_spec d B); try lia.
    - symmetry. apply Z.div_unique with (d - (1 - mb mod 2) - B); lia.
    - assert (mb mod 2 = 0 \/ mb mod 2 = 1) as [E|E] by lia; rewrite E; symmetry.
      + apply Z.div_unique with (B - 1); lia.
      + apply Z.div_unique with 0; lia.
    - symmetry. apply Z.div_unique with d; lia. }
  apply cadd_u. destruct (_ <? _); [lia|]. destruct (_ =? _); lia.
Qed.

Lemma m_adj_rup k mb d im : 1 <= k -> im / 2 ^ k = mb -> 0 <= mb -> mb + 1 < 2 ^ fb f -> 0 <= d < 2 ^ fb f ->
  (B <? d) = (2 ^ (k - 1) <? im mod 2 ^ k) -> (d =? B) = (im mod 2 ^ k =? 2 ^ (k - 1)) ->
  m_adj f mb d = Ok (mb + rup im (2 ^ k)).
Proof using W.
  intros Hk Hq Hm Hm1 Hd H1 H2. rewrite m_adj_ok by assumption. rewrite rup_pow by assumption. rewrite H1, H2, Hq. reflexivity.
Qed.

Section Width.
Context (ib : Z) (IB : 1 <= ib <= 128) (HE : EXP_BIAS f + ib - 1 < 2 ^ eb f - 1).

Lemma i2f_exp_ok n : 0 <= n < ib -> (let* e := i2f_exp f ib n in csub (fI f) e 1) = Ok (EXP_BIAS f + ib - n - 2).
Proof using W IB HE.
  intros Hn. pose proof (bias_range f W) as (BR & _ & _). pose proof (EB_big f W). pose proof (fb_big f W) as (_ & FB & _). change (2 ^ 16) with 65536 in FB.
  unfold i2f_exp. rewrite csub_u by (rewrite shl32; lia). cbn [bind]. rewrite cadd_u by (rewrite shl32; lia). cbn [bind].
  rewrite csub_u by (rewrite shl32; lia). cbn [bind]. unfold ccast, fI. rewrite chk_u by lia. cbn [bind].
  rewrite csub_u by lia. f_equal. lia.
Qed.

Lemma i2f_repr_ok E q : 1 <= E < 2 ^ eb f - 1 -> 0 <= q <= 2 * S -> i2f_repr f (E - 1) q = Ok (enc f E q).
Proof using W.
  intros HEr Hq. pose proof (S_pos f W) as SP. pose proof (fb_eq f W). pose proof (B_eq f W). pose proof (inf_pos f W). pose proof (inf_eq f W) as IE.
  pose proof (Z.mul_le_mono_nonneg_r 0 (E - 1) S ltac:(lia) ltac:(lia)).
  pose proof (Z.mul_le_mono_nonneg_r (E - 1) (2 ^ eb f - 1 - 2) S ltac:(lia) ltac:(lia)).
  unfold i2f_repr, fI. rewrite cshl_u_exact; [|destruct W; lia|lia|lia]. cbn [bind]. apply cadd_u. lia.
Qed.

Lemma int_value im n i k : 0 <= n < ib -> im = i * 2 ^ n -> 0 <= k -> k = ib - 1 - fs f ->
  IZR i = (IZR im / IZR (2 ^ k) * bpow radix2 (EXP_BIAS f + ib - n - 1 - 1) * u)%R.
Proof using W.
  intros Hn -> Hk Ek. rewrite mult_IZR, !(IZR_Zpower radix2) by lia. unfold Rdiv. rewrite <- bpow_opp, !Rmult_assoc, <- !bpow_plus.
  replace (n + (- k + (EXP_BIAS f + ib - n - 1 - 1 + emin f))) with 0.
  - cbn [bpow]. ring.
  - unfold emin. destruct (bias_range f W) as (_ & -> & _). lia.
Qed.

Lemma i2f_shift i : 0 < i < 2 ^ ib -> 0 <= nlz ib i < ib /\ 2 ^ (ib - 1) <= i * 2 ^ nlz ib i < 2 ^ ib.
Proof using W IB HE.
  intros Hi. destruct (nlz_spec ib i Hi) as (NB & N1). split; [assumption|]. set (n := nlz ib i) in *.
  pose proof (scale_window _ _ _ (2 ^ n) N1 (pow2_pos n ltac:(lia))) as SW. rewrite <- !pow2_add in SW by lia.
  replace (ib - 1 - n + n) with (ib - 1) in SW by lia. replace (ib - n + n) with ib in SW by lia. exact SW.
Qed.

(** Rounding a left-aligned integer to the format. *)
Lemma i2f_pack i n im k : 0 <= n < ib -> im = i * 2 ^ n -> 1 <= k -> k = ib - 1 - fs f -> 2 ^ (ib - 1) <= im < 2 ^ ib ->
  S <= im / 2 ^ k < 2 * S /\ 1 <= EXP_BIAS f + ib - n - 1 < 2 ^ eb f - 1 /\
  0 <= enc f (EXP_BIAS f + ib - n - 1) (im / 2 ^ k + rup im (2 ^ k)) < B /\
  rmag f (IZR i) (enc f (EXP_BIAS f + ib - n - 1) (im / 2 ^ k + rup im (2 ^ k))).
Proof using W IB HE.
  intros Hn Him Hk Ek Hb. pose proof (pow2_pos k ltac:(lia)) as KP. pose proof (S_pos f W) as SP. pose proof (bias_range f W) as (BR & _ & _).
  assert (2 ^ (ib - 1) = S * 2 ^ k) as E1 by (rewrite <- pow2_add by (destruct W; lia); f_equal; lia).
  assert (2 ^ ib = 2 * S * 2 ^ k) as E2 by (rewrite <- Z.mul_assoc, <- E1; apply pow2_S; lia).
  assert (1 <= EXP_BIAS f + ib - n - 1 < 2 ^ eb f - 1) as ER by lia.
  assert (S <= im / 2 ^ k < 2 * S) as QB.
  { split; [apply Z.div_le_lower_bound; lia|apply Z.div_lt_upper_bound; lia]. }
  split; [exact QB|]. split; [exact ER|].
  pose proof (pack f W (EXP_BIAS f + ib - n - 1) im (2 ^ k) ER KP ltac:(lia) ltac:(lia)) as P.
  rewrite <- (int_value im n i k) in P by lia.
  replace (enc f (EXP_BIAS f + ib - n - 1) (im / 2 ^ k) + rup im (2 ^ k)) with (enc f (EXP_BIAS f + ib - n - 1) (im / 2 ^ k + rup im (2 ^ k))) in P by (unfold enc; ring).
  split; [|exact P]. destruct P as (P & _). pose proof (inf_pos f W). lia.
Qed.

Lemma rmag_0 : rmag f 0 0.
Proof using W.
  pose proof (inf_pos f W). pose proof (S_pos f W). unfold rmag. split; [lia|]. split; [|lia]. intros _. rewrite (rne_0 f), (V_0 f W). lra.
Qed.

(** Integer narrower than the significand. *)
Lemma i2f_pack_exact i n q : 0 <= n < ib -> ib <= fs f -> q = i * 2 ^ (fs f - ib + 1 + n) -> 2 ^ (ib - 1) <= i * 2 ^ n < 2 ^ ib ->
  S <= q < 2 * S /\ 1 <= EXP_BIAS f + ib - n - 1 < 2 ^ eb f - 1 /\ 0 <= enc f (EXP_BIAS f + ib - n - 1) q < B /\
  rmag f (IZR i) (enc f (EXP_BIAS f + ib - n - 1) q).
Proof using W IB HE.
  intros Hn Hf Hq Hb. pose proof (bias_range f W) as (BR & BB & _).
  assert (q = i * 2 ^ n * 2 ^ (fs f - ib + 1)) as Q1 by (rewrite Hq, <- Z.mul_assoc, <- pow2_add by lia; do 2 f_equal; lia).
  assert (2 ^ (ib - 1) * 2 ^ (fs f - ib + 1) = S) as E1 by (rewrite <- pow2_add by lia; f_equal; lia).
  assert (2 ^ ib * 2 ^ (fs f - ib + 1) = 2 * S) as E2.
  { rewrite (pow2_S ib) by lia. rewrite <- E1. ring. }
  pose proof (scale_window _ _ _ (2 ^ (fs f - ib + 1)) Hb (pow2_pos (fs f - ib + 1) ltac:(lia))) as SW. rewrite <- Q1, E1, E2 in SW.
  assert (1 <= EXP_BIAS f + ib - n - 1 < 2 ^ eb f - 1) as ER by lia.
  split; [exact SW|]. split; [exact ER|].
  pose proof (S_pos f W) as SP.
  pose proof (pack f W (EXP_BIAS f + ib - n - 1) q 1 ER ltac:(lia) ltac:(lia) ltac:(lia)) as P.
  replace (rup q 1) with 0 in P by (unfold rup; rewrite Z.mod_1_r; reflexivity). rewrite Z.div_1_r, Z.add_0_r in P.
  replace (IZR q / 1 * bpow radix2 (EXP_BIAS f + ib - n - 1 - 1) * u)%R with (IZR i) in P.
  - split; [|exact P]. destruct P as (P & _). pose proof (inf_pos f W). lia.
  - rewrite Hq, mult_IZR, (IZR_Zpower radix2) by lia. unfold Rdiv. rewrite Rinv_1, Rmult_1_r, !Rmult_assoc, <- !bpow_plus.
    replace (fs f - ib + 1 + n + (EXP_BIAS f + ib - n - 1 - 1 + emin f)) with 0; [cbn [bpow]; ring|].
    unfold emin. rewrite BB. lia.
Qed.

Lemma exact_bits_ok i : ib <= fs f -> 0 <= i < 2 ^ ib -> exists r, exact_bits f ib i = Ok r /\ 0 <= r < B /\ rmag f (IZR i) r.
Proof using W IB HE.
  intros Hf Hi. unfold exact_bits. destruct (Z.eqb_spec i 0) as [->|NZ].
  { exists 0. split; [reflexivity|]. pose proof (inf_pos f W). pose proof (S_pos f W). split; [lia|apply rmag_0]. }
  destruct (i2f_shift i ltac:(lia)) as (NB & SH). set (n := nlz ib i) in *.
  destruct (i2f_pack_exact i n _ NB Hf eq_refl SH) as (QB & ER & RB & RM).
  set (q := i * 2 ^ (fs f - ib + 1 + n)) in *.
  unfold shift_f_gt_i. rewrite csub_u by (rewrite shl32; destruct W; lia). cbn [bind]. rewrite cadd_u by (rewrite shl32; destruct W; lia). cbn [bind].
  rewrite cadd_u by (rewrite shl32; destruct W; lia). cbn [bind].
  assert (cshl (fI f) i (fs f - ib + 1 + n) = Ok q) as ->.
  { unfold fI. rewrite cshl_u_exact; [reflexivity|destruct W; lia|lia|]. fold q. pose proof (fb_eq f W). pose proof (inf_pos f W). lia. }
  cbn [bind]. pose proof (i2f_exp_ok n NB) as EX. destruct (i2f_exp f ib n) as [e|]; [|discriminate EX]. cbn [bind] in EX |- *. rewrite EX. cbn [bind].
  replace (EXP_BIAS f + ib - n - 2) with (EXP_BIAS f + ib - n - 1 - 1) by lia. rewrite i2f_repr_ok by lia.
  eexists. split; [reflexivity|]. split; assumption.
Qed.

(** Finishing step shared by the rounding conversions. *)
Lemma i2f_finish i n im k mb d : 0 <= n < ib -> im = i * 2 ^ n -> 1 <= k -> k = ib - 1 - fs f -> 2 ^ (ib - 1) <= im < 2 ^ ib ->
  mb = im / 2 ^ k -> 0 <= d < 2 ^ fb f ->
  (B <? d) = (2 ^ (k - 1) <? im mod 2 ^ k) -> (d =? B) = (im mod 2 ^ k =? 2 ^ (k - 1)) ->
  exists r, (let* m := m_adj f mb d in
             let* e := (let* e := i2f_exp f ib n in csub (fI f) e 1) in
             i2f_repr f e m) = Ok r /\ 0 <= r < B /\ rmag f (IZR i) r.
Proof using W IB HE.
  intros Hn Him Hk Ek Hb Hmb Hd H1 H2.
  destruct (i2f_pack i n im k Hn Him Hk Ek Hb) as (QB & ER & RB & RM).
  pose proof (fb_eq f W). pose proof (inf_pos f W). pose proof (inf_eq f W). pose proof (S_pos f W). pose proof (EB_big f W).
  pose proof (Z.mul_le_mono_nonneg_r 3 (2 ^ eb f - 1) S ltac:(lia) ltac:(lia)).
  rewrite (m_adj_rup k mb d im) by (try assumption; lia). cbn [bind]. rewrite i2f_exp_ok by assumption. cbn [bind].
  pose proof (rup_bound im (2 ^ k)).
  replace (EXP_BIAS f + ib - n - 2) with (EXP_BIAS f + ib - n - 1 - 1) by lia. rewrite i2f_repr_ok by lia.
  rewrite Hmb. eexists. split; [reflexivity|]. split; assumption.
Qed.
End Width.

Lemma same_width_ok i : EXP_BIAS f + fb f - 1 < 2 ^ eb f - 1 -> 0 <= i < 2 ^ fb f ->
  exists r, same_width_bits f i = Ok r /\ 0 <= r < B /\ rmag f (IZR i) r.
Proof using W.
  intros HE Hi. unfold same_width_bits. destruct (Z.eqb_spec i 0) as [->|NZ].
  { exists 0. split; [reflexivity|]. pose proof (inf_pos f W). pose proof (S_pos f W). split; [lia|apply rmag_0]. }
  assert (1 <= fb f <= 128) as IB by (destruct W; lia).
  destruct (i2f_shift (fb f) IB HE i ltac:(lia)) as (NB & SH). set (n := nlz (fb f) i) in *.
  unfold fI at 1. rewrite cshl_u_exact by lia. cbn [bind]. set (im := i * 2 ^ n) in *.
  rewrite (EXP_BITS_eq f W). assert (eb f = fb f - 1 - fs f) as EE by (destruct W; lia).
  unfold fI at 1. rewrite cshr_ok by (cbn [bits UI]; destruct W; lia). cbn [bind].
  unfold fI at 1. rewrite cshl_ok by (cbn [bits UI]; destruct W; lia). cbn [bind].
  assert (norm (UI (fb f)) (im * 2 ^ (fs f + 1)) = im mod 2 ^ eb f * 2 ^ (fs f + 1)) as ->.
  { rewrite norm_u. replace (fb f) with (eb f + (fs f + 1)) by (destruct W; lia). rewrite (pow2_add (eb f) (fs f + 1)) by (destruct W; lia).
    apply Z.mul_mod_distr_r; apply Z.pow_nonzero; destruct W; lia. }
  pose proof (pow2_pos (fs f + 1) ltac:(destruct W; lia)) as P1. pose proof (pow2_pos (eb f) ltac:(destruct W; lia)) as P2.
  pose proof (Z.mod_pos_bound im (2 ^ eb f) P2) as MB.
  assert (B = 2 ^ (eb f - 1) * 2 ^ (fs f + 1)) as BE by (rewrite <- pow2_add by (destruct W; lia); f_equal; destruct W; lia).
  assert (2 ^ fb f = 2 ^ eb f * 2 ^ (fs f + 1)) as FE by (rewrite <- pow2_add by (destruct W; lia); f_equal; destruct W; lia).
  pose proof (i2f_finish (fb f) IB HE i n im (eb f) _ (im mod 2 ^ eb f * 2 ^ (fs f + 1)) NB eq_refl ltac:(destruct W; lia) EE SH eq_refl) as F.
  destruct F as (r & Er & R).
  4:{ exists r. split; [|exact R]. rewrite <- Er. destruct (m_adj f _ _); [|reflexivity]. cbn [bind]. destruct (i2f_exp f (fb f) n); reflexivity. }
  - rewrite FE. pose proof (scale_window 0 (2 ^ eb f) _ _ MB P1). lia.
  - rewrite BE. apply eq_true_iff_eq. rewrite !Z.ltb_lt. symmetry. apply Z.mul_lt_mono_pos_r. exact P1.
  - rewrite BE. apply eq_true_iff_eq. rewrite !Z.eqb_eq. split; [|intros ->; reflexivity]. intros H. apply Z.mul_reg_r in H; lia.
Qed.

Lemma half_width_ok w i : fb f = 2 * w -> eb f <= w -> fb f <= 64 -> EXP_BIAS f + 2 * fb f - 1 < 2 ^ eb f - 1 -> 0 <= i < 2 ^ (2 * fb f) ->
  exists r, half_width_bits f (2 * fb f) (2 ^ w - 1) i = Ok r /\ 0 <= r < B /\ rmag f (IZR i) r.
Proof using W.
  intros Hw Hew Hfb HE Hi. unfold half_width_bits.
  assert (1 <= 2 * fb f <= 128) as IB by (destruct W; lia). set (ib := 2 * fb f) in *.
  assert (shift_f_lt_i f ib = Ok (ib - 1 - fs f)) as SHF.
  { unfold shift_f_lt_i. rewrite csub_u by (rewrite shl32; destruct W; lia). cbn [bind]. rewrite (EXP_BITS_eq f W).
    rewrite cadd_u by (rewrite shl32; destruct W; lia). f_equal. unfold ib. destruct W. lia. }
  rewrite SHF. rewrite (EXP_BITS_eq f W).
  pose proof (fb_eq f W) as FE. pose proof (inf_pos f W) as IP. pose proof (S_pos f W) as SP.
  destruct (Z.eqb_spec i 0) as [->|NZ].
  { unfold wrapping_shl. rewrite Z.shiftl_0_l. replace (norm (UI ib) 0) with 0 by (rewrite norm_u, Zmod_0_l; reflexivity).
    cbn [bind]. rewrite !cshr_ok by (cbn [bits UI]; unfold ib; destruct W; lia). cbn [bind]. rewrite !Zdiv_0_l. cbn [bind].
    rewrite Z.land_0_l, Z.lor_0_l. replace (norm (fI f) 0) with 0 by (unfold fI; rewrite norm_u, Zmod_0_l; reflexivity).
    rewrite m_adj_ok by lia. replace (B <? 0) with false by (symmetry; apply Z.ltb_ge; lia). replace (0 =? B) with false by (symmetry; apply Z.eqb_neq; lia).
    cbn [bind]. exists 0. split; [|split; [lia|apply rmag_0]].
    change (0 + 0) with 0. replace (i2f_repr f 0 0) with (i2f_repr f (1 - 1) 0) by reflexivity. rewrite i2f_repr_ok by (pose proof (EB_big f W); lia).
    unfold enc. f_equal. }
  destruct (i2f_shift ib IB HE i ltac:(lia)) as (NB & SH). set (n := nlz ib i) in *.
  assert (wrapping_shl (UI ib) i n = i * 2 ^ n) as -> by (apply wrapping_shl_u; lia).
  set (im := i * 2 ^ n) in *. cbn [bind].
  rewrite !cshr_ok by (cbn [bits UI]; unfold ib; destruct W; lia). cbn [bind].
  assert (eb f = fb f - 1 - fs f) as EE by (destruct W; lia).
  set (k := ib - 1 - fs f) in *. assert (k = fb f + eb f) as KE by (unfold k, ib; lia).
  destruct (i2f_pack ib IB HE i n im k NB eq_refl ltac:(destruct W; lia) eq_refl SH) as (QB & _).
  pose proof (inf_eq f W) as IE. pose proof (EB_big f W) as EB. pose proof (Z.mul_le_mono_nonneg_r 3 (2 ^ eb f - 1) S ltac:(lia) ltac:(lia)).
  assert (norm (fI f) (im / 2 ^ k) = im / 2 ^ k) as -> by (unfold fI; apply norm_u_id; lia).
  set (R := im mod 2 ^ k). pose proof (Z.mod_pos_bound im (2 ^ k) (pow2_pos k ltac:(destruct W; lia))) as RB. fold R in RB.
  assert (norm (fI f) (Z.lor (im / 2 ^ eb f) (Z.land im (2 ^ w - 1))) = Z.lor (R / 2 ^ eb f) (R mod 2 ^ w)) as ->.
  { unfold fI. rewrite norm_u. rewrite <- land_ones_mod by (destruct W; lia). rewrite Z.land_lor_distr_l.
    assert (0 <= fb f) by (destruct W; lia). f_equal.
    - rewrite land_ones_mod by lia. unfold R. rewrite KE, (Z.add_comm (fb f)), pow2_add by (destruct W; lia).
      rewrite mod_mul_div by (apply pow2_pos; destruct W; lia). reflexivity.
    - rewrite !land_ones_mod by lia. pose proof (pow2_pos w ltac:(lia)) as WP. rewrite Z.mod_small.
      2:{ pose proof (Z.mod_pos_bound im (2 ^ w) WP). pose proof (pow2_le w (fb f) ltac:(lia)). lia. }
      unfold R. replace k with (w + (k - w)) by lia. rewrite pow2_add by (destruct W; lia).
      rewrite mod_mul_mod by (apply pow2_pos; destruct W; lia). reflexivity. }
  destruct (sticky_class k (eb f) w R (R mod 2 ^ w)) as (C1 & C2 & C3); try (destruct W; lia).
  { pose proof (pow2_pos w ltac:(lia)) as WP. pose proof (Z.mod_pos_bound R (2 ^ w) WP). pose proof (pow2_le w (k - 1 - eb f) ltac:(lia)). lia. }
  replace (k - 1 - eb f) with (fb f - 1) in C2, C3 by lia. replace (k - eb f) with (fb f) in C1 by lia.
  apply (i2f_finish ib IB HE i n im k); try assumption; try reflexivity. destruct W; lia.
Qed.
End Fmt.

(** ** The nine unsigned conversions *)
Lemma wf32 : wf F32. Proof. apply std_wf. unfold std. tauto. Qed.
Lemma wf64 : wf F64. Proof. apply std_wf. unfold std. tauto. Qed.
Lemma wf128 : wf F128. Proof. apply std_wf. unfold std. tauto. Qed.

Lemma u32_to_f128_ok i : 0 <= i < 2 ^ 32 -> exists r, u32_to_f128_bits i = Ok r /\ 0 <= r < 2 ^ 127 /\ rmag F128 (IZR i) r.
Proof.
  intros Hi. unfold u32_to_f128_bits. destruct (Z.eqb_spec i 0) as [->|NZ].
  { exists 0. split; [reflexivity|]. split; [lia|apply rmag_0, wf128]. }
  assert (1 <= 32 <= 128) as IB by lia. assert (EXP_BIAS F128 + 32 - 1 < 2 ^ eb F128 - 1) as HE by (vm_compute; reflexivity).
  destruct (i2f_shift F128 wf128 32 IB HE i ltac:(lia)) as (NB & SH). set (n := nlz 32 i) in *.
  destruct (i2f_pack_exact F128 wf128 32 IB HE i n _ NB ltac:(cbn; lia) eq_refl SH) as (QB & ER & RB & RM).
  unfold shift_f_gt_i. change (fs F128) with 112 in *. change (EXP_BIAS F128) with 16383 in *. change (fb F128) with 128 in *.
  rewrite csub_u by (rewrite shl32; lia). cbn [bind]. rewrite cadd_u by (rewrite shl32; lia). cbn [bind]. rewrite cadd_u by (rewrite shl32; lia). cbn [bind].
  rewrite csub_u by (rewrite shl32; lia). cbn [bind]. replace (112 - 32 + 1 + n - 64) with (17 + n) by lia.
  set (q := i * 2 ^ (112 - 32 + 1 + n)) in *.
  assert (i * 2 ^ (17 + n) * 2 ^ 64 = q) as QE. { unfold q. rewrite <- Z.mul_assoc, <- pow2_add by lia. do 2 f_equal. lia. }
  assert (2 ^ 48 <= i * 2 ^ (17 + n) < 2 ^ 49) as MB.
  { rewrite <- QE in QB. change (2 ^ 112) with (2 ^ 48 * 2 ^ 64) in QB. change (2 ^ 49) with (2 * 2 ^ 48). pose proof (pow2_pos 64 ltac:(lia)). nia. }
  rewrite cshl_u_exact; [|lia|lia|change (2 ^ 64) with (2 ^ 49 * 32768); lia]. cbn [bind].
  unfold i2f_exp. change (EXP_BIAS F128) with 16383. rewrite csub_u by (rewrite shl32; lia). cbn [bind]. rewrite cadd_u by (rewrite shl32; lia). cbn [bind]. rewrite csub_u by (rewrite shl32; lia). cbn [bind].
  unfold ccast, fI. rewrite chk_u by (change (2 ^ fb F128) with (2 ^ 96 * 2 ^ 32); rewrite shl32; pose proof (pow2_pos 96 ltac:(lia)); nia). cbn [bind].
  rewrite norm_u_id by (change (2 ^ 64) with (4294967296 * 4294967296); lia).
  rewrite csub_u by (change (2 ^ 64) with (4294967296 * 4294967296); lia). cbn [bind].
  rewrite cshl_u_exact; [|lia|lia|change (2 ^ (112 - 64)) with 281474976710656; change (2 ^ 64) with 18446744073709551616; lia]. cbn [bind].
  change (2 ^ (112 - 64)) with 281474976710656. change (2 ^ 49) with 562949953421312 in MB. change (2 ^ 48) with 281474976710656 in MB.
  rewrite cadd_u by (change (2 ^ 64) with 18446744073709551616; lia). cbn [bind].
  assert (enc F128 (16383 + 32 - n - 1) q = ((16383 - 1 + 32 - n - 1) * 281474976710656 + i * 2 ^ (17 + n)) * 2 ^ 64) as EE.
  { unfold enc. rewrite <- QE. change (2 ^ fs F128) with (281474976710656 * 2 ^ 64). ring. }
  rewrite cshl_u_exact; [|lia|lia|].
  - rewrite <- EE. eexists. split; [reflexivity|]. split; [exact RB|exact RM].
  - rewrite <- EE. change (2 ^ 128) with (2 * 2 ^ (128 - 1)). lia.
Qed.

Lemma u128_to_f32_ok i : 0 <= i < 2 ^ 128 -> exists r, u128_to_f32_bits i = Ok r /\ 0 <= r < 2 ^ 31 /\ rmag F32 (IZR i) r.
Proof.
  intros Hi. unfold u128_to_f32_bits.
  assert (1 <= 128 <= 128) as IB by lia. assert (EXP_BIAS F32 + 128 - 1 < 2 ^ eb F32 - 1) as HE by (vm_compute; reflexivity).
  change (shift_f_lt_i F32 128) with (Ok 104). cbn [bind].
  destruct (Z.eqb_spec i 0) as [->|NZ].
  { exists 0. split; [vm_compute; reflexivity|]. split; [lia|apply rmag_0, wf32]. }
  destruct (i2f_shift F32 wf32 128 IB HE i ltac:(lia)) as (NB & SH). set (n := nlz 128 i) in *.
  assert (wrapping_shl (UI 128) i n = i * 2 ^ n) as -> by (apply wrapping_shl_u; lia).
  set (im := i * 2 ^ n) in *. rewrite !cshr_ok by (cbn [bits UI]; lia). cbn [bind].
  rewrite cshl_ok by (cbn [bits UI]; lia). cbn [bind]. rewrite cshr_ok by (cbn [bits UI]; lia). cbn [bind].
  change (128 - 32 - 23 - 1) with 72.
  destruct (i2f_pack F32 wf32 128 IB HE i n im 104 NB eq_refl ltac:(lia) eq_refl SH) as (QB & _). change (2 ^ fs F32) with 8388608 in QB.
  rewrite (norm_u_id 32 (im / 2 ^ 104)) by (rewrite shl32; lia).
  set (R := im mod 2 ^ 104). pose proof (Z.mod_pos_bound im (2 ^ 104) (pow2_pos 104 ltac:(lia))) as RB. fold R in RB.
  assert (R / 2 ^ 72 = (im / 2 ^ 72) mod 2 ^ 32) as DM.
  { unfold R. change 104 with (72 + 32). rewrite (pow2_add 72 32) by lia. apply mod_mul_div; apply pow2_pos; lia. }
  rewrite (norm_u 32 (im / 2 ^ 72)), <- DM.
  assert (norm (UI 128) (im * 2 ^ 32) / 2 ^ 32 = R mod 2 ^ 96) as ->.
  { rewrite norm_u. change 128 with (96 + 32). rewrite (pow2_add 96 32) by lia. rewrite Z.mul_mod_distr_r by (apply Z.pow_nonzero; lia).
    rewrite Z.div_mul by (apply Z.pow_nonzero; lia). unfold R. change 104 with (96 + 8). rewrite (pow2_add 96 8) by lia. 
    rewrite mod_mul_mod by (apply pow2_pos; lia). reflexivity. }
  destruct (sticky_class 104 72 96 R (b2z (negb (R mod 2 ^ 96 =? 0)))) as (C1 & C2 & C3); try lia.
  { change (104 - 1 - 72) with 31. destruct (negb _); cbn [b2z]; lia. }
  { destruct (Z.eqb_spec (R mod 2 ^ 96) 0); cbn [negb b2z]; lia. }
  apply (i2f_finish F32 wf32 128 IB HE i n im 104); try assumption; try reflexivity. lia.
Qed.

Theorem float_un_ok ib f i : int_width ib -> conv_fmt f -> 0 <= i < 2 ^ ib ->
  wf f /\ exists r, float_un ib f i = Ok r /\ 0 <= r < 2 ^ (fb f - 1) /\ rmag f (IZR i) r.
Proof.
  intros [-> | [-> | ->]] [-> | [-> | ->]] Hi; (split; [first [exact wf32|exact wf64|exact wf128]|]).
  - exact (same_width_ok F32 wf32 i ltac:(vm_compute; reflexivity) Hi).
  - exact (exact_bits_ok F64 wf64 32 ltac:(lia) ltac:(vm_compute; reflexivity) i ltac:(cbn; lia) Hi).
  - exact (u32_to_f128_ok i Hi).
  - exact (half_width_ok F32 wf32 16 i eq_refl ltac:(cbn; lia) ltac:(cbn; lia) ltac:(vm_compute; reflexivity) Hi).
  - exact (same_width_ok F64 wf64 i ltac:(vm_compute; reflexivity) Hi).
  - exact (exact_bits_ok F128 wf128 64 ltac:(lia) ltac:(vm_compute; reflexivity) i ltac:(cbn; lia) Hi).
  - exact (u128_to_f32_ok i Hi).
  - exact (half_width_ok F64 wf64 32 i eq_refl ltac:(cbn; lia) ltac:(cbn; lia) ltac:(vm_compute; reflexivity) Hi).
  - exact (same_width_ok F128 wf128 i ltac:(vm_compute; reflexivity) Hi).
Qed.

Theorem float_un_correct ib f i : int_width ib -> conv_fmt f -> 0 <= i < 2 ^ ib ->
  exists r, float_un ib f i = Ok r /\ rounds_to f false (IZR i) r.
Proof.
  intros H1 H2 Hi. destruct (float_un_ok ib f i H1 H2 Hi) as (W & r & E & Hr & RM). exists r. split; [exact E|].
  pose proof (rounds_mag f W false (IZR i) r false (IZR_le 0 i (proj1 Hi)) RM (fun _ => eq_refl)) as Q. cbn [b2z] in Q.
  rewrite Z.mul_0_l, Z.add_0_l in Q. exact Q.
Qed.

Theorem float_si_correct ib f i : int_width ib -> conv_fmt f -> fits (SI ib) i ->
  exists r, float_si ib f i = Ok r /\ rounds_to f false (IZR i) r.
Proof.
  intros H1 H2 Hi. apply fits_s in Hi.
  assert (1 <= ib) as IB by (destruct H1 as [-> | [-> | ->]]; lia).
  pose proof (pow2_S ib ltac:(lia)) as PS. pose proof (pow2_pos (ib - 1) ltac:(lia)) as PP.
  destruct (float_un_ok ib f (Z.abs i) H1 H2 ltac:(lia)) as (W & r & E & Hr & RM).
  unfold float_si, i2f_signed. rewrite cshr_ok by (cbn [bits SI]; lia). cbn [bind]. pose proof (fb_eq f W) as FE.
  assert (i / 2 ^ (ib - 1) = if i <? 0 then -1 else 0) as ->.
  { destruct (Z.ltb_spec i 0); symmetry; [apply Z.div_unique with (i + 2 ^ (ib - 1)); lia|apply Z.div_unique with i; lia]. }
  unfold fI. rewrite cshl_ok by (cbn [bits UI]; destruct W; lia). cbn [bind]. rewrite E. cbn [bind].
  assert (norm (UI (fb f)) (norm (UI (fb f)) (if i <? 0 then -1 else 0) * 2 ^ (fb f - 1)) = b2z (i <? 0) * 2 ^ (fb f - 1)) as ->.
  { rewrite norm_mul_l by (cbn [bits UI]; destruct W; lia). rewrite norm_u, FE. pose proof (pow2_pos (fb f - 1) ltac:(destruct W; lia)).
    destruct (i <? 0); cbn [b2z]; [|apply Z.mod_small; lia]. symmetry. apply Z.mod_unique with (-1); lia. }
  eexists. split; [reflexivity|]. rewrite Z.lor_comm.
  replace (b2z (i <? 0) * 2 ^ (fb f - 1)) with (b2z (i <? 0) * 2 ^ (fb f - 1) + 0) by lia.
  rewrite (lor_sign f W) by lia. rewrite Z.lor_0_l.
  pose proof (rounds_mag f W (i <? 0) (IZR (Z.abs i)) r false (IZR_le 0 _ (Z.abs_nonneg i)) RM) as Q.
  replace (IZR i) with (if i <? 0 then - IZR (Z.abs i) else IZR (Z.abs i))%R.
  - apply Q. intros Z0. apply eq_IZR_R0 in Z0. destruct (Z.ltb_spec i 0); [lia|reflexivity].
  - destruct (Z.ltb_spec i 0); [rewrite <- opp_IZR|]; f_equal; lia.
Qed.
