(** Proofs about the fused multiply-add: rounding and scaling of the aligned sum. *)
From Coq Require Import ZArith Reals Bool Lia Lra Psatz.
From Flocq Require Import Core.
From Verif Require Import Base BaseLemmas FloatModel FloatSpec FloatConvSpec FloatProofs FloatProofs2 FloatProofs3 FloatConvProofs FloatLib LibmModel LibmSpec LibmProofs LibmProofs2 LibmProofs3 LibmProofs4 LibmProofs5 LibmProofs6 RemModel RemProofs3 FmaModel FmaSpec FmaProofs.
Open Scope Z_scope.

Lemma std_wi f : std f -> 16 < fb f -> fb f <= bias f.
Proof. intros [->|[->|[->| ->]]]; cbv; congruence. Qed.

Section P.
Context (f : fmt) (W : wf f) (WL : fs f + 3 <= bias f) (WS : 16 < fb f -> 3 * fs f + 6 <= bias f) (WB : fb f <= 16 -> bias f = 15 /\ fs f = 10) (WI : fb f <= bias f).
Context (o : fops) (O : ieee_ops f o) (conv : Z -> Z) (IC : int_conv f conv).
Notation S := (2 ^ fs f).
Notation B := (2 ^ (fb f - 1)).
Notation u := (bpow radix2 (emin f)).
Notation mk s n := (b2z s * B + n).
Notation mag n := (IZR (V f n) * u)%R.
Notation p2 := (p2 f).
Notation b := (fb f).

Lemma IZR_pow k : 0 <= k -> IZR (2 ^ k) = bp k.
Proof using. intros. rewrite <- (IZR_Zpower radix2) by assumption. reflexivity. Qed.
Lemma fs10 : 10 <= fs f. Proof using W. destruct W; assumption. Qed.
Lemma eb5 : 5 <= eb f <= 15. Proof using W. destruct W; assumption. Qed.
Lemma b_eq : b = fs f + eb f + 1. Proof using W. destruct W; assumption. Qed.
Lemma b128 : b <= 128. Proof using W. destruct W; assumption. Qed.

(** The conversion of a positive integer and its sign. *)
Lemma conv_ok neg i : 0 < i < B -> exists n, fma_conv f conv neg i = Ok (mk neg n) /\ 0 < n < inf f /\ mag n = rne f (IZR i).
Proof using W WL WS WB WI IC.
  intros Hi. pose proof fs10. pose proof eb5. pose proof b_eq. unfold fma_conv. change (fI f) with (UI b) in *. rewrite (norm_id (SI b)); [|rewrite bits_s; lia|apply fits_s; lia].
  assert ((if neg then cneg (SI b) i else Ok i) = Ok (if neg then - i else i)) as ->.
  { destruct neg; [|reflexivity]. unfold cneg. apply chk_ok. apply fits_s. lia. }
  cbn [bind]. pose proof (IC (if neg then - i else i) ltac:(destruct neg; lia)) as (R1 & R2 & R3).
  assert (IZR (if neg then - i else i) = if neg then - IZR i else IZR i)%R as Es by (destruct neg; [apply opp_IZR|reflexivity]). rewrite Es in *.
  assert (0 < IZR i)%R as Ip by (apply IZR_lt; lia).
  assert (Rcompare (if neg then - IZR i else IZR i) 0 = if neg then Lt else Gt) as Ec by (destruct neg; [apply Rcompare_Lt; lra|apply Rcompare_Gt; lra]). rewrite Ec in R2.
  assert (1 <= rne f (IZR i) <= bp (b - 1))%R as Hr.
  { assert (rne f 1 = 1)%R as E1. { replace 1%R with (IZR 1 * bp 0)%R by (cbn; lra). apply (rne_int f W); [|unfold emin; lia]. unfold prec. pose proof (pow2_pos (fs f + 1)). lia. }
    assert (rne f (bp (b - 1)) = bp (b - 1)) as E2. { replace (bp (b - 1)) with (IZR 1 * bp (b - 1))%R by (cbn; lra). apply (rne_int f W); [|unfold emin; lia]. unfold prec. pose proof (pow2_pos (fs f + 1)). lia. }
    rewrite <- E1 at 1. rewrite <- E2. split; apply (rne_mono f W); [apply IZR_le; lia|]. rewrite <- IZR_pow by lia. apply IZR_le. lia. }
  rewrite rne_signed in R3. assert (Rabs (if neg then - rne f (IZR i) else rne f (IZR i)) = rne f (IZR i)) as Ea by (destruct neg; [rewrite Rabs_Ropp|]; apply Rabs_pos_eq; lra). rewrite Ea in R3.
  rewrite Rlt_bool_true in R3. 2: { apply Rle_lt_trans with (1 := proj2 Hr). apply bpow_lt. unfold emax. lia. }
  destruct R3 as [Fi Va]. destruct (split_float f W _ R1) as (s & n & E & Hn). rewrite E in *. rewrite sign_of_mk in R2 by assumption.
  rewrite (is_finite_mk f W) in Fi by assumption. rewrite value_mk in Va by assumption.
  assert (s = neg) by (destruct s, neg; congruence). rewrite H2 in *. exists n. split; [reflexivity|].
  assert (mag n = rne f (IZR i)) as M by (destruct neg; lra). split; [|exact M]. split; [|exact Fi].
  destruct (Z.eq_dec n 0) as [->|]; [|lia]. rewrite (mag_0 f W) in M. lra.
Qed.

Lemma finish_scalbn (s : bool) n e : 0 < n < inf f -> - 2 ^ 31 <= e < 2 ^ 31 -> forall zs X, (0 < X)%R -> rne f (mag n * bp e) = rne f X ->
  exists r, scalbn f o (mk s n) e = Ok r /\ rounds_to f zs (if s then - X else X) r.
Proof using W WL WS WB WI O.
  intros Hn He zs X Xp E. pose proof (inf_pos f W) as IP. destruct (scalbn_ok f W WL WS WB o O (mk s n) e) as (r & -> & _ & R & _); [apply is_float_mk; assumption || lia|exact He|].
  exists r. split; [reflexivity|]. specialize (R ltac:(apply is_finite_mk; assumption || lia)). rewrite sign_of_mk, value_mk in R by (assumption || lia).
  assert (0 < mag n)%R as Mp by (apply (mag_pos f W); lia). pose proof (bpow_gt_0 radix2 e) as Pe.
  assert (0 < mag n * bp e)%R by (apply Rmult_lt_0_compat; assumption).
  assert ((if s then - mag n else mag n) * bp e = if s then - (mag n * bp e) else mag n * bp e)%R as Ev by (destruct s; ring). rewrite Ev in R.
  apply (rounds_ext f _ zs _ (if s then - X else X)%R) with (1 := R).
  - rewrite !rne_signed. rewrite E. reflexivity.
  - apply Rcmp_signed; assumption.
  - intros K. destruct s; lra.
Qed.

Lemma fneg_mk s n : 0 <= n < B -> fneg f (mk s n) = mk (negb s) n.
Proof using W WL WS WB WI.
  intros Hn. unfold fneg. rewrite SIGN_MASK_eq by assumption. pose proof b_eq. pose proof fs10. pose proof eb5. rewrite (mk1 (b - 1)) at 2. rewrite lxor_mk by lia. rewrite Z.lxor_0_r, xorb_true_r. reflexivity.
Qed.
Lemma two_mul_s (s : bool) n : 0 < n < inf f -> (mag n * 2 < bp (emax f))%R -> exists d, o_mul o (TWO f) (mk s n) = mk s d /\ 0 < d < inf f /\ (mag d = mag n * 2)%R.
Proof using W WL WS WB WI O.
  intros Hn Hlt. pose proof (inf_pos f W). pose proof (bias_pos f W).
  destruct (scale_exact f W n 1 ltac:(lia)) as (d & Hd & Ed); [change (bpow radix2 1) with 2%R; exact Hlt|left; lia|]. change (bpow radix2 1) with 2%R in Ed. exists d.
  assert (0 < mag n)%R as Mp by (apply (mag_pos f W); lia).
  assert (0 < d). { destruct (Z.eq_dec d 0) as [->|]; [|lia]. rewrite (mag_0 f W) in Ed. lra. }
  split; [|split; [lia|exact Ed]].
  rewrite TWO_eq by assumption. destruct (fin_p2 f W false 1 ltac:(lia)) as (B1 & B2 & B3 & B4).
  destruct (ops_mul f o O _ (mk s n) B1 ltac:(apply is_float_mk; assumption || lia)) as [_ (_ & _ & _ & R)].
  specialize (R B2 ltac:(apply is_finite_mk; assumption || lia)). rewrite B4, sign_of_mk, (value_p2 f W false 1), value_mk in R by (assumption || lia). cbn [xorb] in R.
  apply (op_exact f W _ _ _ s d R); [|lia|lia]. rewrite Ed. change (bpow radix2 1) with 2%R. destruct s; cbn [xorb]; ring.
Qed.
Lemma sub_signed (s : bool) n m d : 0 < n < inf f -> 0 < m < inf f -> 0 < d < inf f -> (mag d = mag n - mag m)%R -> o_sub o (mk s n) (mk s m) = mk s d.
Proof using W WL WS WB WI O.
  intros Hn Hm Hd E. pose proof (inf_pos f W).
  destruct (ops_sub f o O (mk s n) (mk s m) ltac:(apply is_float_mk; assumption || lia) ltac:(apply is_float_mk; assumption || lia)) as [_ (_ & _ & _ & _ & R)].
  specialize (R ltac:(apply is_finite_mk; assumption || lia) ltac:(apply is_finite_mk; assumption || lia)). rewrite !value_mk in R by (assumption || lia).
  apply (op_exact f W _ _ _ s d R); [|lia|lia]. rewrite E. destruct s; ring.
Qed.

(** The three ranges of the result. *)
Section Finish.
Context (neg : bool) (rhi e : Z) (X : R) (zs : bool).
Context (Hr : 2 ^ (b - 2) <= rhi < B) (HC : cell (eb f - 2) X (IZR rhi)) (He : - 2 ^ 30 <= e <= 2 ^ 30).

Lemma rhi_range : (bp (b - 1 - 1) <= IZR rhi < bp (b - 1))%R.
Proof using W WL WS WB WI Hr.
  pose proof fs10. pose proof eb5. pose proof b_eq. replace (b - 1 - 1) with (b - 2) by lia. rewrite <- !IZR_pow by lia. split; [apply IZR_le|apply IZR_lt]; lia.
Qed.
Lemma X_range : (bp (b - 1 - 1) <= X < bp (b - 1))%R.
Proof using W WL WS WB WI Hr HC.
  pose proof fs10. pose proof eb5. pose proof b_eq. pose proof rhi_range as [R1 R2].
  rewrite (bp_split (eb f - 2) (b - 1 - 1)), (bp_split (eb f - 2) (b - 1)) in * by lia.
  split; [apply (cell_le _ _ _ _ HC), R1|apply (cell_lt _ _ _ _ HC), R2].
Qed.
Lemma X_pos : (0 < X)%R. Proof using W WL WS WB WI Hr HC. pose proof X_range. pose proof (bpow_gt_0 radix2 (b - 1 - 1)). lra. Qed.

Lemma fin_normal : - (b - 1 + bias f - 2) <= e -> forall n, mag n = rne f (IZR rhi) -> rne f (mag n * bp e) = rne f (X * bp e).
Proof using W WL WS WB WI Hr HC.
  intros Hlo n M. pose proof fs10. pose proof eb5. pose proof b_eq. pose proof X_range as XR. pose proof rhi_range as RR.
  assert (emin f <= b - 1 - prec f /\ emin f <= b - 1 + e - prec f) as [E1 E2] by (unfold emin, prec; lia).
  assert (rne f (IZR rhi) = rne f X) as E3.
  { pose proof (rne_cell f (b - 1) (eb f - 2) 0 X (IZR rhi) XR RR HC) as K. cbn [bpow] in K. rewrite !Rmult_1_r, !Z.add_0_r in K. symmetry. apply K. unfold FLT_exp. rewrite Z.max_l by lia. unfold prec. lia. }
  rewrite M, E3, <- (rne_shift f (b - 1)) by assumption. apply rne_idem. exact W.
Qed.

Lemma fin_tiny : e < - (b - 1 + bias f - 1) -> let i := stkr rhi (eb f - 1) * 2 ^ (eb f - 1) in
  2 ^ (b - 2) <= i < B /\ rne f (IZR i) = IZR i /\ rne f (IZR i * bp e) = rne f (X * bp e).
Proof using W WL WS WB WI Hr HC.
  intros Hlo i. pose proof fs10. pose proof eb5. pose proof b_eq. pose proof X_range as XR. pose proof rhi_range as RR.
  assert (IZR i = IZR (stkr rhi (eb f - 1)) * bp (eb f - 1))%R as Ei by (unfold i; rewrite mult_IZR, IZR_pow by lia; reflexivity).
  assert (cell (eb f) (IZR rhi) (IZR i)) as C2.
  { pose proof (cell_stkr rhi (eb f - 1) ltac:(lia) ltac:(lia)) as K. apply (cell_scale 1 (eb f - 1)) in K. rewrite Rmult_assoc, <- bpow_plus in K. replace (- (eb f - 1) + (eb f - 1)) with 0 in K by lia. cbn [bpow] in K. rewrite Rmult_1_r, <- Ei in K. replace (1 + (eb f - 1)) with (eb f) in K by lia. exact K. }
  assert (bp (b - 1 - 1) <= IZR i < bp (b - 1))%R as IR.
  { rewrite (bp_split (eb f) (b - 1 - 1)), (bp_split (eb f) (b - 1)) in * by lia. split; [apply (cell_le _ _ _ _ C2), RR|apply (cell_lt _ _ _ _ C2), RR]. }
  split; [|split].
  - replace (b - 1 - 1) with (b - 2) in IR by lia. rewrite <- !IZR_pow in IR by lia. split; [apply le_IZR|apply lt_IZR]; apply IR.
  - rewrite Ei. apply (rne_int f W); [|unfold emin; lia]. pose proof (stkr_pos rhi (eb f - 1) ltac:(lia) ltac:(lia)). pose proof (pow2_pos (eb f - 1) ltac:(lia)).
    assert (rhi / 2 ^ (eb f - 1) < 2 ^ prec f). { apply Z.div_lt_upper_bound; [lia|]. rewrite <- pow2_add by (unfold prec; lia). replace (eb f - 1 + prec f) with (b - 1) by (unfold prec; lia). lia. }
    pose proof (Z.div_pos rhi (2 ^ (eb f - 1)) ltac:(lia) ltac:(lia)). lia.
  - symmetry. apply (rne_cell f (b - 1) (eb f)); try assumption.
    + apply cell_trans with (IZR rhi); [|exact C2]. apply cell_weaken with (eb f - 2); [lia|exact HC].
    + unfold FLT_exp. rewrite Z.max_r by (unfold prec, emin; lia). unfold emin. lia.
Qed.

Lemma rne_mid : e = - (b - 1 + bias f - 1) -> rne f (X * bp e) = (IZR (ZnearestE (X * bp (- eb f))) * u)%R.
Proof using W WL WS WB WI Hr HC.
  intros Ee. pose proof fs10. pose proof eb5. pose proof b_eq. rewrite (rne_eq f (b - 1 + e)) by (apply scale_range, X_range). unfold FLT_exp. rewrite Z.max_r by (unfold prec, emin; lia).
  rewrite Rmult_assoc, <- bpow_plus. replace (e + - emin f) with (- eb f) by (unfold emin; lia). reflexivity.
Qed.
Lemma near_rhi : ZnearestE (X * bp (- eb f)) = ZnearestE (IZR rhi * bp (- eb f)).
Proof using W WL WS WB WI HC. apply cell_near with (eb f - 2); [exact HC|lia]. Qed.

Lemma fin_mid_top : rne f (IZR rhi) = bp (b - 1) -> ZnearestE (X * bp (- eb f)) = S.
Proof using W WL WS WB WI Hr HC.
  intros E. pose proof fs10. pose proof eb5. pose proof b_eq. rewrite (rne_eq f (b - 1)) in E by apply rhi_range. unfold FLT_exp in E. rewrite Z.max_l in E by (unfold prec, emin; lia). replace (b - 1 - prec f) with (eb f - 1) in E by (unfold prec; lia).
  assert (ZnearestE (IZR rhi * bp (- (eb f - 1))) = 2 * S) as E2.
  { apply eq_IZR. apply Rmult_eq_reg_r with (bp (eb f - 1)); [|apply Rgt_not_eq, bpow_gt_0]. rewrite E, mult_IZR, IZR_pow by lia. change 2%R with (bp 1). rewrite <- !bpow_plus. f_equal. lia. }
  pose proof (Znearest_half (fun x => negb (Z.even x)) (IZR rhi * bp (- (eb f - 1)))) as K. rewrite E2 in K. apply Rabs_le_inv in K. rewrite mult_IZR in K.
  rewrite near_rhi. apply ZnearestE_int_near. replace (- eb f) with (- (eb f - 1) + -1) by lia. rewrite bpow_plus. change (bp (-1)) with (/ 2)%R.
  pose proof rhi_range as [_ R2]. assert (IZR rhi * bp (- (eb f - 1)) < 2 * IZR S)%R as L.
  { replace (2 * IZR S)%R with (bp (b - 1) * bp (- (eb f - 1)))%R. - apply Rmult_lt_compat_r; [apply bpow_gt_0|exact R2]. - rewrite IZR_pow by lia. change 2%R with (bp 1). rewrite <- !bpow_plus. f_equal. lia. }
  rewrite <- Rmult_assoc. lra.
Qed.

Lemma fin_mid_odd : let i := Z.lor (Z.lor (rhi / 2) (Z.land rhi 1)) (2 ^ (b - 2)) in
  0 < i < B /\ rne f (IZR i) = (IZR (S + ZnearestE (X * bp (- eb f))) * bp (eb f - 1))%R /\ 0 < ZnearestE (X * bp (- eb f)) <= S.
Proof using W WL WS WB WI Hr HC.
  intros i. pose proof fs10. pose proof eb5. pose proof b_eq. pose proof rhi_range as RR.
  assert (Z.lor (rhi / 2) (Z.land rhi 1) = stkr rhi 1) as E0. { unfold stkr. change (2 ^ 1) with 2. rewrite land_1. pose proof (Z.mod_pos_bound rhi 2 ltac:(lia)). f_equal. destruct (Z.eqb_spec (rhi mod 2) 0); cbn [negb b2z]; lia. }
  assert (B2 : B = 2 * 2 ^ (b - 2)) by (rewrite pow2_S by lia; f_equal; f_equal; lia).
  assert (0 <= stkr rhi 1 < 2 ^ (b - 2)) as Hst.
  { unfold stkr. change (2 ^ 1) with 2. assert (0 <= rhi / 2 < 2 ^ (b - 2)) by (split; [apply Z.div_pos; lia|apply Z.div_lt_upper_bound; lia]). apply lor_small; [lia|assumption|]. pose proof (pow2_lt 0 (b - 2)). destruct (negb _); cbn [b2z]; lia. }
  assert (i = stkr rhi 1 + 2 ^ (b - 2)) as Ei. { unfold i. rewrite E0. rewrite <- (Z.mul_1_l (2 ^ (b - 2))) at 1. rewrite lor_add_low by lia. lia. }
  assert (2 ^ (b - 2) <= i < B) as Hi by lia.
  assert (ZnearestE (IZR (stkr rhi 1) * bp (- (eb f - 1))) = ZnearestE (X * bp (- eb f))) as EN.
  { rewrite near_rhi. replace (- eb f) with (-1 + - (eb f - 1)) by lia. rewrite bpow_plus, <- Rmult_assoc. symmetry. apply cell_near with 1; [|lia]. apply (cell_stkr rhi 1); lia. }
  split; [lia|]. split.
  - rewrite (rne_eq f (b - 1)). 2: { replace (b - 1 - 1) with (b - 2) by lia. rewrite <- !IZR_pow by lia. split; [apply IZR_le|apply IZR_lt]; lia. }
    unfold FLT_exp. rewrite Z.max_l by (unfold prec, emin; lia). replace (b - 1 - prec f) with (eb f - 1) by (unfold prec; lia). f_equal. f_equal.
    rewrite Ei, plus_IZR, Rmult_plus_distr_r. replace (IZR (2 ^ (b - 2)) * bp (- (eb f - 1)))%R with (IZR S). 2: { rewrite !IZR_pow by lia. rewrite <- bpow_plus. f_equal. lia. }
    rewrite ZnearestE_plus_even by (exists (2 ^ (fs f - 1)); apply pow2_S; lia). rewrite EN. lia.
  - rewrite near_rhi. assert (bp (fs f - 1) <= IZR rhi * bp (- eb f) < bp (fs f))%R as L.
    { replace (fs f - 1) with (b - 1 + - eb f - 1) by lia. replace (bp (fs f)) with (bp (b - 1 + - eb f)) by (f_equal; lia). apply scale_range, RR. }
    rewrite <- (IZR_pow (fs f - 1)), <- (IZR_pow (fs f)) in L by lia. pose proof (pow2_pos (fs f - 1) ltac:(lia)). split.
    + apply Z.lt_le_trans with (Zfloor (IZR rhi * bp (- eb f))); [|apply Znearest_ge_floor]. apply Z.lt_le_trans with (2 ^ (fs f - 1)); [lia|]. apply Zfloor_lub, L.
    + apply Z.le_trans with (Zceil (IZR rhi * bp (- eb f))); [apply Znearest_le_ceil|]. apply Zceil_glb, Rlt_le, L.
Qed.

Lemma finish_ok : exists r, fma_finish f o conv neg rhi e = Ok r /\ rounds_to f zs (if neg then - (X * bp e) else X * bp e) r.
Proof using W WL WS WB WI O IC Hr HC He.
  pose proof fs10 as F10. pose proof eb5 as E5. pose proof b_eq as BE. pose proof b128 as B128. pose proof (inf_pos f W) as IP. pose proof (S_pos f W) as SP. pose proof X_pos as XP. pose proof (bpow_gt_0 radix2 e) as PE.
  assert (0 < X * bp e)%R as XE by (apply Rmult_lt_0_compat; assumption). assert (EBI : bias f <= 2 ^ 20) by (pose proof (eb_bias f W); pose proof (EB_big f W); lia).
  assert (P1 : 0 < 2 ^ (b - 2)) by (apply pow2_pos; lia).
  assert (FB : b < 2 ^ b) by (apply fb_big; exact W).
  destruct (conv_ok neg rhi ltac:(lia)) as (n & E & Hn & M). unfold fma_finish. rewrite E. cbn [bind].
  rewrite EXP_BIAS_eq, <- bias_eq by assumption. rewrite cadd_u by lia. cbn [bind]. unfold csub. rewrite !chk_s32 by lia. cbn [bind].
  destruct (Z.ltb_spec e (- (b - 1 + bias f - 2))) as [L|L]; [|cbn [bind]; apply (finish_scalbn neg n e Hn ltac:(lia) zs _ XE), fin_normal; [lia|exact M]].
  destruct (Z.eqb_spec e (- (b - 1 + bias f - 1))) as [L2|L2].
  - replace (b - 1 + bias f) with (bias f + (b - 1)) by lia. rewrite (from_parts_ok f W) by lia. cbn [bind].
    pose proof (p2_range f W (b - 1) ltac:(lia)) as PR. pose proof (p2_pos f W (b - 1) ltac:(lia)) as PP.
    assert ((if neg then fneg f (mk false (p2 (b - 1))) else mk false (p2 (b - 1))) = mk neg (p2 (b - 1))) as -> by (destruct neg; [apply fneg_mk; lia|reflexivity]).
    rewrite (eq_mk f W o O) by lia. replace (n <=? inf f) with true by lia. replace (p2 (b - 1) <=? inf f) with true by lia. cbn [andb].
    assert (MP : mag (p2 (b - 1)) = bp (b - 1)) by (apply (mag_p2 f W); lia).
    pose proof (rne_mid L2) as RM.
    destruct (Z.eqb_spec (key f neg n) (key f neg (p2 (b - 1)))) as [K|K].
    + (* min normal *)
      assert (n = p2 (b - 1)) as En by (apply (mag_inj f W); [lia|lia|]; f_equal; f_equal; unfold key in K; destruct neg; lia). cbn [bind].
      assert (MIN_POSITIVE_NORMAL f = mk false S) as -> by (unfold MIN_POSITIVE_NORMAL; rewrite Z.shiftl_1_l; cbn [b2z]; lia).
      rewrite copysign_mk by (assumption || lia). eexists. split; [reflexivity|].
      assert (ZnearestE (X * bp (- eb f)) = S) as ZS by (apply fin_mid_top; rewrite <- M, En; exact MP). rewrite ZS in RM.
      assert (mag S = IZR S * u)%R as MS. { replace S with (enc f 1 S) at 1 by (unfold enc; lia). rewrite V_enc by (assumption || lia). rewrite Z.mul_1_r. reflexivity. }
      pose proof (rounds_exact f W (mk neg S) ltac:(apply is_float_mk; assumption || lia) ltac:(apply is_finite_mk; assumption || lia)) as RX.
      rewrite value_mk in RX by (assumption || lia). assert (0 < mag S)%R by (apply (mag_pos f W); lia).
      apply (rounds_ext f _ zs _ _ _ RX).
      * rewrite !rne_signed, RM. rewrite <- MS, (rne_mag f W) by lia. reflexivity.
      * apply Rcmp_signed; assumption.
      * intros Q. destruct neg; lra.
    + rewrite cshl_ok by (cbn [fI]; rewrite ?bits_u; unfold fI; rewrite ?bits_u; lia). cbn [bind]. unfold fI. rewrite norm_u.
      assert ((rhi * 2 ^ (fs f + 1)) mod 2 ^ b = (rhi mod 2 ^ eb f) * 2 ^ (fs f + 1)) as ->. { replace b with (eb f + (fs f + 1)) by lia. rewrite (pow2_add (eb f) (fs f + 1)) by lia. rewrite Z.mul_mod_distr_r; [reflexivity|apply Z.pow_nonzero; lia|apply Z.pow_nonzero; lia]. }
      pose proof (pow2_pos (fs f + 1) ltac:(lia)) as PS.
      destruct (Z.eq_dec (rhi mod 2 ^ eb f) 0) as [Z0|Z0].
      * rewrite Z0. cbn [negb Z.mul Z.eqb bind].
        assert (IZR rhi = IZR (rhi / 2 ^ eb f) * bp (eb f))%R as ER. { rewrite <- IZR_pow, <- mult_IZR by lia. f_equal. rewrite Z.mul_comm. apply Z_div_exact_full_2; [|exact Z0]. apply Z.pow_nonzero; lia. }
        assert (X = IZR rhi) as EX. { rewrite ER. apply cell_eq. rewrite <- ER. apply cell_weaken with (eb f - 2); [lia|exact HC]. }
        assert (rne f (IZR rhi) = IZR rhi) as ERN.
        { rewrite ER. apply (rne_int f W); [|unfold emin; lia]. pose proof (pow2_pos (eb f) ltac:(lia)). pose proof (Z.div_pos rhi (2 ^ eb f) ltac:(lia) ltac:(lia)).
          assert (rhi / 2 ^ eb f < 2 ^ prec f); [|lia]. apply Z.div_lt_upper_bound; [lia|]. rewrite <- pow2_add by (unfold prec; lia). apply Z.lt_le_trans with B; [lia|]. apply pow2_le. unfold prec. lia. }
        apply (finish_scalbn neg n e Hn ltac:(lia) zs _ XE). rewrite M, ERN, EX. reflexivity.
      * replace (negb (rhi mod 2 ^ eb f * 2 ^ (fs f + 1) =? 0)) with true by (pose proof (Z.mod_pos_bound rhi (2 ^ eb f)); destruct (Z.eqb_spec (rhi mod 2 ^ eb f * 2 ^ (fs f + 1)) 0); [nia|reflexivity]).
        rewrite cshr_ok by (rewrite bits_u; lia). cbn [bind]. rewrite cshl_u_exact; [|lia|lia|rewrite Z.mul_1_l; apply pow2_lt; lia]. cbn [bind]. rewrite Z.mul_1_l. change (2 ^ 1) with 2.
        destruct fin_mid_odd as (Hi & Ri & Hq). cbv zeta in Hi, Ri. set (q := ZnearestE (X * bp (- eb f))) in *.
        destruct (conv_ok neg _ Hi) as (n2 & -> & Hn2 & M2). cbn [bind]. rewrite Ri in M2.
        assert (Eq2 : (mag n2 * 2 = IZR (S + q) * bp (eb f))%R). { rewrite M2. replace (eb f) with (eb f - 1 + 1) at 2 by lia. rewrite bpow_plus. change (bp 1) with 2%R. ring. }
        destruct (two_mul_s neg n2 Hn2) as (d & -> & Hd & Md).
        { rewrite Eq2. apply Rle_lt_trans with (bp (b)). - replace b with (fs f + 1 + eb f) by lia. rewrite (bpow_plus radix2 (fs f + 1)). apply Rmult_le_compat_r; [apply bpow_ge_0|]. rewrite <- IZR_pow by lia. apply IZR_le. rewrite Z.pow_add_r by lia. lia. - apply bpow_lt. unfold emax. clear - WI BE E5 WB WL WS W. lia. }
        destruct (dy_pattern f W q (eb f)) as (n4 & Hn4 & M4); [lia|unfold emin; lia| |].
        { apply Z.le_trans with (fs f + eb f); [|lia]. assert (Z.log2 q <= fs f); [|lia]. apply Z.le_trans with (Z.log2 S); [apply Z.log2_le_mono; lia|]. rewrite Z.log2_pow2 by lia. lia. }
        assert (0 < n4). { destruct (Z.eq_dec n4 0) as [->|]; [|lia]. exfalso. rewrite (mag_0 f W) in M4. assert (0 < IZR q)%R by (apply IZR_lt; lia). pose proof (bpow_gt_0 radix2 (eb f)). assert (0 < IZR q * bp (eb f))%R by (apply Rmult_lt_0_compat; assumption). lra. }
        rewrite (sub_signed neg d (p2 (b - 1)) n4).
        -- cbn [bind]. apply (finish_scalbn neg n4 e ltac:(lia) ltac:(lia) zs _ XE). rewrite M4, RM. rewrite Rmult_assoc, <- bpow_plus. replace (eb f + e) with (emin f) by (unfold emin; lia). rewrite <- RM. apply rne_idem; exact W.
        -- exact Hd.
        -- lia.
        -- lia.
        -- rewrite Md, Eq2, M4, MP, plus_IZR, IZR_pow by lia. replace (bp (b - 1)) with (bp (fs f) * bp (eb f))%R by (rewrite <- bpow_plus; f_equal; lia). ring.
  - rewrite EXP_BITS_eq by assumption. rewrite chk_s32 by lia. cbn [bind].
    rewrite cshl_ok by (unfold fI; rewrite bits_u; lia). cbn [bind]. rewrite cshr_ok by (unfold fI; rewrite bits_u; lia). cbn [bind]. unfold fI. rewrite norm_u.
    assert ((rhi * 2 ^ (b - (eb f - 1))) mod 2 ^ b = (rhi mod 2 ^ (eb f - 1)) * 2 ^ (b - (eb f - 1))) as ->. { replace b with ((eb f - 1) + (b - (eb f - 1))) at 2 by lia. rewrite (pow2_add (eb f - 1)) by lia. rewrite Z.mul_mod_distr_r; [reflexivity|apply Z.pow_nonzero; lia|apply Z.pow_nonzero; lia]. }
    pose proof (pow2_pos (b - (eb f - 1)) ltac:(lia)) as PS.
    assert ((rhi mod 2 ^ (eb f - 1) * 2 ^ (b - (eb f - 1)) =? 0) = (rhi mod 2 ^ (eb f - 1) =? 0)) as ->. { destruct (Z.eqb_spec (rhi mod 2 ^ (eb f - 1)) 0) as [->|K]; [reflexivity|]. apply Z.eqb_neq. nia. }
    fold (stkr rhi (eb f - 1)). destruct (fin_tiny ltac:(lia)) as (Hi & Ri & Re). cbv zeta in Hi, Ri, Re. fold (fI f). unfold fI.
    rewrite cshl_u_exact; [|lia|apply Z.le_trans with (rhi / 2 ^ (eb f - 1)); [apply Z.div_pos; [lia|apply pow2_pos; lia]|apply stkr_pos; lia]|apply Z.lt_le_trans with B; [lia|apply pow2_le; lia]]. cbn [bind].
    destruct (conv_ok neg (stkr rhi (eb f - 1) * 2 ^ (eb f - 1)) ltac:(lia)) as (n2 & -> & Hn2 & M2). cbn [bind].
    apply (finish_scalbn neg n2 e Hn2 ltac:(lia) zs _ XE). rewrite M2, Ri. exact Re.
Qed.
End Finish.
End P.
