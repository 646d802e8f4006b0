(** Libm: round and modf (C33, C38). *)
From Coq Require Import ZArith Reals Bool Lia Lra.
From Flocq Require Import Core.
From Verif Require Import Base BaseLemmas FloatModel FloatSpec FloatConvSpec FloatConvModel FloatProofs FloatProofs2 FloatProofs3 FloatProofs4 FloatProofs5 FloatProofs7 FloatConvProofs FloatLib LibmModel LibmSpec LibmProofs LibmProofs2 LibmProofs3.
Open Scope Z_scope.

(** Round half away from zero on nonnegative reals, and its symmetry. *)
Lemma ZnearestA_pos (x : R) : (0 <= x)%R -> ZnearestA x = Zfloor (x + / 2).
Proof.
  intros H. assert (0 <= Zfloor x) as F0 by (apply Zfloor_lub; exact H). unfold Znearest.
  pose proof (Zfloor_lb x) as L. pose proof (Zfloor_ub x) as U. destruct (Rcompare_spec (x - IZR (Zfloor x)) (/ 2)) as [C|C|C].
  - symmetry. apply Zfloor_imp. rewrite plus_IZR. lra.
  - replace (0 <=? Zfloor x) with true by (symmetry; apply Z.leb_le; exact F0).
    assert (Zceil x = Zfloor x + 1) as -> by (apply Zceil_floor_neq; lra). symmetry. apply Zfloor_imp. rewrite !plus_IZR. lra.
  - assert (Zceil x = Zfloor x + 1) as -> by (apply Zceil_floor_neq; lra). symmetry. apply Zfloor_imp. rewrite !plus_IZR. lra.
Qed.
Lemma ZnearestA_signed (s : bool) (x : R) : (0 <= x)%R -> ZnearestA (if s then - x else x) = if s then - ZnearestA x else ZnearestA x.
Proof.
  intros H. destruct s; [|reflexivity]. rewrite Znearest_opp. f_equal. unfold Znearest. destruct (Rcompare _ _); try reflexivity.
  assert (0 <= Zfloor x) as F0 by (apply Zfloor_lub; exact H).
  replace (0 <=? Zfloor x) with true by (symmetry; apply Z.leb_le; exact F0).
  replace (0 <=? - (Zfloor x + 1)) with false by (symmetry; apply Z.leb_gt; lia). reflexivity.
Qed.
Lemma bpow_half : bpow radix2 (-1) = (/ 2)%R. Proof. reflexivity. Qed.

Section Fmt.
Context (f : fmt) (W : wf f) (WL : fs f + 3 <= bias f).
Notation S := (2 ^ fs f).
Notation B := (2 ^ (fb f - 1)).
Notation u := (bpow radix2 (emin f)).
Notation mk s n := (b2z s * B + n).
Notation mag n := (IZR (V f n) * u)%R.
Notation p2 := (p2 f).
Notation key := (key f).

Lemma rne_mag n : 0 <= n < inf f -> rne f (mag n) = mag n.
Proof using W. intros H. destruct (rmag_exact f W n H) as (_ & E & _). apply E. lia. Qed.
Lemma rne_scaled0 E (y : R) : 1 <= E -> (0 <= y < IZR (2 * S))%R -> (E = 1 \/ (IZR S <= y)%R) ->
  rne f (y * bpow radix2 (E - bias f - fs f)) = (IZR (ZnearestE y) * bpow radix2 (E - bias f - fs f))%R.
Proof using W. intros. replace (E - bias f - fs f) with (E - 1 + emin f) by (unfold emin; lia). apply rne_scaled; assumption. Qed.
(** The largest value below a power of two. *)
Lemma mag_pred k : 1 - bias f < k <= bias f -> mag (p2 k - 1) = (bpow radix2 k - bpow radix2 (k - 1 - fs f))%R.
Proof using W.
  intros H. pose proof (S_pos f W) as SP. replace (p2 k - 1) with (enc f (k - 1 + bias f) (2 * S - 1)) by (unfold LibmProofs.p2, enc; ring).
  rewrite (mag_enc f W) by lia. rewrite minus_IZR, mult_IZR, <- (bpow_S f W).
  replace (k - 1 + bias f - bias f - fs f) with (k - 1 - fs f) by lia. rewrite Rmult_minus_distr_r. f_equal; [|ring].
  rewrite Rmult_assoc, <- bpow_plus. change 2%R with (bpow radix2 1). rewrite <- bpow_plus. f_equal. lia.
Qed.

(** Every dyadic that fits the precision and the exponent range has an encoding. *)
Lemma dy_pattern N k : 0 <= N < 2 * S -> emin f <= k -> Z.log2 N + k <= bias f -> exists n, 0 <= n < inf f /\ (mag n = IZR N * bpow radix2 k)%R.
Proof using W.
  intros H Hk HL. pose proof (S_pos f W) as SP. pose proof (inf_pos f W) as IP. pose proof (bias_pos f W) as Bp. assert (0 <= fs f) as FS by (destruct W; lia).
  destruct (Z.eq_dec N 0) as [->|N0]. { exists 0. rewrite (mag_0 f W). split; [lia|]. ring. }
  pose proof (Z.log2_spec N ltac:(lia)) as [L1 L2]. set (j := Z.log2 N) in *. assert (0 <= j) by apply Z.log2_nonneg.
  assert (j < fs f + 1). { apply Z.pow_lt_mono_r_iff with 2; [lia|lia|]. rewrite Z.pow_add_r by lia. change (2 ^ 1) with 2. lia. }
  rewrite Z.pow_succ_r in L2 by lia. pose proof (inf_eq f W) as IE. pose proof (eb_bias f W) as EBB.
  destruct (Z_le_gt_dec (1 - bias f) (j + k)) as [Hn|Hs].
  - pose proof (pow2_pos (fs f - j) ltac:(lia)) as P. assert (S = 2 ^ j * 2 ^ (fs f - j)) as ES by (rewrite <- pow2_add by lia; f_equal; lia).
    exists (enc f (j + k + bias f) (N * 2 ^ (fs f - j))).
    assert (S <= N * 2 ^ (fs f - j) < 2 * S) by (rewrite ES; split; [apply Z.mul_le_mono_nonneg_r; lia|rewrite Z.mul_assoc; apply Z.mul_lt_mono_pos_r; lia]).
    split.
    + unfold enc. rewrite IE. split; [apply Z.add_nonneg_nonneg; [apply Z.mul_nonneg_nonneg|]; lia|].
      pose proof (Z.mul_le_mono_nonneg_r (j + k + bias f - 1 + 2) (2 ^ eb f - 1) S). lia.
    + rewrite (mag_enc f W) by lia. rewrite mult_IZR, (IZR_Zpower radix2), Rmult_assoc, <- bpow_plus by lia. do 2 f_equal. lia.
  - unfold emin in Hk. pose proof (pow2_pos (k - emin f) ltac:(unfold emin; lia)) as P. exists (enc f 1 (N * 2 ^ (k - emin f))).
    assert (0 <= N * 2 ^ (k - emin f) < S) as R.
    { split; [apply Z.mul_nonneg_nonneg; lia|]. apply Z.lt_le_trans with (2 * 2 ^ j * 2 ^ (k - emin f)); [apply Z.mul_lt_mono_pos_r; lia|].
      rewrite <- Z.pow_succ_r, <- pow2_add by (unfold emin; lia). apply Z.pow_le_mono_r; unfold emin; lia. }
    split; [unfold enc; lia|]. rewrite (mag_enc f W) by lia. rewrite mult_IZR, (IZR_Zpower radix2), Rmult_assoc, <- bpow_plus by (unfold emin; lia). do 2 f_equal. unfold emin. lia.
Qed.

Definition hh : R := (/ 2 - bpow radix2 (- fs f - 2))%R.
Lemma hh_range : (/ 4 < hh < / 2)%R.
Proof using W.
  unfold hh. pose proof (bpow_gt_0 radix2 (- fs f - 2)). pose proof (bpow_lt radix2 (- fs f - 2) (-2) ltac:(destruct W; lia)) as L.
  change (bpow radix2 (-2)) with (/ 4)%R in L. lra.
Qed.
Lemma round_core n : 0 <= n < inf f -> let y := rne f (mag n + hh) in Zfloor y = Zfloor (mag n + / 2) /\ (0 <= y < bpow radix2 (emax f))%R.
Proof using W WL.
  intros Hn y. pose proof hh_range as HH. pose proof (S_pos f W) as SP. pose proof (inf_pos f W) as IP. pose proof (bias_pos f W) as Bp.
  assert (1 <= fs f) as FS by (destruct W; lia). pose proof (mag_nonneg f W n ltac:(lia)) as X0.
  assert (0 <= y)%R as Y0. { unfold y. rewrite <- (rne_0 f). apply (rne_mono f W). lra. }
  assert (0 <= n < B) as HnB by lia. set (e := n / S - bias f).
  pose proof (Z.div_mod n S ltac:(lia)) as D. pose proof (Z.mod_pos_bound n S ltac:(lia)) as M.
  assert (forall k, n / S - bias f < k -> n < p2 k) as Hlt.
  { intros k Hk. unfold LibmProofs.p2. pose proof (Z.mul_le_mono_nonneg_r (n / S + 1) (k + bias f) S). lia. }
  assert (forall k, k <= n / S - bias f -> p2 k <= n) as Hge.
  { intros k Hk. unfold LibmProofs.p2. pose proof (Z.mul_le_mono_nonneg_r (k + bias f) (n / S) S). lia. }
  assert (e < fs f -> (y < bpow radix2 (emax f))%R) as Ylow.
  { intros He. apply Rle_lt_trans with (bpow radix2 (fs f + 1)); [|apply bpow_lt; unfold emax; lia].
    unfold y. rewrite <- (mag_p2 f W (fs f + 1)) by lia. rewrite <- (rne_mag (p2 (fs f + 1))) by (apply (p2_range f W); lia). apply (rne_mono f W).
    pose proof (mag_lt f W n (p2 (fs f)) ltac:(pose proof (Hlt (fs f) He); lia)) as L. rewrite (mag_p2 f W) in * by lia.
    rewrite bpow_plus. change (bpow radix2 1) with 2%R. pose proof (bpow_le radix2 0 (fs f) ltac:(lia)). change (bpow radix2 0) with 1%R in *. lra. }
  destruct (Z_le_gt_dec (fs f) e) as [Eh|El].
  - (* already an integer *)
    set (q := S + n mod S). assert (n = enc f (n / S) q) as En by (unfold enc, q; lia).
    assert (mag n = IZR q * bpow radix2 (e - fs f))%R as Mn. { rewrite En at 1. rewrite (mag_enc f W) by (unfold q; lia). do 2 f_equal. }
    set (h2 := (hh * bpow radix2 (fs f - e))%R). assert (0 < h2 < / 2)%R as H2.
    { unfold h2. pose proof (bpow_gt_0 radix2 (fs f - e)). pose proof (bpow_le radix2 (fs f - e) 0 ltac:(lia)) as L. change (bpow radix2 0) with 1%R in L.
      split; [apply Rmult_lt_0_compat; lra|]. apply Rle_lt_trans with (hh * 1)%R; [apply Rmult_le_compat_l; lra|lra]. }
    assert (y = mag n) as ->.
    { unfold y. replace (mag n + hh)%R with ((IZR q + h2) * bpow radix2 (n / S - bias f - fs f))%R.
      2:{ rewrite Mn. unfold h2. fold e. rewrite Rmult_plus_distr_r. f_equal. rewrite Rmult_assoc, <- bpow_plus. replace (fs f - e + (e - fs f)) with 0 by lia. cbn [bpow]. ring. }
      assert (IZR q <= IZR (2 * S) - 1)%R by (rewrite <- minus_IZR; apply IZR_le; unfold q; lia).
      assert (IZR S <= IZR q)%R by (apply IZR_le; unfold q; lia). assert (0 < IZR S)%R by (apply IZR_lt; lia).
      rewrite rne_scaled0 by (lia || lra || (right; lra)). rewrite (ZnearestE_int_near _ q) by lra. symmetry. exact Mn. }
    destruct (region_high f W n Hn Eh) as (N & EN & HN). split.
    + rewrite EN, Zfloor_IZR. symmetry. apply Zfloor_imp. rewrite plus_IZR. lra.
    + split; [lra|]. rewrite <- (V_inf f W). apply (mag_lt f W). lia.
  - specialize (Ylow ltac:(lia)). split; [|lra].
    destruct (Z_lt_ge_dec e (-1)) as [E1|E1]; [|destruct (Z_lt_ge_dec e 0) as [E0|E0]].
    + (* below 1/2 *)
      pose proof (Hlt (-1) E1) as L1. assert (mag n <= mag (p2 (-1) - 1))%R as L2.
      { destruct (Z.eq_dec n (p2 (-1) - 1)) as [<-|]; [lra|]. apply Rlt_le, (mag_lt f W). lia. }
      rewrite mag_pred in L2 by lia. rewrite bpow_half in L2. replace (-1 - 1 - fs f) with (- fs f - 2) in L2 by lia.
      assert (y <= mag (p2 0 - 1))%R as Y1.
      { unfold y. rewrite <- (rne_mag (p2 0 - 1)). 2:{ pose proof (p2_range f W 0 ltac:(lia)). pose proof (p2_pos f W 0 ltac:(lia)). lia. } apply (rne_mono f W).
        rewrite mag_pred by lia. change (bpow radix2 0) with 1%R. replace (0 - 1 - fs f) with (1 + (- fs f - 2)) by lia.
        rewrite bpow_plus. change (bpow radix2 1) with 2%R. unfold hh. lra. }
      rewrite mag_pred in Y1 by lia. change (bpow radix2 0) with 1%R in Y1. pose proof (bpow_gt_0 radix2 (0 - 1 - fs f)). pose proof (bpow_gt_0 radix2 (- fs f - 2)).
      rewrite (Zfloor_imp 0 y) by (cbn; lra). symmetry. apply Zfloor_imp. cbn. lra.
    + (* in [1/2, 1) *)
      pose proof (Hlt 0 E0) as L1. pose proof (Hge (-1) ltac:(lia)) as L2.
      pose proof (mag_lt f W n (p2 0) ltac:(lia)) as L3. rewrite (mag_p2 f W) in L3 by lia. change (bpow radix2 0) with 1%R in L3.
      assert (/ 2 <= mag n)%R as L4.
      { rewrite <- bpow_half, <- (mag_p2 f W) by lia. destruct (Z.eq_dec n (p2 (-1))) as [<-|]; [lra|]. apply Rlt_le, (mag_lt f W). pose proof (p2_pos f W (-1)). lia. }
      assert (IZR (2 * S) = 2 * IZR S)%R as E2 by (rewrite mult_IZR; ring). assert (1 <= IZR S)%R by (apply IZR_le; lia).
      assert (1 <= y)%R as Y1.
      { unfold y. replace 1%R with (rne f ((IZR (2 * S) - / 2) * bpow radix2 (bias f - 1 - bias f - fs f))).
        2:{ rewrite rne_scaled0 by (lia || lra || (right; lra)). rewrite ZnearestE_tie_up by (exists S; reflexivity).
            rewrite E2, <- (bpow_S f W). change 2%R with (bpow radix2 1). rewrite <- !bpow_plus. replace (1 + fs f + (bias f - 1 - bias f - fs f)) with 0 by lia. reflexivity. }
        apply (rne_mono f W). replace (bias f - 1 - bias f - fs f) with (- fs f - 1) by lia.
        replace ((IZR (2 * S) - / 2) * bpow radix2 (- fs f - 1))%R with (1 - bpow radix2 (- fs f - 2))%R; [unfold hh; lra|].
        rewrite Rmult_minus_distr_r, E2, <- (bpow_S f W). change 2%R with (bpow radix2 1). rewrite <- bpow_opp, <- !bpow_plus.
        replace (1 + fs f + (- fs f - 1)) with 0 by lia. replace (- (1) + (- fs f - 1)) with (- fs f - 2) by lia. reflexivity. }
      assert (y <= mag (p2 1 - 1))%R as Y2.
      { unfold y. rewrite <- (rne_mag (p2 1 - 1)). 2:{ pose proof (p2_range f W 1 ltac:(lia)). pose proof (p2_pos f W 1 ltac:(lia)). lia. } apply (rne_mono f W).
        rewrite mag_pred by lia. pose proof (bpow_le radix2 (1 - 1 - fs f) (-1) ltac:(lia)) as Q. rewrite bpow_half in Q. change (bpow radix2 1) with 2%R. lra. }
      rewrite mag_pred in Y2 by lia. change (bpow radix2 1) with 2%R in Y2. pose proof (bpow_gt_0 radix2 (1 - 1 - fs f)).
      rewrite (Zfloor_imp 1 y) by (cbn; lra). symmetry. apply Zfloor_imp. cbn. lra.
    + (* the middle binades *)
      set (q := S + n mod S). assert (n = enc f (n / S) q) as En by (unfold enc, q; lia).
      set (K := 2 ^ (fs f - e)). assert (K = 2 * 2 ^ (fs f - e - 1)) as K2 by (unfold K; rewrite <- pow2_S by lia; reflexivity).
      set (K' := 2 ^ (fs f - e - 1)) in *. assert (0 < K') as K'P by (apply pow2_pos; lia).
      assert (IZR K * bpow radix2 (e - fs f) = 1)%R as KB.
      { unfold K. rewrite (IZR_Zpower radix2), <- bpow_plus by lia. replace (fs f - e + (e - fs f)) with 0 by lia. reflexivity. }
      assert (bpow radix2 (e - fs f) = / IZR K)%R as Bk. { assert (IZR K <> 0)%R by (apply not_0_IZR; lia). apply (Rmult_eq_reg_l (IZR K)); [|assumption]. rewrite KB. field; assumption. }
      assert (mag n = IZR q / IZR K)%R as Mn. { rewrite En at 1. rewrite (mag_enc f W) by (unfold q; lia). unfold Rdiv. rewrite <- Bk. do 2 f_equal. }
      assert (0 < IZR K')%R by (apply IZR_lt; lia). assert (IZR K = 2 * IZR K')%R as RK by (rewrite K2, mult_IZR; reflexivity).
      set (M1 := q + K'). assert (mag n + / 2 = IZR M1 / IZR K)%R as MN. { rewrite Mn. unfold M1. rewrite plus_IZR, RK. field. lra. }
      set (t := bpow radix2 (- e - 2)). assert (0 < t <= / 4)%R as Ht.
      { unfold t. split; [apply bpow_gt_0|]. change (/ 4)%R with (bpow radix2 (-2)). apply bpow_le. lia. }
      assert (mag n + hh = (IZR M1 - t) * bpow radix2 (e - fs f))%R as MH.
      { unfold hh. replace (mag n + (/ 2 - bpow radix2 (- fs f - 2)))%R with (mag n + / 2 - bpow radix2 (- fs f - 2))%R by ring.
        rewrite MN, Rmult_minus_distr_r, Bk. f_equal. unfold t. rewrite <- Bk, <- bpow_plus. f_equal. lia. }
      rewrite MN, Zfloor_div by lia. unfold y. rewrite MH.
      assert (S <= q < 2 * S) as Hq by (unfold q; lia).
      assert (K' <= S) as KS. { unfold K'. apply Z.pow_le_mono_r; lia. }
      assert (IZR (2 * S) = 2 * IZR S)%R as E2 by (rewrite mult_IZR; ring).
      destruct (Z_le_gt_dec M1 (2 * S)) as [HM|HM].
      * replace (e - fs f) with (n / S - bias f - fs f) by (unfold e; lia).
        assert (IZR M1 <= IZR (2 * S))%R by (apply IZR_le; lia). assert (IZR S + 1 <= IZR M1)%R by (rewrite <- plus_IZR; apply IZR_le; unfold M1; lia).
        assert (0 < IZR S)%R by (apply IZR_lt; lia).
        rewrite rne_scaled0 by (lia || lra || (right; lra)). rewrite (ZnearestE_int_near _ M1) by lra. fold e. rewrite Bk. fold (IZR M1 / IZR K)%R. apply Zfloor_div. lia.
      * assert (IZR (2 * S) + 1 <= IZR M1)%R by (rewrite <- plus_IZR; apply IZR_le; lia). assert (IZR M1 < 2 * IZR (2 * S))%R by (rewrite <- mult_IZR; apply IZR_lt; unfold M1; lia).
        replace ((IZR M1 - t) * bpow radix2 (e - fs f))%R with ((IZR M1 - t) / 2 * bpow radix2 (n / S + 1 - bias f - fs f))%R.
        2:{ replace (n / S + 1 - bias f - fs f) with (1 + (e - fs f)) by (unfold e; lia). rewrite bpow_plus. change (bpow radix2 1) with 2%R. field. }
        assert (0 < IZR S)%R by (apply IZR_lt; lia).
        rewrite rne_scaled0 by (lia || lra || (right; lra)).
        pose proof (Z.div_mod M1 2 ltac:(lia)) as D2. pose proof (Z.mod_pos_bound M1 2 ltac:(lia)) as B2.
        assert (IZR M1 = 2 * IZR (M1 / 2) + IZR (M1 mod 2))%R as D3 by (rewrite <- mult_IZR, <- plus_IZR; f_equal; exact D2).
        assert (0 <= IZR (M1 mod 2) <= 1)%R by (split; apply IZR_le; lia).
        rewrite (ZnearestE_int_near _ (M1 / 2)) by lra.
        replace (n / S + 1 - bias f - fs f) with (1 + (e - fs f)) by (unfold e; lia). rewrite bpow_plus, Bk. change (bpow radix2 1) with 2%R.
        replace (IZR (M1 / 2) * (2 * / IZR K))%R with (IZR (M1 / 2) / IZR K')%R. 2:{ rewrite RK. field. lra. }
        rewrite Zfloor_div by lia. rewrite K2. rewrite Zdiv.Zdiv_Zdiv by lia. reflexivity.
Qed.

Context (o : fops) (O : ieee_ops f o).

Lemma from_parts_ok k : 1 - bias f <= k <= bias f -> from_parts f false (bias f + k) 0 = Ok (mk false (p2 k)).
Proof using W.
  intros He. pose proof (S_pos f W) as SP. pose proof (EB_big f W) as EB. pose proof (eb_bias f W) as Eb. pose proof (fb_eq f W) as FB. pose proof (B_eq f W) as BE. pose proof (p2_B f W k ltac:(lia)) as P.
  pose proof (EXP_SAT_eq f W) as ES. assert (10 <= fs f /\ fs f < fb f /\ 16 <= fb f) as (F1 & F2 & F3) by (destruct W; lia).
  unfold from_parts. rewrite (cshl_u_exact (fb f)) by (cbn [b2z]; lia). cbn [bind b2z]. rewrite Z.mul_0_l.
  rewrite ES, land_ones_mod by (destruct W; lia). rewrite Z.mod_small by lia.
  rewrite (norm_u_id (fb f)) by nia. fold (fI f). unfold fI. rewrite (cshl_u_exact (fb f)); [|lia|lia|unfold LibmProofs.p2 in P; lia].
  cbn [bind]. rewrite Z.land_0_l, Z.lor_0_l, Z.lor_0_r. f_equal. unfold LibmProofs.p2. ring.
Qed.
Lemma half_eps : o_sub o (mk false (p2 (-1))) (o_mul o (mk false (p2 (-2))) (EPSILON f)) = mk false (p2 (-1) - 1) /\ mag (p2 (-1) - 1) = hh.
Proof using W WL O.
  pose proof (bias_pos f W) as Bp. assert (1 <= fs f) as FS by (destruct W; lia).
  assert (mag (p2 (-1) - 1) = hh) as MH. { rewrite mag_pred by lia. unfold hh. rewrite bpow_half. do 2 f_equal. lia. }
  split; [|exact MH]. rewrite (EPSILON_eq f W).
  destruct (fin_p2 f W false (-1) ltac:(lia)) as (A1 & A2 & A3 & A4). destruct (fin_p2 f W false (-2) ltac:(lia)) as (B1 & B2 & B3 & B4). destruct (fin_p2 f W false (- fs f) ltac:(lia)) as (C1 & C2 & C3 & C4).
  destruct (ops_mul f o O _ _ B1 C1) as [_ (_ & _ & _ & R)]. specialize (R B2 C2).
  apply (op_exact f W _ _ _ false (p2 (- fs f - 2))) in R; [|rewrite !(value_p2 f W), (mag_p2 f W), <- bpow_plus by lia; f_equal; lia|apply (p2_range f W); lia|rewrite B4, C4; reflexivity].
  rewrite R. destruct (fin_p2 f W false (- fs f - 2) ltac:(lia)) as (D1 & D2 & D3 & D4).
  destruct (ops_sub f o O _ _ A1 D1) as [_ (_ & _ & _ & _ & R2)]. specialize (R2 A2 D2).
  pose proof (p2_range f W (-1) ltac:(lia)). pose proof (p2_pos f W (-1) ltac:(lia)).
  apply (op_exact f W _ _ _ false (p2 (-1) - 1)) in R2; [exact R2| |lia|rewrite A4; reflexivity].
  rewrite MH, !(value_p2 f W) by lia. unfold hh. rewrite bpow_half. reflexivity.
Qed.

Lemma round_ok x : is_float f x -> exists r, LibmModel.round f o x = Ok r /\
  (is_finite f x -> rounded_to_integer f ZnearestA x r) /\ (is_inf f x -> r = x) /\ (is_nan f x -> is_qnan f r).
Proof using W WL O.
  intros Fx. pose proof (bias_pos f W) as Bp. pose proof (bias_range f W) as (Hb & Eb & _). rewrite <- Eb in Hb.
  unfold LibmModel.round. rewrite <- Eb, !(csub_u 32) by lia. cbn [bind].
  replace (bias f - 1) with (bias f + -1) by lia. replace (bias f - 2) with (bias f + -2) by lia. rewrite !from_parts_ok by lia. cbn [bind].
  destruct half_eps as [-> MH].
  destruct (split_float f W x Fx) as (s & n & -> & Hn). pose proof (p2_range f W (-1) ltac:(lia)) as P1. pose proof (p2_pos f W (-1) ltac:(lia)) as P2. pose proof (inf_pos f W) as IP.
  rewrite (copysign_mk f W) by (assumption || lia). set (h := mk s (p2 (-1) - 1)).
  assert (0 <= p2 (-1) - 1 < B) as HB by lia.
  assert (is_float f h) as Fh by (apply is_float_mk; assumption).
  assert (is_finite f h) as Nh by (apply is_finite_mk; [assumption..|lia]).
  destruct (ops_add f o O _ _ Fx Fh) as [Fr (AN & _ & AI & _ & AR)]. set (y := o_add o (mk s n) h) in *.
  destruct (trunc_status_ok f W ltac:(lia) y Fr) as (r & st & -> & T1 & T2). cbn [bind fst]. exists r. split; [reflexivity|].
  split; [|split].
  - intros Nx. specialize (AR Nx Nh). assert (n < inf f) as Hf by (apply is_finite_mk in Nx; assumption).
    destruct (round_core n ltac:(lia)) as (RF & RY). set (Y := rne f (mag n + hh)) in *.
    assert (value f (mk s n) + value f h = if s then - (mag n + hh) else mag n + hh)%R as EV.
    { unfold h. rewrite !value_mk, MH by assumption. destruct s; ring. }
    rewrite EV in AR. destruct AR as (_ & AS & AV). pose proof hh_range as HH. pose proof (mag_nonneg f W n ltac:(lia)) as X0.
    assert (sign_of f y = s) as Sy. { rewrite AS. destruct s; [rewrite Rcompare_Lt by lra|rewrite Rcompare_Gt by lra]; reflexivity. }
    assert (rne f (if s then - (mag n + hh) else mag n + hh) = if s then - Y else Y)%R as RE by (destruct s; [apply rne_opp|reflexivity]).
    rewrite RE in AV. rewrite Rlt_bool_true in AV. 2:{ destruct s; [rewrite Rabs_Ropp|]; rewrite Rabs_pos_eq; lra. }
    destruct AV as [Ny Vy]. destruct (T1 Ny) as [(R1 & R2 & R3 & R4) _]. split; [exact R1|]. rewrite R2, Sy, sign_of_mk by assumption.
    split; [reflexivity|]. split; [exact R3|]. rewrite R4, Vy, value_mk, ZnearestA_signed, ZnearestA_pos, <- RF by (assumption || lra).
    f_equal. destruct s; [rewrite Ztrunc_opp; f_equal|]; apply Ztrunc_floor; lra.
  - intros Ix. specialize (AI Ix Nh). assert (~ is_finite f y) as Ny. { rewrite AI. rewrite finite_iff by assumption. tauto. }
    destruct (T2 Ny) as [-> _]. exact AI.
  - intros Nx. assert (is_qnan f y) as Q by (apply AN; left; exact Nx).
    assert (~ is_finite f y) as Ny. { rewrite finite_iff by assumption. destruct Q. tauto. } destruct (T2 Ny) as [-> _]. exact Q.
Qed.

(** [modf]: the two parts have the sign of the argument. *)
Lemma modf_ok x : is_float f x -> exists fr i, modf f o x = Ok (fr, i) /\
  (is_finite f x -> rounded_to_integer f Ztrunc x i /\ is_float f fr /\ is_finite f fr /\ sign_of f fr = sign_of f x /\ (value f fr + value f i = value f x)%R) /\
  (is_inf f x -> i = x /\ is_float f fr /\ is_zero f fr /\ sign_of f fr = sign_of f x) /\ (is_nan f x -> fr = x /\ i = x).
Proof using W WL O.
  intros Fx. destruct (split_float f W x Fx) as (s & n & -> & Hn). pose proof (bias_pos f W) as Bp. pose proof (bias_range f W) as (Hb & Eb & _). rewrite <- Eb in Hb.
  pose proof (inf_pos f W) as IP. pose proof (S_pos f W) as SP. pose proof (div_range f W n Hn) as DR. pose proof (EB_big f W) as EBb. pose proof (eb_bias f W) as EBB. assert (10 <= fs f) as FS by (destruct W; lia).
  unfold modf. rewrite exp_of by assumption. rewrite norm_s32 by lia. rewrite <- Eb. unfold csub at 1. rewrite chk_s32 by lia. cbn [bind].
  assert (Z.land (mk s n) (SIGN_MASK f) = mk s 0) as -> by (rewrite sgn_of by assumption; lia).
  assert (is_float f (mk s 0) /\ is_finite f (mk s 0) /\ sign_of f (mk s 0) = s /\ is_zero f (mk s 0) /\ value f (mk s 0) = 0%R) as (Z1 & Z2 & Z3 & Z4 & Z5).
  { rewrite is_finite_mk, sign_of_mk, is_zero_mk, value_mk, (mag_0 f W) by (assumption || lia). split; [apply is_float_mk; [assumption|lia]|]. split; [lia|]. split; [reflexivity|]. split; [reflexivity|]. destruct s; ring. }
  assert (forall fr i, rounded_to_integer f Ztrunc (mk s n) (mk s n) -> fr = mk s 0 -> i = mk s n ->
    rounded_to_integer f Ztrunc (mk s n) i /\ is_float f fr /\ is_finite f fr /\ sign_of f fr = sign_of f (mk s n) /\ (value f fr + value f i = value f (mk s n))%R) as Triv.
  { intros fr i R -> ->. split; [exact R|]. split; [exact Z1|]. split; [exact Z2|]. rewrite Z3, Z5, sign_of_mk by assumption. split; [reflexivity|]. ring. }
  destruct (Z.leb_spec (fs f) (n / S - bias f)) as [Eh|El].
  - rewrite EXP_BITS_eq by assumption. rewrite cshl_ok by (cbn [bits fI UI]; destruct W; lia). cbn [bind].
    assert ((norm (fI f) (mk s n * 2 ^ (eb f + 1)) =? 0) = (n mod S =? 0)) as ->.
    { unfold fI. rewrite norm_u. assert (2 ^ fb f = S * 2 ^ (eb f + 1)) as -> by (rewrite <- pow2_add by (destruct W; lia); f_equal; destruct W; lia).
      pose proof (pow2_pos (eb f + 1) ltac:(destruct W; lia)). rewrite Z.mul_mod_distr_r by lia. rewrite (low_mk f W s n (fs f)) by lia.
      apply eq_true_iff_eq. rewrite !Z.eqb_eq. nia. }
    pose proof (div_inf f W n Hn) as DI. pose proof (Z.div_mod n S ltac:(lia)) as D. pose proof (Z.mod_pos_bound n S ltac:(lia)) as M. pose proof (inf_eq f W) as IE.
    pose proof (is_finite_mk f W s n Hn) as FM. pose proof (is_inf_mk f W s n Hn) as IM. pose proof (is_nan_mk f W s n Hn) as NM.
    destruct (Z.eqb_spec (n / S - bias f) (bias f + 1)) as [E1|E1]; [destruct (Z.eqb_spec (n mod S) 0) as [E2|E2]|]; cbn [andb negb].
    + assert (n = inf f) by nia. eexists _, _. split; [reflexivity|]. rewrite FM, IM, NM. split; [lia|]. split; [|lia]. intros _. rewrite Z3, sign_of_mk by assumption. tauto.
    + assert (inf f < n) by nia. eexists _, _. split; [reflexivity|]. rewrite FM, IM, NM. split; [lia|]. split; [lia|]. tauto.
    + assert (n < inf f) by lia. eexists _, _. split; [reflexivity|]. rewrite IM, NM. split; [|lia]. intros _. apply Triv; [|reflexivity|reflexivity].
      destruct (region_high f W n ltac:(lia) Eh) as (N & EN & HN). apply (integer_mk f W _ s n n N); [assumption|lia|assumption|].
      rewrite value_mk by assumption. rewrite EN. destruct s; [rewrite Ztrunc_opp|]; rewrite Ztrunc_IZR; reflexivity.
  - assert (n < inf f) as Hf by (apply (finite_low f W); [lia|assumption|lia]).
    destruct (Z.ltb_spec (n / S - bias f) 0) as [E0|E0].
    + eexists _, _. split; [reflexivity|]. rewrite is_inf_mk, is_nan_mk, is_finite_mk by assumption. split; [|lia]. intros _.
      pose proof (region_low f W n Hn E0) as RL. pose proof (mag_nonneg f W n ltac:(lia)) as X0.
      split; [apply (integer_mk f W _ s n 0 0); [assumption|lia|apply (mag_0 f W)|]|].
      { rewrite value_mk by assumption. destruct s; [rewrite Ztrunc_opp|]; rewrite Ztrunc_floor by lra; rewrite (Zfloor_imp 0) by (cbn; lra); reflexivity. }
      rewrite Z5. split; [exact Fx|]. split; [lia|]. split; [reflexivity|]. ring.
    + destruct (mid_facts f W ltac:(lia) s n (n / S - bias f) Hn eq_refl ltac:(lia)) as (q & K & CM & HK & _ & Mn & Hq & MZ & LM & Np & LI & Hnm & MM & _).
      rewrite CM. cbn [bind]. rewrite LM, LI.
      assert (rounded_to_integer f Ztrunc (mk s n) (mk s (n - n mod K))) as RI.
      { pose proof (Z.mod_pos_bound n K ltac:(lia)). apply (integer_mk f W _ s n (n - n mod K) (q / K)); [assumption|lia|assumption|].
        rewrite value_mk, Mn by assumption. destruct s; [rewrite Ztrunc_opp|]; rewrite Ztrunc_quot by lia; reflexivity. }
      destruct (Z.eqb_spec (n mod K) 0) as [EZ|EZ].
      * rewrite EZ, Z.sub_0_r in RI. eexists _, _. split; [reflexivity|]. rewrite is_inf_mk, is_nan_mk by assumption. split; [|lia]. intros _. apply Triv; [exact RI|reflexivity|reflexivity].
      * eexists _, _. split; [reflexivity|]. rewrite is_inf_mk, is_nan_mk by assumption. split; [|lia]. intros Nx. split; [exact RI|].
        set (i := mk s (n - n mod K)) in *. destruct RI as (I1 & I2 & I3 & I4).
        destruct (ops_sub f o O _ _ Fx I1) as [Fr (_ & _ & _ & _ & R)]. specialize (R Nx I3). split; [exact Fr|].
        pose proof (Z.mod_pos_bound n K ltac:(lia)) as MB.
        assert (value f (mk s n) - value f i = if s then - (IZR (q mod K) / IZR K) else IZR (q mod K) / IZR K)%R as EV.
        { unfold i. rewrite !value_mk, Mn, MM by (assumption || lia). assert (IZR K <> 0)%R by (apply not_0_IZR; lia).
          assert (IZR q = IZR K * IZR (q / K) + IZR (q mod K))%R as -> by (rewrite <- mult_IZR, <- plus_IZR; f_equal; apply Z.div_mod; lia).
          destruct s; field; assumption. }
        assert (IZR K * bpow radix2 (n / S - bias f - fs f) = 1)%R as KB.
        { assert (K = 2 ^ (fs f - (n / S - bias f))) as ->. { rewrite (mask_ok f W) in CM by lia. injection CM. lia. }
          rewrite (IZR_Zpower radix2), <- bpow_plus by lia. replace (fs f - (n / S - bias f) + (n / S - bias f - fs f)) with 0 by lia. reflexivity. }
        pose proof (Z.mod_pos_bound q K ltac:(lia)) as MQ.
        assert (K <= S) as KS. { assert (K = 2 ^ (fs f - (n / S - bias f))) as ->. { rewrite (mask_ok f W) in CM by lia. injection CM. lia. } apply Z.pow_le_mono_r; lia. }
        assert (Z.log2 (q mod K) <= fs f) as LG. { rewrite <- (Z.log2_pow2 (fs f)) by lia. apply Z.log2_le_mono. lia. }
        destruct (dy_pattern (q mod K) (n / S - bias f - fs f) ltac:(lia) ltac:(unfold emin; lia) ltac:(lia)) as (n' & Hn' & Mn').
        assert (IZR (q mod K) / IZR K = mag n')%R as EQ. { rewrite Mn'. assert (IZR K <> 0)%R by (apply not_0_IZR; lia). apply (Rmult_eq_reg_r (IZR K)); [|assumption]. rewrite Rmult_assoc, (Rmult_comm (bpow _ _)), KB. field. assumption. }
        rewrite EQ in EV. pose proof R as R'. apply (op_exact f W _ _ _ s n') in R'; [|exact EV|assumption|].
        2:{ intros ->. exfalso. apply EZ, MZ. apply eq_IZR. rewrite (mag_0 f W) in EQ. assert (0 < IZR K)%R by (apply IZR_lt; lia).
            apply (Rmult_eq_reg_r (/ IZR K)); [|apply Rinv_neq_0_compat; lra]. unfold Rdiv in EQ. rewrite EQ. ring. }
        rewrite R', is_finite_mk, !sign_of_mk by (assumption || lia). split; [lia|]. split; [reflexivity|].
        rewrite (value_mk f W s n') by lia. rewrite <- EV. ring.
Qed.
End Fmt.
