(** Proofs about sqrt: rounding of the root, exponents, special cases. *)
From Coq Require Import ZArith Reals Bool List Lia Lra Psatz.
From Flocq Require Import Core.
From Verif Require Import Base BaseLemmas FloatModel FloatSpec FloatConvSpec FloatProofs FloatProofs2 FloatProofs3 FloatProofs5 FloatConvProofs FloatLib LibmModel LibmSpec LibmProofs LibmProofs2 LibmProofs3 LibmProofs4 LibmProofs6 RemModel RemProofs FmaProofs7 SqrtModel SqrtProofs SqrtProofs2.
Open Scope Z_scope.

(** * The nearest integer to a root *)
Lemma root_bounds (X k : Z) (q : R) : 1 <= k -> (0 <= q)%R -> (q * q = IZR X)%R -> (IZR k - 1/2 < q < IZR k + 3/2)%R -> - (2 * k + 3) < k + k * k - X < 2 * k.
Proof.
  intros Hk Hq E (L & U). assert (1 <= IZR k)%R as K by (apply IZR_le; lia). 
  assert (IZR X < IZR (k * k + 3 * k + 3))%R as HU. { rewrite !plus_IZR, !mult_IZR. assert (q * q < (IZR k + 3/2) * (IZR k + 3/2))%R by nra. lra. }
  assert (IZR (k * k - k) < IZR X)%R as HL. { rewrite minus_IZR, mult_IZR. assert ((IZR k - 1/2) * (IZR k - 1/2) < q * q)%R by nra. lra. }
  apply lt_IZR in HU, HL. lia.
Qed.
Lemma root_nearest (X k : Z) (q : R) : 1 <= k -> (0 <= q)%R -> (q * q = IZR X)%R -> (IZR k - 1/2 < q < IZR k + 3/2)%R -> ZnearestE q = k + b2z (k * k + k <? X).
Proof.
  intros Hk Hq E (L & U). assert (1 <= IZR k)%R as K by (apply IZR_le; lia). apply Znearest_imp. apply Rabs_lt. destruct (Z.ltb_spec (k * k + k) X) as [G|G]; cbn [b2z].
  - assert (IZR (k * k + k + 1) <= IZR X)%R as G' by (apply IZR_le; lia). rewrite !plus_IZR, mult_IZR in *. assert (IZR k + 1/2 < q)%R by nra. lra.
  - apply IZR_le in G. rewrite plus_IZR, mult_IZR in G. rewrite Z.add_0_r. assert (q < IZR k + 1/2)%R by nra. lra.
Qed.

Lemma Zmod_mod_mul a b c : 0 < b -> 0 < c -> (a mod (b * c)) mod b = a mod b.
Proof. intros. rewrite Z.rem_mul_r by lia. rewrite Z.mul_comm, Z.mod_add by lia. apply Zmod_mod. Qed.

Lemma mul_small a b c : 0 <= a < b -> 0 < c -> 0 <= a * c < b * c.
Proof. intros. nia. Qed.

Section Fmt.
Context (f : fmt) (W : wf f).
Notation S := (2 ^ fs f).
Notation B := (2 ^ (fb f - 1)).
Notation u := (bpow radix2 (emin f)).
Notation mk s n := (b2z s * B + n).
Notation mag n := (IZR (V f n) * u)%R.

(** * The final addition leaves the result alone *)
Lemma add_tiny o E q sg tn : ieee_ops f o -> fs f + 5 <= E <= 2 ^ eb f - 2 -> S <= q < 2 * S -> tn = 0 \/ tn = S -> o_add o (enc f E q) (mk sg tn) = enc f E q.
Proof using W.
  intros O HE Hq Ht. pose proof (S_pos f W) as Sp. pose proof (inf_pos f W) as Ip. pose proof (inf_eq f W) as Ie. assert (10 <= fs f) as FS by (destruct W; lia).
  assert (0 <= enc f E q < inf f) as RE by (unfold enc; rewrite Ie; nia). assert (0 <= tn < inf f) as RT by lia.
  assert (enc f E q = mk false (enc f E q)) as EM by (cbn [b2z]; lia). rewrite EM at 1.
  destruct (ops_add f o O (mk false (enc f E q)) (mk sg tn)) as (_ & A); [apply (is_float_mk f W); lia|apply (is_float_mk f W); lia|]. destruct A as (_ & _ & _ & _ & A).
  specialize (A ltac:(apply (is_finite_mk f W); lia) ltac:(apply (is_finite_mk f W); lia)). rewrite (value_mk f W) in A by lia. rewrite (value_mk f W) in A by lia.
  assert (mag (enc f E q) = IZR q * bpow radix2 (E - 1 + emin f))%R as MV. { rewrite (mag_enc f W) by lia. do 2 f_equal. unfold emin. lia. }
  assert (mag tn = IZR tn * u)%R as MT. { destruct Ht as [-> | ->]; [rewrite (mag_0 f W); lra|]. replace S with (enc f 1 S) at 1 by (unfold enc; lia). rewrite (mag_enc f W) by lia. reflexivity. }
  rewrite MV, MT in A. set (d := ((if sg then - IZR tn else IZR tn) * bpow radix2 (- (E - 1)))%R).
  assert ((IZR q * bpow radix2 (E - 1 + emin f) + (if sg then - (IZR tn * u) else IZR tn * u)) = (IZR q + d) * bpow radix2 (E - 1 + emin f))%R as EV.
  { rewrite Rmult_plus_distr_r. f_equal. unfold d. rewrite Rmult_assoc, <- bpow_plus. replace (- (E - 1) + (E - 1 + emin f)) with (emin f) by lia. destruct sg; ring. }
  assert (- (/ 16) <= d <= / 16)%R as Hd.
  { assert (0 <= IZR tn * bpow radix2 (- (E - 1)) <= / 16)%R as P.
    { assert (0 <= IZR tn <= IZR S)%R as TT by (split; [apply IZR_le; lia|apply IZR_le; lia]). pose proof (bpow_gt_0 radix2 (- (E - 1))) as Bp. split; [apply Rmult_le_pos; lra|].
      apply Rle_trans with (IZR S * bpow radix2 (- (E - 1)))%R; [apply Rmult_le_compat_r; lra|]. rewrite <- (bpow_S f W), <- bpow_plus. change (/ 16)%R with (bpow radix2 (-4)). apply bpow_le. lia. }
    unfold d. destruct sg; lra. }
  rewrite EV in A. clearbody d. clear EV MV MT. assert (IZR S <= IZR q)%R as Q1 by (apply IZR_le; lia). assert (IZR q <= IZR (2 * S) - 1)%R as Q2 by (rewrite <- minus_IZR; apply IZR_le; lia).
  assert (1000 <= IZR S)%R as Sb by (apply IZR_le; pose proof (S_big f W); lia). pose proof (bpow_gt_0 radix2 (E - 1 + emin f)) as Bp.
  assert ((IZR q + d) * bpow radix2 (E - 1 + emin f) > 0)%R as Pos by (apply Rmult_gt_0_compat; lra).
  rewrite EM at 2. apply (op_result f W _ _ _ false ((IZR q + d) * bpow radix2 (E - 1 + emin f))%R _ A); [reflexivity|lra| |intros Z0; lra].
  rewrite mult_IZR in Q2. destruct (Rle_or_lt (IZR S) (IZR q + d)) as [C|C].
  - assert (ZnearestE (IZR q + d) = q) as N by (apply Znearest_imp; apply Rabs_lt; lra). rewrite <- N at 2. apply (rmag_scaled f W); [lia| |right; exact C]. rewrite mult_IZR. lra.
  - assert (q = S) as QS. { destruct (Z.eq_dec q S) as [e|e]; [exact e|]. assert (IZR (S + 1) <= IZR q)%R as Q3 by (apply IZR_le; lia). rewrite plus_IZR in Q3. lra. }
    subst q. replace ((IZR S + d) * bpow radix2 (E - 1 + emin f))%R with ((2 * IZR S + 2 * d) * bpow radix2 (E - 1 - 1 + emin f))%R.
    2:{ replace (E - 1 + emin f) with (1 + (E - 1 - 1 + emin f)) by lia. rewrite (bpow_plus radix2 1). change (bpow radix2 1) with 2%R. ring. }
    assert (ZnearestE (2 * IZR S + 2 * d) = 2 * S) as N by (apply Znearest_imp; rewrite mult_IZR; apply Rabs_lt; lra).
    replace (enc f E S) with (enc f (E - 1) (ZnearestE (2 * IZR S + 2 * d))) by (rewrite N; unfold enc; lia). apply (rmag_scaled f W); [lia| |right; lra]. rewrite mult_IZR. lra.
Qed.

(** * The rounding *)
Lemma root_scale m : (IZR (m * 2 ^ (fs f - eb f + 1)) = (4 * IZR m / width (fb f)) * (IZR S * IZR S))%R.
Proof using W.
  assert (0 < IZR (2 ^ fb f))%R by (apply IZR_lt; apply Z.pow_pos_nonneg; destruct W; lia). unfold width. apply (Rmult_eq_reg_r (IZR (2 ^ fb f))); [|lra].
  replace (4 * IZR m / IZR (2 ^ fb f) * (IZR S * IZR S) * IZR (2 ^ fb f))%R with (4 * IZR m * (IZR S * IZR S))%R by (field; lra).
  rewrite <- !mult_IZR. f_equal. change 4 with (2 ^ 2). replace (2 ^ 2 * m * (S * S)) with (m * (2 ^ 2 * (S * S))) by ring. rewrite <- Z.mul_assoc. f_equal. destruct W. rewrite <- !Z.pow_add_r by lia. f_equal. lia.
Qed.

Lemma finish_ok o m s ex E : ieee_ops f o -> 2 ^ (fb f - 2) <= m <= (2 * S - 1) * 2 ^ eb f -> root_near f m s ->
  ex = NoShift (E * S) \/ ex = Shifted E -> 1 <= E <= 2 ^ eb f - 2 -> (16 < fb f -> fs f + 5 <= E) ->
  exists r, sqrt_finish f o m s ex = Ok r /\ 0 <= r < inf f /\ rmag f (root (fb f) m * IZR S * bpow radix2 (E - 1 + emin f)) r.
Proof using W.
  intros O Hm (Hs & NR) Hex HE HE5. pose proof (S_pos f W) as Sp. pose proof (S_big f W) as Sb. pose proof (inf_pos f W) as Ip. pose proof (inf_eq f W) as Ie. pose proof (B_eq f W) as Be. pose proof (fb_eq f W) as Fe. pose proof (EB_big f W) as Eb.
  assert (10 <= fs f /\ 5 <= eb f <= 15 /\ eb f <= fs f /\ fb f = fs f + eb f + 1 /\ fb f <= 128) as (F1 & F2 & F3 & F4 & F5) by (destruct W; lia).
  assert (2 ^ (fb f - 2) = S * 2 ^ (eb f - 1)) as P2 by (rewrite <- Z.pow_add_r by lia; f_equal; lia).
  assert (2 ^ fb f = 2 * (S * 2 ^ eb f)) as P3 by (rewrite Fe, Be; ring).
  assert (0 < 2 ^ (fs f - eb f + 1)) as PS by (apply Z.pow_pos_nonneg; lia).
  assert (0 < 2 ^ (eb f - 2)) as PE by (apply Z.pow_pos_nonneg; lia).
  assert (2 ^ (fb f - 2) <= m < 2 ^ fb f) as Hm' by (split; [lia|]; rewrite P3; nia). assert (16 <= fb f) as F16' by lia.
  pose proof (root_range (fb f) m F16' Hm') as Q. pose proof (root_sq (fb f) m F16' Hm') as Q2. set (q := root (fb f) m) in *.
  set (k := s / 2 ^ (eb f - 2)). set (X := m * 2 ^ (fs f - eb f + 1)).
  assert (q * IZR S * (q * IZR S) = IZR X)%R as XE. { unfold X. rewrite root_scale, <- Q2. ring. }
  assert (0 < IZR S)%R as SR by (apply IZR_lt; lia).
  (* the floor *)
  assert (8 * IZR s / width (fb f) * IZR S = IZR s / IZR (2 ^ (eb f - 2)))%R as SE.
  { unfold width. assert (0 < IZR (2 ^ (eb f - 2)))%R by (apply IZR_lt; lia). assert (2 ^ fb f = 8 * S * 2 ^ (eb f - 2)) as P4. { rewrite P3. assert (2 ^ eb f = 4 * 2 ^ (eb f - 2)) as ->; [|ring]. change 4 with (2 ^ 2). rewrite <- Z.pow_add_r by lia. f_equal. lia. }
    rewrite P4, !mult_IZR. field. lra. }
  assert (IZR k - 1/2 < q * IZR S < IZR k + 3/2)%R as KB.
  { pose proof (div_real s (2 ^ (eb f - 2)) PE) as D. fold k in D. rewrite <- SE in D. replace (2 ^ (fs f + 1)) with (2 * S) in NR by (rewrite Z.pow_add_r by lia; lia). rewrite mult_IZR in NR. apply Rabs_lt_inv in NR. destruct NR as (N1 & N2).
    set (sr := (8 * IZR s / width (fb f))%R) in *. assert ((/ (2 * IZR S)) * IZR S = 1/2)%R as H2 by (field; lra).
    assert ((sr - q) * IZR S < 1/2)%R. { rewrite <- H2. apply Rmult_lt_compat_r; lra. } assert (- (1/2) < (sr - q) * IZR S)%R. { rewrite <- H2. rewrite <- Ropp_mult_distr_l_reverse. apply Rmult_lt_compat_r; lra. } lra. }
  assert (1 * IZR S <= q * IZR S)%R as QS by (apply Rmult_le_compat_r; lra).
  assert (1 <= k) as K1. { assert (IZR 0 < IZR k)%R as L; [|apply lt_IZR in L; lia]. assert (2 <= IZR S)%R by (apply IZR_le; lia). lra. }
  pose proof (root_bounds X k (q * IZR S) K1 ltac:(lra) XE KB) as DB. pose proof (root_nearest X k (q * IZR S) K1 ltac:(lra) XE KB) as RN.
  (* no carry *)
  assert (q * IZR S < IZR (2 * S) - 1/2)%R as QU.
  { assert (IZR X <= IZR (2 * S * (2 * S) - 2 * S))%R as XU. { apply IZR_le. unfold X. replace (2 * S * (2 * S) - 2 * S) with ((2 * S - 1) * 2 ^ eb f * 2 ^ (fs f - eb f + 1)); [nia|]. rewrite <- Z.mul_assoc, <- Z.pow_add_r by lia. replace (eb f + (fs f - eb f + 1)) with (1 + fs f) by lia. rewrite Z.pow_add_r by lia. lia. }
    rewrite minus_IZR, !mult_IZR in XU. rewrite mult_IZR. assert (2 <= IZR S)%R by (apply IZR_le; lia). set (y := (q * IZR S)%R) in *. destruct (Rlt_or_le y (2 * IZR S - 1/2)) as [L|L]; [exact L|exfalso]. assert ((2 * IZR S - 1/2) * (2 * IZR S - 1/2) <= y * y)%R by nra. lra. }
  set (k' := k + b2z (k * k + k <? X)) in *.
  assert (S <= k' < 2 * S) as KR.
  { assert (Rabs (q * IZR S - IZR (ZnearestE (q * IZR S))) <= / 2)%R as RB by (pose proof (Znearest_half (fun x => negb (Z.even x)) (q * IZR S)) as H; exact H). rewrite RN in RB. apply Rabs_le_inv in RB. split.
    - assert (IZR (S - 1) < IZR k')%R as L by (rewrite minus_IZR; lra). apply lt_IZR in L. lia.
    - assert (IZR k' < IZR (2 * S))%R as L by lra. apply lt_IZR in L. exact L. }
  assert (0 <= k <= 2 * S) as KU by (unfold k' in KR; destruct (k * k + k <? X); cbn [b2z] in KR; lia).
  assert (32 * S <= S * 2 ^ eb f) as BB by (apply Z.le_trans with (S * 2 ^ 5); [lia|apply Z.mul_le_mono_nonneg_l; [lia|apply Z.pow_le_mono_r; lia]]).
  (* the code *)
  unfold sqrt_finish. rewrite (EXP_BITS_eq f W). unfold fI. rewrite cshr_ok by (cbn; lia). cbn [bind]. fold k.
  rewrite csub_u by lia. cbn [bind]. rewrite cshl_ok by (change (bits (UI (fb f))) with (fb f); lia). cbn [bind]. replace (2 * fs f - (fb f - 2)) with (fs f - eb f + 1) by lia. fold X.
  set (d1 := wrapping_sub (UI (fb f)) k (wrapping_sub (UI (fb f)) (norm (UI (fb f)) X) (wrapping_mul (UI (fb f)) k k))).
  assert (d1 = (k + k * k - X) mod 2 ^ fb f) as D1.
  { unfold d1, wrapping_sub, wrapping_mul. rewrite !norm_u. rewrite <- Zminus_mod, Zminus_mod_idemp_r. f_equal. lia. }
  assert (0 <= d1 < 2 ^ fb f) as D1R by (rewrite D1; apply Z.mod_pos_bound; lia).
  assert (d1 / 2 ^ (fb f - 1) = b2z (k * k + k <? X)) as DH.
  { rewrite D1. destruct (Z.ltb_spec (k * k + k) X) as [G|G]; cbn [b2z].
    - replace ((k + k * k - X) mod 2 ^ fb f) with (k + k * k - X + 2 ^ fb f) by (apply Z.mod_unique with (-1); lia). symmetry. apply Z.div_unique with (k + k * k - X + B); lia.
    - rewrite Z.mod_small by lia. apply Z.div_small. lia. }
  rewrite cshr_ok by (cbn; lia). cbn [bind]. rewrite DH. rewrite cadd_u by (fold k'; lia). cbn [bind]. fold k'. rewrite (SIG_MASK_eq f W), land_ones_mod by lia.
  assert (k' mod S = k' - S) as KM by (symmetry; apply Z.mod_unique with 1; lia). rewrite KM.
  assert (0 <= enc f E k' < inf f) as RE by (clear - KR HE Ie Sp; unfold enc; rewrite Ie; nia).
  assert (match ex with Shifted e => let* e := ccast (UI (fb f)) e in let* e := cshl (UI (fb f)) e (fs f) in Ok (Z.lor (k' - S) e) | NoShift e => Ok (Z.lor (k' - S) e) end = Ok (enc f E k')) as EX.
  { destruct Hex as [-> | ->].
    - rewrite lor_add_low by lia. f_equal. unfold enc. lia.
    - unfold ccast. rewrite chk_ok by (apply fits_u; nia). cbn [bind]. rewrite cshl_u_exact by nia. cbn [bind]. rewrite lor_add_low by lia. f_equal. unfold enc. lia. }
  rewrite EX. cbn [bind]. exists (enc f E k'). split.
  - destruct (Z.leb_spec (fb f) 16) as [L|L]; [reflexivity|]. f_equal. set (d2 := wrapping_add (UI (fb f)) (wrapping_add (UI (fb f)) d1 (enc f E k')) 1).
    assert (0 <= d2 < 2 ^ fb f) as D2R by (unfold d2, wrapping_add; rewrite norm_u; apply Z.mod_pos_bound; lia).
    destruct (split_float f W d1 D1R) as (s1 & n1 & E1 & R1). destruct (split_float f W d2 D2R) as (s2 & n2 & E2 & R2). 
    rewrite (IMPLICIT_BIT_eq f W), (SIGN_MASK_eq f W). assert (Z.lor (if d2 =? 0 then 0 else S) (Z.land (Z.lxor d1 d2) B) = mk (xorb s1 s2) (if d2 =? 0 then 0 else S)) as ->.
    { rewrite E1 at 1. rewrite E2 at 2. rewrite lxor_mk by lia. rewrite land_top_val by (try apply lxor_small; lia). rewrite lor_add_low by (try lia; destruct (d2 =? 0); lia). lia. }
    apply add_tiny; try assumption; try lia. destruct (d2 =? 0); lia.
  - split; [exact RE|]. rewrite <- RN. apply (rmag_scaled f W); [lia| |right; lra]. lra.
Qed.


(** * The exponent *)
(** The argument is (S + F) * 2^(T - bias - fs), with T at most 0 for a subnormal one. *)
Definition reduced (ix top T F : Z) : Prop :=
  0 <= ix < 2 ^ fb f /\ ix mod S = F /\ (ix / S) mod 2 = T mod 2 /\ 0 <= F < S /\ 1 - fs f <= T <= 2 ^ eb f - 2 /\
  (fb f <= 32 -> ix = (T * S + F) mod 2 ^ fb f) /\ (32 < fb f -> top = T mod 2 ^ 32).

Lemma reduce_ok ix top T F : fs f + 1 <= bias f -> reduced ix top T F ->
  let E := (T + bias f) / 2 in
  exists ex, sqrt_reduce f ix top = Ok ((S + F) * 2 ^ (eb f - T mod 2), ex) /\ (ex = NoShift (E * S) \/ ex = Shifted E) /\ 1 <= E <= 2 ^ eb f - 2.
Proof using W.
  intros WL (Hix & HF & Hpar & FR & HT & Hlo & Hhi) E. pose proof (S_pos f W) as Sp. pose proof (inf_pos f W) as Ip. pose proof (inf_eq f W) as Ie. pose proof (B_eq f W) as Be. pose proof (fb_eq f W) as Fe. pose proof (EB_big f W) as Eb. pose proof (eb_bias f W) as Bb.
  assert (10 <= fs f /\ 5 <= eb f <= 15 /\ fb f = fs f + eb f + 1 /\ fb f <= 128) as (F1 & F2 & F4 & F5) by (destruct W; lia).
  assert (2 ^ eb f = 2 * 2 ^ (eb f - 1)) as Eb2 by (rewrite <- Z.pow_succ_r by lia; f_equal; lia).
  assert (1 <= E <= 2 ^ eb f - 2) as HE. { unfold E. split; [apply Z.div_le_lower_bound; lia|]. apply Z.div_le_upper_bound; lia. }
  pose proof (mul_small F S (2 ^ eb f) FR ltac:(lia)) as FE. pose proof (mul_small (S + F) (2 * S) (2 ^ (eb f - 1)) ltac:(lia) ltac:(lia)) as FE1. pose proof (mul_small (S + F) (2 * S) (2 ^ eb f) ltac:(lia) ltac:(lia)) as FE2.
  unfold sqrt_reduce. rewrite (EXP_BITS_eq f W). unfold fI. pose proof (Z.mod_pos_bound T 2 ltac:(lia)) as T2. pose proof (Z.div_mod ix S ltac:(lia)) as DI. rewrite HF in DI.
  pose proof (Z.div_mod (ix / S) 2 ltac:(lia)) as DP. rewrite Hpar in DP. set (h := ix / S / 2) in *. assert (ix = h * (2 * S) + (T mod 2 * S + F)) as IX0 by (rewrite DI at 1; rewrite DP at 1; ring).
  destruct (Z.leb_spec (fb f) 32) as [L|L].
  - rewrite cshl_u_exact by (try lia; rewrite Fe; lia). cbn [bind]. rewrite Z.mul_1_l. rewrite !cshr_ok by (cbn; lia). cbn [bind].
    rewrite cshr_ok by (cbn; lia). cbn [bind].
    assert (2 * (S / 2) = S) as S2. { pose proof (S_even f W) as SE. pose proof (Z.div_mod S 2 ltac:(lia)) as D. assert (S mod 2 = 0) as M0 by (rewrite SE, Z.mul_comm; apply Z_mod_mult). lia. }
    assert (Z.lxor (EXP_MASK f) (SIGN_MASK f / 2 ^ 1) / 2 ^ 1 = bias f * (S / 2)) as CE.
    { rewrite (EXP_MASK_eq f W), (SIGN_MASK_eq f W). change (2 ^ 1) with 2. assert (B / 2 = S * 2 ^ (eb f - 1)) as -> by (rewrite Be, Eb2; symmetry; apply Z.div_unique with 0; lia).
      assert (S * 2 ^ (eb f - 1) = 2 ^ (fb f - 2)) as EQ by (rewrite <- Z.pow_add_r by lia; f_equal; lia). assert (bias f + 1 = 2 ^ (eb f - 1)) as Eb3 by lia.
      assert (inf f = b2z true * 2 ^ (fb f - 2) + bias f * S) as -> by (rewrite Ie, <- EQ, <- Eb3; cbn [b2z]; rewrite Bb; ring). rewrite EQ, lxor_mk_top by (try lia; rewrite <- EQ, <- Eb3; nia). cbn [negb b2z]. rewrite Z.mul_0_l, Z.add_0_l.
      symmetry. apply Z.div_unique with 0; [lia|]. rewrite <- S2 at 1. ring. }
    rewrite CE.
    change (2 ^ 1) with 2. assert (ix / 2 + bias f * (S / 2) = ((ix / S + bias f) * S + F) / 2) as AE.
    { replace ((ix / S + bias f) * S + F) with (ix + bias f * (S / 2) * 2) by lia. rewrite Z.div_add by lia. reflexivity. }
    rewrite cadd_u.
    2:{ rewrite AE. assert (ix / S < 2 * 2 ^ eb f) by (apply Z.div_lt_upper_bound; [lia|rewrite Fe, Be in Hix; lia]). assert (0 <= ix / S) by (apply Z.div_pos; lia). pose proof (mul_small (ix / S + bias f) (3 * 2 ^ eb f) S ltac:(lia) Sp). split; [apply Z.div_pos; lia|]. apply Z.div_lt_upper_bound; [lia|]. rewrite Fe, Be. lia. }
    cbn [bind]. rewrite AE.
    assert (Z.land (((ix / S + bias f) * S + F) / 2) (EXP_MASK f) = E * S) as EE.
    { rewrite (EXP_MASK_eq f W), Ie. rewrite land_shifted, land_ones_mod by lia. f_equal. rewrite !Z.div_div by lia. rewrite Z.mul_comm with (n := 2), <- Z.div_div by lia. rewrite Z.div_add_l, (Z.div_small F) by lia. rewrite Z.add_0_r.
      specialize (Hlo L). assert (exists j, ix / S = T + j * 2 ^ (eb f + 1)) as (j & ->).
      { pose proof (Z.div_mod (T * S + F) (2 ^ fb f) ltac:(lia)) as D. rewrite <- Hlo in D. exists (- ((T * S + F) / 2 ^ fb f)). assert (2 ^ fb f = S * 2 ^ (eb f + 1)) as P by (rewrite <- Z.pow_add_r by lia; f_equal; lia). rewrite P in D at 1.
        apply (Z.mul_reg_r _ _ S); [lia|]. lia. }
      replace (T + j * 2 ^ (eb f + 1) + bias f) with (T + bias f + (j * 2 ^ eb f) * 2) by (rewrite Z.pow_add_r by lia; lia). rewrite Z.div_add by lia. fold E. rewrite Z.mod_add by lia. apply Z.mod_small. lia. }
    rewrite EE. rewrite cshl_ok by (change (bits (UI (fb f))) with (fb f); lia). cbn [bind]. rewrite cshl_ok by (change (bits (UI (fb f))) with (fb f); lia). cbn [bind]. rewrite !norm_u. eexists. split; [|split; [left; reflexivity|exact HE]]. f_equal. f_equal.
    rewrite land_pow2, negb_involutive by lia. assert (Z.odd (ix / S) = negb (T mod 2 =? 0)) as ->. { rewrite <- Hpar. rewrite Zmod_odd. destruct (Z.odd (ix / S)); reflexivity. }
    assert (T mod 2 = 0 \/ T mod 2 = 1) as [T0|T1] by lia.
    + rewrite T0 in *. cbn [Z.eqb negb]. assert (ix = h * (2 * S) + F) as IX by lia. rewrite (SIGN_MASK_eq f W).
      replace ((ix * 2 ^ eb f) mod 2 ^ fb f) with (F * 2 ^ eb f) by (apply Z.mod_unique with h; [left; rewrite Fe, Be; lia|rewrite IX, Fe, Be; ring]).
      replace B with (1 * B) at 1 by lia. rewrite lor_add_low by lia. rewrite Be, Z.sub_0_r. ring.
    + rewrite T1 in *. cbn [Z.eqb negb]. assert (ix = h * (2 * S) + (S + F)) as IX by lia. change (UI (fb f)) with (fI f). rewrite (inot_sign f W), (abs_mask_eq f W), land_ones_mod by lia.
      assert (2 ^ fb f = B * 2) as FB2 by lia. rewrite FB2, Zmod_mod_mul by lia. symmetry. apply Z.mod_unique with h; [left; rewrite Be, Eb2; lia|rewrite IX, Be, Eb2; ring].
  - specialize (Hhi L). subst top. rewrite (IMPLICIT_BIT_eq f W). assert (Z.lor ix S = h * (2 * S) + (S + F)) as LI.
    { assert (Z.lor ix S = S + F + h * 2 ^ (fs f + 1)) as ->; [|rewrite Z.pow_add_r by lia; lia].
      replace ix with (h * 2 ^ (fs f + 1) + (b2z (T mod 2 =? 1) * S + F)).
      2:{ assert (b2z (T mod 2 =? 1) = T mod 2) as -> by (destruct (Z.eqb_spec (T mod 2) 1); cbn [b2z]; lia). rewrite Z.pow_add_r by lia. change (2 ^ 1) with 2. rewrite IX0. ring. }
      assert (0 <= b2z (T mod 2 =? 1) * S + F < 2 ^ (fs f + 1)) as Lw by (rewrite Z.pow_add_r by lia; destruct (T mod 2 =? 1); cbn [b2z]; lia).
      rewrite Z.add_comm, <- (lor_add_low _ h) by lia. rewrite (Z.lor_comm _ (h * _)), <- Z.lor_assoc, lor_mk_top by lia. rewrite Z.lor_comm, lor_add_low; [lia|lia|rewrite Z.pow_add_r by lia; lia]. }
    rewrite LI. rewrite cshl_ok by (change (bits (UI (fb f))) with (fb f); lia). cbn [bind]. rewrite norm_u.
    assert (((h * (2 * S) + (S + F)) * 2 ^ eb f) mod 2 ^ fb f = (S + F) * 2 ^ eb f) as ->. { symmetry. apply Z.mod_unique with h; [left; rewrite Fe, Be; lia|rewrite Fe, Be; ring]. }
    assert (2 ^ eb f - 1 = 2 * bias f + 1) as Bb' by exact Bb. rewrite (EXP_SAT_eq f W). rewrite land_1.
    assert ((T mod 2 ^ 32) mod 2 = T mod 2) as -> by (change (2 ^ 32) with (2 * 2 ^ 31); apply Zmod_mod_mul; lia).
    assert ((2 ^ eb f - 1) / 2 ^ 1 = bias f) as HB by (rewrite Bb; symmetry; change (2 ^ 1) with 2; apply Z.div_unique with 1; lia).
    assert (wrapping_add (UI 32) (T mod 2 ^ 32) (bias f) = T + bias f) as WA by (unfold wrapping_add; rewrite norm_u, Zplus_mod_idemp_l; apply Z.mod_small; lia).
    assert (T mod 2 = 0 \/ T mod 2 = 1) as [T0|T1] by lia.
    + rewrite T0. cbn [Z.eqb negb bind]. rewrite cshr_ok by (cbn; lia). cbn [bind]. rewrite HB, WA, cshr_ok by (cbn; lia). cbn [bind]. change (2 ^ 1) with 2. fold E. exists (Shifted E). rewrite Z.sub_0_r. repeat split; try lia. right. reflexivity.
    + rewrite T1. cbn [Z.eqb negb bind]. rewrite cshr_ok by (change (bits (UI (fb f))) with (fb f); lia). cbn [bind]. rewrite cshr_ok by (cbn; lia). cbn [bind]. rewrite HB, WA, cshr_ok by (cbn; lia). cbn [bind]. change (2 ^ 1) with 2. fold E. exists (Shifted E).
      replace ((S + F) * 2 ^ eb f / 2) with ((S + F) * 2 ^ (eb f - 1)) by (rewrite Eb2; symmetry; replace ((S + F) * (2 * 2 ^ (eb f - 1))) with ((S + F) * 2 ^ (eb f - 1) * 2) by ring; apply Z.div_mul; lia).
      split; [reflexivity|]. split; [right; reflexivity|exact HE].
Qed.
End Fmt.
