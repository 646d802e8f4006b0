(** Correctness of multiplication, continued (no modelling here). *)
From Coq Require Import ZArith Reals Bool Lia Lra Psatz.
From Flocq Require Import Core.
From Verif Require Import Base BaseLemmas FloatModel FloatSpec FloatProofs FloatProofs2 FloatProofs3 FloatProofs4 FloatProofs5 FloatProofs6.
Open Scope Z_scope.

Lemma quot_bound a b x F l : 0 <= l < F -> a * F <= x * F + l < b * F -> a <= x < b.
Proof.
  intros Hl H. split.
  - destruct (Z_le_gt_dec a x); [assumption|]. exfalso. pose proof (Z.mul_le_mono_nonneg_r (x + 1) a F). lia.
  - destruct (Z_lt_ge_dec x b); [assumption|]. exfalso. pose proof (Z.mul_le_mono_nonneg_r b x F). lia.
Qed.

Section Fmt.
Context (f : fmt) (W : wf f).
Notation S := (2 ^ fs f).
Notation B := (2 ^ (fb f - 1)).
Notation u := (bpow radix2 (emin f)).

Lemma bias_range : 15 <= EXP_BIAS f <= 16383 /\ bias f = EXP_BIAS f /\ (fb f = 16 -> EXP_BIAS f = 15 /\ fs f = 10).
Proof using W.
  rewrite bias_eq, EXP_BIAS_eq by assumption. destruct W.
  pose proof (pow2_le 4 (eb f - 1) ltac:(lia)) as P1. pose proof (pow2_le (eb f - 1) 14 ltac:(lia)) as P2.
  change (2 ^ 4) with 16 in P1. change (2 ^ 14) with 16384 in P2. split; [lia|]. split; [reflexivity|].
  intros. assert (fs f = 10) by lia. assert (eb f = 5) as -> by lia. split; [reflexivity|assumption].
Qed.

Lemma mul_shift high low : 0 <= low < 2 ^ fb f -> 0 <= high < S ->
  let h := Z.lor (norm (fI f) (high * 2 ^ 1)) (low / 2 ^ (fb f - 1)) in
  let l := norm (fI f) (low * 2 ^ 1) in
  0 <= l < 2 ^ fb f /\ 0 <= h /\ h * 2 ^ fb f + l = 2 * (high * 2 ^ fb f + low).
Proof using W.
  intros Hl Hh. cbv zeta. change (2 ^ 1) with 2. pose proof (fb_eq f W) as FE. pose proof (inf_pos f W). pose proof (B_eq f W). pose proof (EB_big f W).
  assert (0 < B) as PB by lia. assert (2 * S <= 2 ^ fb f) by (rewrite FE; nia).
  assert (0 <= low / B <= 1) as Q by (split; [apply Z.div_pos; lia|apply Zlt_succ_le, Z.div_lt_upper_bound; lia]).
  unfold fI. rewrite (norm_u_id (fb f) (high * 2)) by lia.
  assert (Z.lor (high * 2) (low / B) = low / B + high * 2) as -> by (rewrite Z.lor_comm; apply (lor_add_low (low / B) high 1); [lia|change (2 ^ 1) with 2; lia]).
  rewrite norm_u. pose proof (Z.mod_pos_bound (low * 2) (2 ^ fb f) ltac:(lia)).
  split; [assumption|]. split; [lia|].
  assert ((low * 2) / 2 ^ fb f = low / B) as D.
  { rewrite FE. rewrite (Z.mul_comm low 2). apply Z.div_mul_cancel_l; lia. }
  pose proof (Z.div_mod (low * 2) (2 ^ fb f) ltac:(lia)) as DM. rewrite D in DM. nia.
Qed.

Lemma mul_finite s t n m : 0 < n < inf f -> 0 < m < inf f -> exists r,
  mul f (b2z s * B + n) (b2z t * B + m) = Ok (b2z (xorb s t) * B + r) /\ rmag f (IZR (V f n) * u * (IZR (V f m) * u)) r.
Proof using W.
  intros Hn Hm.
  pose proof (wf_s f W) as w1. pose proof (wf_b f W) as w2. pose proof (wf_e f W) as w3. pose proof (S_pos f W) as w4. pose proof (S_big f W) as w5. pose proof (EB_big f W) as w6. pose proof (B_eq f W) as w7. pose proof (fb_eq f W) as w8. pose proof (inf_pos f W) as w9. pose proof (wf_128 f W) as w10.
  pose proof bias_range as (b1 & b2 & b3).
  destruct (mul_special_ok f W s t n m Hn Hm) as (ma0 & mb0 & sc & ea & eb' & Sp & Ra & Rb & Ea & Eb & Es & Hsc & Va & Vb).
  unfold mul. rewrite Sp. cbn [bind]. clear Sp.
  set (ma := Z.lor ma0 (IMPLICIT_BIT f)) in *. set (mb := Z.lor mb0 (IMPLICIT_BIT f)) in *. clearbody ma mb.
  rewrite EXP_BITS_eq by assumption.
  assert (2 ^ fb f = 2 * S * 2 ^ eb f) as FE by (rewrite w8, w7; ring).
  assert (0 < mb * 2 ^ eb f < 2 ^ fb f) as Hbs by (rewrite FE; nia).
  unfold fI at 1. rewrite cshl_u_exact by lia. cbn [bind].
  assert (2 * S < 2 ^ fb f) as HS by (rewrite FE; nia).
  rewrite wmul_ok by (assumption || lia). cbn [bind].
  set (P := ma * (mb * 2 ^ eb f)).
  assert (S * 2 ^ fb f <= 2 * P < 4 * S * 2 ^ fb f) as HP.
  { unfold P. rewrite FE. assert (S * S <= ma * mb < 4 * (S * S)) by nia.
    replace (S * (2 * S * 2 ^ eb f)) with (2 * (S * S * 2 ^ eb f)) by ring.
    replace (4 * S * (2 * S * 2 ^ eb f)) with (2 * (4 * (S * S) * 2 ^ eb f)) by ring.
    replace (2 * (ma * (mb * 2 ^ eb f))) with (2 * (ma * mb * 2 ^ eb f)) by ring.
    pose proof (Z.mul_le_mono_nonneg_r (S * S) (ma * mb) (2 ^ eb f)). pose proof (Z.mul_lt_mono_pos_r (2 ^ eb f) (ma * mb) (4 * (S * S))). lia. }
  assert (P = P / 2 ^ fb f * 2 ^ fb f + P mod 2 ^ fb f) as DP by (pose proof (Z.div_mod P (2 ^ fb f)); lia).
  pose proof (Z.mod_pos_bound P (2 ^ fb f) ltac:(lia)) as RP.
  assert (IZR (V f n) * u * (IZR (V f m) * u) = IZR P / IZR (2 ^ fb f) * bpow radix2 (ea + eb' - EXP_BIAS f + 1 - 1) * u)%R as XE.
  { rewrite Va, Vb. unfold P. rewrite FE. rewrite !mult_IZR, !(IZR_Zpower radix2) by lia.
    replace (IZR ma * bpow radix2 (ea - 1) * u * (IZR mb * bpow radix2 (eb' - 1) * u))%R
      with (IZR ma * IZR mb * (bpow radix2 (ea - 1) * bpow radix2 (eb' - 1) * u) * u)%R by ring.
    rewrite <- !bpow_plus. replace (ea - 1 + (eb' - 1) + emin f) with (- fs f + -1 + (ea + eb' - EXP_BIAS f + 1 - 1)).
    2:{ unfold emin. lia. }
    rewrite !bpow_plus, bpow_opp. change (bpow radix2 (-1)) with (/ 2)%R.
    pose proof (bpow_gt_0 radix2 (fs f)). pose proof (bpow_gt_0 radix2 (eb f)). field. split; lra. }
  set (high := P / 2 ^ fb f) in *. set (low := P mod 2 ^ fb f) in *. clearbody high low.
  rewrite !exp_of by (assumption || lia).
  assert (0 <= n / S < 2 ^ eb f) as q1 by (split; [apply Z.div_pos; lia|apply Z.div_lt_upper_bound; lia]).
  assert (0 <= m / S < 2 ^ eb f) as q2 by (split; [apply Z.div_pos; lia|apply Z.div_lt_upper_bound; lia]).
  unfold ccast at 1 2. rewrite !chk_s32 by (change (2 ^ 31) with 2147483648; lia). cbn [bind].
  unfold wrapping_add, wrapping_sub at 1 2. rewrite (norm_s32 (n / S + m / S)) by (change (2 ^ 31) with 2147483648; lia).
  rewrite Es. rewrite (norm_s32 (ea + eb')) by (change (2 ^ 31) with 2147483648; lia).
  set (e := ea + eb' - EXP_BIAS f) in *.
  assert (- 20000 < e < 65536 /\ (fb f = 16 -> - 900 < e)) as [He He16].
  { unfold e. split; [lia|]. intros E16. specialize (b3 E16). lia. }
  rewrite lxor_mk by lia. rewrite (sgn_of f W (xorb s t)) by (try assumption; apply lxor_small; lia).
  rewrite IMPLICIT_BIT_eq by assumption.
  assert (0 <= high < 2 * S) as Hh by (apply (quot_bound _ _ _ (2 ^ fb f) low); lia).
  rewrite land_top by lia. rewrite (norm_s32 e) by (change (2 ^ 31) with 2147483648; lia).
  destruct (Z.ltb_spec high S) as [L|G]; cbn [negb].
  - unfold fI at 1 2 3. rewrite !cshl_ok, cshr_ok by (cbn [bits UI]; lia). cbn [bind].
    destruct (mul_shift high low RP ltac:(lia)) as (Hl' & Hh' & E2). cbv zeta in Hl', Hh', E2. unfold fI in Hl', Hh', E2.
    set (h' := Z.lor _ _) in *. set (l' := norm _ _) in *. clearbody h' l'.
    assert (S <= h' < 2 * S) as Hh2 by (apply (quot_bound _ _ _ (2 ^ fb f) l'); [lia|]; rewrite E2; pose proof (Z.mul_le_mono_nonneg_r (high + 1) S (2 ^ fb f)); lia).
    destruct (mul_tail f W (xorb s t) e h' l' Hh2 Hl' ltac:(lia) ltac:(lia)) as (r & Er & Hr). exists r. split; [exact Er|]. clear Er.
    rewrite XE. replace (IZR P / IZR (2 ^ fb f) * bpow radix2 (e + 1 - 1) * u)%R with (IZR (h' * 2 ^ fb f + l') / IZR (2 ^ fb f) * bpow radix2 (e - 1) * u)%R; [exact Hr|].
    f_equal. rewrite E2, <- DP. rewrite (mult_IZR 2). replace (e + 1 - 1) with (1 + (e - 1)) by lia. rewrite bpow_plus. change (bpow radix2 1) with 2%R. unfold Rdiv. ring.
  - cbn [bind]. rewrite (norm_s32 (e + 1)) by (change (2 ^ 31) with 2147483648; lia).
    destruct (mul_tail f W (xorb s t) (e + 1) high low ltac:(lia) RP ltac:(lia) ltac:(lia)) as (r & Er & Hr). exists r. split; [exact Er|]. clear Er.
    rewrite XE, DP. exact Hr.
Qed.

Lemma mul_special_val s t n m : 0 <= n < B -> 0 <= m < B -> (n = 0 \/ inf f <= n \/ m = 0 \/ inf f <= m) ->
  mul f (b2z s * B + n) (b2z t * B + m) =
    Ok (if inf f <? n then Z.lor (b2z s * B + n) (quiet_bit f)
       else if inf f <? m then Z.lor (b2z t * B + m) (quiet_bit f)
       else if n =? inf f then if negb (m =? 0) then b2z (xorb s t) * B + n else qnan_rep f
       else if m =? inf f then if negb (n =? 0) then b2z (xorb s t) * B + m else qnan_rep f
       else b2z (xorb s t) * B).
Proof using W.
  intros Hn Hm Hz. unfold mul, mul_special. rewrite !exp_of, !mag_of by assumption.
  pose proof (S_pos f W) as SP. pose proof (EB_big f W) as EBg. pose proof (inf_pos f W) as IP. pose proof (fb_big f W) as (F1 & F2 & F3). change (2 ^ 16) with 65536 in F2.
  rewrite lxor_mk by (destruct W; lia).
  rewrite (sgn_of f W (xorb s t)) by (try assumption; apply lxor_small; destruct W; lia).
  rewrite EXP_SAT_eq, EXP_MASK_eq by assumption.
  assert (forall x, 0 <= x < B -> (x = 0 \/ inf f <= x) -> (2 ^ eb f - 1 - 1 <=? wrapping_sub (fI f) (x / S) 1) = true) as T.
  { intros x Hx [->|Hi]; apply Z.leb_le; unfold wrapping_sub, fI.
    - rewrite Z.div_0_l by lia. replace (norm (UI (fb f)) (0 - 1)) with (2 ^ fb f - 1); [lia|].
      symmetry. apply norm_unique with (k := 1); [cbn [bits UI]; destruct W; lia|apply fits_u; lia|cbn [bits UI]; lia].
    - rewrite (proj2 (div_inf f W x Hx) Hi). rewrite norm_u_id by lia. lia. }
  assert ((2 ^ eb f - 1 - 1 <=? wrapping_sub (fI f) (n / S) 1) || (2 ^ eb f - 1 - 1 <=? wrapping_sub (fI f) (m / S) 1) = true) as ->.
  { apply orb_true_iff. destruct Hz as [Hz|[Hz|Hz]]; [left; apply T; auto|left; apply T; auto|right; apply T; auto]. }
  destruct (Z.ltb_spec (inf f) n); [reflexivity|]. destruct (Z.ltb_spec (inf f) m); [reflexivity|].
  destruct (Z.eqb_spec n (inf f)).
  { destruct (m =? 0); cbn [negb bind]; [reflexivity|]. rewrite lor_add_low by (destruct W; lia). f_equal. lia. }
  destruct (Z.eqb_spec m (inf f)).
  { destruct (n =? 0); cbn [negb bind]; [reflexivity|]. rewrite lor_add_low by (destruct W; lia). f_equal. lia. }
  destruct (Z.eqb_spec n 0); [reflexivity|]. destruct (Z.eqb_spec m 0); [reflexivity|]. exfalso. lia.
Qed.

Theorem mul_correct a b : is_float f a -> is_float f b -> exists r, mul f a b = Ok r /\ is_float f r /\ ieee_mul f a b r.
Proof using W.
  intros Ha Hb. destruct (split_float f W a Ha) as (s & n & -> & Hn). destruct (split_float f W b Hb) as (t & m & -> & Hm).
  pose proof (inf_pos f W) as IP.
  enough (exists r, mul f (b2z s * B + n) (b2z t * B + m) = Ok r /\ is_float f r /\
    (inf f < n \/ inf f < m -> is_qnan f r) /\
    (n = inf f /\ m = 0 \/ n = 0 /\ m = inf f -> is_qnan f r) /\
    (n = inf f /\ m <> 0 /\ ~ inf f < m \/ m = inf f /\ n <> 0 /\ ~ inf f < n -> is_inf f r /\ sign_of f r = xorb s t) /\
    (n < inf f -> m < inf f -> rounds_to f (xorb s t) (value f (b2z s * B + n) * value f (b2z t * B + m)) r)) as (r & E & Hr & P).
  { exists r. split; [exact E|]. split; [exact Hr|]. unfold ieee_mul. rewrite !is_nan_mk, !is_inf_mk, !is_finite_mk, !is_zero_mk, !sign_of_mk by assumption. exact P. }
  destruct (Z_lt_ge_dec 0 n) as [N0|N0]; [destruct (Z_lt_ge_dec n (inf f)) as [N1|N1]; [destruct (Z_lt_ge_dec 0 m) as [M0|M0]; [destruct (Z_lt_ge_dec m (inf f)) as [M1|M1]|]|]|].
  { destruct (mul_finite s t n m ltac:(lia) ltac:(lia)) as (r & -> & Hr). eexists. split; [reflexivity|].
    assert (rounds_to f (xorb s t) (value f (b2z s * B + n) * value f (b2z t * B + m)) (b2z (xorb s t) * B + r)) as R.
    { rewrite !value_mk by (assumption || lia).
      assert (0 < IZR (V f n) * u)%R by (apply Rmult_lt_0_compat; [apply IZR_lt, V_pos; [assumption|lia]|apply bpow_gt_0]).
      assert (0 < IZR (V f m) * u)%R by (apply Rmult_lt_0_compat; [apply IZR_lt, V_pos; [assumption|lia]|apply bpow_gt_0]).
      replace ((if s then - (IZR (V f n) * u) else IZR (V f n) * u) * (if t then - (IZR (V f m) * u) else IZR (V f m) * u))%R
        with (if xorb s t then - (IZR (V f n) * u * (IZR (V f m) * u)) else IZR (V f n) * u * (IZR (V f m) * u))%R by (destruct s, t; cbn [xorb]; ring).
      apply rounds_mag; [assumption| |assumption|reflexivity]. apply Rlt_le, Rmult_lt_0_compat; assumption. }
    split; [apply R|]. split; [lia|]. split; [lia|]. split; [lia|]. auto. }
  all: rewrite mul_special_val by (assumption || lia); eexists; split; [reflexivity|].
  all: assert (forall c k, inf f < k < B -> is_float f (Z.lor (b2z c * B + k) (quiet_bit f)) /\ is_qnan f (Z.lor (b2z c * B + k) (quiet_bit f))) as QN
    by (intros c k Hk; pose proof (quiet_mag f W k Hk) as Q; rewrite lor_sign by (try assumption; try apply quiet_lt; assumption || lia);
        split; [apply is_float_mk; [assumption|lia]|apply is_qnan_mk; [assumption|lia|lia]]).
  all: pose proof (qnan_rep_qnan f W) as (Q1 & Q2 & _).
  all: destruct (Z.ltb_spec (inf f) n); [destruct (QN s n ltac:(lia)); split; [assumption|split; [tauto|split; [tauto|split; lia]]]|].
  all: destruct (Z.ltb_spec (inf f) m); [destruct (QN t m ltac:(lia)); split; [assumption|split; [tauto|split; [tauto|split; lia]]]|].
  all: destruct (Z.eqb_spec n (inf f)).
  all: try (destruct (Z.eqb_spec m 0); cbn [negb]; [split; [assumption|split; [lia|split; [tauto|split; lia]]]|]; split; [apply is_float_mk; [assumption|lia]|];
    split; [lia|split; [lia|split; [|lia]]]; intros _; rewrite is_inf_mk, sign_of_mk by (assumption || lia); auto).
  all: destruct (Z.eqb_spec m (inf f)).
  all: try (destruct (Z.eqb_spec n 0); cbn [negb]; [split; [assumption|split; [lia|split; [tauto|split; lia]]]|]; split; [apply is_float_mk; [assumption|lia]|];
    split; [lia|split; [lia|split; [|lia]]]; intros _; rewrite is_inf_mk, sign_of_mk by (assumption || lia); auto).
  all: try lia.
  all: replace (b2z (xorb s t) * B) with (b2z (xorb s t) * B + 0) by lia; split; [apply is_float_mk; [assumption|lia]|].
  all: split; [lia|split; [lia|split; [lia|]]]; intros _ _.
  all: rewrite !value_mk by (assumption || lia).
  all: replace ((if s then - (IZR (V f n) * u) else IZR (V f n) * u) * (if t then - (IZR (V f m) * u) else IZR (V f m) * u))%R
        with (if xorb s t then - (IZR (V f 0) * u) else IZR (V f 0) * u)%R
        by (assert (n = 0 \/ m = 0) as [-> | ->] by lia; rewrite V_0 by assumption; destruct s, t; cbn [xorb]; ring).
  all: apply rounds_mag; [assumption| |apply rmag_exact; [assumption|lia]|reflexivity]; rewrite V_0 by assumption; lra.
Qed.
End Fmt.
