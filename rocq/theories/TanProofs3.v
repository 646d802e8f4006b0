(** Accuracy of tan: the negated reciprocal, for arguments below 0.67434. *)
From Coq Require Import ZArith Reals Bool List Lia Lra Psatz.
From Flocq Require Import Core.
From Verif Require Import Base FloatModel FloatSpec FloatProofs FloatLib LibmModel LibmSpec Elem FloatErr PolyBound ElemModel ElemSpec TrigModel F64Lib ExpProofs3 ExpProofs4 ExpProofs5 ExpProofs6 ExpProofs7 ExpProofs8 LogProofs LogProofs2 TrigProofs TrigProofs2 TrigRed TrigRed5 TrigLg8 TrigLg11 HypotProofs3 AtanModel AtanProofs AtanProofs2 AtanProofs3 AsinProofs2 AsinProofs3 TanModel TanProofs TanProofs2.
Import ListNotations.
Open Scope Z_scope.

Lemma zero_low_eq x : 0 <= x < 2 ^ 64 -> zero_low x = x - x mod 2 ^ 32.
Proof.
  intros H. assert (x - x mod 2 ^ 32 = Z.shiftl (Z.shiftr x 32) 32) as ->.
  { rewrite Z.shiftl_mul_pow2, Z.shiftr_div_pow2 by lia. pose proof (Z.div_mod x (2 ^ 32)). lia. }
  unfold zero_low. change 0xffffffff00000000 with (Z.shiftl (Z.ones 32) 32). apply Z.bits_inj'. intros i Hi. rewrite Z.land_spec.
  destruct (Z_lt_le_dec i 32) as [L|L]; [rewrite !Z.shiftl_spec_low by exact L; apply andb_false_r|]. rewrite !Z.shiftl_spec by exact Hi. rewrite Z.shiftr_spec by lia. replace (i - 32 + 32) with i by lia.
  destruct (Z_lt_le_dec i 64) as [L'|L']; [rewrite Z.ones_spec_low by lia; apply andb_true_r|]. rewrite Z.ones_spec_high by lia. rewrite andb_false_r. symmetry.
  destruct (Z.eq_dec x 0) as [->|N]; [apply Z.testbit_0_l|]. apply Z.bits_above_log2; [lia|]. apply Z.log2_lt_pow2; [lia|]. apply Z.lt_le_trans with (2 ^ 64); [lia|apply Z.pow_le_mono_r; lia].
Qed.
Lemma zero_low_mk s n : 0 <= n < 2 ^ 63 -> zero_low (mk64 s n) = mk64 s (Z.land n 0xffffffff00000000).
Proof.
  intros H. assert (0 <= mk64 s n < 2 ^ 64) as HM by (unfold mk64; destruct s; cbn [b2z]; lia). rewrite zero_low_eq by exact HM. fold (zero_low n). rewrite (zero_low_eq n) by lia.
  unfold mk64. replace (b2z s * 2 ^ 63 + n) with (n + b2z s * 2 ^ 31 * 2 ^ 32) by lia. rewrite Z.mod_add by lia. lia.
Qed.
(** zero_low_word keeps 21 bits *)
Lemma zero_low_ok w (W := value F64 w) : good w -> (bpow radix2 (-200) <= Rabs W)%R -> good (zero_low w) /\
  (exists m e, Z.abs m < 2 ^ 21 /\ -400 <= e /\ value F64 (zero_low w) = (IZR m * bpow radix2 e)%R) /\ exists d, (0 <= d <= / 1000000)%R /\ value F64 (zero_low w) = (W * (1 - d))%R.
Proof.
  intros G L. destruct (good_split w G) as (s & n & E & Hn). assert (Rabs W = mag64 n) as AW by (unfold W; rewrite E; apply Rabs64; lia). rewrite AW in L. pose proof (bpow_gt_0 radix2 (-200)) as P.
  assert (2 ^ 52 <= n) as Hn2. { apply Z.le_ngt. intros L'. pose proof (mag_lt64 n (2 ^ 52) ltac:(lia)) as Q. assert (mag64 (2 ^ 52) <= bpow radix2 (-200))%R; [|lra]. unfold mag64. change (V F64 (2 ^ 52)) with (2 ^ 52). change (IZR (2 ^ 52)) with (bpow radix2 52). rewrite <- bpow_plus. apply bpow_le. lia. }
  destruct (cleared n ltac:(lia)) as (Rf & m & e & Hm & He & Mf & Bf). cbv zeta in *. set (f := Z.land n 0xffffffff00000000) in *. change (bpow radix2 (-20)) with (/ 1048576)%R in Bf.
  rewrite E, zero_low_mk by lia. fold f. split; [apply good_mk, Rf|].
  assert (bpow radix2 (-201) <= mag64 f)%R as LF. { change (-201) with (-1 + -200). rewrite bpow_plus. change (bpow radix2 (-1)) with (/ 2)%R. lra. }
  assert (-400 <= e) as HE. { apply Z.le_ngt. intros L'. assert (IZR m * bpow radix2 e <= bpow radix2 21 * bpow radix2 (-400))%R as Q. { apply Rmult_le_compat; [apply IZR_le; lia|apply bpow_ge_0|change (bpow radix2 21) with (IZR (2 ^ 21)); apply IZR_le; lia|apply bpow_le; lia]. } rewrite <- bpow_plus in Q. assert (bpow radix2 (21 + -400) < bpow radix2 (-201))%R by (apply bpow_lt; lia). lra. }
  rewrite value64 by lia. split.
  - exists (if s then - m else m), e. split; [destruct s; lia|]. split; [exact HE|]. rewrite Mf. destruct s; [rewrite opp_IZR; ring|reflexivity].
  - exists (1 - mag64 f / mag64 n)%R. assert (0 < mag64 n)%R as M0 by lra. split.
    + assert ((1 - / 1048576) <= mag64 f / mag64 n <= 1)%R as Q. { split; apply (Rmult_le_reg_r (mag64 n)); try exact M0; unfold Rdiv; rewrite Rmult_assoc, Rinv_l, Rmult_1_r by lra; lra. } lra.
    + unfold W. rewrite E, value64 by lia. destruct s; field; lra.
Qed.
Lemma rne_mulx v : (bpow radix2 (-1022) <= Rabs v)%R -> exists e, (Rabs e <= u53 /\ rne F64 v = v * (1 + e))%R.
Proof.
  intros H. pose proof (rne_rel v H) as Q. assert (v <> 0)%R as N by (intros E; rewrite E, Rabs_R0 in H; pose proof (bpow_gt_0 radix2 (-1022)); lra). exists ((rne F64 v - v) / v)%R. split; [|field; exact N].
  unfold Rdiv. rewrite Rabs_mult, Rabs_inv. apply (Rmult_le_reg_r (Rabs v)); [apply Rabs_pos_lt; exact N|]. rewrite Rmult_assoc, Rinv_l by (apply Rabs_no_R0; exact N). rewrite Rmult_1_r. exact Q.
Qed.
Lemma val_m1 : good tan_m1 /\ value F64 tan_m1 = (-1)%R.
Proof. change tan_m1 with (mk64 true one). split; [apply good_mk; unfold one; lia|]. rewrite value64 by (unfold one; lia). rewrite mag_value by (unfold one; lia). rewrite value_one. reflexivity. Qed.
Section Recip.
Context (o : fops) (Ho : ieee_ops F64 o).
Lemma mulb x y A (X := value F64 x) (Y := value F64 y) : good x -> good y -> (Rabs (X * Y) <= A)%R -> (A <= bpow radix2 100)%R -> good (o_mul o x y) /\ (Rabs (value F64 (o_mul o x y) - X * Y) <= u53 * A + kk)%R.
Proof using Ho.
  intros Gx Gy H HA. destruct (mul64 o Ho x y Gx Gy) as [G V]; [fold X Y; lra|]. split; [exact G|]. rewrite V. fold X Y. pose proof (rne_abs (X * Y)) as Q. fold u53 kk in Q. pose proof u53_small. nra.
Qed.
(** -1 / (x + r) as the sum of two numbers *)
Lemma recip x r (X := value F64 x) (R1 := value F64 r) (W := (X + R1)%R) : good x -> good r -> (bpow radix2 (-70) <= Rabs X <= 0.7)%R -> (Rabs R1 <= 0.19 * Rabs X)%R ->
  let w := o_add o x r in let w0 := zero_low w in let v := o_sub o r (o_sub o w0 x) in let a := o_div o tan_m1 w in let a0 := zero_low a in
  let c := o_mul o a (o_add o (o_add o one (o_mul o a0 w0)) (o_mul o a0 v)) in
  good a0 /\ good c /\ (Rabs (value F64 a0 + value F64 c + / W) <= 0.00003 * u53 * / Rabs W)%R.
Proof using Ho.
  intros Gx Gr HX HR. cbv zeta. pose proof u53_small as US. pose proof (bpow_gt_0 radix2 (-70)) as P70. set (a' := Rabs X) in *.
  assert (0.8 * a' <= Rabs W <= 1.2 * a')%R as BW. { unfold W. split; [|eapply Rle_trans; [apply Rabs_triang|fold a'; lra]]. pose proof (Rabs_triang_inv X (- R1)) as Q. rewrite Rabs_Ropp in Q. replace (X - - R1)%R with (X + R1)%R in Q by ring. fold a' in Q. lra. }
  assert (Rabs (W - X) <= 0.19 * a')%R as WX by (unfold W; replace (X + R1 - X)%R with R1 by ring; exact HR).
  set (s := Rabs W) in *. assert (0 < s)%R as S0 by lra. assert (W <> 0)%R as NW by (intros E; unfold s in S0; rewrite E, Rabs_R0 in S0; lra).
  assert (bpow radix2 (-71) <= s)%R as S71. { change (-71) with (-1 + -70). rewrite bpow_plus. change (bpow radix2 (-1)) with (/ 2)%R. lra. }
  assert (0 < / s)%R as I0 by (apply Rinv_0_lt_compat; lra). assert (s * / s = 1)%R as SI by (apply Rinv_r; lra). assert (Rabs (/ W) = / s)%R as AI by (rewrite Rabs_inv; reflexivity).
  assert (/ s <= bpow radix2 71)%R as I1. { change 71 with (- -71). rewrite bpow_opp. apply Rinv_le; [apply bpow_gt_0|exact S71]. }
  assert (1 <= / s)%R as I2. { replace 1%R with (/ 1)%R by field. apply Rinv_le; lra. }
  assert (0 < kk <= / 1000000000 * (u53 * s))%R as K0.
  { split; [apply bpow_gt_0|]. assert (bpow radix2 (-124) <= u53 * s)%R as L. { change (-124) with (-53 + -71). rewrite bpow_plus. fold u53. apply Rmult_le_compat_l; lra. }
    unfold kk. change (-1075) with (-951 + -124). rewrite bpow_plus. pose proof (bpow_gt_0 radix2 (-124)). apply Rmult_le_compat; [apply bpow_ge_0|lra| |exact L]. apply Rle_trans with (bpow radix2 (-50)); [apply bpow_le; lia|]. change (bpow radix2 (-50)) with (/ 1125899906842624)%R. lra. }
  assert (u53 * s <= u53)%R as USL by (clear - US S0 BW HX; nra).
  (* w *)
  destruct (add64 o Ho x r Gx Gr) as [Gw Vw]; [fold X R1 W; apply (small_ok _ 0); [lia|change (bpow radix2 0) with 1%R; fold s; lra]|]. fold X R1 W in Vw. set (w := o_add o x r) in *.
  destruct (rne_mulx W) as (e1 & He1 & E1); [fold s; eapply Rle_trans; [|exact S71]; apply bpow_le; lia|]. rewrite E1 in Vw. apply Rabs_le_inv in He1.
  assert (Rabs (value F64 w) = s * (1 + e1))%R as AW by (rewrite Vw, Rabs_mult, (Rabs_pos_eq (1 + e1)) by lra; reflexivity).
  assert (bpow radix2 (-72) <= s * (1 + e1))%R as L72. { change (-72) with (-1 + -71). rewrite bpow_plus. change (bpow radix2 (-1)) with (/ 2)%R. clear - US He1 S71 S0; nra. }
  destruct (zero_low_ok w Gw) as (Gw0 & (m1 & g1 & Hm1 & Hg1 & Em1) & d1 & Hd1 & Ed1); [rewrite AW; eapply Rle_trans; [|exact L72]; apply bpow_le; lia|]. set (w0 := zero_low w) in *. rewrite Vw in Ed1.
  set (b := (1 - (1 + e1) * (1 - d1))%R). assert (Rabs b <= 1.001 / 1000000)%R as Bb by (unfold b; apply Rabs_le; clear - US He1 Hd1; nra). assert (value F64 w0 = W * (1 - b))%R as EW0 by (rewrite Ed1; unfold b; ring). assert (Bb' := Rabs_le_inv _ _ Bb).
  (* w0 - x is exact *)
  assert (Rabs (value F64 w0 - X) <= 0.2 * a')%R as BWX. { rewrite EW0. replace (W * (1 - b) - X)%R with ((W - X) + - (W * b))%R by ring. eapply Rle_trans; [apply sum_le; [exact WX|rewrite Rabs_Ropp; apply prod_le; [apply Rle_refl|exact Bb]]|]. fold s. lra. }
  assert (rne F64 (value F64 w0 - X) = value F64 w0 - X)%R as EX.
  { destruct (mag radix2 X) as (E & HE). assert (X <> 0)%R as NX by (intros Q; unfold a' in HX; rewrite Q, Rabs_R0 in HX; lra). specialize (HE NX). fold a' in HE. cbn [mag_val] in *.
    assert (-70 < E) as E70 by (apply (lt_bpow radix2); lra). assert (E <= 0) as E0. { apply Z.le_ngt. intros L. assert (bpow radix2 0 <= bpow radix2 (E - 1))%R by (apply bpow_le; lia). change (bpow radix2 0) with 1%R in *. lra. }
    apply (grid_exact (E - 53)); [lia|apply grid_sub|].
    - apply (grid_le g1); [|exists m1; exact Em1]. apply Z.le_ngt. intros L. assert (Rabs (value F64 w0) <= bpow radix2 21 * bpow radix2 (E - 54))%R as Q. { rewrite Em1. apply prod_le; [rewrite <- abs_IZR; change (bpow radix2 21) with (IZR (2 ^ 21)); apply IZR_le; lia|rewrite Rabs_pos_eq by apply bpow_ge_0; apply bpow_le; lia]. }
      rewrite <- bpow_plus in Q. assert (0.9 * s <= Rabs (value F64 w0))%R as Q2 by (rewrite EW0, Rabs_mult, (Rabs_pos_eq (1 - b)) by lra; fold s; clear - S0 Bb'; clearbody s b; nra). assert (bpow radix2 (21 + (E - 54)) <= / 1024 * bpow radix2 (E - 1))%R as Q3. { change (/ 1024)%R with (bpow radix2 (-10)). rewrite <- bpow_plus. apply bpow_le. lia. } lra.
    - replace (E - 53) with (E - 1 - 52) by lia. apply (grid64 x); [exact Gx|fold X a'; lra].
    - replace (E - 53 + 53) with E by lia. lra. }
  destruct (sub64 o Ho w0 x Gw0 Gx) as [Gd Vd]; [fold X; apply (small_ok _ 0); [lia|change (bpow radix2 0) with 1%R; lra]|]. fold X in Vd. rewrite EX in Vd. set (dd := o_sub o w0 x) in *.
  (* v *)
  assert (R1 - value F64 dd = W * b)%R as EB by (rewrite Vd, EW0; unfold W; ring). assert (Rabs (W * b) <= s * (1.001 / 1000000))%R as BB by (apply prod_le; [apply Rle_refl|exact Bb]).
  destruct (sub64 o Ho r dd Gr Gd) as [Gv Vv]; [fold R1; rewrite EB; apply (small_ok _ 0); [lia|change (bpow radix2 0) with 1%R; lra]|]. fold R1 in Vv. rewrite EB in Vv. set (v := o_sub o r dd) in *.
  assert (Rabs (value F64 v - W * b) <= 0.0000011 * (u53 * s))%R as Ev. { rewrite Vv. eapply Rle_trans; [apply rne_abs|]. fold u53 kk. assert (u53 * Rabs (W * b) <= u53 * (s * (1.001 / 1000000)))%R by (apply Rmult_le_compat_l; lra). lra. }
  assert (Rabs (value F64 v) <= 0.0000012 * s)%R as Bv by (eapply Rle_trans; [exact (diff_tri _ _ _ _ Ev BB)|]; clear - US S0; clearbody s; nra).
  (* a *)
  destruct val_m1 as [Gm Vm]. assert (-1 / value F64 w = - / W * / (1 + e1))%R as ED by (rewrite Vw; field; split; lra).
  assert (0.9999 <= / (1 + e1) <= 1.0001)%R as BE. { split; [replace 0.9999%R with (/ (/ 0.9999))%R by (field; lra)|replace 1.0001%R with (/ (/ 1.0001))%R by (field; lra)]; apply Rinv_le; lra. }
  assert (0.9999 * / s <= Rabs (- / W * / (1 + e1)) <= 1.0001 * / s)%R as BI by (rewrite Rabs_mult, Rabs_Ropp, AI, (Rabs_pos_eq (/ (1 + e1))) by lra; clear - I0 BE; clearbody s; nra).
  destruct (div64 o Ho tan_m1 w Gm Gw) as [Ga Va]; [rewrite Vw; apply Rmult_integral_contrapositive_currified; lra|rewrite Vm, ED; eapply Rle_trans; [apply BI|]; apply Rle_trans with (2 * bpow radix2 71)%R; [lra|change 2%R with (bpow radix2 1); rewrite <- bpow_plus; apply bpow_le; lia]|].
  rewrite Vm, ED in Va. set (a := o_div o tan_m1 w) in *. destruct (rne_mulx (- / W * / (1 + e1))) as (e2 & He2 & E2); [eapply Rle_trans; [|apply BI]; apply Rle_trans with (bpow radix2 (-1)); [apply bpow_le; lia|change (bpow radix2 (-1)) with (/ 2)%R; lra]|]. rewrite E2 in Va. apply Rabs_le_inv in He2.
  set (al := (/ (1 + e1) * (1 + e2))%R). assert (Rabs (al - 1) <= 3 * u53)%R as Bal. { unfold al. replace (/ (1 + e1) * (1 + e2) - 1)%R with ((e2 - e1) * / (1 + e1))%R by (field; lra). apply Rle_trans with (2 * u53 * 1.0001)%R; [apply prod_le; [apply Rabs_le; lra|rewrite Rabs_pos_eq; lra]|lra]. }
  assert (value F64 a = - / W * al)%R as EA by (rewrite Va; unfold al; ring). assert (Bal' := Rabs_le_inv _ _ Bal). assert (Rabs (value F64 a) = / s * al)%R as AA by (rewrite EA, Rabs_mult, Rabs_Ropp, AI, (Rabs_pos_eq al) by lra; reflexivity).
  destruct (zero_low_ok a Ga) as (Ga0 & (m2 & g2 & Hm2 & Hg2 & Em2) & d2 & Hd2 & Ed2); [rewrite AA; apply Rle_trans with (bpow radix2 (-1)); [apply bpow_le; lia|change (bpow radix2 (-1)) with (/ 2)%R; clear - US I2 Bal'; clearbody s al; nra]|]. set (a0 := zero_low a) in *. rewrite EA in Ed2.
  set (g := (al * (1 - d2))%R). assert (value F64 a0 = - / W * g)%R as EA0 by (rewrite Ed2; unfold g; ring). set (h := (1 - g)%R). assert (Rabs h <= 1.001 / 1000000)%R as Bh by (unfold h, g; apply Rabs_le; clear - US Bal' Hd2; clearbody al; nra). assert (Bh' := Rabs_le_inv _ _ Bh).
  assert (Rabs (value F64 a0) <= 1.00001 * / s)%R as BA0 by (rewrite EA0, Rabs_mult, Rabs_Ropp, AI, (Rabs_pos_eq g) by (unfold h in *; lra); unfold h in *; clear - I0 Bh'; clearbody s g; nra).
  (* a0 w0 and one more *)
  assert (value F64 a0 * value F64 w0 = - (g * (1 - b)))%R as EP by (rewrite EA0, EW0; field; exact NW).
  assert (Rabs (g * (1 - b) - 1) <= 2.1 / 1000000)%R as BP by (unfold h in *; apply Rabs_le; clear - Bh' Bb'; clearbody g b; nra). assert (BP' := Rabs_le_inv _ _ BP).
  assert (value F64 a0 * value F64 w0 = IZR (m2 * m1) * bpow radix2 (g2 + g1))%R as EM by (rewrite Em1, Em2, mult_IZR, bpow_plus; ring).
  assert (Z.abs (m2 * m1) < 2 ^ 42) as HM by (rewrite Z.abs_mul; change (2 ^ 42) with (2 ^ 21 * 2 ^ 21); apply Z.mul_lt_mono_nonneg; lia).
  destruct (mul64 o Ho a0 w0 Ga0 Gw0) as [Gp Vp]; [rewrite EP, Rabs_Ropp; apply (small_ok _ 1); [lia|change (bpow radix2 1) with 2%R; apply Rabs_le; lra]|]. rewrite EM, (rne_exact64 (m2 * m1)), <- EM, EP in Vp by lia. set (p := o_mul o a0 w0) in *.
  assert (good one) as G1 by apply good_one. set (q := (1 - g * (1 - b))%R). assert (rne F64 q = q) as EQ.
  { apply (grid_exact (-43)); [lia| |unfold q; rewrite Rabs_minus_sym; eapply Rle_trans; [exact BP|]; change (bpow radix2 (-43 + 53)) with 1024%R; lra].
    replace q with (1 + value F64 a0 * value F64 w0)%R by (rewrite EP; unfold q; ring). rewrite EM. apply grid_add; [exists (2 ^ 43); change (IZR (2 ^ 43)) with (bpow radix2 43); rewrite <- bpow_plus; reflexivity|]. apply (grid_le (g2 + g1)); [|exists (m2 * m1); reflexivity].
    apply Z.le_ngt. intros L. assert (Rabs (value F64 a0 * value F64 w0) <= bpow radix2 42 * bpow radix2 (-44))%R as Q. { rewrite EM. apply prod_le; [rewrite <- abs_IZR; change (bpow radix2 42) with (IZR (2 ^ 42)); apply IZR_le; lia|rewrite Rabs_pos_eq by apply bpow_ge_0; apply bpow_le; lia]. }
    rewrite <- bpow_plus in Q. change (bpow radix2 (42 + -44)) with (/ 4)%R in Q. rewrite EP, Rabs_Ropp, Rabs_pos_eq in Q by lra. lra. }
  destruct (add64 o Ho one p G1 Gp) as [Gq Vq]; [rewrite value_one, Vp; apply (small_ok _ 1); [lia|change (bpow radix2 1) with 2%R; apply Rabs_le; lra]|]. rewrite value_one, Vp in Vq. change (1 + - (g * (1 - b)))%R with q in Vq. rewrite EQ in Vq. set (q1 := o_add o one p) in *.
  (* a0 v *)
  assert (BT := prod_le _ _ _ _ BA0 Bv). replace (1.00001 * / s * (0.0000012 * s))%R with (1.00001 * 0.0000012)%R in BT by (field; lra).
  assert (1.00001 * 0.0000012 <= bpow radix2 100)%R as L100 by (apply Rle_trans with (bpow radix2 0); [change (bpow radix2 0) with 1%R; lra|apply bpow_le; lia]).
  destruct (mulb a0 v _ Ga0 Gv BT L100) as [Gt Et]. set (t := o_mul o a0 v) in *.
  assert (DT := prod_le _ _ _ _ BA0 Ev). replace (1.00001 * / s * (0.0000011 * (u53 * s)))%R with (1.00001 * 0.0000011 * u53)%R in DT by (field; lra).
  assert (Rabs (value F64 t - - (g * b)) <= 0.000003 * u53)%R as ET. { replace (value F64 t - - (g * b))%R with ((value F64 t - value F64 a0 * value F64 v) + value F64 a0 * (value F64 v - W * b))%R by (rewrite EA0; field; exact NW). eapply Rle_trans; [apply sum_le; [exact Et|exact DT]|]. lra. }
  assert (q + - (g * b) = h)%R as EH by (unfold q, h; ring).
  assert (Rabs (value F64 q1 + value F64 t - h) <= 0.000003 * u53)%R as EQT by (rewrite Vq, <- EH; replace (q + value F64 t - (q + - (g * b)))%R with (value F64 t - - (g * b))%R by ring; exact ET).
  assert (BQT := diff_tri _ _ _ _ EQT Bh).
  destruct (addo o Ho q1 t _ Gq Gt BQT ltac:(lra)) as [Gb Eb]. set (bb := o_add o q1 t) in *.
  assert (Rabs (value F64 bb - h) <= 0.000005 * u53)%R as EBB. { replace (value F64 bb - h)%R with ((value F64 bb - (value F64 q1 + value F64 t)) + (value F64 q1 + value F64 t - h))%R by ring. eapply Rle_trans; [apply sum_le; [exact Eb|exact EQT]|]. assert (u53 * u53 <= / 1000000000000 * u53)%R by (apply Rmult_le_compat_r; lra). lra. }
  assert (BBB := diff_tri _ _ _ _ EBB Bh).
  (* c *)
  assert (Rabs (value F64 a) <= 1.00001 * / s)%R as BAA by (rewrite AA; clear - US I0 Bal'; clearbody s al; nra). assert (BC := prod_le _ _ _ _ BAA BBB).
  assert (1.00001 * / s * (0.000005 * u53 + 1.001 / 1000000) <= 0.0000011 * / s)%R as BC2 by (replace (1.00001 * / s * (0.000005 * u53 + 1.001 / 1000000))%R with (1.00001 * (0.000005 * u53 + 1.001 / 1000000) * / s)%R by ring; apply Rmult_le_compat_r; lra).
  destruct (mulb a bb _ Ga Gb (Rle_trans _ _ _ BC BC2)) as [Gc Ec]; [apply Rle_trans with (1 * bpow radix2 71)%R; [apply Rmult_le_compat; lra|rewrite Rmult_1_l; apply bpow_le; lia]|]. set (c := o_mul o a bb) in *.
  split; [exact Ga0|]. split; [exact Gc|].
  replace (value F64 a0 + value F64 c + / W)%R with ((value F64 c - value F64 a * value F64 bb) + (value F64 a * (value F64 bb - h) + - / W * ((al - 1) * h)))%R by (rewrite EA0, EA; unfold h; ring).
  assert (D1 := prod_le _ _ _ _ BAA EBB). assert (D2 := prod_le _ _ _ _ Bal Bh). assert (Rabs (- / W * ((al - 1) * h)) <= / s * (3 * u53 * (1.001 / 1000000)))%R as D3 by (apply prod_le; [rewrite Rabs_Ropp, AI; apply Rle_refl|exact D2]).
  eapply Rle_trans; [apply sum_le; [exact Ec|apply sum_le; [exact D1|exact D3]]|]. assert (u53 * s <= u53 * / s)%R by (apply Rmult_le_compat_l; lra). assert (0 < u53 * / s)%R by (apply Rmult_lt_0_compat; lra). lra.
Qed.
Lemma k_odd x y T (X := value F64 x) (Y := value F64 y) : good x -> good y -> (bpow radix2 (-70) <= Rabs X)%R -> (X * X <= 0.4548)%R ->
  (Rabs Y <= 49 * bpow radix2 (-58) * Rabs X)%R -> (Rabs (T - (X + Y)) <= bpow radix2 (-62) * Rabs X)%R ->
  let r := tan_r o x y in let w := o_add o x r in let w0 := zero_low w in let v := o_sub o r (o_sub o w0 x) in let a := o_div o tan_m1 w in let a0 := zero_low a in
  within (3 / 2) (o_add o a0 (o_mul o a (o_add o (o_add o one (o_mul o a0 w0)) (o_mul o a0 v)))) (- / tan T) /\ (tan T <> 0)%R.
Proof using Ho.
  intros Gx Gy H70 HX HY HT. cbv zeta. destruct (tan_r_ok o Ho x y T Gx Gy H70 HX HY HT) as (Gr & Br & Er & CT & g & Eg & Bg). fold X in Br, Er, Eg, Bg. set (a' := Rabs X) in *. set (r := tan_r o x y) in *. pose proof u53_small as US.
  assert (0 < a')%R as A0 by (pose proof (bpow_gt_0 radix2 (-70)); lra). set (xi := (X * X)%R) in *. assert (xi = a' * a')%R as XA by (unfold xi, a'; rewrite <- Rabs_mult, Rabs_pos_eq; [reflexivity|nra]). assert (0 < xi)%R as X0 by nra. assert (a' <= 0.6744)%R as A1 by nra.
  assert (Rabs (tan T) = a' * g)%R as AT by (rewrite Eg, Rabs_mult, (Rabs_pos_eq g) by lra; reflexivity). assert (0 < a' * g)%R as G0 by nra.
  assert (tan T <> 0)%R as NT by (intros E; rewrite E, Rabs_R0 in AT; lra). split; [|exact NT].
  destruct (recip x r Gx Gr ltac:(fold X a'; lra) Br) as (Ga & Gc & E). fold X in E. set (W := (X + value F64 r)%R) in *. set (a := zero_low (o_div o tan_m1 (o_add o x r))) in *. set (c := o_mul o (o_div o tan_m1 (o_add o x r)) _) in *.
  assert (Rabs (W - tan T) <= / 1000000 * (a' * g))%R as DW. { eapply Rle_trans; [exact Er|]. replace ((2.75 * xi + 0.09) * (a' * u53))%R with ((2.75 * xi + 0.09) * u53 * a')%R by ring. replace (/ 1000000 * (a' * g))%R with (/ 1000000 * g * a')%R by ring. apply Rmult_le_compat_r; [lra|]. apply Rle_trans with (2 * u53)%R; [apply Rmult_le_compat_r; lra|]. lra. }
  assert (0.999999 * (a' * g) <= Rabs W)%R as BW. { pose proof (Rabs_triang_inv (tan T) (tan T - W)) as Q. replace (tan T - (tan T - W))%R with W in Q by ring. rewrite (Rabs_minus_sym (tan T)), AT in Q. lra. }
  assert (0 < Rabs W)%R as W0 by lra. assert (W <> 0)%R as NW by (intros Q; rewrite Q, Rabs_R0 in W0; lra).
  set (y' := (/ (a' * g))%R). assert (/ Rabs W <= 1.00001 * y')%R as IW. { unfold y'. replace (1.00001 * / (a' * g))%R with (/ (/ 1.00001 * (a' * g)))%R by (field; lra). apply Rinv_le; lra. } assert (0 < y')%R as Y0 by (apply Rinv_0_lt_compat; lra).
  assert (Rabs (- / tan T) = y')%R as AY by (rewrite Rabs_Ropp, Rabs_inv, AT; reflexivity).
  assert (Rabs (value F64 a + value F64 c - - / tan T) <= (1.00001 * ((2.75 * xi + 0.09) * / g) + 0.000031) * (y' * u53))%R as D.
  { replace (value F64 a + value F64 c - - / tan T)%R with ((value F64 a + value F64 c + / W) + (W - tan T) * (/ W * / tan T))%R by (field; split; assumption).
    eapply Rle_trans; [apply sum_le; [exact E|apply prod_le; [exact Er|rewrite Rabs_mult, !Rabs_inv, AT; fold y'; apply Rmult_le_compat_r; [lra|exact IW]]]|].
    replace ((2.75 * xi + 0.09) * (a' * u53) * (1.00001 * y' * y'))%R with (1.00001 * ((2.75 * xi + 0.09) * / g) * (y' * u53))%R by (unfold y'; field; lra).
    assert (0.00003 * u53 * / Rabs W <= 0.00003 * u53 * (1.00001 * y'))%R by (apply Rmult_le_compat_l; lra). assert (0 < y' * u53)%R by (apply Rmult_lt_0_compat; lra). lra. }
  assert (/ g <= 1.000002 * (1 - 0.3 * xi + 0.09 * xi * xi))%R as IG. { apply (Rmult_le_reg_r g); [lra|]. rewrite Rinv_l by lra. apply Rle_trans with (1.000002 * (1 - 0.3 * xi + 0.09 * xi * xi) * (0.999999 * (1 + 0.325 * xi)))%R; [clear - X0 HX; clearbody xi; nra|]. clear - X0 HX Bg; clearbody xi; apply Rmult_le_compat_l; nra. }
  assert (0 < / g)%R as IG0 by (apply Rinv_0_lt_compat; lra).
  assert (y' <= bpow radix2 72)%R as Y72. { unfold y'. change 72 with (- -72). rewrite bpow_opp. apply Rinv_le; [apply bpow_gt_0|]. change (-72) with (-2 + -70). rewrite bpow_plus. change (bpow radix2 (-2)) with (/ 4)%R. clear - H70 A0 X0 Bg; clearbody xi a'; nra. }
  assert (1.24 <= y')%R as Y1. { unfold y'. replace 1.24%R with (/ (/ 1.24))%R by (field; lra). apply Rinv_le; [lra|]. clear - A0 A1 X0 Bg; clearbody xi a'; nra. }
  destruct (add64 o Ho a c Ga Gc) as [[F1 F2] V].
  { replace (value F64 a + value F64 c)%R with ((value F64 a + value F64 c - - / tan T) + - / tan T)%R by ring. eapply Rle_trans; [apply sum_le; [exact D|rewrite AY; apply Rle_refl]|]. apply Rle_trans with (4 * bpow radix2 72)%R; [|change 4%R with (bpow radix2 2); rewrite <- bpow_plus; apply bpow_le; lia].
    assert ((1.00001 * ((2.75 * xi + 0.09) * / g) + 0.000031) * (y' * u53) <= 3 * (y' * 1))%R; [|lra]. assert (/ g <= 2)%R as IG2 by (clear - IG X0 HX; clearbody xi; nra). assert (0 <= (2.75 * xi + 0.09) * / g <= 1.35 * 2)%R as P2 by (split; [apply Rmult_le_pos; lra|apply Rmult_le_compat; lra]). apply Rmult_le_compat; [lra|apply Rmult_le_pos; lra|lra|apply Rmult_le_compat_l; lra]. }
  split; [exact F1|]. split; [exact F2|]. rewrite V. replace (3 / 2)%R with (1 + / 2)%R by lra. apply final_round; [rewrite AY| |lra].
  - apply Rle_trans with (bpow radix2 0); [apply bpow_le; lia|]. change (bpow radix2 0) with 1%R. lra.
  - eapply Rle_trans; [exact D|]. rewrite Rmult_1_l. destruct (Rle_lt_dec (/ 2) (a' * g)) as [L|L].
    + pose proof (ulp64_ge 1 (- / tan T)) as UL. rewrite AY in UL. specialize (UL ltac:(change (bpow radix2 (1 - 1)) with 1%R; lra)). change (1 - 53) with (1 + -53) in UL. rewrite bpow_plus in UL. change (bpow radix2 1) with 2%R in UL. fold u53 in UL. eapply Rle_trans; [|exact UL]. rewrite <- Rmult_assoc. apply Rmult_le_compat_r; [lra|].
      assert (0.42 <= a')%R as A2 by (clear - L Bg X0 A0; clearbody xi a'; nra). assert (1 + 0.65 * xi <= 1.00001 * (g * g))%R as GG by (clear - Bg X0 HX; clearbody xi; nra).
      assert (2.75 * xi + 0.09 <= 1.9 * a' * (g * g))%R as C. { apply Rle_trans with (1.89 * a' * (1 + 0.65 * xi))%R; [|apply Rle_trans with (1.89 * a' * (1.00001 * (g * g)))%R; [apply Rmult_le_compat_l; lra|assert (0 <= a' * (g * g))%R by (apply Rmult_le_pos; [lra|exact (Rle_0_sqr g)]); lra]]. rewrite XA. assert (0.55 <= 1.89 - 2.75 * a' + 1.89 * 0.65 * (a' * a'))%R as C2 by (clear - A1 A2; clearbody a'; nra). clear - A2 C2; clearbody a'; nra. }
      assert ((2.75 * xi + 0.09) * / g * y' <= 1.9)%R as C3. { replace 1.9%R with (1.9 * a' * (g * g) * / g * y')%R by (unfold y'; field; lra). apply Rmult_le_compat_r; [lra|]. apply Rmult_le_compat_r; lra. }
      assert (y' <= 2)%R as Y2. { unfold y'. replace 2%R with (/ / 2)%R by field. apply Rinv_le; lra. } rewrite Rmult_plus_distr_r, Rmult_assoc. lra.
    + pose proof (ulp64_rel (- / tan T)) as UL. rewrite AY in UL. fold u53 in UL. eapply Rle_trans; [|exact UL]. rewrite <- (Rmult_1_l (y' * u53)) at 2. apply Rmult_le_compat_r; [apply Rmult_le_pos; lra|].
      assert (a' <= 0.501)%R as A2 by (clear - L Bg X0 A0; clearbody xi a'; nra). assert (xi <= 0.251001)%R by (rewrite XA; clear - A0 A2; clearbody a'; nra). assert (/ g <= 1.00001)%R by (clear - IG X0 HX; clearbody xi; nra). assert ((2.75 * xi + 0.09) * / g <= 0.79 * 1.00001)%R by (apply Rmult_le_compat; lra). lra.
Qed.
End Recip.
