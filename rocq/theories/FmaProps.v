(** Fused multiply-add: properties C42 and C43. *)
From Coq Require Import ZArith Reals Bool Lia Lra Psatz.
From Flocq Require Import Core.
From Verif Require Import Base BaseLemmas FloatModel FloatSpec FloatConvModel FloatConvSpec FloatProofs FloatProofs2 FloatProofs3 FloatConvProofs FloatConvProps FloatLib LibmModel LibmSpec LibmProofs LibmProofs2 LibmProofs3 LibmProofs6 LibmProps RemModel FmaModel FmaSpec FmaProofs FmaProofs2 FmaProofs3 FmaProofs4 FmaProofs5 FmaProofs6.
Open Scope Z_scope.

(** The casts as compiler-builtins itself provides them; [ok_or_0] strips the error monad. *)
Definition soft_conv (f : fmt) (i : Z) : Z := ok_or_0 (float_si (fb f) f i).
Definition soft_widen (f g : fmt) (a : Z) : Z := ok_or_0 (extend f g a).
Definition soft_narrow (g f : fmt) (a : Z) : Z := ok_or_0 (FloatConvModel.trunc g f a).

Theorem soft_conv_ok : forall f, f = F32 \/ f = F64 \/ f = F128 -> int_conv f (soft_conv f).
Proof.
  intros f Hf i Hi. unfold soft_conv. destruct (C26_signed (fb f) f i) as (r & -> & R).
  - unfold int_width. destruct Hf as [->|[->| ->]]; cbn; tauto.
  - unfold conv_fmt. tauto.
  - apply fits_s. exact Hi.
  - exact R.
Qed.
Theorem soft_widen_ok : widens F32 F64 (soft_widen F32 F64).
Proof. intros a Fa. unfold soft_widen. destruct (C24_extend F32 F64 a) as (r & -> & R1 & R2 & R3 & R4 & R5); [left; reflexivity|exact Fa|]. cbn [ok_or_0]. unfold is_nan in *. tauto. Qed.
Theorem soft_narrow_ok : narrows F64 F32 (soft_narrow F64 F32).
Proof. intros a Fa. unfold soft_narrow. destruct (C25_narrow F64 F32 a) as (r & -> & R1 & R2 & R3 & R4 & R5); [left; reflexivity|exact Fa|]. cbn [ok_or_0]. unfold is_qnan in *. tauto. Qed.

(** * C42: fma and fmaf128 *)
(** The result is correctly rounded unless bits of the product are lost. *)
Theorem C42_fma_partial : forall f o conv x y z, f = F32 \/ f = F64 \/ f = F128 -> ieee_ops f o -> int_conv f conv ->
  is_float f x -> is_float f y -> is_float f z -> ~ sticky_lost f x y z ->
  exists r, fma_round f o conv x y z = Ok r /\ ieee_fma f x y z r.
Proof.
  intros f o conv x y z Hf Ho Hc Fx Fy Fz NL. assert (std f) as St by (unfold std; tauto). assert (16 < fb f) as H16 by (destruct Hf as [->|[->| ->]]; reflexivity).
  destruct (fma_ok f (std_wf f St) (std_wl3 f St) (std_ws f St) ltac:(lia) (std_wi f St H16) o Ho conv Hc x y z Fx Fy Fz) as (r & E & K & _). exists r. split; [exact E|apply K, NL].
Qed.

(** In particular when z is at most 2^(eb-1) times larger than the product (2^10 for f64). *)
Lemma balanced_kept f x y z : wf f -> (Rabs (value f z) <= bpow radix2 (eb f - 1) * Rabs (value f x * value f y))%R -> ~ sticky_lost f x y z.
Proof.
  intros W L (mx & ex & my & ey & mz & ez & (_ & Hx & Ex) & (_ & Hy & Ey) & (_ & Hz & Ez) & (Hd & _)). assert (fb f = fs f + eb f + 1) as FB by (destruct W; unfold eb in *; lia). pose proof (S_pos f W). assert (10 <= fs f) by apply W.
  rewrite Rabs_mult, Ex, Ey, Ez in L.
  assert (IZR (mx * my) <= IZR (2 ^ (2 * fs f + 2)))%R as P. { apply IZR_le. replace (2 * fs f + 2) with (fs f + 1 + (fs f + 1)) by lia. rewrite pow2_add by lia. apply Z.mul_le_mono_nonneg; lia. }
  assert (mx * my < 2 ^ (2 * fs f + 2)) as P'. { replace (2 * fs f + 2) with (fs f + 1 + (fs f + 1)) by lia. rewrite pow2_add by lia. apply Z.mul_lt_mono_nonneg; lia. } apply IZR_lt in P'. clear P.
  assert (bpow radix2 (fs f + ez) <= IZR mz * bpow radix2 ez)%R as Q. { rewrite bpow_plus. apply Rmult_le_compat_r; [apply bpow_ge_0|]. rewrite <- (IZR_pow (fs f)) by lia. apply IZR_le. lia. }
  assert (bpow radix2 (eb f - 1) * (IZR mx * bpow radix2 ex * (IZR my * bpow radix2 ey)) < bpow radix2 (eb f - 1 + (2 * fs f + 2) + ex + ey))%R as R.
  { rewrite (IZR_pow (2 * fs f + 2)), mult_IZR in P' by lia. rewrite !bpow_plus. pose proof (bpow_gt_0 radix2 (eb f - 1)). pose proof (bpow_gt_0 radix2 ex) as B1. pose proof (bpow_gt_0 radix2 ey) as B2. rewrite bpow_plus in P'.
    replace (bpow radix2 (eb f - 1) * (IZR mx * bpow radix2 ex * (IZR my * bpow radix2 ey)))%R with (bpow radix2 (eb f - 1) * (IZR mx * IZR my) * bpow radix2 ex * bpow radix2 ey)%R by ring.
    apply Rmult_lt_compat_r; [exact B2|]. apply Rmult_lt_compat_r; [exact B1|]. rewrite <- !bpow_plus in *. rewrite bpow_plus. apply Rmult_lt_compat_l; [assumption|]. exact P'. }
  assert (fs f + ez < eb f - 1 + (2 * fs f + 2) + ex + ey); [|lia]. apply (lt_bpow radix2). lra.
Qed.
Theorem C42_fma_balanced_partial : forall f o conv x y z, f = F32 \/ f = F64 \/ f = F128 -> ieee_ops f o -> int_conv f conv ->
  is_float f x -> is_float f y -> is_float f z -> (Rabs (value f z) <= bpow radix2 (eb f - 1) * Rabs (value f x * value f y))%R ->
  exists r, fma_round f o conv x y z = Ok r /\ ieee_fma f x y z r.
Proof.
  intros f o conv x y z Hf Ho Hc Fx Fy Fz L. apply C42_fma_partial; try assumption. apply balanced_kept; [|exact L]. apply std_wf. unfold std. tauto.
Qed.

(** For all finite operands: never a panic, and the result is the rounding of a number within
    |z| 2^-(fb+fs+1) of x * y + z (fb the width, fs the number of fraction bits). *)
Theorem C42_fma_near : forall f o conv x y z, f = F32 \/ f = F64 \/ f = F128 -> ieee_ops f o -> int_conv f conv ->
  is_float f x -> is_float f y -> is_float f z -> is_finite f x -> is_finite f y -> is_finite f z ->
  exists r v, fma_round f o conv x y z = Ok r /\ rounds_to f (xorb (sign_of f x) (sign_of f y) && sign_of f z) v r /\
    (Rabs (v - (value f x * value f y + value f z)) <= Rabs (value f z) * bpow radix2 (- (fb f + fs f + 1)))%R.
Proof.
  intros f o conv x y z Hf Ho Hc Fx Fy Fz Ix Iy Iz. assert (std f) as St by (unfold std; tauto). assert (16 < fb f) as H16 by (destruct Hf as [->|[->| ->]]; reflexivity).
  destruct (fma_ok f (std_wf f St) (std_wl3 f St) (std_ws f St) ltac:(lia) (std_wi f St H16) o Ho conv Hc x y z Fx Fy Fz) as (r & E & _ & K). destruct (K Ix Iy Iz) as (v & R & B). exists r, v. tauto.
Qed.

(** Literal values. *)
Lemma value_lit f n : wf f -> 0 <= n < inf f -> value f n = (IZR (V f n) * bpow radix2 (emin f))%R.
Proof. intros W Hn. pose proof (inf_pos f W). replace n with (b2z false * 2 ^ (fb f - 1) + n) at 1 by reflexivity. apply value_mk; [assumption|lia]. Qed.
Lemma fin_lit f n : wf f -> 0 <= n < inf f -> is_float f n /\ is_finite f n /\ sign_of f n = false.
Proof. intros W Hn. pose proof (inf_pos f W). replace n with (b2z false * 2 ^ (fb f - 1) + n) by reflexivity. split; [apply is_float_mk; [assumption|lia]|]. rewrite (is_finite_mk f W), sign_of_mk by (assumption || lia). split; [lia|reflexivity]. Qed.
(** The correctly rounded result for positive literals: M * 2^(fexp n) *)
Lemma rne_lit f n K e M : let j := FLT_exp (emin f) (prec f) n - e in
  e < n -> 0 < j -> 2 ^ (n - 1 - e) <= K < 2 ^ (n - e) -> (2 * M - 1) * 2 ^ (j - 1) < K < (2 * M + 1) * 2 ^ (j - 1) ->
  rne f (IZR K * bpow radix2 e) = (IZR M * bpow radix2 (j + e))%R.
Proof.
  intros j He Hj HK HM. rewrite (rne_eq f n). 2: { replace (n - 1) with (n - 1 - e + e) by lia. replace (bpow radix2 n) with (bpow radix2 (n - e + e)) by (f_equal; lia). rewrite !bpow_plus, <- !(IZR_pow (n - 1 - e)), <- !(IZR_pow (n - e)) by lia. pose proof (bpow_gt_0 radix2 e).
    split; [apply Rmult_le_compat_r; [lra|]; apply IZR_le; lia|apply Rmult_lt_compat_r; [lra|]; apply IZR_lt; lia]. }
  replace (j + e) with (FLT_exp (emin f) (prec f) n) by (unfold j; lia). f_equal. f_equal. apply ZnearestE_int_near. rewrite Rmult_assoc, <- bpow_plus. replace (e + - FLT_exp (emin f) (prec f) n) with (- j) by (unfold j; lia).
  destruct HM as [M1 M2]. apply IZR_lt in M1, M2. rewrite (mult_IZR _ (2 ^ (j - 1))), (IZR_pow (j - 1)) in M1 by lia. rewrite (mult_IZR _ (2 ^ (j - 1))), (IZR_pow (j - 1)) in M2 by lia. rewrite minus_IZR, (mult_IZR 2 M) in M1. rewrite plus_IZR, (mult_IZR 2 M) in M2.
  pose proof (bpow_gt_0 radix2 (- j)) as Pj. assert (bpow radix2 (j - 1) * bpow radix2 (- j) = / 2)%R as E by (rewrite <- bpow_plus; replace (j - 1 + - j) with (-1) by lia; reflexivity).
  apply (Rmult_lt_compat_r _ _ _ Pj) in M1, M2. rewrite Rmult_assoc, E in M1. rewrite (Rmult_assoc _ _ (bpow radix2 (- j))), E in M2. lra.
Qed.
(** The fused result for positive literals [x], [y], [z] is not [r]. *)
Lemma fma_not f n x y z r M : wf f -> 0 <= x < inf f -> 0 <= y < inf f -> 0 <= z < inf f -> 0 <= r < inf f ->
  let e := 2 * emin f in let K := V f x * V f y + V f z * 2 ^ (- emin f) in let j := FLT_exp (emin f) (prec f) n - e in
  emin f <= 0 -> e < n -> 0 < j -> 2 ^ (n - 1 - e) <= K < 2 ^ (n - e) -> (2 * M - 1) * 2 ^ (j - 1) < K < (2 * M + 1) * 2 ^ (j - 1) ->
  V f r * 2 ^ (- emin f) <> M * 2 ^ j -> ~ ieee_fma f x y z r.
Proof.
  intros W Hx Hy Hz Hr e K j Hm He Hj HK HM NE (_ & _ & _ & _ & _ & R). destruct (fin_lit f x W Hx) as (_ & Ix & Sx). destruct (fin_lit f y W Hy) as (_ & Iy & Sy). destruct (fin_lit f z W Hz) as (_ & Iz & Sz). destruct (fin_lit f r W Hr) as (Fr & Ir & Sr).
  specialize (R Ix Iy Iz). rewrite !value_lit in R by assumption.
  assert (IZR (V f x) * bpow radix2 (emin f) * (IZR (V f y) * bpow radix2 (emin f)) + IZR (V f z) * bpow radix2 (emin f) = IZR K * bpow radix2 e)%R as E.
  { unfold K, e. rewrite plus_IZR, !mult_IZR, (IZR_pow (- emin f)) by lia. replace (2 * emin f) with (emin f + emin f) by lia. rewrite bpow_plus. assert (bpow radix2 (- emin f) * bpow radix2 (emin f) = 1)%R as E1 by (rewrite <- bpow_plus; replace (- emin f + emin f) with 0 by lia; reflexivity).
    rewrite Rmult_plus_distr_r. f_equal; [ring|]. rewrite (Rmult_assoc (IZR (V f z))), <- (Rmult_assoc (bpow radix2 (- emin f))), E1. ring. }
  rewrite E in R. destruct R as (_ & _ & R). rewrite (rne_lit f n K e M He Hj HK HM) in R. fold j in R.
  destruct (Rlt_bool _ _); [|apply (finite_iff f W) in Ir; [tauto|assumption]]. destruct R as [_ R]. rewrite value_lit in R by assumption. apply NE. apply eq_IZR. rewrite !mult_IZR, (IZR_pow (- emin f)), (IZR_pow j) by lia.
  pose proof (bpow_gt_0 radix2 e) as Pe. apply Rmult_eq_reg_r with (bpow radix2 e); [|lra]. rewrite !Rmult_assoc, <- !bpow_plus. replace (- emin f + e) with (emin f) by (unfold e; lia). exact R.
Qed.

(** 1.91... * 1.04... + 2^54 lies above the tie between 2^54 and 2^54 + 4, but fma returns 2^54. *)
Theorem C42_fma_refuted : exists x y z r, is_float F64 x /\ is_float F64 y /\ is_float F64 z /\
  fma_round F64 (soft_ops F64 8) (soft_conv F64) x y z = Ok r /\ ~ ieee_fma F64 x y z r.
Proof.
  exists 0x3ffe93742b388de2, 0x3ff0bec3171e92af, 0x4350000000000000, 0x4350000000000000. split; [split; reflexivity || discriminate|]. split; [split; reflexivity || discriminate|]. split; [split; reflexivity || discriminate|].
  split; [vm_compute; reflexivity|]. apply (fma_not F64 55 _ _ _ _ (2 ^ 52 + 1)); [apply std_wf; unfold std; tauto|..]; vm_compute; (split; congruence) || congruence.
Qed.

(** A signaling NaN as addend comes back as it is. *)
Theorem C42_quiet_refuted : exists x y z r, is_finite F64 x /\ is_finite F64 y /\ is_nan F64 z /\ ~ is_qnan F64 z /\
  fma_round F64 (soft_ops F64 8) (soft_conv F64) x y z = Ok r /\ ~ is_qnan F64 r.
Proof.
  exists 0x3ff0000000000000, 0x3ff0000000000000, 0x7ff4000000000000, 0x7ff4000000000000.
  assert (~ is_qnan F64 0x7ff4000000000000) by (unfold is_qnan; vm_compute; intuition congruence).
  unfold is_finite, is_nan. repeat match goal with |- _ /\ _ => split end; try assumption; vm_compute; congruence.
Qed.

(** Operands of C42_fma_balanced_partial: 1.5 * 1.5 + 3; and results: cancellation with a
    double-width product, a subnormal result, overflow, signed zero, infinities and NaN. *)
Example C42_cases : let f := fma_round F64 (soft_ops F64 8) (soft_conv F64) in
  f 0x3ff8000000000000 0x3ff8000000000000 0x4008000000000000 = Ok 0x4015000000000000 /\
  f 0x3ff0000000000001 0x3ff0000000000001 0xbff0000000000002 = Ok 0x3970000000000000 /\
  f 0x3ff0000000000001 0x3feffffffffffffe 0xbff0000000000000 = Ok 0xb970000000000000 /\
  f 0x0010000000000001 0x3fe0000000000000 0x0000000000000001 = Ok 0x0008000000000002 /\
  f 0x7fefffffffffffff 0x4000000000000000 0xffefffffffffffff = Ok 0x7fefffffffffffff /\
  f 0x7fefffffffffffff 0x4000000000000000 0 = Ok 0x7ff0000000000000 /\
  f 0x3ff0000000000000 0xbff0000000000000 0x3ff0000000000000 = Ok 0 /\ f 0x8000000000000000 0x3ff0000000000000 0x8000000000000000 = Ok 0x8000000000000000 /\
  f 0x7ff0000000000000 0xbff0000000000000 0x7fefffffffffffff = Ok 0xfff0000000000000.
Proof. repeat match goal with |- _ /\ _ => split | |- let _ := _ in _ => intro end; vm_compute; reflexivity. Qed.
Example C42_hypotheses : let x := 0x3ff8000000000000 in let z := 0x4008000000000000 in is_float F64 x /\ is_float F64 z /\
  (Rabs (value F64 z) <= bpow radix2 (eb F64 - 1) * Rabs (value F64 x * value F64 x))%R /\ ~ sticky_lost F64 x x z.
Proof.
  intros x z. assert (wf F64) as W by (apply std_wf; unfold std; tauto). assert (0 <= x < inf F64 /\ 0 <= z < inf F64) as [Hx Hz] by (unfold x, z; vm_compute; repeat split; congruence).
  assert (Rabs (value F64 z) <= bpow radix2 (eb F64 - 1) * Rabs (value F64 x * value F64 x))%R as L.
  { assert (value F64 x = 3 * / 2)%R as -> by (rewrite value_lit by assumption; change (V F64 x) with (3 * 2 ^ 1073); change (emin F64) with (-1074); rewrite mult_IZR, IZR_pow by lia; rewrite Rmult_assoc, <- bpow_plus; reflexivity).
    assert (value F64 z = 3)%R as -> by (rewrite value_lit by assumption; change (V F64 z) with (3 * 2 ^ 1074); change (emin F64) with (-1074); rewrite mult_IZR, IZR_pow by lia; rewrite Rmult_assoc, <- bpow_plus; apply Rmult_1_r).
    assert (2 <= bpow radix2 (eb F64 - 1))%R by (change 2%R with (bpow radix2 1); apply bpow_le; discriminate). rewrite (Rabs_pos_eq 3), (Rabs_pos_eq (3 * / 2 * (3 * / 2))) by lra. lra. }
  split; [apply (fin_lit F64 x W Hx)|]. split; [apply (fin_lit F64 z W Hz)|]. split; [exact L|]. apply balanced_kept; assumption.
Qed.

(** * C43: fmaf *)
Theorem C43_fmaf_partial : forall o widen narrow x y z, ieee_ops F64 o -> widens F32 F64 widen -> narrows F64 F32 narrow ->
  is_float F32 x -> is_float F32 y -> is_float F32 z ->
  (is_finite F32 x -> is_finite F32 y -> is_finite F32 z -> ~ double_rounding F32 F64 x y z) ->
  exists r, fma_wide F32 F64 o widen narrow x y z = Ok r /\ ieee_fma F32 x y z r.
Proof. intros. apply fma_wide_ok; assumption. Qed.

(** In particular whenever the exact result is not below the normal range. *)
Theorem C43_fmaf_normal_partial : forall o widen narrow x y z, ieee_ops F64 o -> widens F32 F64 widen -> narrows F64 F32 narrow ->
  is_float F32 x -> is_float F32 y -> is_float F32 z ->
  (is_finite F32 x -> is_finite F32 y -> is_finite F32 z -> bpow radix2 (-126) <= Rabs (value F32 x * value F32 y + value F32 z))%R ->
  exists r, fma_wide F32 F64 o widen narrow x y z = Ok r /\ ieee_fma F32 x y z r.
Proof.
  intros o widen narrow x y z Ho Hw Hn Fx Fy Fz L. apply C43_fmaf_partial; try assumption. intros Ix Iy Iz (D & _). specialize (L Ix Iy Iz). change (1 - bias F32) with (-126) in D. lra.
Qed.

(** A product just above half a unit, added to a subnormal: the sum in binary64 is a tie. *)
Theorem C43_fmaf_refuted : exists x y z r, is_float F32 x /\ is_float F32 y /\ is_float F32 z /\
  fma_wide F32 F64 (soft_ops F64 8) (soft_widen F32 F64) (soft_narrow F64 F32) x y z = Ok r /\ ~ ieee_fma F32 x y z r.
Proof.
  exists 0x1969d495, 0x1a8c22c1, 0x7e1206, 0x7e1206. split; [split; reflexivity || discriminate|]. split; [split; reflexivity || discriminate|]. split; [split; reflexivity || discriminate|].
  split; [vm_compute; reflexivity|]. apply (fma_not F32 (-126) _ _ _ _ 0x7e1207); [apply std_wf; unfold std; tauto|..]; vm_compute; (split; congruence) || congruence.
Qed.

(** 2 * 3 + 1; a tie of the binary64 sum in both directions; cancellation; overflow; infinities. *)
Example C43_cases : let f := fma_wide F32 F64 (soft_ops F64 8) (soft_widen F32 F64) (soft_narrow F64 F32) in
  f 0x40000000 0x40400000 0x3f800000 = Ok 0x40e00000 /\
  f 0x3f800001 0x3f800001 0xbf800002 = Ok 0x28800000 /\
  f 0x33800000 0x3f800000 0x3f800000 = Ok 0x3f800000 /\ f 0x33800000 0x3f800001 0x3f800000 = Ok 0x3f800001 /\
  f 0x1f800000 0x1f800000 0x4b800001 = Ok 0x4b800001 /\
  f 0x7f7fffff 0x40000000 0xff7fffff = Ok 0x7f7fffff /\ f 0x7f7fffff 0x7f7fffff 0 = Ok 0x7f800000 /\
  f 0xff800000 0x3f800000 0x7f7fffff = Ok 0xff800000 /\ f 0x3f800000 0xbf800000 0x3f800000 = Ok 0.
Proof. repeat match goal with |- _ /\ _ => split | |- let _ := _ in _ => intro end; vm_compute; reflexivity. Qed.
Example C43_hypotheses : let x := 0x40000000 in let y := 0x40400000 in let z := 0x3f800000 in
  is_float F32 x /\ is_float F32 y /\ is_float F32 z /\ (bpow radix2 (-126) <= Rabs (value F32 x * value F32 y + value F32 z))%R.
Proof.
  intros x y z. assert (wf F32) as W by (apply std_wf; unfold std; tauto). assert (0 <= x < inf F32 /\ 0 <= y < inf F32 /\ 0 <= z < inf F32) as (Hx & Hy & Hz) by (unfold x, y, z; vm_compute; repeat split; congruence).
  split; [apply (fin_lit F32 x W Hx)|]. split; [apply (fin_lit F32 y W Hy)|]. split; [apply (fin_lit F32 z W Hz)|].
  assert (value F32 x = 2)%R as -> by (rewrite value_lit by assumption; change (V F32 x) with (2 * 2 ^ 149); change (emin F32) with (-149); rewrite mult_IZR, IZR_pow by lia; rewrite Rmult_assoc, <- bpow_plus; apply Rmult_1_r).
  assert (value F32 y = 3)%R as -> by (rewrite value_lit by assumption; change (V F32 y) with (3 * 2 ^ 149); change (emin F32) with (-149); rewrite mult_IZR, IZR_pow by lia; rewrite Rmult_assoc, <- bpow_plus; apply Rmult_1_r).
  assert (value F32 z = 1)%R as -> by (rewrite value_lit by assumption; change (V F32 z) with (1 * 2 ^ 149); change (emin F32) with (-149); rewrite mult_IZR, IZR_pow by lia; rewrite Rmult_assoc, <- bpow_plus; apply Rmult_1_r).
  assert (bpow radix2 (-126) <= 1)%R by (change 1%R with (bpow radix2 0); apply bpow_le; discriminate). rewrite Rabs_pos_eq by lra. lra.
Qed.

Definition fma_theorems := (C42_fma_partial, C42_fma_balanced_partial, C42_fma_near, C42_fma_refuted, C42_quiet_refuted, C43_fmaf_partial, C43_fmaf_normal_partial, C43_fmaf_refuted, soft_conv_ok, soft_widen_ok, soft_narrow_ok).
Print Assumptions fma_theorems.
