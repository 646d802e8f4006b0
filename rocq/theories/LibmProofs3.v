(** Libm: rint, round and modf (C33, C38). *)
From Coq Require Import ZArith Reals Bool Lia Lra.
From Flocq Require Import Core.
From Verif Require Import Base BaseLemmas FloatModel FloatSpec FloatConvSpec FloatConvModel FloatProofs FloatProofs2 FloatProofs3 FloatProofs4 FloatProofs5 FloatProofs7 FloatConvProofs FloatLib LibmModel LibmSpec LibmProofs LibmProofs2.
Open Scope Z_scope.

Lemma std_wl3 f : std f -> fs f + 3 <= bias f.
Proof. intros [->|[->|[->| ->]]]; cbv; discriminate. Qed.

(** Nearest-even commutes with adding an even integer. *)
Lemma ZnearestE_plus_even x m : Z.Even m -> ZnearestE (x + IZR m) = ZnearestE x + m.
Proof.
  intros [k ->]. unfold Znearest.
  assert (Zfloor (x + IZR (2 * k)) = Zfloor x + 2 * k) as F.
  { apply Zfloor_imp. rewrite !plus_IZR. pose proof (Zfloor_lb x). pose proof (Zfloor_ub x). lra. }
  rewrite F, plus_IZR. replace (x + IZR (2 * k) - (IZR (Zfloor x) + IZR (2 * k)))%R with (x - IZR (Zfloor x))%R by ring.
  assert (Zceil (x + IZR (2 * k)) = Zceil x + 2 * k) as C.
  { apply Zceil_imp. rewrite minus_IZR, !plus_IZR. pose proof (Zceil_lb x). pose proof (Zceil_ub x). lra. }
  rewrite C. rewrite Z.even_add, Z.even_mul. cbn [Z.even orb]. destruct (Rcompare _ _); [|reflexivity|reflexivity].
  destruct (Z.even (Zfloor x)); reflexivity.
Qed.
Lemma ZnearestE_int_near (y : R) (M : Z) : (IZR M - / 2 < y < IZR M + / 2)%R -> ZnearestE y = M.
Proof. intros. apply Znearest_imp. apply Rabs_lt. lra. Qed.
Lemma ZnearestE_tie_up M : Z.Even M -> ZnearestE (IZR M - / 2) = M.
Proof.
  intros [k E]. unfold Znearest. assert (Zfloor (IZR M - / 2) = M - 1) as F. { apply Zfloor_imp. rewrite plus_IZR, minus_IZR. lra. }
  assert (Zceil (IZR M - / 2) = M) as C. { apply Zceil_imp. rewrite minus_IZR. lra. }
  rewrite F, C, minus_IZR. rewrite Rcompare_Eq by lra. subst M.
  replace (2 * k - 1) with (2 * (k - 1) + 1) by ring. rewrite Z.even_add, Z.even_mul. reflexivity.
Qed.
Lemma ZnearestE_tie_down M : Z.Even M -> ZnearestE (IZR M + / 2) = M.
Proof.
  intros [k E]. unfold Znearest. assert (Zfloor (IZR M + / 2) = M) as F. { apply Zfloor_imp. rewrite plus_IZR. lra. }
  rewrite F. rewrite Rcompare_Eq by lra. subst M. rewrite Z.even_mul. reflexivity.
Qed.

Section Fmt.
Context (f : fmt) (W : wf f) (WL : fs f + 3 <= bias f).
Notation S := (2 ^ fs f).
Notation B := (2 ^ (fb f - 1)).
Notation u := (bpow radix2 (emin f)).
Notation mk s n := (b2z s * B + n).
Notation mag n := (IZR (V f n) * u)%R.
Notation p2 := (p2 f).
Notation key := (key f).

Lemma op_result zs v r (s : bool) X n : rounds_to f zs v r -> v = (if s then - X else X)%R -> (0 <= X)%R -> rmag f X n -> (X = 0%R -> zs = s) -> r = mk s n.
Proof using W.
  intros R E HX Hm Hz. apply (rounds_to_unique f W) with (1 := R). rewrite E. apply (rounds_mag f W); assumption.
Qed.
Lemma op_exact zs v r (s : bool) n : rounds_to f zs v r -> v = (if s then - mag n else mag n)%R -> 0 <= n < inf f -> (n = 0 -> zs = s) -> r = mk s n.
Proof using W.
  intros R E Hn Hz. apply (op_result zs v r s (mag n)); try assumption.
  - apply (mag_nonneg f W); lia.
  - apply (rmag_exact f W); assumption.
  - intros M. apply Hz. apply (mag_inj f W); [lia|lia|]. rewrite M, (mag_0 f W). reflexivity.
Qed.
Lemma rmag_scaled0 E (y : R) : 1 <= E < 2 ^ eb f - 1 -> (0 <= y < IZR (2 * S))%R -> (E = 1 \/ (IZR S <= y)%R) ->
  rmag f (y * bpow radix2 (E - bias f - fs f)) (enc f E (ZnearestE y)).
Proof using W.
  intros. replace (E - bias f - fs f) with (E - 1 + emin f) by (unfold emin; lia). apply rmag_scaled; assumption.
Qed.
Lemma eb_bias : 2 ^ eb f - 1 = 2 * bias f + 1.
Proof using W. pose proof (bias_eq f W). pose proof (pow2_S (eb f)) as E. destruct W. rewrite E by lia. lia. Qed.
Lemma mag_lt_inv n m : 0 <= n -> 0 <= m -> (mag n < mag m)%R -> n < m.
Proof using W.
  intros Hn Hm H. destruct (Z_lt_ge_dec n m) as [|G]; [assumption|]. exfalso.
  destruct (Z.eq_dec m n) as [->|]; [lra|]. pose proof (mag_lt f W m n ltac:(lia)). lra.
Qed.

(** Integers up to 2^prec have an encoding. *)
Lemma int_pattern N : 0 <= N <= 2 * S -> exists n, 0 <= n < inf f /\ mag n = IZR N.
Proof using W WL.
  intros H. pose proof (S_pos f W) as SP. pose proof (inf_pos f W) as IP. pose proof (bias_pos f W) as Bp. assert (0 <= fs f) as FS by (destruct W; lia).
  destruct (Z.eq_dec N 0) as [->|N0]; [exists 0; rewrite (mag_0 f W); lia || (split; [lia|reflexivity])|].
  destruct (Z.eq_dec N (2 * S)) as [->|N1].
  - exists (p2 (fs f + 1)). split; [apply (p2_range f W); lia|]. rewrite (mag_p2 f W) by lia. rewrite bpow_plus, mult_IZR, (IZR_Zpower radix2) by lia. cbn [bpow]. unfold Z.pow_pos; cbn. ring.
  - pose proof (Z.log2_spec N ltac:(lia)) as [L1 L2]. set (j := Z.log2 N) in *.
    assert (0 <= j) by apply Z.log2_nonneg.
    assert (j < fs f + 1). { apply Z.pow_lt_mono_r_iff with 2; [lia|lia|]. pose proof (pow2_dbl (fs f) FS). rewrite Z.pow_add_r by lia. change (2 ^ 1) with 2. lia. }
    pose proof (pow2_pos (fs f - j) ltac:(lia)) as P. assert (S = 2 ^ j * 2 ^ (fs f - j)) as ES by (rewrite <- pow2_add by lia; f_equal; lia).
    rewrite Z.pow_succ_r in L2 by lia.
    exists (enc f (j + bias f) (N * 2 ^ (fs f - j))).
    assert (S <= N * 2 ^ (fs f - j) < 2 * S) by (rewrite ES; split; [apply Z.mul_le_mono_nonneg_r; lia|rewrite Z.mul_assoc; apply Z.mul_lt_mono_pos_r; lia]).
    split.
    + unfold enc. pose proof (inf_eq f W) as E. pose proof eb_bias. rewrite E. split; [apply Z.add_nonneg_nonneg; [apply Z.mul_nonneg_nonneg|]; lia|].
      pose proof (Z.mul_le_mono_nonneg_r (j + bias f - 1 + 2) (2 ^ eb f - 1) S). lia.
    + rewrite (mag_enc f W) by lia. rewrite mult_IZR, (IZR_Zpower radix2), Rmult_assoc, <- bpow_plus by lia.
      replace (fs f - j + (j + bias f - bias f - fs f)) with 0 by lia. cbn [bpow]. ring.
Qed.

Lemma bpow_S : bpow radix2 (fs f) = IZR S.
Proof using W. symmetry. apply (IZR_Zpower radix2). destruct W; lia. Qed.

Context (o : fops) (O : ieee_ops f o).

Lemma EPSILON_eq : EPSILON f = mk false (p2 (- fs f)).
Proof using W.
  unfold EPSILON, LibmProofs.p2. rewrite shiftl_mul by (destruct W; lia). pose proof (bias_range f W) as (_ & <- & _). cbn [b2z]. rewrite Z.mul_0_l. cbn [Z.add]. f_equal. lia.
Qed.
Lemma fin_p2 s k : 1 - bias f <= k <= bias f -> is_float f (mk s (p2 k)) /\ is_finite f (mk s (p2 k)) /\ ~ is_zero f (mk s (p2 k)) /\ sign_of f (mk s (p2 k)) = s.
Proof using W.
  intros H. pose proof (p2_B f W k ltac:(lia)). pose proof (p2_range f W k ltac:(lia)). pose proof (p2_pos f W k H).
  rewrite is_finite_mk, is_zero_mk, sign_of_mk by assumption. split; [apply is_float_mk; assumption|]. split; [lia|]. split; [lia|reflexivity].
Qed.
Lemma toint_eq : o_div o (ONE f) (EPSILON f) = mk false (p2 (fs f)).
Proof using W WL O.
  destruct (float_ONE f W) as [F1 E1]. rewrite E1, EPSILON_eq. pose proof (bias_pos f W) as Bp. assert (0 <= fs f) as FS by (destruct W; lia).
  destruct (fin_p2 false 0 ltac:(lia)) as (A1 & A2 & A3 & A4). destruct (fin_p2 false (- fs f) ltac:(lia)) as (B1 & B2 & B3 & B4).
  destruct (ops_div f o O _ _ A1 B1) as [Fr (_ & _ & _ & _ & R)]. specialize (R A2 B2 B3). rewrite A4, B4 in R.
  apply (op_exact _ _ _ false (p2 (fs f)) R); [|apply (p2_range f W); lia|reflexivity].
  rewrite !(value_p2 f W), (mag_p2 f W) by lia. unfold Rdiv. rewrite <- bpow_opp, <- bpow_plus. f_equal. lia.
Qed.

Lemma mk0 : 0 = mk false 0. Proof. reflexivity. Qed.
Lemma NEG_ZERO_mk : NEG_ZERO f = mk true 0.
Proof using W. unfold NEG_ZERO. rewrite SIGN_MASK_eq by assumption. cbn [b2z]. lia. Qed.

(** The add-and-subtract trick below 2^SIG_BITS. *)
Lemma rint_core (s : bool) n : 0 <= n < B -> n / S - bias f < fs f ->
  let y := if negb s then o_sub o (o_add o (mk s n) (mk false (p2 (fs f)))) (mk false (p2 (fs f)))
           else o_add o (o_sub o (mk s n) (mk false (p2 (fs f)))) (mk false (p2 (fs f))) in
  exists t n2, y = mk t n2 /\ 0 <= n2 < inf f /\ mag n2 = IZR (ZnearestE (mag n)) /\ (n2 <> 0 -> t = s).
Proof using W WL O.
  intros Hn He y. pose proof (S_pos f W) as SP. pose proof (inf_pos f W) as IP. pose proof (bias_pos f W) as Bp. assert (1 <= fs f) as FS by (destruct W; lia).
  pose proof eb_bias as EBB. pose proof (bias_range f W) as (_ & Eb & _).
  assert (n < p2 (fs f)) as Hlt.
  { unfold LibmProofs.p2. pose proof (Z.div_mod n S ltac:(lia)). pose proof (Z.mod_pos_bound n S ltac:(lia)).
    pose proof (Z.mul_le_mono_nonneg_r (n / S + 1) (fs f + bias f) S). lia. }
  assert (n < inf f) as Hfin by (pose proof (p2_range f W (fs f)); lia).
  assert (mag n < IZR S)%R as HX. { pose proof (mag_lt f W n (p2 (fs f)) ltac:(lia)) as L. rewrite (mag_p2 f W), bpow_S in L by lia. exact L. }
  pose proof (mag_nonneg f W n ltac:(lia)) as HX0.
  destruct (fin_p2 false (fs f) ltac:(lia)) as (T1 & T2 & _ & T4).
  assert (is_float f (mk s n)) as Fx by (apply is_float_mk; assumption).
  assert (is_finite f (mk s n)) as Nx by (apply is_finite_mk; assumption).
  set (X1 := (mag n + IZR S)%R). set (N1 := ZnearestE X1).
  assert (Z.Even S) as EV. { exists (2 ^ (fs f - 1)). rewrite <- pow2_S by lia. reflexivity. }
  assert (N1 = ZnearestE (mag n) + S) as EN1 by (apply ZnearestE_plus_even; assumption).
  assert (0 <= ZnearestE (mag n) <= S) as HN.
  { split; [apply Z.le_trans with (Zfloor (mag n)); [apply Zfloor_lub; exact HX0|apply Znearest_ge_floor]|].
    apply Z.le_trans with (Zceil (mag n)); [apply Znearest_le_ceil|apply Zceil_glb; lra]. }
  pose proof (rmag_scaled0 (bias f + fs f) X1) as R1. replace (bias f + fs f - bias f - fs f) with 0 in R1 by lia. cbn [bpow] in R1. rewrite Rmult_1_r in R1.
  assert (IZR (2 * S) = 2 * IZR S)%R as E2S by (rewrite mult_IZR; ring).
  specialize (R1 ltac:(lia) ltac:(unfold X1; lra) ltac:(right; unfold X1; lra)). fold N1 in R1.
  set (n1 := enc f (bias f + fs f) N1) in *.
  assert (mag n1 = IZR N1) as M1. { unfold n1. rewrite (mag_enc f W) by lia. replace (bias f + fs f - bias f - fs f) with 0 by lia. cbn [bpow]. ring. }
  assert (0 <= n1 < inf f) as Hn1.
  { unfold n1, enc. rewrite (inf_eq f W). split; [apply Z.add_nonneg_nonneg; [apply Z.mul_nonneg_nonneg|]; lia|].
    pose proof (Z.mul_le_mono_nonneg_r (bias f + fs f - 1 + 2 + 1) (2 ^ eb f - 1) S). lia. }
  destruct (int_pattern (ZnearestE (mag n)) ltac:(lia)) as (n2 & Hn2 & M2).
  assert (0 < X1)%R as X1P by (unfold X1; assert (0 < IZR S)%R by (apply (IZR_lt 0); lia); lra).
  destruct s; cbn [negb] in y; subst y.
  - destruct (ops_sub f o O _ _ Fx T1) as [Fr (_ & _ & _ & _ & R)]. specialize (R Nx T2).
    apply (op_result _ _ _ true X1 n1) in R; [|rewrite value_mk, (value_p2 f W), bpow_S by (assumption || lia); unfold X1; ring|lra|exact R1|lra].
    rewrite R. assert (0 <= n1 < B) as Hn1B by lia.
    assert (is_float f (mk true n1)) as F1 by (apply is_float_mk; assumption).
    destruct (ops_add f o O _ _ F1 T1) as [Fr2 (_ & _ & _ & _ & R2)].
    specialize (R2 ltac:(apply is_finite_mk; [assumption..|lia]) T2). rewrite value_mk, (value_p2 f W), M1, EN1, plus_IZR, bpow_S in R2 by (assumption || lia).
    destruct (Z.eq_dec n2 0) as [Z0|Z0].
    + rewrite Z0, (mag_0 f W) in M2. exists (sign_of f (mk true n1) && sign_of f (mk false (p2 (fs f)))), 0. rewrite (mag_0 f W), <- M2.
      split; [|split; [lia|split; [reflexivity|congruence]]].
      apply (op_exact _ _ _ _ 0 R2); [|lia|reflexivity]. rewrite <- M2, (mag_0 f W). destruct (_ && _); ring.
    + exists true, n2. split; [|split; [lia|split; [assumption|reflexivity]]].
      apply (op_exact _ _ _ true n2 R2); [|lia|lia]. rewrite M2. ring.
  - destruct (ops_add f o O _ _ Fx T1) as [Fr (_ & _ & _ & _ & R)]. specialize (R Nx T2).
    apply (op_result _ _ _ false X1 n1) in R; [|rewrite value_mk, (value_p2 f W), bpow_S by (assumption || lia); unfold X1; ring|lra|exact R1|lra].
    rewrite R. assert (0 <= n1 < B) as Hn1B by lia.
    assert (is_float f (mk false n1)) as F1 by (apply is_float_mk; assumption).
    destruct (ops_sub f o O _ _ F1 T1) as [Fr2 (_ & _ & _ & _ & R2)].
    specialize (R2 ltac:(apply is_finite_mk; [assumption..|lia]) T2). rewrite value_mk, (value_p2 f W), M1, EN1, plus_IZR, bpow_S in R2 by (assumption || lia).
    exists false, n2. split; [|split; [lia|split; [assumption|reflexivity]]].
    apply (op_exact _ _ _ false n2 R2); [|lia|]. { rewrite M2. ring. }
    intros _. rewrite sign_of_mk by assumption. reflexivity.
Qed.
Lemma ZnearestE_signed (s : bool) (x : R) : ZnearestE (if s then - x else x) = if s then - ZnearestE x else ZnearestE x.
Proof. destruct s; [|reflexivity]. rewrite Znearest_opp. unfold Znearest. destruct (Rcompare _ _); try reflexivity. rewrite Bool.negb_involutive.
  rewrite Z.even_opp, Z.even_add. destruct (Z.even (Zfloor x)); reflexivity. Qed.

Lemma rint_status_ok x : is_float f x -> exists r st, rint_status f o x = Ok (r, st) /\
  (is_finite f x -> rounded_to_integer f ZnearestE x r /\ (st = true <-> value f r <> value f x)) /\
  (~ is_finite f x -> r = x /\ (st = true <-> is_nan f x)).
Proof using W WL O.
  intros Fx. destruct (split_float f W x Fx) as (s & n & -> & Hn). unfold rint_status. rewrite toint_eq, ex_mk, sign_positive_mk by assumption.
  pose proof (bias_range f W) as (Hb & Eb & _). rewrite <- Eb in *. pose proof (inf_pos f W) as IP. pose proof (S_pos f W) as SP. pose proof (EB_big f W).
  rewrite (cadd_u 32) by (destruct W; pose proof (fb_big f W); cbn in *; lia). cbn [bind].
  destruct (Z.leb_spec (bias f + fs f) (n / S)) as [Hh|Hl].
  - exists (mk s n), (negb (o_eq o (mk s n) (mk s n))). split; [reflexivity|]. rewrite (eq_mk f W o O), Z.eqb_refl, andb_true_r, andb_diag, is_finite_mk, nan_mk by assumption. split.
    + intros Hf. destruct (region_high f W n ltac:(lia) ltac:(lia)) as (N & EN & HN). split.
      * apply (integer_mk f W _ s n n N); [assumption|lia|assumption|]. rewrite value_mk by assumption. rewrite ZnearestE_signed, EN, (Zrnd_IZR ZnearestE). reflexivity.
      * destruct (Z.leb_spec n (inf f)); [|lia]. cbn [negb]. split; [discriminate|]. intros X; exfalso; apply X; reflexivity.
    + intros Hf. split; [reflexivity|]. destruct (Z.leb_spec n (inf f)); cbn [negb]; split; intros; try lia; try discriminate; reflexivity.
  - destruct (rint_core s n Hn ltac:(lia)) as (t & n2 & E & Hn2 & M2 & Ht). rewrite E.
    assert (n < inf f) as Hfin by (apply (finite_low f W); [lia|assumption|lia]).
    change (o_eq o (mk t n2) 0) with (o_eq o (mk t n2) (mk false 0)). rewrite (eq_mk f W o O) by lia. rewrite (key_0 f W).
    assert ((if (n2 <=? inf f) && (0 <=? inf f) && (key t n2 =? 0) then if negb s then 0 else NEG_ZERO f else mk t n2) = mk s n2) as ->.
    { destruct (Z.leb_spec n2 (inf f)), (Z.leb_spec 0 (inf f)); try lia. cbn [andb]. destruct (Z.eqb_spec (key t n2) 0) as [K|K].
      - assert (n2 = 0) as ->. { unfold FloatConvProofs.key in K. apply (V_zero_iff f W); [lia|]. destruct t; lia. } destruct s; cbn [negb]; [rewrite NEG_ZERO_mk|]; reflexivity.
      - destruct (Z.eq_dec n2 0) as [->|N0]; [exfalso; apply K; apply (key_0 f W)|]. rewrite (Ht N0). reflexivity. }
    eexists _, _. split; [reflexivity|]. split; [|rewrite is_finite_mk by assumption; lia]. intros _. split.
    + apply (integer_mk f W _ s n n2 (ZnearestE (mag n))); [assumption|assumption|assumption|]. rewrite value_mk by assumption. apply ZnearestE_signed.
    + rewrite (eq_mk f W o O) by lia. destruct (Z.leb_spec n2 (inf f)), (Z.leb_spec n (inf f)); try lia. cbn [andb].
      rewrite mag_neq by (assumption || lia). destruct (Z.eqb_spec (key s n2) (key s n)) as [K|K]; cbn [negb].
      * split; [discriminate|]. intros X; exfalso; apply X. unfold FloatConvProofs.key in K. assert (V f n2 = V f n) as VE by (destruct s; lia).
        apply (mag_inj f W); [lia|lia|]. rewrite VE. reflexivity.
      * split; [|reflexivity]. intros _ ->. apply K; reflexivity.
Qed.
End Fmt.
