(** sin is odd and cos is even: no result is a zero, and the assembly. *)
From Coq Require Import ZArith Reals Bool List Lia Lra Psatz.
From Flocq Require Import Core.
From Verif Require Import Base BaseLemmas FloatModel FloatSpec FloatProofs FloatProofs5 LibmModel LibmSpec LibmProps FloatConvSpec FloatErr PolyBound Elem ElemModel ElemSpec TrigModel F64Lib ExpProofs3 ExpProofs4 ExpProofs5 ExpProofs7 ExpProofs8 LogProofs LogProofs2 LogProofs4 TrigProofs TrigProofs2 TrigProofs3 TrigProofs4 TrigPi TrigDist TrigRed TrigRed2 TrigRed3 TrigRed4 TrigRed5 TrigLg TrigLg2 TrigLg10 TrigLg11 OddProofs ParityProofs ParityProofs2.
Open Scope Z_scope.

Lemma within_nonzero r y : within 1 r y -> (bpow radix2 (-80) <= Rabs y)%R -> value F64 r <> 0%R.
Proof.
  intros (_ & _ & E) B Z. rewrite Z, Rminus_0_l, Rabs_Ropp, Rmult_1_l in E. assert (P : Prec_gt_0 (prec F64)) by exact Hp64.
  assert (U : (ulp64 y <= Rabs y * bpow radix2 (1 - 53))%R). { apply (ulp_FLT_le radix2 (-1074) 53). eapply Rle_trans; [|exact B]. apply bpow_le. lia. }
  change (bpow radix2 (1 - 53)) with (/ 4503599627370496)%R in U. pose proof (bpow_gt_0 radix2 (-80)). lra.
Qed.
Lemma sc_lower T : (bpow radix2 (-71) <= Rabs T <= 0.79)%R -> (bpow radix2 (-80) <= Rabs (sin T))%R /\ (bpow radix2 (-80) <= Rabs (cos T))%R.
Proof.
  intros [L U]. assert (U' := U). apply Rabs_le_inv in U'. assert (Q : (T * T <= 0.6241)%R) by nra. split.
  - pose proof (sin_small_abs T ltac:(lra)) as S. apply Rle_trans with (/ 2 * Rabs T)%R.
    + apply Rle_trans with (bpow radix2 (-1) * bpow radix2 (-71))%R; [rewrite <- bpow_plus; apply bpow_le; lia|]. change (bpow radix2 (-1)) with (/ 2)%R. lra.
    + assert (A : (Rabs T * (T * T) <= Rabs T * 0.6241)%R) by (apply Rmult_le_compat_l; [apply Rabs_pos|exact Q]). pose proof (Rabs_pos T) as P. pose proof (Rabs_triang_inv T (T - sin T)) as I. replace (T - (T - sin T))%R with (sin T) in I by ring. rewrite (Rabs_minus_sym T (sin T)) in I. lra.
  - pose proof (cos_small T ltac:(lra)) as [C _]. apply Rle_trans with (/ 2)%R; [change (/ 2)%R with (bpow radix2 (-1)); apply bpow_le; lia|]. rewrite Rabs_pos_eq; lra.
Qed.
Lemma rel_zero : rel true 0 0.
Proof.
  assert (F : is_float F64 (mk64 false 0)) by (apply float64; lia). assert (N : is_finite F64 (mk64 false 0)) by (apply finite64; lia). assert (V : value F64 (mk64 false 0) = 0%R) by (rewrite value64 by lia; apply mag0_64).
  change 0 with (mk64 false 0). split; [exact F|]. split; [exact F|]. left. split; [exact N|]. split; [exact N|]. cbn [sg]. rewrite V. ring.
Qed.
Lemma land3_opp n : Z.land (- n) 3 = (if Z.land n 3 =? 0 then 0 else 4 - Z.land n 3) /\ 0 <= Z.land n 3 < 4.
Proof.
  change 3 with (Z.ones 2). rewrite !Z.land_ones by lia. change (2 ^ 2) with 4. pose proof (Z.mod_pos_bound n 4 ltac:(lia)). split; [|lia]. destruct (Z.eqb_spec (n mod 4) 0); [apply Z_mod_zero_opp_full; assumption|apply Z_mod_nz_opp_full; assumption].
Qed.

Section Trig.
Context (o : fops) (Ho : ieee_ops F64 o) (c : icast) (Hc : icast_ok c) (tbl : list Z) (Ht : forall j, 0 <= j < 66 -> tab tbl j = Ok (tt j)).
Lemma trig_lower s n (X := value F64 (mk64 s n)) : 0x3e46a09e00000000 <= n < INF -> (bpow radix2 (-80) <= Rabs (sin X))%R /\ (bpow radix2 (-80) <= Rabs (cos X))%R.
Proof using Ho Hc Ht.
  intros Hn. destruct (Z_lt_ge_dec n 0x3fe921fc00000000) as [L|L].
  - apply sc_lower. unfold X. rewrite Rabs64 by lia. split.
    + apply Rle_trans with (mag64 0x3e40000000000000); [|apply mag_le64; lia]. change 0x3e40000000000000 with (0x3e4 * 2 ^ 52). rewrite mag_pow2 by lia. apply bpow_le. lia.
    + apply Rlt_le, Rlt_le_trans with (fx 19 0x6487f); [|unfold fx; change (bpow radix2 (- (19))) with (/ 524288)%R; lra]. apply (mag_lt 0x3fe921fc00000000); [vm_compute; reflexivity|lia|lia].
  - destruct (rem_pio2_ok o Ho c Hc tbl Ht 4 s n ltac:(lia) ltac:(lia)) as (k & y0 & y1 & j & _ & (_ & _ & _ & B & LB & Y & E)). fold X in E. set (T := (X - 2 * IZR j * PI - IZR k * (PI / 2))%R) in *.
    assert (TB : (bpow radix2 (-71) <= Rabs T <= 0.79)%R).
    { set (Y0 := value F64 y0) in *. set (Y1 := value F64 y1) in *. change (bpow radix2 (-58)) with (/ 288230376151711744)%R in Y. change (bpow radix2 (-62)) with (/ 4611686018427387904)%R in E. pose proof (Rabs_pos Y0).
      assert (D : (Rabs (T - Y0) <= / 1000 * Rabs Y0)%R). { replace (T - Y0)%R with ((T - (Y0 + Y1)) + Y1)%R by ring. eapply Rle_trans; [apply Rabs_triang|]. lra. }
      split.
      - pose proof (Rabs_triang_inv Y0 (Y0 - T)) as Q. replace (Y0 - (Y0 - T))%R with T in Q by ring. rewrite (Rabs_minus_sym Y0 T) in Q. apply Rle_trans with (/ 2 * Rabs Y0)%R; [|lra]. apply Rle_trans with (bpow radix2 (-1) * bpow radix2 (-70))%R; [rewrite <- bpow_plus; apply bpow_le; lia|]. change (bpow radix2 (-1)) with (/ 2)%R. lra.
      - replace T with ((T - Y0) + Y0)%R by ring. eapply Rle_trans; [apply Rabs_triang|]. lra. }
    destruct (sc_lower T TB) as [S C]. pose proof (trig_shift T k) as [ES EC]. replace (T + IZR k * (PI / 2))%R with (X - 2 * IZR j * PI)%R in ES, EC by (unfold T; ring).
    pose proof (periodZ X (- j)) as [P1 P2]. rewrite opp_IZR in P1, P2. replace (X + 2 * - IZR j * PI)%R with (X - 2 * IZR j * PI)%R in P1, P2 by ring. rewrite P1 in ES. rewrite P2 in EC. rewrite ES, EC.
    split; repeat match goal with |- context [if ?b then _ else _] => destruct b end; rewrite ?Rabs_Ropp; assumption.
Qed.
Lemma bits_odd r r' y : rel true r r' -> within 1 r y -> (bpow radix2 (-80) <= Rabs y)%R -> r' = fneg r.
Proof using. clear. intros R W B. apply (rel_bits true); [exact R|apply W|apply (within_nonzero _ _ W B)]. Qed.
Lemma bits_even r r' y : rel false r r' -> within 1 r y -> (bpow radix2 (-80) <= Rabs y)%R -> r' = r.
Proof using. clear. intros R W B. apply (rel_bits false); [exact R|apply W|apply (within_nonzero _ _ W B)]. Qed.
Lemma toi_small s n : 0 <= n < 0x3e46a09e00000000 -> c_toi c (mk64 s n) = 0.
Proof using Hc.
  clear - Hc. intros H. assert (G : good (mk64 s n)) by (apply good64; lia). destruct G as (Gf & Gn). destruct (cast_toi c Hc _ Gf) as (_ & _ & K). specialize (K Gn). rewrite K.
  assert (HB : (Rabs (value F64 (mk64 s n)) < 1)%R). { rewrite Rabs64 by lia. apply Rlt_le_trans with (fx 0 1). apply (mag_lt 0x3ff0000000000000); [vm_compute; reflexivity|lia|lia]. unfold fx. cbn. lra. }
  apply Rabs_def2 in HB. assert (T0 : Ztrunc (value F64 (mk64 s n)) = 0). { unfold Ztrunc. destruct (Rlt_bool_spec (value F64 (mk64 s n)) 0) as [N|N]; [apply Zceil_imp; cbn; lra|apply Zfloor_imp; cbn; lra]. } rewrite T0. reflexivity.
Qed.
Lemma parity fuel n : (4 <= fuel)%nat -> 0 <= n < INF -> exists r q r2 q2,
  libm_sin o c tbl fuel (mk64 false n) = Ok r /\ libm_sin o c tbl fuel (mk64 true n) = Ok (fneg r) /\ is_float F64 r /\
  libm_cos o c tbl fuel (mk64 false n) = Ok q /\ libm_cos o c tbl fuel (mk64 true n) = Ok q /\
  libm_sincos o c tbl fuel (mk64 false n) = Ok (r2, q2) /\ libm_sincos o c tbl fuel (mk64 true n) = Ok (fneg r2, q2) /\ is_float F64 r2.
Proof using Ho Hc Ht.
  intros Hf Hn. assert (Hn' : 0 <= n < 2 ^ 63) by lia. unfold libm_sin, libm_cos, libm_sincos. rewrite !high_abs by exact Hn'. rewrite hx_div', hx_div, !ix_lt by lia. pose proof (rel_mk n Hn') as R.
  assert (FX : mk64 true n = fneg (mk64 false n)) by (rewrite fneg_mk by exact Hn'; reflexivity). assert (F0 := float64 false n Hn').
  replace (0x7ff00000 * 2 ^ 32 <=? n) with false by lia. destruct (Z.ltb_spec n ((0x3fe921fb + 1) * 2 ^ 32)) as [L|L].
  - assert (KS : 0x3e46a09e00000000 <= n -> k_sin o (mk64 true n) 0 0 = fneg (k_sin o (mk64 false n) 0 0) /\ k_cos o (mk64 true n) 0 = k_cos o (mk64 false n) 0 /\ is_float F64 (k_sin o (mk64 false n) 0 0)).
    { intros H. destruct (trig_direct o Ho (mk64 false n) false n eq_refl ltac:(lia)) as [W1 W2]. destruct (trig_lower false n ltac:(lia)) as [B1 B2]. split; [|split; [|apply W1]].
      - exact (bits_odd _ _ _ (rel_k_sin0 o Ho _ _ R) W1 B1).
      - exact (bits_even _ _ _ (rel_k_cos o Ho _ _ _ _ R rel_zero) W2 B2). }
    destruct (Z.ltb_spec n (0x3e46a09e * 2 ^ 32)) as [L2|L2].
    + replace (n <? 0x3e500000 * 2 ^ 32) with true by lia. rewrite !toi_small by lia. cbn [andb Z.eqb]. exists (mk64 false n), one, (mk64 false n), one. rewrite <- FX. repeat split; try reflexivity; try apply F0.
    + destruct (KS ltac:(lia)) as (-> & -> & FS). cbn [andb]. destruct (n <? 0x3e500000 * 2 ^ 32).
      * exists (mk64 false n), (k_cos o (mk64 false n) 0), (k_sin o (mk64 false n) 0 0), (k_cos o (mk64 false n) 0). rewrite <- FX. repeat split; try reflexivity; try apply F0; apply FS.
      * exists (k_sin o (mk64 false n) 0 0), (k_cos o (mk64 false n) 0), (k_sin o (mk64 false n) 0 0), (k_cos o (mk64 false n) 0). repeat split; try reflexivity; apply FS.
  - destruct (rem_trig o Ho c Hc tbl Ht fuel (mk64 false n) false n Hf eq_refl ltac:(lia)) as (k & y0 & y1 & E & W). cbv zeta in W. destruct W as [W1 W2]. destruct (rem_sym o Ho c Hc tbl Ht fuel n Hf ltac:(lia)) as (p & q & E1 & E2 & O). rewrite E in E1. injection E1 as <-.
    destruct q as [[m z0] z1]. destruct O as (-> & R0 & R1). rewrite E, E2. cbn [bind]. destruct (trig_lower false n ltac:(lia)) as [B1 B2].
    pose proof (rel_k_sin o Ho _ _ _ _ R0 R1) as RS. pose proof (rel_k_cos o Ho _ _ _ _ R0 R1) as RC. set (s := k_sin o y0 y1 1) in *. set (s' := k_sin o z0 z1 1) in *. set (cc := k_cos o y0 y1) in *. set (cc' := k_cos o z0 z1) in *. clearbody s s' cc cc'.
    destruct (land3_opp k) as [-> KB]. set (u := Z.land k 3) in *. clearbody u.
    assert (Cu : u = 0 \/ u = 1 \/ u = 2 \/ u = 3) by lia. destruct Cu as [->|[->|[->| ->]]]; cbn [Z.eqb Pos.eqb Z.sub Z.add Z.opp Z.pos_sub Pos.pred_double Pos.sub_mask Pos.sub] in *.
    + rewrite (bits_odd _ _ _ RS W1 B1), (bits_even _ _ _ RC W2 B2). exists s, cc, s, cc. repeat split; try reflexivity; apply W1.
    + assert (EC : fneg cc' = fneg cc) by exact (bits_odd _ _ _ (rel_neg_r _ _ _ RC) W1 B1). assert (ES : s' = fneg s) by exact (bits_even _ _ _ (rel_neg_l _ _ _ RS) W2 B2).
      rewrite EC, ES. exists cc, (fneg s), cc, (fneg s). repeat split; try reflexivity; apply W1.
    + assert (ES : fneg s' = fneg (fneg s)) by exact (bits_odd _ _ _ (rel_fneg _ _ _ RS) W1 B1). assert (EC : fneg cc' = fneg cc) by exact (bits_even _ _ _ (rel_fneg _ _ _ RC) W2 B2).
      rewrite EC, ES. exists (fneg s), (fneg cc), (fneg s), (fneg cc). repeat split; try reflexivity; apply W1.
    + assert (EC : cc' = fneg (fneg cc)) by exact (bits_odd _ _ _ (rel_neg_l _ _ _ RC) W1 B1). assert (ES : fneg s' = s) by exact (bits_even _ _ _ (rel_neg_r _ _ _ RS) W2 B2).
      rewrite EC, ES. exists (fneg cc), s, (fneg cc), s. repeat split; try reflexivity; apply W1.
Qed.
End Trig.
