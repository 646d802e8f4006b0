(** Accuracy of tan: arguments near pi/4. *)
From Coq Require Import ZArith Reals Bool List Lia Lra Psatz.
From Flocq Require Import Core.
From Verif Require Import Base FloatModel FloatSpec FloatProofs FloatLib LibmModel LibmSpec Elem FloatErr PolyBound ElemModel ElemSpec TrigModel F64Lib ExpProofs3 ExpProofs4 ExpProofs5 ExpProofs6 ExpProofs7 ExpProofs8 LogProofs LogProofs2 TrigProofs TrigProofs2 TrigRed TrigRed5 TrigLg8 TrigLg11 HypotProofs3 AtanModel AtanProofs AtanProofs2 AtanProofs3 AsinModel AsinProofs2 AsinProofs3 TanModel TanProofs TanProofs2 TanProofs3.
Import ListNotations.
Open Scope Z_scope.

(** Vr 0 = x, Vr 1 = s *)
Definition pgG : list ex := [
  Mul (Vr 0) (Vr 0) (* 2: z *);
  Mul (Vr 2) (Vr 2) (* 3: w *);
  Add (Add (K T_1) (Mul (Vr 3) (Add (K T_3) (Mul (Vr 3) (Add (K T_5) (Mul (Vr 3) (Add (K T_7) (Mul (Vr 3) (Add (K T_9) (Mul (Vr 3) (K T_11)))))))))))
      (Mul (Vr 2) (Add (K T_2) (Mul (Vr 3) (Add (K T_4) (Mul (Vr 3) (Add (K T_6) (Mul (Vr 3) (Add (K T_8) (Mul (Vr 3) (Add (K T_10) (Mul (Vr 3) (K T_12)))))))))))) (* 4 *);
  Mul (Vr 2) (Vr 0) (* 5: s *);
  Add (Add (K 0) (Mul (Vr 2) (Add (Mul (Vr 5) (Vr 4)) (K 0)))) (Mul (Vr 5) (K T_0)) (* 6: r *);
  Add (Vr 0) (Vr 6) (* 7: w *);
  Mul (K two) (Add (Vr 0) (Sub (Vr 6) (Div (Mul (Vr 7) (Vr 7)) (Add (Vr 7) (Vr 1))))) (* 8 *)].
Definition envG (s : Z) : list ab := [Ab (- 2 ^ 68) (456 * 2 ^ 68) 9000000; Ab (s * 2 ^ 80) (s * 2 ^ 80) 0].
(** 0.53 and 0.8 times 2^-53 *)
Lemma scanG1 : chk_er 71000000 (- 2 ^ 79) (2 ^ 79) pgG (envG 1) = true. Proof. vm_compute. reflexivity. Qed.
Lemma scanG2 : chk_er 107000000 (- 2 ^ 79) (2 ^ 79) pgG (envG (-1)) = true. Proof. vm_compute. reflexivity. Qed.
Lemma good_P4 : good PIO4_HI /\ good PIO4_LO /\ (0.785398 <= value F64 PIO4_HI <= 0.785399)%R /\ (0 <= value F64 PIO4_LO <= 0.3 * u53)%R /\ (Rabs (value F64 PIO4_HI + value F64 PIO4_LO - PI / 4) <= / 200000 * u53)%R.
Proof.
  assert (good PIO4_HI) as G1 by (apply (good_mk false PIO4_HI); unfold PIO4_HI; lia). assert (good PIO4_LO) as G2 by (apply (good_mk false PIO4_LO); unfold PIO4_LO; lia). split; [exact G1|]. split; [exact G2|].
  assert (value F64 PIO4_HI * 2 = value F64 PIO2_HI)%R as E1. { rewrite (kb_val 60 PIO2_HI (0x1921FB54442D18 * 2 ^ 8)) by (vm_compute; reflexivity). rewrite (kb_val 60 PIO4_HI (0x1921FB54442D18 * 2 ^ 7)) by (vm_compute; reflexivity). unfold fx. rewrite !mult_IZR. change (IZR (2 ^ 8)) with 256%R. change (IZR (2 ^ 7)) with 128%R. ring. }
  assert (value F64 PIO4_LO * 2 = value F64 PIO2_LO)%R as E2. { rewrite (kb_val 110 PIO2_LO (0x11A62633145C07 * 2 ^ 4)) by (vm_compute; reflexivity). rewrite (kb_val 110 PIO4_LO (0x11A62633145C07 * 2 ^ 3)) by (vm_compute; reflexivity). unfold fx. rewrite !mult_IZR. change (IZR (2 ^ 4)) with 16%R. change (IZR (2 ^ 3)) with 8%R. ring. }
  split; [rewrite (kb_val 53 PIO4_HI 0x1921FB54442D18) by (vm_compute; reflexivity); unfold fx; change (bpow radix2 (- (53))) with (/ 9007199254740992)%R; lra|]. split.
  - rewrite (kb_val 107 PIO4_LO 0x11A62633145C07) by (vm_compute; reflexivity). unfold fx, u53. change (- (107)) with (-54 + -53). rewrite bpow_plus. change (bpow radix2 (-54)) with (/ 18014398509481984)%R. pose proof (bpow_ge_0 radix2 (-53)). split; [apply Rmult_le_pos; [lra|]; apply Rmult_le_pos; lra|]. rewrite <- Rmult_assoc. apply Rmult_le_compat_r; lra.
  - pose proof pi_parts as Q. rewrite <- E1, <- E2 in Q. replace (value F64 PIO4_HI * 2 + value F64 PIO4_LO * 2 - PI / 2)%R with (2 * (value F64 PIO4_HI + value F64 PIO4_LO - PI / 4))%R in Q by field. rewrite Rabs_mult, (Rabs_pos_eq 2) in Q by lra. lra.
Qed.
Lemma tan_pi4 t : (-0.001 <= t <= 0.112)%R -> let p := tan t in (-0.002 <= p <= 0.113 /\ tan (PI / 4 - t) = (1 - p) / (1 + p))%R.
Proof.
  intros H p. assert (t * t <= 0.02)%R as TT by nra. destruct (tan_P t ltac:(lra)) as [TP CT]. pose proof u53_small as US.
  assert (-0.002 <= p <= 0.113)%R as B. { assert (0 <= t * t)%R by nra. assert (pev F64 (t * t) pTan <= 1.007)%R as PU. { pose proof (pcheck_ok 30 ltac:(lia) F64 pTa _ _ _ _ _ chk_Ta ltac:(lia) (t * t)) as Q.
      assert (fx 30 0 <= t * t <= fx 30 (0 + 2 * (466 * 2 ^ 17) * Z.of_nat 4))%R as Hz. { rewrite fx_0. split; [lra|]. unfold fx. change (bpow radix2 (- (30))) with (/ 1073741824)%R. change (0 + 2 * (466 * 2 ^ 17) * Z.of_nat 4) with 488636416. lra. }
      specialize (Q Hz ltac:(discriminate)). unfold fx in Q. change (bpow radix2 (- (30))) with (/ 1073741824)%R in Q. change (pev F64 (t * t) pTan) with (1 / 1 + t * t * pev F64 (t * t) pTa)%R. nra. }
    pose proof (pTan_bound (t * t) ltac:(lra)) as PL. assert (Rabs t * (0.082 * u53) <= / 1000000)%R as Q. { assert (Rabs t <= 1)%R by (apply Rabs_le; lra). pose proof (Rabs_pos t). nra. } apply Rabs_le_inv in TP. fold p in TP. nra. }
  split; [exact B|]. unfold Rminus at 1. rewrite tan_plus; [rewrite tan_PI4, tan_neg; fold p; f_equal; ring|rewrite cos_PI4; apply Rgt_not_eq; apply Rdiv_lt_0_compat; [lra|apply sqrt_lt_R0; lra]|rewrite cos_neg; lra| |rewrite tan_PI4, tan_neg; fold p; lra].
  rewrite cos_plus, cos_neg, sin_neg, cos_PI4, sin_PI4. assert (sin t = p * cos t)%R as ES by (unfold p, tan; field; lra). rewrite ES. assert (0 < 1 / sqrt 2)%R by (apply Rdiv_lt_0_compat; [lra|apply sqrt_lt_R0; lra]). apply Rgt_not_eq. replace (1 / sqrt 2 * cos t - 1 / sqrt 2 * - (p * cos t))%R with (1 / sqrt 2 * (cos t * (1 + p)))%R by ring. apply Rmult_lt_0_compat; [assumption|]. apply Rmult_lt_0_compat; lra.
Qed.
Section Big.
Context (o : fops) (Ho : ieee_ops F64 o).
(** the reduced argument *)
Lemma big_arg x y T (X := value F64 x) (Y := value F64 y) : good x -> good y -> (0.6743 <= X <= 0.7856)%R -> (Rabs Y <= 49 * bpow radix2 (-58) * X)%R -> (Rabs (T - (X + Y)) <= bpow radix2 (-62) * X)%R ->
  let x1 := o_add o (o_sub o PIO4_HI x) (o_sub o PIO4_LO y) in good x1 /\ (Rabs (value F64 x1 - (PI / 4 - T)) <= 0.0665 * u53)%R /\ (-0.00021 <= value F64 x1 <= 0.1112)%R.
Proof using Ho.
  intros Gx Gy HX HY HT. cbv zeta. destruct good_P4 as (G1 & G2 & B1 & B2 & EP). pose proof u53_small as US. set (H := value F64 PIO4_HI) in *. set (L := value F64 PIO4_LO) in *.
  assert (49 * bpow radix2 (-58) = 49 / 32 * u53)%R as E58 by (unfold u53; change (-58) with (-5 + -53); rewrite bpow_plus; change (bpow radix2 (-5)) with (/ 32)%R; field).
  assert (bpow radix2 (-62) = / 512 * u53)%R as E62 by (unfold u53; change (-62) with (-9 + -53); rewrite bpow_plus; change (bpow radix2 (-9)) with (/ 512)%R; ring). rewrite E58 in HY. rewrite E62 in HT.
  assert (Rabs Y <= 1.204 * u53)%R as BY by (eapply Rle_trans; [exact HY|]; nra). assert (Rabs (T - (X + Y)) <= 0.00154 * u53)%R as BT by (eapply Rle_trans; [exact HT|]; nra). apply Rabs_le_inv in BY.
  destruct (sub64 o Ho PIO4_HI x G1 Gx) as [Ga Va]; [fold H X; apply (small_ok _ 0); [lia|change (bpow radix2 0) with 1%R; apply Rabs_le; lra]|]. fold H X in Va.
  rewrite (grid_exact (-53)) in Va; [|lia|apply grid_sub; [apply (grid64 PIO4_HI (-1) G1)|apply (grid64 x (-1) Gx)]; change (bpow radix2 (-1)) with (/ 2)%R; rewrite Rabs_pos_eq; fold H X; lra|change (bpow radix2 (-53 + 53)) with 1%R; apply Rabs_le; lra].
  destruct (sub64 o Ho PIO4_LO y G2 Gy) as [Gb Vb]; [fold L Y; apply (small_ok _ 0); [lia|change (bpow radix2 0) with 1%R; apply Rabs_le; lra]|]. fold L Y in Vb.
  assert (kk <= / 10000000 * u53)%R as KK. { unfold kk, u53. change (-1075) with (-1022 + -53). rewrite bpow_plus. apply Rmult_le_compat_r; [apply bpow_ge_0|]. apply Rle_trans with (bpow radix2 (-30)); [apply bpow_le; lia|change (bpow radix2 (-30)) with (/ 1073741824)%R; lra]. }
  assert (Rabs (value F64 (o_sub o PIO4_LO y) - (L - Y)) <= / 1000000 * u53)%R as Eb. { rewrite Vb. eapply Rle_trans; [apply rne_abs|]. fold u53 kk. assert (Rabs (L - Y) <= 2 * u53)%R by (apply Rabs_le; lra). assert (u53 * Rabs (L - Y) <= u53 * / 100000000)%R by (apply Rmult_le_compat_l; lra). lra. }
  assert (Eb' := Rabs_le_inv _ _ Eb). set (b := o_sub o PIO4_LO y) in *. set (a := o_sub o PIO4_HI x) in *.
  destruct (add64 o Ho a b Ga Gb) as [Gc Vc]; [rewrite Va; apply (small_ok _ 0); [lia|change (bpow radix2 0) with 1%R; apply Rabs_le; lra]|]. rewrite Va in Vc. split; [exact Gc|].
  assert (Rabs (value F64 (o_add o a b) - (H - X + value F64 b)) <= / 16 * u53)%R as Ec. { rewrite Vc. replace (/ 16 * u53)%R with (bpow radix2 (-3 - 54)) by (unfold u53; change (-3 - 54) with (-4 + -53); rewrite bpow_plus; reflexivity). apply rne_error64; [|lia]. change (bpow radix2 (-3)) with (/ 8)%R. apply Rabs_def1; lra. }
  split; [|apply Rabs_le_inv in Ec; lra]. apply Rabs_le_inv in Ec, EP, BT. apply Rabs_le. lra.
Qed.
Lemma fpG x s : nth 8 (fprog o [x; s] pgG) 0 = let r := tan_r o x 0 in let w := o_add o x r in o_mul o two (o_add o x (o_sub o r (o_div o (o_mul o w w) (o_add o w s)))).
Proof using. clear. reflexivity. Qed.
Lemma rpG t s : (t * pev F64 (t * t) pTan + s <> 0)%R -> (s * s = 1)%R -> nth 8 (rprog [t; s] pgG) 0%R = let P := (t * pev F64 (t * t) pTan)%R in (s - s * (s - P) / (s + P))%R.
Proof using.
  clear. intros N S. assert (value F64 0 = 0%R) as V0 by apply value_zero. assert (value F64 two = 2%R) as V2 by apply value_two.
  set (q := pev F64 (t * t) pTq). cbv zeta. change (pev F64 (t * t) pTan) with (1 / 1 + t * t * (value F64 T_0 + t * t * q))%R in *. set (t0 := value F64 T_0) in *.
  change (nth 8 (rprog [t; s] pgG) 0%R) with (let r := (value F64 0 + t * t * (t * t * t * q + value F64 0) + t * t * t * t0)%R in let w := (t + r)%R in value F64 two * (t + (r - w * w / (w + s))))%R. cbv zeta. rewrite V0, V2.
  set (P := (t * (1 / 1 + t * t * (t0 + t * t * q)))%R) in *. replace (0 + t * t * (t * t * t * q + 0) + t * t * t * t0)%R with (P - t)%R by (unfold P; field). replace (t + (P - t))%R with P by ring.
  assert (s + P <> 0)%R as N2 by lra. apply (Rmult_eq_reg_r (P + s)); [|exact N]. replace ((s - s * (s - P) / (s + P)) * (P + s))%R with (s * (P + s) - s * (s - P))%R by (field; exact N2). replace (2 * (t + (P - t - P * P / (P + s))) * (P + s))%R with (2 * (P * (P + s) - P * P))%R by (field; exact N). ring.
Qed.
Lemma big_core x y S sg T (X := value F64 x) (Y := value F64 y) : good x -> good y -> good S -> (sg = 1 \/ sg = -1)%Z -> value F64 S = IZR sg ->
  (0.6743 <= X <= 0.7856)%R -> (Rabs Y <= 49 * bpow radix2 (-58) * X)%R -> (Rabs (T - (X + Y)) <= bpow radix2 (-62) * X)%R ->
  let x1 := o_add o (o_sub o PIO4_HI x) (o_sub o PIO4_LO y) in let r := tan_r o x1 0 in let w := o_add o x1 r in
  within (3 / 2) (o_sub o S (o_mul o two (o_add o x1 (o_sub o r (o_div o (o_mul o w w) (o_add o w S)))))) (if sg =? 1 then tan T else - / tan T) /\ (0 < cos T)%R /\ (tan T <> 0)%R.
Proof using Ho.
  intros Gx Gy GS Hs VS HX HY HT. cbv zeta. destruct (big_arg x y T Gx Gy HX HY HT) as (G1 & E1 & B1). set (x1 := o_add o _ _) in *. pose proof u53_small as US. pose proof (fpG x1 S) as FP. cbv zeta in FP. rewrite <- FP. clear FP.
  set (t := (PI / 4 - T)%R) in *. assert (E1' := Rabs_le_inv _ _ E1). destruct (tan_pi4 t ltac:(lra)) as [BP ET]. replace (PI / 4 - t)%R with T in ET by (unfold t; ring). set (p := tan t) in *.
  assert (t * t <= 0.02)%R as TT by nra. destruct (tan_P t ltac:(lra)) as [TP CT]. fold p in TP. set (P := (t * pev F64 (t * t) pTan)%R) in *.
  assert (Rabs (P - p) <= 0.0093 * u53)%R as DP. { eapply Rle_trans; [exact TP|]. assert (Rabs t <= 0.1113)%R by (apply Rabs_le; lra). apply Rle_trans with (0.1113 * (0.082 * u53))%R; [apply Rmult_le_compat_r; lra|lra]. } assert (DP' := Rabs_le_inv _ _ DP).
  assert (0 < cos T)%R as C0. { assert (Rabs T <= 0.7857)%R as BT. { assert (49 * bpow radix2 (-58) <= / 1000000 /\ bpow radix2 (-62) <= / 1000000)%R as [Q1 Q2]. { assert (bpow radix2 (-58) <= bpow radix2 (-30))%R by (apply bpow_le; lia). assert (bpow radix2 (-62) <= bpow radix2 (-30))%R by (apply bpow_le; lia). change (bpow radix2 (-30)) with (/ 1073741824)%R in *. lra. }
    assert (Rabs Y <= / 1000000)%R by (eapply Rle_trans; [exact HY|]; nra). assert (Rabs (T - (X + Y)) <= / 1000000)%R by (eapply Rle_trans; [exact HT|]; nra). replace T with ((T - (X + Y)) + (X + Y))%R by ring. eapply Rle_trans; [apply sum_le; [eassumption|apply sum_le; [rewrite Rabs_pos_eq by lra; apply Rle_refl|eassumption]]|]. lra. }
    apply Rabs_le_inv in BT. pose proof TrigRed2.pi_num as PN. apply cos_gt_0; lra. }
  assert (tan T <> 0)%R as NT by (rewrite ET; apply Rgt_not_eq; apply Rdiv_lt_0_compat; lra). split; [|split; assumption].
  assert (0.79 <= (1 - p) / (1 + p) <= 1.01)%R as BT. { split; apply (Rmult_le_reg_r (1 + p)); try lra; unfold Rdiv; rewrite Rmult_assoc, Rinv_l by lra; lra. }
  assert (1 / 1.01 <= / ((1 - p) / (1 + p)) <= / 0.79)%R as BT2. { unfold Rdiv at 1. rewrite Rmult_1_l. split; apply Rinv_le; lra. }
  set (s := IZR sg) in *. assert (s = 1 \/ s = -1)%R as Hs' by (unfold s; destruct Hs as [->| ->]; [left|right]; reflexivity). assert (s * s = 1)%R as SS by (destruct Hs' as [->| ->]; ring).
  assert (P + s <> 0)%R as NP by (destruct Hs' as [->| ->]; lra). assert (p + s <> 0)%R as NP' by (destruct Hs' as [->| ->]; lra).
  assert (value F64 two = 2%R) as V2 by apply value_two.
  assert (exists e, chk_er e (- 2 ^ 79) (2 ^ 79) pgG (envG sg) = true /\ (fx AP e <= 0.8 * u53)%R) as (e & CK & Be).
  { destruct Hs as [->| ->]; [exists 71000000; split; [exact scanG1|apply fx_u; lra]|exists 107000000; split; [exact scanG2|apply fx_u; lra]]. }
  assert (rel AP (envG sg) [x1; S] [t; s]) as RL.
  { assert (forall k, fx AP (k * 2 ^ 68) = IZR k * / 4096)%R as KS by (intros k; apply (fx_scale AP (-12)); unfold AP; lia).
    apply (rel_app AP [_] [x1] [t]); [apply (rel_app AP [] [] []); [apply rel_nil|]; apply okv_of; [exact G1| |]|].
    - change (- 2 ^ 68) with (-1 * 2 ^ 68). rewrite !KS. lra.
    - eapply Rle_trans; [exact E1|]. unfold fx, u53. change (- AP) with (-27 + -53). rewrite bpow_plus, <- Rmult_assoc. apply Rmult_le_compat_r; [apply bpow_ge_0|]. change (bpow radix2 (-27)) with (/ 134217728)%R. lra.
    - apply okv_of; [exact GS| |rewrite VS; fold s; rewrite Rminus_eq_0, Rabs_R0, fx_0; lra]. rewrite VS. assert (fx AP (sg * 2 ^ 80) = s)%R as ->; [|lra]. unfold fx. rewrite mult_IZR. change (IZR (2 ^ 80)) with (bpow radix2 80). rewrite Rmult_assoc, <- bpow_plus. fold s. change (bpow radix2 (80 + - AP)) with 1%R. ring. }
  pose proof (chk_ok o Ho _ _ _ pgG (envG sg) [x1; S] [t; s] CK RL) as Q. cbv zeta in Q. change (length (envG sg) + length pgG - 1)%nat with 8%nat in Q. rewrite (rpG t s NP SS) in Q. cbv zeta in Q. fold P in Q. set (d := nth 8 (fprog o [x1; S] pgG) 0) in *. destruct Q as (Gd & Bd & Ed).
  assert (fx AP (- 2 ^ 79) = - / 2 /\ fx AP (2 ^ 79) = / 2)%R as [F1 F2] by (rewrite fx_opp, fx_80 by lia; split; reflexivity). rewrite F1, F2 in Bd.
  set (yy := (if sg =? 1 then tan T else - / tan T)%R). assert (yy = s * (s - p) / (s + p))%R as EY. { unfold yy. rewrite ET. destruct Hs as [-> | ->]; unfold s; cbn [Z.eqb Pos.eqb]; field; repeat split; lra. }
  assert (0.79 <= Rabs yy <= 2)%R as BYY. { unfold yy. rewrite ET. destruct (sg =? 1); [rewrite Rabs_pos_eq|rewrite Rabs_Ropp, Rabs_pos_eq]; lra. }
  assert (Rabs (s - value F64 d - yy) <= 1 * u53)%R as E.
  { replace (s - value F64 d - yy)%R with (- (value F64 d - (s - s * (s - P) / (s + P))) + 2 * ((p - P) * / ((s + P) * (s + p))))%R by (rewrite EY; replace 2%R with (2 * (s * s))%R at 1 by (rewrite SS; ring); field; split; lra).
    assert (Rabs (/ ((s + P) * (s + p))) <= 1.3)%R as BI. { rewrite Rabs_inv, Rabs_mult. assert (0.88 <= Rabs (s + P))%R by (destruct Hs' as [-> | ->]; [rewrite Rabs_pos_eq|rewrite Rabs_left]; lra). assert (0.88 <= Rabs (s + p))%R by (destruct Hs' as [-> | ->]; [rewrite Rabs_pos_eq|rewrite Rabs_left]; lra). replace 1.3%R with (/ / 1.3)%R by (field; lra). apply Rinv_le; [lra|]. apply Rle_trans with (0.88 * 0.88)%R; [lra|apply Rmult_le_compat; lra]. }
    rewrite Rabs_minus_sym in DP. eapply Rle_trans; [apply sum_le; [rewrite Rabs_Ropp; eapply Rle_trans; [exact Ed|exact Be]|rewrite Rabs_mult, (Rabs_pos_eq 2) by lra; apply Rmult_le_compat_l; [lra|apply prod_le; [exact DP|exact BI]]]|]. lra. }
  destruct (sub64 o Ho S d GS Gd) as [[Q1 Q2] V]; [rewrite VS; apply (small_ok _ 1); [lia|change (bpow radix2 1) with 2%R; fold s; apply Rabs_le; destruct Hs' as [-> | ->]; lra]|].
  split; [exact Q1|]. split; [exact Q2|]. rewrite V, VS. fold s. fold yy. replace (3 / 2)%R with (1 + / 2)%R by lra. apply final_round; [|eapply Rle_trans; [exact E|]|lra].
  - apply Rle_trans with (bpow radix2 (-1)); [apply bpow_le; lia|change (bpow radix2 (-1)) with (/ 2)%R; lra].
  - apply Rmult_le_compat_l; [lra|]. apply (ulp64_ge 0). change (bpow radix2 (0 - 1)) with (/ 2)%R. lra.
Qed.
End Big.
