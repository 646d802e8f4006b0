(** Argument reduction: how close a double is to a multiple of pi / 2, and a refinement step. *)
From Coq Require Import ZArith Reals Bool List Lia Lra Psatz.
From Flocq Require Import Core.
From Verif Require Import Base BaseLemmas FloatModel FloatSpec LibmModel LibmSpec FloatErr PolyBound ElemModel ElemSpec TrigModel F64Lib ExpProofs3 ExpProofs4 ExpProofs7 ExpProofs8 LogProofs2 TrigPi TrigDist TrigRed TrigRed2.
From Verif Require LibmProofs FloatProofs.
Import ListNotations.
Open Scope Z_scope.

(** * Distance to the multiples of pi / 2 *)
Lemma chk_dist_cert e : -53 <= e <= 971 -> exists p q p' q', cert (2 ^ KD) (Z.shiftr TWO_PI (1584 - e - KD) mod 2 ^ KD) (2 ^ (KD - 62)) p q p' q' = true.
Proof.
  intros He. destruct (chk_dist_nth CERTS TWO_PI_473 (Z.to_nat (971 - e)) chk_dist_all) as (p & q & p' & q' & H); [rewrite CERTS_len; lia|].
  exists p, q, p', q'. rewrite <- TWO_PI_473_eq in H. rewrite Z.shiftr_shiftr in H by lia. replace (1584 - e - KD) with (473 + Z.of_nat (Z.to_nat (971 - e))) by (unfold KD; lia). exact H.
Qed.
Lemma dist_ok m e n : 1 <= m < 2 ^ 53 -> -53 <= e <= 971 -> (bpow radix2 (-62) <= Rabs (IZR m * bpow radix2 e * tau - IZR n))%R.
Proof.
  intros Hm He. destruct (chk_dist_cert e He) as (p & q & p' & q' & C). set (s := 1584 - e - KD) in *. assert (Hs : 0 <= s) by (unfold s, KD; lia).
  revert C. pose proof table_ok as [T1 T2]. revert T1 T2. generalize TWO_PI. intros TP T1 T2. set (B := Z.shiftr TP s). intros C.
  assert (KP : 0 < 2 ^ KD) by (unfold KD; lia).
  set (al := (bpow radix2 e * tau - IZR (B / 2 ^ KD))%R).
  assert (EB : IZR (2 ^ KD) = bpow radix2 KD) by (apply (IZR_Zpower radix2); unfold KD; lia).
  assert (IB : (IZR B <= bpow radix2 e * tau * bpow radix2 KD <= IZR (B + 1))%R).
  { unfold fx in T1, T2. assert (BS : B = TP / 2 ^ s) by (unfold B; rewrite Z.shiftr_div_pow2 by exact Hs; reflexivity).
    assert (SP : 0 < 2 ^ s) by lia. pose proof (Z_div_mod_eq_full TP (2 ^ s)) as D. pose proof (Z.mod_pos_bound TP (2 ^ s) SP) as MB. rewrite <- BS in D.
    assert (I1 : B * 2 ^ s <= TP) by lia. assert (I2 : TP + 1 <= (B + 1) * 2 ^ s) by lia. apply IZR_le in I1, I2. rewrite mult_IZR, (IZR_Zpower radix2) in I1, I2 by exact Hs.
    replace (bpow radix2 e * tau * bpow radix2 KD)%R with (tau * bpow radix2 1584 * bpow radix2 (- s))%R by (rewrite Rmult_assoc, <- bpow_plus; replace (1584 + - s) with (e + KD) by (unfold s; lia); rewrite bpow_plus; ring).
    assert (P1 : (0 < bpow radix2 1584)%R) by apply bpow_gt_0. assert (P2 : (0 < bpow radix2 (- s))%R) by apply bpow_gt_0.
    assert (Q1 : (bpow radix2 (- (1584)) * bpow radix2 1584 = 1)%R) by (rewrite <- bpow_plus; reflexivity). assert (Q2 : (bpow radix2 s * bpow radix2 (- s) = 1)%R) by (rewrite <- bpow_plus, Z.add_opp_diag_r; reflexivity).
    assert (T3 : (IZR TP <= tau * bpow radix2 1584)%R) by (apply Rle_trans with (IZR TP * bpow radix2 (- (1584)) * bpow radix2 1584)%R; [rewrite Rmult_assoc, Q1; lra|apply Rmult_le_compat_r; lra]).
    assert (T4 : (tau * bpow radix2 1584 <= IZR (TP + 1))%R) by (apply Rle_trans with (IZR (TP + 1) * bpow radix2 (- (1584)) * bpow radix2 1584)%R; [apply Rmult_le_compat_r; lra|rewrite Rmult_assoc, Q1; lra]).
    split.
    - apply Rle_trans with (IZR B * bpow radix2 s * bpow radix2 (- s))%R; [rewrite Rmult_assoc, Q2; lra|apply Rmult_le_compat_r; lra].
    - apply Rle_trans with (IZR (B + 1) * bpow radix2 s * bpow radix2 (- s))%R; [apply Rmult_le_compat_r; lra|rewrite Rmult_assoc, Q2; lra]. }
  assert (IA : (IZR (B mod 2 ^ KD) <= al * IZR (2 ^ KD) <= IZR (B mod 2 ^ KD + 1))%R).
  { pose proof (Z_div_mod_eq_full B (2 ^ KD)) as D. assert (EM : B mod 2 ^ KD = B - 2 ^ KD * (B / 2 ^ KD)) by lia.
    unfold al. rewrite Rmult_minus_distr_r, EB. rewrite plus_IZR, EM, minus_IZR, mult_IZR, EB. rewrite plus_IZR in IB. lra. }
  pose proof (cert_ok (2 ^ KD) (B mod 2 ^ KD) (2 ^ (KD - 62)) p q p' q' al m (n - m * (B / 2 ^ KD)) KP C IA Hm) as R.
  replace (IZR m * al - IZR (n - m * (B / 2 ^ KD)))%R with (IZR m * bpow radix2 e * tau - IZR n)%R in R by (unfold al; rewrite minus_IZR, mult_IZR; ring).
  rewrite EB, (IZR_Zpower radix2) in R by (unfold KD; lia). apply (Rmult_le_reg_r (bpow radix2 KD)); [apply bpow_gt_0|]. rewrite <- bpow_plus. replace (-62 + KD) with (KD - 62) by lia. exact R.
Qed.
Lemma tau_pi : (tau * (PI / 2) = 1)%R. Proof. unfold tau. field. apply PI_neq0. Qed.
(** Every double of magnitude at least 1/2 *)
Lemma mag_scaled n : 0x3fe0000000000000 <= n < INF -> exists m e, 1 <= m < 2 ^ 53 /\ -53 <= e <= 971 /\ mag64 n = (IZR m * bpow radix2 e)%R.
Proof.
  intros Hn. set (E := n / 2 ^ 52). set (q := 2 ^ 52 + n mod 2 ^ 52). exists q, (E - 1075).
  assert (HE : 1022 <= E <= 2046) by (unfold E; split; [apply Z.div_le_lower_bound; lia|assert (n / 2 ^ 52 < 2047) by (apply Z.div_lt_upper_bound; lia); lia]).
  pose proof (Z.mod_pos_bound n (2 ^ 52) ltac:(lia)) as MB. pose proof (Z_div_mod_eq_full n (2 ^ 52)) as D. fold E in D.
  split; [unfold q; lia|]. split; [lia|]. assert (EN : n = FloatProofs.enc F64 E q) by (unfold FloatProofs.enc, q; change (fs F64) with 52; lia).
  pose proof (LibmProofs.mag_enc F64 W64 E q ltac:(lia)) as Q. change (fs F64) with 52 in Q. specialize (Q ltac:(unfold q; lia) ltac:(right; unfold q; lia)). rewrite <- EN in Q.
  unfold mag64. change (bias F64) with 1023 in Q. replace (E - 1075) with (E - 1023 - 52) by lia. exact Q.
Qed.
Lemma dist_pi n k : 0x3fe0000000000000 <= n < INF -> (bpow radix2 (-62) <= Rabs (mag64 n - IZR k * (PI / 2)))%R.
Proof.
  intros Hn. destruct (mag_scaled n Hn) as (m & e & Hm & He & EM). pose proof (dist_ok m e k Hm He) as D. rewrite <- EM in D.
  pose proof pi_num. replace (mag64 n - IZR k * (PI / 2))%R with ((mag64 n * tau - IZR k) * (PI / 2))%R by (rewrite Rmult_minus_distr_r, Rmult_assoc, tau_pi; ring).
  rewrite Rabs_mult, (Rabs_pos_eq (PI / 2)) by lra. pose proof (Rabs_pos (mag64 n * tau - IZR k)). nra.
Qed.

(** * Exponents *)
Lemma mag_pow2 E : 1 <= E -> mag64 (E * 2 ^ 52) = bpow radix2 (E - 1023).
Proof. intros H. pose proof (LibmProofs.mag_p2 F64 W64 (E - 1023)) as Q. change (bias F64) with 1023 in Q. rewrite <- Q by lia. unfold mag64, LibmProofs.p2. change (bias F64) with 1023. change (fs F64) with 52. do 3 f_equal. lia. Qed.
Lemma mag_upper n : 0 <= n -> (mag64 n <= bpow radix2 (n / 2 ^ 52 - 1022))%R.
Proof.
  intros H. pose proof (Z_div_mod_eq_full n (2 ^ 52)). pose proof (Z.mod_pos_bound n (2 ^ 52) ltac:(lia)). assert (0 <= n / 2 ^ 52) by (apply Z.div_pos; lia).
  replace (n / 2 ^ 52 - 1022) with ((n / 2 ^ 52 + 1) - 1023) by lia. rewrite <- mag_pow2 by lia. apply mag_le64. lia.
Qed.
Lemma mag_lower n : 0 <= n -> 1 <= n / 2 ^ 52 -> (bpow radix2 (n / 2 ^ 52 - 1023) <= mag64 n)%R.
Proof. intros H H1. rewrite <- mag_pow2 by lia. apply mag_le64. pose proof (Z_div_mod_eq_full n (2 ^ 52)). pose proof (Z.mod_pos_bound n (2 ^ 52) ltac:(lia)). lia. Qed.
Lemma exp_bits_mk s n : 0 <= n < 2 ^ 63 -> exp_bits (mk64 s n) = n / 2 ^ 52.
Proof.
  intros H. unfold exp_bits, mk64. rewrite Z.shiftr_div_pow2 by lia. change 0x7ff with (Z.ones 11). rewrite Z.land_ones by lia.
  replace (b2z s * 2 ^ 63 + n) with (n + b2z s * 2 ^ 11 * 2 ^ 52) by (change (2 ^ 63) with (2 ^ 11 * 2 ^ 52); ring). rewrite Z.div_add by lia.
  assert (0 <= n / 2 ^ 52 < 2 ^ 11) by (split; [apply Z.div_pos; lia|apply Z.div_lt_upper_bound; lia]).
  rewrite norm_id by first [reflexivity|apply fits_s; destruct s; cbn [b2z]; lia]. rewrite Z.mod_add by lia. apply Z.mod_small. lia.
Qed.
Lemma good_bits y : good y -> exists s n, y = mk64 s n /\ 0 <= n < INF.
Proof. intros [F N]. destruct (good_split y (conj F N)) as (s & n & H). exists s, n. tauto. Qed.
(** The test on the exponents *)
Lemma exp_test s n y k : good y -> 0x3fe0000000000000 <= n < INF -> 0 <= k <= 60 -> exists d, csub (SI 32) (norm (SI 32) (Z.shiftr (n / 2 ^ 32) 20)) (exp_bits y) = Ok d /\
  (if k <? d then (Rabs (value F64 y) <= bpow radix2 (- k) * Rabs (value F64 (mk64 s n)))%R else (bpow radix2 (- (k + 1)) * Rabs (value F64 (mk64 s n)) <= Rabs (value F64 y))%R).
Proof.
  intros G Hn Hk. destruct (good_bits y G) as (t & m & -> & Hm). rewrite exp_bits_mk by lia. rewrite Z.shiftr_div_pow2, Z.div_div by lia. change (2 ^ 32 * 2 ^ 20) with (2 ^ 52).
  assert (HE : 1022 <= n / 2 ^ 52 <= 2046) by (split; [apply Z.div_le_lower_bound; lia|assert (n / 2 ^ 52 < 2047) by (apply Z.div_lt_upper_bound; lia); lia]).
  assert (HF : 0 <= m / 2 ^ 52 <= 2046) by (split; [apply Z.div_pos; lia|assert (m / 2 ^ 52 < 2047) by (apply Z.div_lt_upper_bound; lia); lia]).
  rewrite norm_id by first [reflexivity|apply fits_s; lia]. eexists. split; [apply chk_ok, fits_s; lia|]. rewrite !Rabs64 by lia.
  pose proof (mag_upper m ltac:(lia)). pose proof (mag_upper n ltac:(lia)). pose proof (mag_lower n ltac:(lia) ltac:(lia)). destruct (Z.ltb_spec k (n / 2 ^ 52 - m / 2 ^ 52)) as [L|L].
  - eapply Rle_trans; [exact H|]. apply Rle_trans with (bpow radix2 (- k) * bpow radix2 (n / 2 ^ 52 - 1023))%R; [rewrite <- bpow_plus; apply bpow_le; lia|apply Rmult_le_compat_l; [apply bpow_ge_0|assumption]].
  - pose proof (mag_lower m ltac:(lia) ltac:(lia)). eapply Rle_trans; [|eassumption]. apply Rle_trans with (bpow radix2 (- (k + 1)) * bpow radix2 (n / 2 ^ 52 - 1022))%R; [apply Rmult_le_compat_l; [apply bpow_ge_0|assumption]|].
    rewrite <- bpow_plus. apply bpow_le. lia.
Qed.

(** * A refinement step *)
Lemma grid_rel g v : -105 <= g -> grid g v -> (Rabs (rne F64 v - v) <= e53 * Rabs v)%R.
Proof.
  intros Hg (m & E). destruct (Z.eq_dec m 0) as [->|N].
  - rewrite E, Rmult_0_l. unfold rne. rewrite round_0; [rewrite Rminus_0_r, Rabs_R0; lra|exact (valid_rnd_N _)].
  - apply rne_rel. apply Rle_trans with (bpow radix2 g); [apply bpow_le; lia|]. rewrite E, Rabs_mult, (Rabs_pos_eq (bpow radix2 g)) by apply bpow_ge_0.
    assert (1 <= Rabs (IZR m))%R by (rewrite <- abs_IZR; apply IZR_le; lia). pose proof (bpow_gt_0 radix2 g). nra.
Qed.
Section Refine.
Context (o : fops) (Ho : ieee_ops F64 o).
Lemma refine t w q g (T := value F64 t) (W := value F64 w) (Q := value F64 q) (r := o_sub o t w) (w' := o_sub o q (o_sub o (o_sub o t r) w)) :
  good t -> good w -> good q -> -104 <= g <= -65 -> grid g T -> grid g W -> (Rabs T <= 1)%R -> (Rabs W <= bpow radix2 (g + 52))%R -> (Rabs Q <= 1)%R ->
  good r /\ good w' /\ value F64 r = rne F64 (T - W) /\ (Rabs (T - W - value F64 r) <= e53 * Rabs (T - W))%R /\
  (Rabs (value F64 w' - (Q - (T - W - value F64 r))) <= e53 * (Rabs Q + Rabs (T - W - value F64 r)) + bpow radix2 (-1075))%R.
Proof using Ho.
  intros Gt Gw Gq Hg GT GW BT BW BQ. pose proof e53_bounds as [u0 u1].
  assert (W1 : (Rabs W <= / 1000)%R) by (eapply Rle_trans; [exact BW|]; apply Rle_trans with (bpow radix2 (-13)); [apply bpow_le; lia|change (bpow radix2 (-13)) with (/ 8192)%R; lra]).
  assert (B8 : forall v, (Rabs v <= 8 -> Rabs v <= bpow radix2 100)%R) by (intros v Hv; apply (big_le v 3); [lia|exact Hv]).
  assert (BD : (Rabs (T - W) <= 2)%R) by (unfold Rminus; eapply Rle_trans; [apply Rabs_triang|rewrite Rabs_Ropp; lra]).
  destruct (sub64 o Ho t w Gt Gw) as [Gr Vr]; [apply B8; fold T W; lra|]. fold r T W in Gr, Vr.
  assert (GD : grid g (T - W)) by (apply grid_sub; assumption).
  assert (GR : grid g (value F64 r)) by (rewrite Vr; apply grid_rne; [lia|exact GD]).
  pose proof (grid_rel g (T - W) ltac:(lia) GD) as ER. rewrite <- Vr in ER. set (Rv := value F64 r) in *. set (D := (T - W - Rv)%R).
  assert (AD : (Rabs D <= e53 * Rabs (T - W))%R) by (unfold D; rewrite <- Rabs_Ropp, Ropp_minus_distr; exact ER).
  assert (D2 : (Rabs D <= bpow radix2 (-52))%R).
  { eapply Rle_trans; [exact AD|]. change (bpow radix2 (-52)) with (bpow radix2 (-53 + 1)). rewrite bpow_plus. fold e53. change (bpow radix2 1) with 2%R. apply Rmult_le_compat_l; lra. }
  assert (P52 : (bpow radix2 (-52) <= bpow radix2 (g + 53))%R) by (apply bpow_le; lia).
  assert (TR : (Rabs (T - Rv) <= bpow radix2 (g + 53))%R).
  { replace (T - Rv)%R with (D + W)%R by (unfold D; ring). eapply Rle_trans; [apply Rabs_triang|]. replace (g + 53) with (1 + (g + 52)) by lia. rewrite bpow_plus. change (bpow radix2 1) with 2%R.
    assert (bpow radix2 (-52) <= bpow radix2 (g + 52))%R by (apply bpow_le; lia). lra. }
  assert (L1 : (bpow radix2 (g + 53) <= 1)%R) by (change 1%R with (bpow radix2 0); apply bpow_le; lia).
  destruct (sub64 o Ho t r Gt Gr) as [G1 V1]; [apply B8; fold T Rv; lra|]. fold T Rv in V1. rewrite (grid_exact g) in V1; [|lia|apply grid_sub; assumption|exact TR]. set (a := o_sub o t r) in *.
  assert (EA : (T - Rv - W)%R = D) by (unfold D; ring).
  destruct (sub64 o Ho a w G1 Gw) as [G2 V2]; [apply B8; rewrite V1; fold W; rewrite EA; lra|]. rewrite V1 in V2. fold W in V2. rewrite EA in V2. rewrite (grid_exact g) in V2; [|lia|unfold D; apply grid_sub; assumption|lra]. set (b := o_sub o a w) in *.
  assert (QD : (Rabs (Q - D) <= Rabs Q + Rabs D)%R) by (unfold Rminus; eapply Rle_trans; [apply Rabs_triang|rewrite Rabs_Ropp; lra]).
  destruct (sub64 o Ho q b Gq G2) as [G3 V3]; [apply B8; rewrite V2; fold Q; lra|]. fold w' in G3, V3. rewrite V2 in V3. fold Q in V3.
  split; [exact Gr|]. split; [exact G3|]. split; [exact Vr|]. split; [exact AD|]. rewrite V3.
  eapply Rle_trans; [apply rne_abs|]. fold e53. apply Rplus_le_compat_r. apply Rmult_le_compat_l; lra.
Qed.
End Refine.
