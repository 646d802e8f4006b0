(** Accuracy of exp: the argument reduction. *)
From Coq Require Import ZArith Reals Bool List Lia Lra Psatz.
From Flocq Require Import Core.
From Verif Require Import Base FloatModel FloatSpec FloatConvSpec LibmModel LibmSpec Elem FloatErr PolyBound ElemModel ElemSpec F64Lib ExpProofs ExpProofs2 ExpProofs3.
Import ListNotations.
Open Scope Z_scope.

Lemma rne_exact64 m e : Z.abs m <= 2 ^ 53 -> -1074 <= e -> rne F64 (IZR m * bpow radix2 e) = (IZR m * bpow radix2 e)%R.
Proof. intros H He. apply rne_exact; [exact Hp64|exact H|exact He]. Qed.
Lemma rne_error64 E v : (Rabs v < bpow radix2 E)%R -> -1021 <= E -> (Rabs (rne F64 v - v) <= bpow radix2 (E - 54))%R.
Proof.
  intros H He. pose proof (rne_error F64 Hp64 E v H) as Q. eapply Rle_trans; [exact Q|].
  change (emin F64) with (-1074). change (prec F64) with 53. change (/ 2)%R with (bpow radix2 (-1)). rewrite <- bpow_plus. apply bpow_le. lia.
Qed.
Lemma kb_val P c z : kbits P F64 c = Some (Ab z z 0) -> value F64 c = fx P z.
Proof. intros H. pose proof (kval P c _ H) as Q. cbn [lo hi] in Q. lra. Qed.
Lemma good_const P c a : kbits P F64 c = Some a -> good c.
Proof. intros H. destruct (kbits_ok P F64 c a H) as (F & N & _). split; assumption. Qed.
Ltac const_good := match goal with |- good ?c => let E := fresh in let a := fresh in
  assert (exists a, kbits 100 F64 c = Some a) as (a & E) by (eexists; vm_compute; reflexivity); apply (good_const 100 _ a E) end.

Definition ln2lo_z : Z := 0xa39ef35793c76 + 2 ^ 52.
Lemma value_LN2HI : value F64 LN2HI = (IZR 0xb17217f7 * bpow radix2 (-32))%R.
Proof. apply (kb_val 32). vm_compute. reflexivity. Qed.
Lemma value_LN2LO : value F64 LN2LO = (IZR ln2lo_z * bpow radix2 (-85))%R.
Proof. apply (kb_val 85). vm_compute. reflexivity. Qed.
Lemma good_LN2HI : good LN2HI. Proof. const_good. Qed.
Lemma good_LN2LO : good LN2LO. Proof. const_good. Qed.

(** A double of magnitude at least 2^e is a multiple of 2^(e-52). *)
Lemma multiple64 x e : good x -> (bpow radix2 e <= Rabs (value F64 x))%R -> exists m, value F64 x = (IZR m * bpow radix2 (e - 52))%R.
Proof.
  intros [F N] H. pose proof (format64 x F N) as G. set (X := value F64 x) in *.
  assert (C : e - 52 <= cexp radix2 fexp64 X).
  { unfold cexp, FLT_exp. assert (e < mag radix2 X); [|lia]. apply (mag_gt_bpow radix2 X e H). }
  unfold generic_format, F2R in G. cbn [Fnum Fexp] in G.
  exists (Ztrunc (scaled_mantissa radix2 fexp64 X) * 2 ^ (cexp radix2 fexp64 X - (e - 52))).
  etransitivity; [exact G|]. rewrite mult_IZR, (IZR_Zpower radix2) by lia. rewrite Rmult_assoc, <- bpow_plus. do 2 f_equal. lia.
Qed.

(** ln 2 is the sum of the two constants up to 2^-86. *)
Lemma ln2_split : (Rabs (ln 2 - (value F64 LN2HI + value F64 LN2LO)) <= bpow radix2 (-86))%R.
Proof.
  rewrite value_LN2HI, value_LN2LO. pose proof ln2_bounds as L.
  rewrite <- (fx_scale 160 (-32)), <- (fx_scale 160 (-85)), <- fx_add by lia.
  replace (bpow radix2 (-86)) with (fx 160 (1 * 2 ^ (160 + -86))) by (rewrite fx_scale by lia; ring).
  assert (A : (fx 160 (0xb17217f7 * 2 ^ (160 + -32) + ln2lo_z * 2 ^ (160 + -85)) - fx 160 (1 * 2 ^ (160 + -86)) <= fx 160 (ln2n - 2 ^ 20))%R).
  { rewrite <- fx_sub. apply fx_le. vm_compute. discriminate. }
  assert (B : (fx 160 (ln2n + 2 ^ 20) <= fx 160 (0xb17217f7 * 2 ^ (160 + -32) + ln2lo_z * 2 ^ (160 + -85)) + fx 160 (1 * 2 ^ (160 + -86)))%R).
  { rewrite <- fx_add. apply fx_le. vm_compute. discriminate. }
  apply Rabs_le. lra.
Qed.
Lemma LN2HI_num : (0.6931471803691238 < value F64 LN2HI < 0.6931471803691239)%R.
Proof. rewrite value_LN2HI. change (bpow radix2 (-32)) with (/ 4294967296)%R. lra. Qed.
Lemma LN2LO_num : (0.00000000019082 < value F64 LN2LO < 0.00000000019083)%R.
Proof.
  rewrite value_LN2LO. replace ln2lo_z with 7382048951581814 by reflexivity.
  change (-85) with (-55 + -30). rewrite bpow_plus. change (bpow radix2 (-30)) with (/ 1073741824)%R. change (bpow radix2 (-55)) with (/ 36028797018963968)%R. lra.
Qed.
Lemma small64 e : e <= -50 -> (bpow radix2 e <= / 1000000000000000)%R.
Proof. intros H. apply Rle_trans with (bpow radix2 (-50)); [apply bpow_le; lia|]. change (bpow radix2 (-50)) with (/ 1125899906842624)%R. lra. Qed.
Lemma ln2_num : (0.69314718055994 < ln 2 < 0.69314718055996)%R.
Proof.
  pose proof LN2HI_num. pose proof LN2LO_num. pose proof ln2_split as S. apply Rabs_le_inv in S. pose proof (small64 (-86) ltac:(lia)). lra.
Qed.

Section Reduce.
Context (o : fops) (Ho : ieee_ops F64 o) (c : icast) (Hc : icast_ok c).

Lemma big64 : (bpow radix2 100 <= bpow radix2 (emax F64 - 2))%R.
Proof. apply bpow_le. vm_compute. discriminate. Qed.
Lemma sub64 a b : good a -> good b -> (Rabs (value F64 a - value F64 b) <= bpow radix2 100)%R ->
  good (o_sub o a b) /\ value F64 (o_sub o a b) = rne F64 (value F64 a - value F64 b).
Proof using Ho.
  intros [Fa Na] [Fb Nb] H. destruct (sub_val F64 o Ho Hp64 He64 Hm64 a b) as (F & N & E); try assumption; [pose proof big64; lra|].
  split; [split; assumption|exact E].
Qed.
Lemma add64 a b : good a -> good b -> (Rabs (value F64 a + value F64 b) <= bpow radix2 100)%R ->
  good (o_add o a b) /\ value F64 (o_add o a b) = rne F64 (value F64 a + value F64 b).
Proof using Ho.
  intros [Fa Na] [Fb Nb] H. destruct (add_val F64 o Ho Hp64 He64 Hm64 a b) as (F & N & E); try assumption; [pose proof big64; lra|].
  split; [split; assumption|exact E].
Qed.
Lemma mul64 a b : good a -> good b -> (Rabs (value F64 a * value F64 b) <= bpow radix2 100)%R ->
  good (o_mul o a b) /\ value F64 (o_mul o a b) = rne F64 (value F64 a * value F64 b).
Proof using Ho.
  intros [Fa Na] [Fb Nb] H. destruct (mul_val F64 o Ho Hp64 He64 Hm64 a b) as (F & N & E); try assumption; [pose proof big64; lra|].
  split; [split; assumption|exact E].
Qed.
Lemma ofi64 k : - 2 ^ 31 <= k < 2 ^ 31 -> good (c_ofi c k) /\ value F64 (c_ofi c k) = IZR k.
Proof using Hc.
  intros H. pose proof (cast_ofi c Hc k H) as R.
  assert (B : (Rabs (IZR k) <= bpow radix2 31)%R).
  { rewrite <- abs_IZR. change (bpow radix2 31) with (IZR (2 ^ 31)). apply IZR_le. lia. }
  destruct (rounds_val F64 Hp64 He64 Hm64 _ _ _ R) as (F & N & E).
  - eapply Rle_trans; [exact B|]. apply bpow_le. vm_compute. discriminate.
  - split; [split; assumption|]. rewrite E. replace (IZR k) with (IZR k * bpow radix2 0)%R by (cbn; ring). apply rne_exact64; lia.
Qed.

Lemma exp_reduce x k (X := value F64 x) : good x -> Z.abs k <= 1100 -> (bpow radix2 (-2) <= Rabs X)%R ->
  (Rabs (X - IZR k * ln 2) <= 0.3466)%R ->
  let kf := c_ofi c k in
  let h := o_sub o x (o_mul o kf LN2HI) in
  let l := o_mul o kf LN2LO in
  let xr := o_sub o h l in
  exists d e, good xr /\ good h /\ good l /\ (Rabs (value F64 xr) <= DX)%R /\
    (value F64 h - value F64 l = value F64 xr + d)%R /\ (Rabs (value F64 l) <= bpow radix2 (-21))%R /\
    (Rabs d <= bpow radix2 (-55))%R /\ (Rabs e <= bpow radix2 (-74))%R /\ (value F64 xr + d + e = X - IZR k * ln 2)%R.
Proof using Ho Hc.
  intros Gx Hk HX Hr kf h l xr. destruct (ofi64 k ltac:(lia)) as [Gk Vk]. fold kf in Gk, Vk.
  assert (K1 : (Rabs (IZR k) <= 1100)%R) by (rewrite <- abs_IZR; apply IZR_le; exact Hk).
  pose proof ln2_num as L2. pose proof ln2_split as SP.
  (* k LN2HI is exact *)
  destruct (mul64 kf LN2HI Gk good_LN2HI) as [G1 V1].
  { rewrite Vk, value_LN2HI, <- Rmult_assoc, <- mult_IZR, Rabs_mult, (Rabs_pos_eq (bpow _ _)) by apply bpow_ge_0.
    apply Rle_trans with (bpow radix2 64 * bpow radix2 (-32))%R; [|rewrite <- bpow_plus; apply bpow_le; lia].
    apply Rmult_le_compat_r; [apply bpow_ge_0|]. rewrite <- abs_IZR. change (bpow radix2 64) with (IZR (2 ^ 64)). apply IZR_le. lia. }
  rewrite Vk, value_LN2HI, <- Rmult_assoc, <- mult_IZR, rne_exact64 in V1 by lia.
  (* hi is exact *)
  destruct (multiple64 x (-2) Gx HX) as (m & Em). fold X in Em. change (-2 - 52) with (-54) in Em.
  assert (Ed : (X - value F64 (o_mul o kf LN2HI) = IZR (m - k * 0xb17217f7 * 2 ^ 22) * bpow radix2 (-54))%R).
  { rewrite V1, Em, minus_IZR, (mult_IZR (k * _)), Rmult_minus_distr_r. f_equal. rewrite (IZR_Zpower radix2) by lia.
    rewrite Rmult_assoc, <- bpow_plus. reflexivity. }
  assert (Eln : (IZR (k * 0xb17217f7) * bpow radix2 (-32) = IZR k * value F64 LN2HI)%R) by (rewrite value_LN2HI, mult_IZR; ring).
  pose proof LN2HI_num as VH. pose proof LN2LO_num as VL. pose proof (small64 (-86) ltac:(lia)) as b86.
  assert (K2 := Rabs_le_inv _ _ K1). assert (SP2 := Rabs_le_inv _ _ SP). assert (Hr2 := Rabs_le_inv _ _ Hr).
  set (HI := value F64 LN2HI) in *. set (LO := value F64 LN2LO) in *.
  assert (KL : (Rabs (IZR k * LO) <= 0.00000021)%R).
  { rewrite Rabs_mult, (Rabs_pos_eq LO) by lra. assert (0 <= Rabs (IZR k))%R by apply Rabs_pos. nra. }
  assert (KD : (Rabs (IZR k * (ln 2 - (HI + LO))) <= bpow radix2 (-75))%R).
  { rewrite Rabs_mult. apply Rle_trans with (bpow radix2 11 * bpow radix2 (-86))%R; [|rewrite <- bpow_plus; apply Rle_refl].
    apply Rmult_le_compat; try apply Rabs_pos; [|exact SP]. change (bpow radix2 11) with 2048%R. lra. }
  pose proof (small64 (-75) ltac:(lia)) as bs75.
  assert (KL2 := Rabs_le_inv _ _ KL). assert (KD2 := Rabs_le_inv _ _ KD).
  assert (Hhi : (Rabs (X - value F64 (o_mul o kf LN2HI)) <= 0.34661)%R).
  { rewrite V1, Eln. apply Rabs_le. split; lra. }
  destruct (sub64 x (o_mul o kf LN2HI) Gx G1) as [Gh Vh].
  { fold X. eapply Rle_trans; [exact Hhi|]. apply Rle_trans with (bpow radix2 0); [cbn; lra|apply bpow_le; lia]. }
  fold h in Gh, Vh. fold X in Vh. rewrite Ed in Vh.
  rewrite rne_exact64 in Vh; [|clear - Hhi Ed|lia].
  2:{ rewrite Ed, Rabs_mult, (Rabs_pos_eq (bpow _ _)) in Hhi by apply bpow_ge_0.
      assert (H : (Rabs (IZR (m - k * 2977044471 * 2 ^ 22)) <= bpow radix2 53)%R).
      { apply Rmult_le_reg_r with (bpow radix2 (-54)); [apply bpow_gt_0|]. rewrite <- bpow_plus. change (bpow radix2 (53 + -54)) with (/ 2)%R. lra. }
      rewrite <- abs_IZR in H. change (bpow radix2 53) with (IZR (2 ^ 53)) in H. apply le_IZR, H. }
  rewrite <- Ed, V1, Eln in Vh.
  (* lo *)
  destruct (mul64 kf LN2LO Gk good_LN2LO) as [Gl Vl].
  { rewrite Vk. fold LO. eapply Rle_trans; [exact KL|]. apply Rle_trans with (bpow radix2 0); [cbn; lra|apply bpow_le; lia]. }
  fold l in Gl, Vl. rewrite Vk in Vl. fold LO in Vl.
  assert (E1 : (Rabs (value F64 l - IZR k * LO) <= bpow radix2 (-76))%R).
  { rewrite Vl. apply (rne_error64 (-22)); [|lia]. eapply Rle_lt_trans; [exact KL|]. change (bpow radix2 (-22)) with (/ 4194304)%R. lra. }
  assert (b7675 : bpow radix2 (-75) = (2 * bpow radix2 (-76))%R) by (change (-75) with (1 + -76); rewrite (bpow_plus _ 1); reflexivity).
  assert (b7574 : bpow radix2 (-74) = (2 * bpow radix2 (-75))%R) by (change (-74) with (1 + -75); rewrite (bpow_plus _ 1); reflexivity).
  assert (E2 := Rabs_le_inv _ _ E1). assert (p76 := bpow_gt_0 radix2 (-76)).
  assert (Hhl : (Rabs (value F64 h - value F64 l) <= 0.34661)%R).
  { rewrite Vh. apply Rabs_le. lra. }
  destruct (sub64 h l Gh Gl) as [Gr Vr].
  { eapply Rle_trans; [exact Hhl|]. apply Rle_trans with (bpow radix2 0); [cbn; lra|apply bpow_le; lia]. }
  fold xr in Gr, Vr.
  assert (E3 : (Rabs (value F64 xr - (value F64 h - value F64 l)) <= bpow radix2 (-55))%R).
  { rewrite Vr. apply (rne_error64 (-1)); [|lia]. change (bpow radix2 (-1)) with (/ 2)%R. lra. }
  pose proof (small64 (-55) ltac:(lia)) as b55.
  assert (E4 := Rabs_le_inv _ _ E3). assert (Hhl2 := Rabs_le_inv _ _ Hhl).
  exists (value F64 h - value F64 l - value F64 xr)%R, (X - IZR k * ln 2 - (value F64 h - value F64 l))%R.
  split; [exact Gr|]. split; [exact Gh|]. split; [exact Gl|]. split.
  { unfold DX. apply Rabs_le. lra. } split; [ring|]. split.
  { apply Rabs_le. change (bpow radix2 (-21)) with (/ 2097152)%R. lra. }
  split; [rewrite Rabs_minus_sym; exact E3|]. split; [|ring].
  rewrite Vh. replace (X - IZR k * ln 2 - (X - IZR k * HI - value F64 l))%R with ((value F64 l - IZR k * LO) - IZR k * (ln 2 - (HI + LO)))%R by ring.
  unfold Rminus at 1. eapply Rle_trans; [apply Rabs_triang|]. rewrite Rabs_Ropp. lra.
Qed.
End Reduce.
