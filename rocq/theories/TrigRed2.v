(** Argument reduction for |x| up to 9 pi / 4: the rounds of rem_pio2. *)
From Coq Require Import ZArith Reals Bool List Lia Lra Psatz.
From Flocq Require Import Core.
From Verif Require Import Base BaseLemmas FloatModel FloatSpec LibmModel LibmSpec FloatErr PolyBound ElemModel ElemSpec TrigModel F64Lib ExpProofs3 ExpProofs4 ExpProofs7 ExpProofs8 LogProofs2 TrigPi TrigDist TrigRed.
Import ListNotations.
Open Scope Z_scope.

(** * The constants *)
Lemma value_P1 : value F64 PIO2_1 = (IZR 0x6487ed51 * bpow radix2 (-30))%R. Proof. apply (kb_val 30). vm_compute. reflexivity. Qed.
Lemma value_P1T : value F64 PIO2_1T = (IZR 0x10b4611a626331 * bpow radix2 (-86))%R. Proof. apply (kb_val 86). vm_compute. reflexivity. Qed.
Lemma value_P2 : value F64 PIO2_2 = (IZR 0x85a308d3 * bpow radix2 (-65))%R. Proof. apply (kb_val 65). vm_compute. reflexivity. Qed.
Lemma value_P2T : value F64 PIO2_2T = (IZR 0x13198a2e037073 * bpow radix2 (-121))%R. Proof. apply (kb_val 121). vm_compute. reflexivity. Qed.
Lemma value_P3 : value F64 PIO2_3 = (IZR 0x98cc517 * bpow radix2 (-96))%R. Proof. apply (kb_val 96). vm_compute. reflexivity. Qed.
Lemma value_P3T : value F64 PIO2_3T = (IZR 0x1b839a252049c1 * bpow radix2 (-156))%R. Proof. apply (kb_val 156). vm_compute. reflexivity. Qed.
Lemma good_P1 : good PIO2_1. Proof. const_good. Qed.
Lemma good_P1T : good PIO2_1T. Proof. const_good. Qed.
Lemma good_P2 : good PIO2_2. Proof. const_good. Qed.
Lemma good_P2T : good PIO2_2T. Proof. const_good. Qed.
Lemma good_P3 : good PIO2_3. Proof. const_good. Qed.
Lemma good_P3T : good PIO2_3T. Proof. const_good. Qed.

(** pi / 2 lies within 2^-1600 of [hpi]. *)
Lemma pi_between l h : 2 * (qpi + qpi_err) <= h -> l <= 2 * (qpi - qpi_err) -> (fx PP l <= PI / 2 <= fx PP h)%R.
Proof.
  intros Hh Hl. pose proof qpi_ok as [A B]. apply (fx_le PP) in Hh, Hl. rewrite <- !(ExpProofs6.fx_mulz PP 2) in Hh, Hl. lra.
Qed.
Lemma fxs e z : -1700 <= e -> (IZR z * bpow radix2 e)%R = fx PP (z * 2 ^ (PP + e)).
Proof. intros H. rewrite fx_scale by (unfold PP; lia). reflexivity. Qed.
Lemma fxb e : -1700 <= e -> bpow radix2 e = fx PP (1 * 2 ^ (PP + e)).
Proof. intros H. rewrite <- fxs by exact H. ring. Qed.
Ltac pi_diff := rewrite ?fxs by lia; rewrite ?fxb by lia;
  match goal with |- (Rabs (PI / 2 - ?a) <= fx PP ?e)%R =>
    let H := fresh in assert (H : (fx PP (2 * (qpi - qpi_err)) <= PI / 2 <= fx PP (2 * (qpi + qpi_err)))%R) by (apply pi_between; lia);
    apply Rabs_le; repeat rewrite <- fx_add end.
Lemma pi_split1 : (Rabs (PI / 2 - (value F64 PIO2_1 + value F64 PIO2_1T)) <= bpow radix2 (-87))%R.
Proof.
  rewrite value_P1, value_P1T, !fxs, fxb, <- fx_add by lia. 
  assert (H : (fx PP (2 * (qpi - qpi_err)) <= PI / 2 <= fx PP (2 * (qpi + qpi_err)))%R) by (apply pi_between; lia).
  set (a := 0x6487ed51 * 2 ^ (PP + -30) + 0x10b4611a626331 * 2 ^ (PP + -86)). set (e := 1 * 2 ^ (PP + -87)).
  assert (A : (fx PP (a - e) <= fx PP (2 * (qpi - qpi_err)))%R) by (apply fx_le; vm_compute; discriminate).
  assert (B : (fx PP (2 * (qpi + qpi_err)) <= fx PP (a + e))%R) by (apply fx_le; vm_compute; discriminate).
  rewrite fx_sub in A. rewrite fx_add in B. apply Rabs_le. lra.
Qed.
Lemma pi_split2 : (Rabs (PI / 2 - (value F64 PIO2_1 + value F64 PIO2_2 + value F64 PIO2_2T)) <= bpow radix2 (-121))%R.
Proof.
  rewrite value_P1, value_P2, value_P2T, !fxs, fxb, <- !fx_add by lia. 
  assert (H : (fx PP (2 * (qpi - qpi_err)) <= PI / 2 <= fx PP (2 * (qpi + qpi_err)))%R) by (apply pi_between; lia).
  set (a := 0x6487ed51 * 2 ^ (PP + -30) + 0x85a308d3 * 2 ^ (PP + -65) + 0x13198a2e037073 * 2 ^ (PP + -121)). set (e := 1 * 2 ^ (PP + -121)).
  assert (A : (fx PP (a - e) <= fx PP (2 * (qpi - qpi_err)))%R) by (apply fx_le; vm_compute; discriminate).
  assert (B : (fx PP (2 * (qpi + qpi_err)) <= fx PP (a + e))%R) by (apply fx_le; vm_compute; discriminate).
  rewrite fx_sub in A. rewrite fx_add in B. apply Rabs_le. lra.
Qed.
Lemma pi_split3 : (Rabs (PI / 2 - (value F64 PIO2_1 + value F64 PIO2_2 + value F64 PIO2_3 + value F64 PIO2_3T)) <= bpow radix2 (-156))%R.
Proof.
  rewrite value_P1, value_P2, value_P3, value_P3T, !fxs, fxb, <- !fx_add by lia. 
  assert (H : (fx PP (2 * (qpi - qpi_err)) <= PI / 2 <= fx PP (2 * (qpi + qpi_err)))%R) by (apply pi_between; lia).
  set (a := 0x6487ed51 * 2 ^ (PP + -30) + 0x85a308d3 * 2 ^ (PP + -65) + 0x98cc517 * 2 ^ (PP + -96) + 0x1b839a252049c1 * 2 ^ (PP + -156)). set (e := 1 * 2 ^ (PP + -156)).
  assert (A : (fx PP (a - e) <= fx PP (2 * (qpi - qpi_err)))%R) by (apply fx_le; vm_compute; discriminate).
  assert (B : (fx PP (2 * (qpi + qpi_err)) <= fx PP (a + e))%R) by (apply fx_le; vm_compute; discriminate).
  rewrite fx_sub in A. rewrite fx_add in B. apply Rabs_le. lra.
Qed.
Lemma pi_num : (3.14159265358 < PI < 3.14159265360)%R.
Proof.
  pose proof pi_split1 as H. rewrite value_P1, value_P1T in H. change (bpow radix2 (-30)) with (/ 1073741824)%R in H.
  replace (bpow radix2 (-86)) with (bpow radix2 (-56) * / 1073741824)%R in H by (change (/ 1073741824)%R with (bpow radix2 (-30)); rewrite <- bpow_plus; reflexivity).
  change (bpow radix2 (-56)) with (/ 72057594037927936)%R in H. pose proof (small64 (-87) ltac:(lia)). apply Rabs_le_inv in H. lra.
Qed.
Lemma P1_num : (1.5707963267341 < value F64 PIO2_1 < 1.5707963267342)%R.
Proof. rewrite value_P1. change (bpow radix2 (-30)) with (/ 1073741824)%R. lra. Qed.
Lemma P1T_num : (6.0771e-11 < value F64 PIO2_1T < 6.0772e-11)%R.
Proof.
  rewrite value_P1T. replace (bpow radix2 (-86)) with (bpow radix2 (-56) * / 1073741824)%R by (change (/ 1073741824)%R with (bpow radix2 (-30)); rewrite <- bpow_plus; reflexivity).
  change (bpow radix2 (-56)) with (/ 72057594037927936)%R. lra.
Qed.

(** * One round *)
Section Round.
Context (o : fops) (Ho : ieee_ops F64 o).
Lemma rp_round_ok s n k p t L (x := mk64 s n) : 0 <= n < INF -> 1 <= k <= 4 -> good p -> good t -> value F64 p = (IZR k * value F64 PIO2_1)%R ->
  (Rabs (value F64 t - IZR k * (PI / 2 - value F64 PIO2_1)) <= bpow radix2 (-65) * L)%R -> (bpow radix2 (-23) <= L)%R ->
  (L <= Rabs (mag64 n - IZR k * (PI / 2)) <= 0.7855)%R -> (/ 2 <= mag64 n)%R ->
  exists k' y0 y1, rp_round o x (b2z s) k p t = Ok (k', y0, y1) /\ reduced (value F64 x) k' y0 y1.
Proof using Ho.
  intros Hn Hk Gp Gt Vp Vt HL HT HX. assert (Gx : good x) by (apply good64; exact Hn).
  pose proof pi_num as PN. pose proof P1_num as PB. set (P1 := value F64 PIO2_1) in *. set (M := mag64 n) in *.
  assert (Vx : value F64 x = (if s then - M else M)%R) by (unfold x; rewrite value64 by (lia); reflexivity).
  assert (K : (1 <= IZR k <= 4)%R) by (split; apply IZR_le; lia).
  assert (L23 : (/ 10000000 <= L)%R) by (change (bpow radix2 (-23)) with (/ 8388608)%R in HL; lra).
  pose proof (small64 (-65) ltac:(lia)) as s65. pose proof (bpow_gt_0 radix2 (-65)) as p65.
  assert (L1 : (L <= 1)%R) by lra.
  assert (TB : (Rabs (value F64 t) <= / 1000000000)%R).
  { pose proof (Rabs_triang (value F64 t - IZR k * (PI / 2 - P1)) (IZR k * (PI / 2 - P1))) as Q. replace (value F64 t - IZR k * (PI / 2 - P1) + IZR k * (PI / 2 - P1))%R with (value F64 t) in Q by ring.
    rewrite (Rabs_pos_eq (IZR k * _)) in Q by (apply Rmult_le_pos; lra). nra. }
  set (Rv := (M - IZR k * P1)%R).
  assert (RL : (L / 2 <= Rabs Rv <= 1)%R).
  { assert (ER : Rv = ((M - IZR k * (PI / 2)) + IZR k * (PI / 2 - P1))%R) by (unfold Rv; ring).
    assert (B : (0 <= IZR k * (PI / 2 - P1) <= / 1000000000)%R) by (split; [apply Rmult_le_pos; lra|nra]).
    pose proof (Rabs_triang (M - IZR k * (PI / 2)) (IZR k * (PI / 2 - P1))) as Q1. rewrite <- ER in Q1.
    pose proof (Rabs_triang Rv (- (IZR k * (PI / 2 - P1)))) as Q2. replace (Rv + - (IZR k * (PI / 2 - P1)))%R with (M - IZR k * (PI / 2))%R in Q2 by (rewrite ER; ring).
    rewrite Rabs_Ropp in Q2. rewrite (Rabs_pos_eq (IZR k * _)) in Q1, Q2 by lra. lra. }
  assert (Gr : grid (-53) Rv).
  { apply grid_sub.
    - replace M with (Rabs (value F64 x)) by (unfold x; apply Rabs64; lia).
      assert (G := grid64 x (-1) Gx). rewrite Vx in *. change (bpow radix2 (-1)) with (/ 2)%R in G. assert (MP : (0 <= M)%R) by lra.
      assert (RA : Rabs (if s then - M else M) = M) by (destruct s; [rewrite Rabs_Ropp|]; apply Rabs_pos_eq, MP). rewrite RA in *. specialize (G HX). destruct s; [|exact G].
      apply grid_opp in G. rewrite Ropp_involutive in G. exact G.
    - apply grid_mulz. apply (grid_le (-30)); [lia|]. unfold P1. rewrite value_P1. eexists. reflexivity. }
  assert (EX : rne F64 Rv = Rv) by (apply (grid_exact (-53)); [lia|exact Gr|change (-53 + 53) with 0; change (bpow radix2 0) with 1%R; lra]).
  assert (N64 : (bpow radix2 (-65) * L <= bpow radix2 (-64) * Rabs Rv)%R).
  { change (-64) with (1 + -65). rewrite bpow_plus. change (bpow radix2 1) with 2%R. nra. }
  assert (R100 : (bpow radix2 (-100) <= Rabs Rv)%R).
  { apply Rle_trans with (bpow radix2 (-24)); [apply bpow_le; lia|]. change (-24) with (-1 + -23). rewrite bpow_plus. change (bpow radix2 (-1)) with (/ 2)%R. lra. }
  assert (R68 : (bpow radix2 (-68) <= Rabs Rv)%R).
  { apply Rle_trans with (bpow radix2 (-24)); [apply bpow_le; lia|]. change (-24) with (-1 + -23). rewrite bpow_plus. change (bpow radix2 (-1)) with (/ 2)%R. lra. }
  assert (B8 : forall v, (Rabs v <= 8 -> Rabs v <= bpow radix2 100)%R) by (intros v Hv; apply (big_le v 3); [lia|exact Hv]).
  destruct s; cbn [b2z] in *; unfold rp_round; cbn [Z.eqb].
  - (* negative *)
    destruct (add64 o Ho x p Gx Gp) as [Gz Vz]; [apply B8; rewrite Vx, Vp; replace (- M + IZR k * P1)%R with (- Rv)%R by (unfold Rv; ring); rewrite Rabs_Ropp; lra|].
    rewrite Vx, Vp in Vz. replace (- M + IZR k * P1)%R with (- Rv)%R in Vz by (unfold Rv; ring). rewrite rne_opp, EX in Vz. set (z := o_add o x p) in *.
    destruct (pair_add o Ho z t Gz Gt) as (G0 & G1 & PR); rewrite ?Vz, ?Rabs_Ropp; try lra. rewrite Vz in PR.
    eexists _, _, _. split; [reflexivity|]. refine (reduced_of o _ _ _ _ _ _ _ G0 G1 PR _ _ _ _); [lia|rewrite Rabs_Ropp; lra|rewrite Rabs_Ropp; lra| |rewrite Rabs_Ropp].
    + rewrite Vx, opp_IZR. replace (- M - - IZR k * (PI / 2))%R with (- (M - IZR k * (PI / 2)))%R by ring. rewrite Rabs_Ropp. lra.
    + rewrite Vx, opp_IZR. replace (- M - - IZR k * (PI / 2) - (- Rv - - value F64 t))%R with (- (value F64 t - IZR k * (PI / 2 - P1)))%R by (unfold Rv; ring). rewrite Rabs_Ropp. lra.
  - destruct (sub64 o Ho x p Gx Gp) as [Gz Vz]; [apply B8; rewrite Vx, Vp; fold Rv; lra|].
    rewrite Vx, Vp in Vz. fold Rv in Vz. rewrite EX in Vz. set (z := o_sub o x p) in *.
    destruct (pair_sub o Ho z t Gz Gt) as (G0 & G1 & PR); rewrite ?Vz; try lra. rewrite Vz in PR.
    eexists _, _, _. split; [reflexivity|]. refine (reduced_of o _ _ _ _ _ _ _ G0 G1 PR _ _ _ _); [lia|lra|lra| |].
    + rewrite Vx. lra.
    + rewrite Vx. replace (M - IZR k * (PI / 2) - (Rv - value F64 t))%R with (value F64 t - IZR k * (PI / 2 - P1))%R by (unfold Rv; ring). lra.
Qed.
End Round.
