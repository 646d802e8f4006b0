(** Accuracy of tan: arguments below 0.67434. *)
From Coq Require Import ZArith Reals Bool List Lia Lra Psatz.
From Flocq Require Import Core.
From Verif Require Import Base FloatModel FloatSpec FloatProofs FloatLib LibmModel LibmSpec Elem FloatErr PolyBound ElemModel ElemSpec TrigModel F64Lib ExpProofs3 ExpProofs4 ExpProofs5 ExpProofs6 ExpProofs7 ExpProofs8 LogProofs LogProofs2 TrigProofs TrigProofs2 TrigRed TrigRed5 TrigLg8 TrigLg11 HypotProofs3 AtanModel AtanProofs AtanProofs2 AtanProofs3 AsinProofs2 AsinProofs3 TanModel TanProofs.
Import ListNotations.
Open Scope Z_scope.

Definition pgQ : list ex := [
  Mul (Vr 0) (Vr 0) (* 1: w *);
  Add (Add (K T_1) (Mul (Vr 1) (Add (K T_3) (Mul (Vr 1) (Add (K T_5) (Mul (Vr 1) (Add (K T_7) (Mul (Vr 1) (Add (K T_9) (Mul (Vr 1) (K T_11)))))))))))
      (Mul (Vr 0) (Add (K T_2) (Mul (Vr 1) (Add (K T_4) (Mul (Vr 1) (Add (K T_6) (Mul (Vr 1) (Add (K T_8) (Mul (Vr 1) (Add (K T_10) (Mul (Vr 1) (K T_12)))))))))))) (* 2 *)].
Definition envQ : list ab := [Ab 0 (1864 * 2 ^ 68) (2 ^ 26)].
(** 0.336 2^-53 *)
Lemma scanQ : chk_er 45000000 (2 ^ 77) (168 * 2 ^ 70) pgQ envQ = true. Proof. vm_compute. reflexivity. Qed.

Lemma prod_le a b A B : (Rabs a <= A -> Rabs b <= B -> Rabs (a * b) <= A * B)%R.
Proof. intros H1 H2. rewrite Rabs_mult. apply Rmult_le_compat; try apply Rabs_pos; assumption. Qed.
Lemma sum_le a b A B : (Rabs a <= A -> Rabs b <= B -> Rabs (a + b) <= A + B)%R.
Proof. intros H1 H2. eapply Rle_trans; [apply Rabs_triang|lra]. Qed.
Lemma diff_tri a b A B : (Rabs (a - b) <= A -> Rabs b <= B -> Rabs a <= A + B)%R.
Proof. intros H1 H2. replace a with ((a - b) + b)%R by ring. apply sum_le; assumption. Qed.
Definition kk : R := bpow radix2 (-1075).

Section Small.
Context (o : fops) (Ho : ieee_ops F64 o).
Lemma mulo x y A (X := value F64 x) (Y := value F64 y) : good x -> good y -> (Rabs (X * Y) <= A)%R -> (A <= 2)%R -> good (o_mul o x y) /\ (Rabs (value F64 (o_mul o x y) - X * Y) <= u53 * A + kk)%R.
Proof using Ho.
  intros Gx Gy H HA. destruct (mul64 o Ho x y Gx Gy) as [G V]; [fold X Y; apply (small_ok _ 1); [lia|change (bpow radix2 1) with 2%R; lra]|]. split; [exact G|]. rewrite V. fold X Y. pose proof (rne_abs (X * Y)) as Q. fold u53 kk in Q. pose proof u53_small. nra.
Qed.
Lemma addo x y A (X := value F64 x) (Y := value F64 y) : good x -> good y -> (Rabs (X + Y) <= A)%R -> (A <= 2)%R -> good (o_add o x y) /\ (Rabs (value F64 (o_add o x y) - (X + Y)) <= u53 * A + kk)%R.
Proof using Ho.
  intros Gx Gy H HA. destruct (add64 o Ho x y Gx Gy) as [G V]; [fold X Y; apply (small_ok _ 1); [lia|change (bpow radix2 1) with 2%R; lra]|]. split; [exact G|]. rewrite V. fold X Y. pose proof (rne_abs (X + Y)) as Q. fold u53 kk in Q. pose proof u53_small. nra.
Qed.
Lemma tan_q z Z0 : good z -> (0 <= value F64 z <= 0.455)%R -> (Rabs (value F64 z - Z0) <= / 2 * u53)%R -> good (tan_poly o z) /\ (0 <= value F64 (tan_poly o z) <= 0.1641)%R /\ (Rabs (value F64 (tan_poly o z) - pev F64 Z0 pTq) <= 0.336 * u53)%R.
Proof using Ho.
  intros G B E. pose proof (chk_ok o Ho _ _ _ pgQ envQ [z] [Z0] scanQ) as Q. cbv zeta in Q.
  assert (rel AP envQ [z] [Z0]) as RL. { apply (rel_app AP [] [] []); [apply rel_nil|]. apply okv_of; [exact G| |].
    - rewrite fx_0. split; [apply B|]. unfold fx. rewrite mult_IZR, Rmult_assoc. change (IZR (2 ^ 68)) with (bpow radix2 68). rewrite <- bpow_plus. change (bpow radix2 (68 + - AP)) with (/ 4096)%R. lra.
    - eapply Rle_trans; [exact E|]. right. rewrite fx_80 by lia. unfold u53. change (26 - 80) with (-1 + -53). rewrite bpow_plus. reflexivity. }
  specialize (Q RL). change (nth (length envQ + length pgQ - 1) (fprog o [z] pgQ) 0) with (tan_poly o z) in Q. change (nth (length envQ + length pgQ - 1) (rprog [Z0] pgQ) 0%R) with (pev F64 Z0 pTq) in Q.
  destruct Q as (GQ & BQ & EQ). split; [exact GQ|]. split.
  - rewrite fx_80 in BQ by lia. pose proof (bpow_ge_0 radix2 (77 - 80)). split; [lra|]. eapply Rle_trans; [apply BQ|]. unfold fx. rewrite mult_IZR, Rmult_assoc. change (IZR (2 ^ 70)) with (bpow radix2 70). rewrite <- bpow_plus. change (bpow radix2 (70 + - AP)) with (/ 1024)%R. lra.
  - eapply Rle_trans; [exact EQ|]. apply fx_u; lra.
Qed.
Lemma good_T0 : good T_0 /\ (0.3333 <= value F64 T_0 <= 0.33334)%R.
Proof using.
  clear. split; [apply (good_mk false T_0); unfold T_0; lia|]. rewrite (kb_val 54 T_0 0x15555555555563) by (vm_compute; reflexivity). unfold fx. change (bpow radix2 (- (54))) with (/ 18014398509481984)%R. lra.
Qed.
(** The correction r, with a = |X|, U = a 2^-53 and V = X^2 U *)
Lemma tan_r_real x y (X := value F64 x) (Y := value F64 y) : good x -> good y -> (bpow radix2 (-70) <= Rabs X)%R -> (X * X <= 0.4548)%R -> (Rabs Y <= 1.54 * (Rabs X * u53))%R ->
  let U := (Rabs X * u53)%R in let V := (X * X * U)%R in let P := (X * (pev F64 (X * X) pTan - 1) + Y * (1 + X * X))%R in
  good (tan_r o x y) /\ (Rabs (value F64 (tan_r o x y) - P) <= 2.1 * V + 0.0001 * U)%R /\ (Rabs (value F64 (tan_r o x y)) <= 0.19 * Rabs X)%R.
Proof using Ho.
  intros Gx Gy H70 HX HY. cbv zeta. set (a := Rabs X) in *. set (xi := (X * X)%R) in *. set (U := (a * u53)%R) in *. set (V := (xi * U)%R).
  pose proof u53_small as US. assert (0 < a)%R as A0 by (pose proof (bpow_gt_0 radix2 (-70)); lra). assert (xi = a * a)%R as XA by (unfold xi, a; rewrite <- Rabs_mult, Rabs_pos_eq; [reflexivity|nra]).
  assert (a <= 0.6745)%R as A1 by nra. assert (0 < xi)%R as X0 by nra. assert (0 < U <= / 1000000000000000 * a)%R as U0 by (unfold U; split; [apply Rmult_lt_0_compat; lra|rewrite Rmult_comm; apply Rmult_le_compat_r; lra]).
  assert (0 < V <= 0.4548 * U)%R as V0 by (unfold V; split; [apply Rmult_lt_0_compat; lra|apply Rmult_le_compat_r; lra]).
  assert (0 < kk <= / 1000000000000 * V)%R as K0.
  { split; [apply bpow_gt_0|]. assert (bpow radix2 (-263) <= V)%R as L. { change (-263) with (-70 + -70 + (-70 + -53)). rewrite !bpow_plus. unfold V, U. rewrite XA. pose proof (bpow_gt_0 radix2 (-70)). fold u53. apply Rmult_le_compat; [nra|nra|nra|apply Rmult_le_compat_r; lra]. }
    unfold kk. change (-1075) with (-812 + -263). rewrite bpow_plus. pose proof (bpow_gt_0 radix2 (-263)). apply Rmult_le_compat; [apply bpow_ge_0|lra| |exact L]. apply Rle_trans with (bpow radix2 (-50)); [apply bpow_le; lia|]. change (bpow radix2 (-50)) with (/ 1125899906842624)%R. lra. }
  assert (u53 * (xi * a) = V)%R as EV by (unfold V, U; ring). assert (0 < xi * a)%R as XA0 by (apply Rmult_lt_0_compat; lra). assert (xi * a <= 0.4548 * a)%R as XA1 by (apply Rmult_le_compat_r; lra).
  assert (u53 * U <= / 1000000000000000 * U)%R as UU by (apply Rmult_le_compat_r; lra). assert (u53 * V <= / 1000000000000000 * V)%R as UV by (apply Rmult_le_compat_r; lra).
  assert (xi * U = V)%R as EV2 by reflexivity. assert (u53 * a = U)%R as EU by (unfold U; ring).
  (* z *)
  destruct (mul64 o Ho x x Gx Gx) as [Gz Vz]; [fold X xi; apply (small_ok _ 0); [lia|change (bpow radix2 0) with 1%R; rewrite Rabs_pos_eq; lra]|]. fold X xi in Vz. set (z := o_mul o x x) in *.
  assert (Rabs (value F64 z - xi) <= u53 * xi)%R as Ez. { rewrite Vz. pose proof (rne_rel xi) as Q. rewrite (Rabs_pos_eq xi) in Q by lra. apply Q. rewrite XA. apply Rle_trans with (bpow radix2 (-70) * bpow radix2 (-70))%R; [rewrite <- bpow_plus; apply bpow_le; lia|]. pose proof (bpow_ge_0 radix2 (-70)). apply Rmult_le_compat; lra. }
  set (Z0 := value F64 z) in *. assert (0 <= u53 * xi <= / 1000000000000000 * xi)%R as UX by (split; [nra|apply Rmult_le_compat_r; lra]). assert (Ez' := Rabs_le_inv _ _ Ez). assert (Rabs Z0 <= 1.0000001 * xi)%R as Bz by (apply Rabs_le; lra).
  (* s *)
  assert (Rabs (Z0 * X) <= 1.0000001 * xi * a)%R as B1 by (apply prod_le; [exact Bz|apply Rle_refl]).
  destruct (mulo z x _ Gz Gx B1 ltac:(lra)) as [Gs Es]. set (s := o_mul o z x) in *. fold Z0 X in Es. set (S := value F64 s) in *.
  assert (Rabs ((Z0 - xi) * X) <= u53 * xi * a)%R as B2 by (apply prod_le; [exact Ez|apply Rle_refl]).
  assert (Rabs (S - xi * X) <= 2.00001 * V)%R as DS. { replace (S - xi * X)%R with ((S - Z0 * X) + (Z0 - xi) * X)%R by ring. eapply Rle_trans; [apply sum_le; [exact Es|exact B2]|]. lra. }
  assert (Rabs (xi * X) <= xi * a)%R as BX3 by (apply prod_le; [rewrite Rabs_pos_eq; lra|apply Rle_refl]).
  assert (V <= / 1000000000000000 * (xi * a))%R as VX by (rewrite <- EV; apply Rmult_le_compat_r; lra).
  assert (Rabs S <= 1.0001 * (xi * a))%R as BS by (eapply Rle_trans; [exact (diff_tri _ _ _ _ DS BX3)|]; lra).
  (* q *)
  destruct (tan_q z xi Gz ltac:(fold Z0; lra)) as (Gq & Bq & Eq); [fold Z0; eapply Rle_trans; [exact Ez|]; rewrite Rmult_comm; apply Rmult_le_compat_r; lra|]. set (q := tan_poly o z) in *. set (Q := value F64 q) in *. set (Q0 := pev F64 xi pTq) in *.
  assert (Rabs Q <= 0.1641)%R as Bq' by (rewrite Rabs_pos_eq; lra). assert (Rabs Q0 <= 0.1642)%R as Bq0. { apply Rabs_le_inv in Eq. apply Rabs_le. lra. }
  (* m1 *)
  assert (Rabs (S * Q) <= 1.0001 * (xi * a) * 0.1641)%R as B3 by (apply prod_le; assumption).
  destruct (mulo s q _ Gs Gq B3 ltac:(lra)) as [G1 E1]. fold S Q in E1. set (m1 := o_mul o s q) in *. set (M1 := value F64 m1) in *.
  assert (Rabs ((S - xi * X) * Q) <= 2.00001 * V * 0.1641)%R as B4 by (apply prod_le; assumption). assert (Rabs (xi * X * (Q - Q0)) <= xi * a * (0.336 * u53))%R as B5 by (apply prod_le; assumption).
  assert (Rabs (M1 - xi * X * Q0) <= 0.829 * V)%R as D1. { replace (M1 - xi * X * Q0)%R with ((M1 - S * Q) + ((S - xi * X) * Q + xi * X * (Q - Q0)))%R by ring. eapply Rle_trans; [apply sum_le; [exact E1|apply sum_le; [exact B4|exact B5]]|]. lra. }
  assert (Rabs (xi * X * Q0) <= xi * a * 0.1642)%R as BA by (apply prod_le; assumption). assert (BM1 := diff_tri _ _ _ _ D1 BA).
  (* m2 *)
  assert (B6 := sum_le _ _ _ _ BM1 HY).
  destruct (addo m1 y _ G1 Gy B6 ltac:(lra)) as [G2 E2]. fold M1 Y in E2. set (m2 := o_add o m1 y) in *. set (M2 := value F64 m2) in *.
  set (R2 := (xi * X * Q0 + Y)%R). assert (Rabs (M2 - R2) <= V + 0.00001 * U)%R as D2. { replace (M2 - R2)%R with ((M2 - (M1 + Y)) + (M1 - xi * X * Q0))%R by (unfold R2; ring). eapply Rle_trans; [apply sum_le; [exact E2|exact D1]|]. lra. }
  assert (BR2 := sum_le _ _ _ _ BA HY). fold R2 in BR2. assert (Rabs M2 <= 0.165 * (xi * a) + 1.6 * U)%R as BM2 by (eapply Rle_trans; [exact (diff_tri _ _ _ _ D2 BR2)|]; lra).
  (* m3 *)
  assert (B7 := prod_le _ _ _ _ Bz BM2). assert (1.0000001 * xi * (0.165 * (xi * a) + 1.6 * U) <= 0.07505 * (xi * a) + 1.7 * V)%R as B8.
  { assert (xi * (xi * a) <= 0.4548 * (xi * a))%R as W by (apply Rmult_le_compat_r; lra). replace (1.0000001 * xi * (0.165 * (xi * a) + 1.6 * U))%R with (1.0000001 * (0.165 * (xi * (xi * a)) + 1.6 * V))%R by (unfold V; ring). lra. }
  assert (B9 := Rle_trans _ _ _ B7 B8). destruct (mulo z m2 _ Gz G2 B9 ltac:(lra)) as [G3 E3]. fold Z0 M2 in E3. set (m3 := o_mul o z m2) in *. set (M3 := value F64 m3) in *.
  assert (B10 := prod_le _ _ _ _ Ez BM2). assert (Rabs (xi * (M2 - R2)) <= xi * (V + 0.00001 * U))%R as B11 by (apply prod_le; [rewrite Rabs_pos_eq; lra|exact D2]).
  assert (u53 * xi * (0.165 * (xi * a) + 1.6 * U) <= 0.0751 * V)%R as B12. { assert (xi * V <= 0.4548 * V)%R as W by (apply Rmult_le_compat_r; lra). replace (u53 * xi * (0.165 * (xi * a) + 1.6 * U))%R with (0.165 * (xi * V) + 1.6 * (u53 * V))%R by (unfold V, U; ring). lra. }
  assert (xi * (V + 0.00001 * U) <= 0.455 * V)%R as B13. { assert (xi * V <= 0.4548 * V)%R as W by (apply Rmult_le_compat_r; lra). rewrite Rmult_plus_distr_l. replace (xi * (0.00001 * U))%R with (0.00001 * V)%R by (unfold V; ring). lra. }
  assert (Rabs (M3 - xi * R2) <= 0.61 * V)%R as D3. { replace (M3 - xi * R2)%R with ((M3 - Z0 * M2) + ((Z0 - xi) * M2 + xi * (M2 - R2)))%R by ring. eapply Rle_trans; [apply sum_le; [exact E3|apply sum_le; [exact B10|exact B11]]|]. lra. }
  assert (Rabs M3 <= 0.0751 * (xi * a))%R as BM3 by (eapply Rle_trans; [exact (diff_tri _ _ _ _ E3 B9)|]; lra).
  (* m4 *)
  assert (B14 := sum_le _ _ _ _ HY BM3). destruct (addo y m3 _ Gy G3 B14 ltac:(lra)) as [G4 E4]. fold Y M3 in E4. set (m4 := o_add o y m3) in *. set (M4 := value F64 m4) in *.
  assert (Rabs (M4 - (Y + xi * R2)) <= 0.69 * V + 0.00001 * U)%R as D4. { replace (M4 - (Y + xi * R2))%R with ((M4 - (Y + M3)) + (M3 - xi * R2))%R by ring. eapply Rle_trans; [apply sum_le; [exact E4|exact D3]|]. lra. }
  assert (Rabs M4 <= 0.0752 * (xi * a) + 1.55 * U)%R as BM4 by (eapply Rle_trans; [exact (diff_tri _ _ _ _ E4 B14)|]; lra).
  (* m5 *)
  destruct good_T0 as [GT BT]. set (t0 := value F64 T_0) in *. assert (Rabs t0 <= 0.33334)%R as BT' by (rewrite Rabs_pos_eq; lra).
  assert (B15 := prod_le _ _ _ _ BS BT'). destruct (mulo s T_0 _ Gs GT B15 ltac:(lra)) as [G5 E5]. fold S t0 in E5. set (m5 := o_mul o s T_0) in *. set (M5 := value F64 m5) in *.
  assert (B16 := prod_le _ _ _ _ DS BT'). assert (Rabs (M5 - xi * X * t0) <= 1.0002 * V)%R as D5. { replace (M5 - xi * X * t0)%R with ((M5 - S * t0) + (S - xi * X) * t0)%R by ring. eapply Rle_trans; [apply sum_le; [exact E5|exact B16]|]. lra. }
  assert (Rabs M5 <= 0.3334 * (xi * a))%R as BM5 by (eapply Rle_trans; [exact (diff_tri _ _ _ _ E5 B15)|]; lra).
  (* r *)
  assert (B17 := sum_le _ _ _ _ BM4 BM5). destruct (addo m4 m5 _ G4 G5 B17 ltac:(lra)) as [G6 E6]. fold M4 M5 in E6. change (o_add o m4 m5) with (tan_r o x y) in *. set (r := tan_r o x y) in *. set (R6 := value F64 r) in *.
  split; [exact G6|]. split.
  - replace (X * (pev F64 xi pTan - 1) + Y * (1 + xi))%R with (Y + xi * R2 + xi * X * t0)%R.
    2:{ unfold R2. change (pev F64 xi pTan) with (1 / 1 + xi * (t0 + xi * Q0))%R. field. }
    replace (R6 - (Y + xi * R2 + xi * X * t0))%R with ((R6 - (M4 + M5)) + ((M4 - (Y + xi * R2)) + (M5 - xi * X * t0)))%R by ring. eapply Rle_trans; [apply sum_le; [exact E6|apply sum_le; [exact D4|exact D5]]|]. lra.
  - eapply Rle_trans; [exact (diff_tri _ _ _ _ E6 B17)|]. lra.
Qed.
Lemma tan_r_ok x y T (X := value F64 x) (Y := value F64 y) (U := (Rabs X * u53)%R) : good x -> good y -> (bpow radix2 (-70) <= Rabs X)%R -> (X * X <= 0.4548)%R ->
  (Rabs Y <= 49 * bpow radix2 (-58) * Rabs X)%R -> (Rabs (T - (X + Y)) <= bpow radix2 (-62) * Rabs X)%R ->
  let r := tan_r o x y in good r /\ (Rabs (value F64 r) <= 0.19 * Rabs X)%R /\ (Rabs (X + value F64 r - tan T) <= (2.75 * (X * X) + 0.09) * U)%R /\ (0 < cos T)%R /\
  exists g, (tan T = X * g /\ 0.999999 * (1 + 0.325 * (X * X)) <= g <= 1.1872)%R.
Proof using Ho.
  intros Gx Gy H70 HX HY HT. cbv zeta. set (a := Rabs X) in *. set (xi := (X * X)%R) in *. pose proof u53_small as US. assert (0 < a)%R as A0 by (pose proof (bpow_gt_0 radix2 (-70)); lra).
  assert (0 < U <= / 1000000000000000 * a)%R as U0 by (unfold U; split; [apply Rmult_lt_0_compat; lra|rewrite Rmult_comm; apply Rmult_le_compat_r; lra]).
  assert (xi = a * a)%R as XA by (unfold xi, a; rewrite <- Rabs_mult, Rabs_pos_eq; [reflexivity|nra]). assert (0 < xi)%R as X0 by nra.
  assert (49 * bpow radix2 (-58) * a = 49 / 32 * U)%R as E58 by (unfold U, u53; change (-58) with (-5 + -53); rewrite bpow_plus; change (bpow radix2 (-5)) with (/ 32)%R; field).
  assert (bpow radix2 (-62) * a = / 512 * U)%R as E62 by (unfold U, u53; change (-62) with (-9 + -53); rewrite bpow_plus; change (bpow radix2 (-9)) with (/ 512)%R; ring). rewrite E58 in HY. rewrite E62 in HT.
  destruct (tan_r_real x y Gx Gy H70 HX ltac:(fold X Y a U; lra)) as (Gr & Er & Br). fold X Y a xi U in Er, Br. set (r := value F64 (tan_r o x y)) in *. set (p := pev F64 xi pTan) in *.
  destruct (tan_P X ltac:(fold xi; lra)) as [TP CX]. fold xi a p in TP. pose proof (pTan_bound xi ltac:(lra)) as PB. fold p in PB.
  assert (Rabs (T - X) <= 49 / 32 * U + / 512 * U)%R as DT. { replace (T - X)%R with ((T - (X + Y)) + Y)%R by ring. eapply Rle_trans; [apply sum_le; [exact HT|exact HY]|]. lra. }
  destruct (tan_step X T HX ltac:(fold a; lra)) as (c & Ec & Bc). fold xi in Bc. set (t := (tan c * tan c)%R) in *.
  assert (0 < cos T)%R as CT. { destruct (tan_P T) as [_ Q]; [|lra]. replace (T * T)%R with (xi + (T - X) * (2 * X + (T - X)))%R by (unfold xi; ring). assert (Rabs ((T - X) * (2 * X + (T - X))) <= (2 * U) * (2 * a + 2 * U))%R as Q. { apply prod_le; [lra|]. apply sum_le; [|lra]. rewrite Rabs_mult, (Rabs_pos_eq 2) by lra. fold a. lra. } apply Rabs_le_inv in Q. assert (a <= 1)%R by nra. nra. }
  assert (Rabs (tan T - tan X - (1 + xi) * Y) <= 0.41 * xi * (49 / 32 * U) + 1.65 * (/ 512 * U))%R as D.
  { replace (tan T - tan X - (1 + xi) * Y)%R with ((t - xi) * Y + (1 + t) * (T - (X + Y)))%R by (rewrite Ec; ring). apply sum_le; apply prod_le; try assumption; [apply Rabs_le; lra|rewrite Rabs_pos_eq; lra]. }
  split; [exact Gr|]. split; [exact Br|]. split; [|split; [exact CT|]].
  - replace (X + r - tan T)%R with ((r - (X * (p - 1) + Y * (1 + xi))) + ((X * p - tan X) + - (tan T - tan X - (1 + xi) * Y)))%R by ring.
    eapply Rle_trans; [apply sum_le; [exact Er|apply sum_le; [exact TP|rewrite Rabs_Ropp; exact D]]|]. replace (a * (0.082 * u53))%R with (0.082 * U)%R by (unfold U; ring). assert (0 < xi * U)%R by (apply Rmult_lt_0_compat; lra). lra.
  - exists (tan T / X)%R. assert (X <> 0)%R as NX by (intros E; unfold xi in X0; rewrite E in X0; lra). split; [field; exact NX|].
    assert (Rabs (tan T - X * p) <= / 10000000 * a)%R as Q. { replace (tan T - X * p)%R with ((tan T - tan X) + - (X * p - tan X))%R by ring. rewrite Ec. eapply Rle_trans; [apply sum_le; [apply prod_le; [rewrite Rabs_pos_eq; [|lra]|exact DT]|rewrite Rabs_Ropp; exact TP]|]; [apply Rle_trans with 2%R; [lra|apply Rle_refl]|]. replace (a * (0.082 * u53))%R with (0.082 * U)%R by (unfold U; ring). lra. }
    replace (tan T - X * p)%R with ((tan T / X - p) * X)%R in Q by (field; exact NX). rewrite Rabs_mult in Q. fold a in Q. apply Rmult_le_reg_r in Q; [|exact A0]. apply Rabs_le_inv in Q. lra.
Qed.
Lemma k_even x y T (X := value F64 x) (Y := value F64 y) : good x -> good y -> (bpow radix2 (-70) <= Rabs X)%R -> (X * X <= 0.4548)%R ->
  (Rabs Y <= 49 * bpow radix2 (-58) * Rabs X)%R -> (Rabs (T - (X + Y)) <= bpow radix2 (-62) * Rabs X)%R -> within (3 / 2) (o_add o x (tan_r o x y)) (tan T).
Proof using Ho.
  intros Gx Gy H70 HX HY HT. destruct (tan_r_ok x y T Gx Gy H70 HX HY HT) as (Gr & Br & Er & CT & g & Eg & Bg). fold X in Br, Er, Eg, Bg. set (a := Rabs X) in *. set (r := tan_r o x y) in *. pose proof u53_small as US.
  assert (0 < a)%R as A0 by (pose proof (bpow_gt_0 radix2 (-70)); lra). set (xi := (X * X)%R) in *. assert (xi = a * a)%R as XA by (unfold xi, a; rewrite <- Rabs_mult, Rabs_pos_eq; [reflexivity|nra]). assert (0 < xi)%R as X0 by nra. assert (a <= 0.6744)%R as A1 by nra.
  assert (Rabs (tan T) = a * g)%R as AT by (rewrite Eg, Rabs_mult, (Rabs_pos_eq g) by lra; reflexivity). assert (0.999999 * a <= a * g)%R as G1 by nra.
  destruct (add64 o Ho x r Gx Gr) as [[F1 F2] V]; [fold X; apply (small_ok _ 1); [lia|change (bpow radix2 1) with 2%R; eapply Rle_trans; [apply Rabs_triang|fold a; lra]]|].
  split; [exact F1|]. split; [exact F2|]. rewrite V. fold X. replace (3 / 2)%R with (1 + / 2)%R by lra. apply final_round; [rewrite AT| |lra].
  - apply Rle_trans with (bpow radix2 (-71)); [apply bpow_le; lia|]. change (-71) with (-1 + -70). rewrite bpow_plus. change (bpow radix2 (-1)) with (/ 2)%R. lra.
  - eapply Rle_trans; [exact Er|]. rewrite Rmult_1_l. assert (0 < a * u53)%R as AU by (apply Rmult_lt_0_compat; lra). destruct (Rle_lt_dec (/ 2) (a * g)) as [L|L].
    + pose proof (ulp64_ge 0 (tan T)) as UL. rewrite AT in UL. specialize (UL L). change (bpow radix2 (0 - 53)) with u53 in UL. eapply Rle_trans; [|exact UL]. rewrite <- Rmult_assoc. rewrite <- (Rmult_1_l u53) at 2. apply Rmult_le_compat_r; [lra|]. nra.
    + pose proof (ulp64_rel (tan T)) as UL. rewrite AT in UL. fold u53 in UL. eapply Rle_trans; [|exact UL]. apply Rle_trans with (0.9 * (a * u53))%R; [apply Rmult_le_compat_r; [lra|]; nra|]. rewrite <- Rmult_assoc. apply Rmult_le_compat_r; lra.
Qed.
End Small.
