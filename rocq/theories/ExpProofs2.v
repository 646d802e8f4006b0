(** Accuracy of the primary range of exp, continued. *)
From Coq Require Import ZArith Reals Bool List Lia Lra Psatz.
From Flocq Require Import Core.
From Verif Require Import Base FloatModel FloatSpec FloatConvSpec LibmModel LibmSpec Elem FloatErr PolyBound ElemModel ElemSpec F64Lib ExpProofs.
Import ListNotations.
Open Scope Z_scope.

(** The rational approximation of fdlibm. *)
Lemma exp_approx x : (Rabs x <= DX)%R ->
  let c := pev F64 x pc in (Rabs (1 + x + x * c / (2 - c) - exp x) <= 10 * bpow radix2 (-63))%R.
Proof.
  intros H c. pose proof (pE_ok x H) as A. pose proof (pc_ok x H) as C. fold c in C.
  unfold pE in A. cbn [pev] in A. fold c in A. rewrite pev_expt in A. cbn [pev] in A.
  assert (T : (Rabs (exp x - exp_taylor 15 x) <= bpow radix2 (-67))%R).
  { eapply Rle_trans; [apply exp_taylor_ok; unfold DX in H; lra|].
    apply Rle_trans with (2 * DX ^ 16 / INR (fact 16))%R.
    - unfold Rdiv. apply Rmult_le_compat_r; [left; apply Rinv_0_lt_compat, lt_0_INR, lt_O_fact|]. apply Rmult_le_compat_l; [lra|].
      apply pow_incr. split; [apply Rabs_pos|exact H].
    - rewrite INR_IZR_INZ, <- Zfact_ok. unfold DX. replace (2 * (34664 / 100000) ^ 16 / IZR (Zfact 16))%R with (pev F64 0 (PMul (PQ 2 (Zfact 16)) (ppow (PQ 34664 100000) 16))).
      + assert (X : (fx 100 0 <= pev F64 0 (PMul (PQ 2 (Zfact 16)) (ppow (PQ 34664 100000) 16)) <= fx 100 (1 * 2 ^ (100 + -67)))%R) by (apply pconst; [lia|vm_compute; reflexivity]).
        rewrite fx_scale in X by lia. lra.
      + cbn [pev]. rewrite pev_pow. cbn [pev]. unfold Rdiv. ring. }
  set (t := exp_taylor 15 x) in *. set (E := exp x) in *.
  replace (1 + x + x * c / (2 - c) - E)%R with (((2 / 1 - c) * (1 / 1 + x - t) + x * c) / (2 - c) + (t - E))%R by (field; lra).
  eapply Rle_trans; [apply Rabs_triang|].
  assert (X : (Rabs (((2 / 1 - c) * (1 / 1 + x - t) + x * c) / (2 - c)) <= 2000 * bpow radix2 (-70) / (16 / 10))%R).
  { unfold Rdiv at 1. rewrite Rabs_mult. rewrite (Rabs_pos_eq (/ (2 - c))) by (left; apply Rinv_0_lt_compat; lra).
    apply Rmult_le_compat; [apply Rabs_pos|left; apply Rinv_0_lt_compat; lra|exact A|]. apply Rinv_le; lra. }
  rewrite <- Rabs_Ropp in T. replace (- (E - t))%R with (t - E)%R in T by ring.
  assert (Z1 : bpow radix2 (-63) = (128 * bpow radix2 (-70))%R) by (change (-63) with (7 + -70); rewrite (bpow_plus _ 7); reflexivity).
  assert (Z2 : bpow radix2 (-67) = (8 * bpow radix2 (-70))%R) by (change (-67) with (3 + -70); rewrite (bpow_plus _ 3); reflexivity).
  pose proof (bpow_gt_0 radix2 (-70)). lra.
Qed.
Lemma exp_lin d : (Rabs d <= 1 / 2 -> Rabs (exp d - 1 - d) <= d * d)%R.
Proof.
  intros H. pose proof (exp_taylor_ok 1 d H) as T. unfold exp_taylor in T. cbn in T. replace (Rabs d * (Rabs d * 1))%R with (d * d)%R in T.
  - replace (exp d - 1 - d)%R with (exp d - (1 / 1 + d * 1 / 1))%R by field. eapply Rle_trans; [exact T|]. apply Req_le. field.
  - rewrite Rmult_1_r, <- Rabs_mult. rewrite Rabs_pos_eq; [reflexivity|nra].
Qed.
Lemma exp_shift x d e : (Rabs x <= 1 / 2 -> Rabs d <= bpow radix2 (-55) -> Rabs e <= bpow radix2 (-74) ->
  Rabs (exp x + d - exp (x + d + e)) <= Rabs (exp x - 1) * bpow radix2 (-55) + bpow radix2 (-71))%R.
Proof.
  intros Hx Hd He. pose proof (exp_bound x Hx) as B. set (D := (d + e)%R).
  assert (HD : (Rabs D <= bpow radix2 (-55) + bpow radix2 (-74))%R) by (unfold D; eapply Rle_trans; [apply Rabs_triang|lra]).
  assert (L : (bpow radix2 (-55) + bpow radix2 (-74) <= bpow radix2 (-54))%R).
  { change (-54) with (1 + -55). rewrite (bpow_plus _ 1). change (bpow radix2 1) with 2%R. pose proof (bpow_le radix2 (-74) (-55) ltac:(lia)). lra. }
  pose proof (bpow_gt_0 radix2 (-55)) as p55. pose proof (bpow_gt_0 radix2 (-74)) as p74.
  assert (p54 : (bpow radix2 (-54) <= 1 / 4)%R) by (change (1 / 4)%R with (1 * / 4)%R; rewrite Rmult_1_l; change (/ 4)%R with (bpow radix2 (-2)); apply bpow_le; lia).
  pose proof (exp_lin D ltac:(lra)) as Q. rewrite Rplus_assoc. fold D. rewrite exp_plus.
  assert (DD : (D * D <= bpow radix2 (-108))%R).
  { change (-108) with (-54 + -54). rewrite bpow_plus. replace (D * D)%R with (Rabs D * Rabs D)%R by (rewrite <- Rabs_mult; apply Rabs_pos_eq; nra).
    apply Rmult_le_compat; try apply Rabs_pos; lra. }
  replace (exp x + d - exp x * exp D)%R with (- (exp x * (exp D - 1 - D)) - ((exp x - 1) * D) - e)%R by (unfold D; ring).
  assert (A1 : (Rabs (- (exp x * (exp D - 1 - D))) <= 2 * bpow radix2 (-108))%R).
  { rewrite Rabs_Ropp, Rabs_mult, (Rabs_pos_eq (exp x)) by lra. apply Rmult_le_compat; [lra|apply Rabs_pos|lra|lra]. }
  assert (A2 : (Rabs ((exp x - 1) * D) <= Rabs (exp x - 1) * bpow radix2 (-55) + bpow radix2 (-74))%R).
  { rewrite Rabs_mult. apply Rle_trans with (Rabs (exp x - 1) * (bpow radix2 (-55) + bpow radix2 (-74)))%R; [apply Rmult_le_compat_l; [apply Rabs_pos|exact HD]|].
    rewrite Rmult_plus_distr_l. apply Rplus_le_compat_l. rewrite <- (Rmult_1_l (bpow radix2 (-74))) at 2. apply Rmult_le_compat_r; [lra|].
    apply Rabs_le. lra. }
  assert (Z1 : (bpow radix2 (-108) <= bpow radix2 (-74))%R) by (apply bpow_le; lia).
  assert (Z2 : bpow radix2 (-71) = (8 * bpow radix2 (-74))%R) by (change (-71) with (3 + -74); rewrite (bpow_plus _ 3); reflexivity).
  unfold Rminus at 1 2. eapply Rle_trans; [apply Rabs_triang|]. rewrite Rabs_Ropp.
  eapply Rle_trans; [apply Rplus_le_compat_r, Rabs_triang|]. rewrite !Rabs_Ropp. rewrite Rabs_Ropp in A1. lra.
Qed.

(** * Rounding error *)
Definition ec : ex :=
  let x := Vr 0 in let xx := Mul x x in
  Sub x (Mul xx (Add (K exp_P1) (Mul xx (Add (K exp_P2) (Mul xx (Add (K exp_P3) (Mul xx (Add (K exp_P4) (Mul xx (K exp_P5)))))))))).
Definition ey : ex := Add (K one) (Add (Sub (Div (Mul (Vr 0) ec) (Sub (K two) ec)) (Vr 2)) (Vr 1)).
Definition RP : Z := 128.
Definition env_exp (a b : Z) : list ab := let m := 2 ^ (RP - 20) in [Ab a b 0; Ab (a - m) (b + m) 0; Ab (- m) m 0].
(** Rounding error, and the effect of the error of the reduced argument, with the bound [B]. *)
Definition chk_exp (w B a b : Z) : bool :=
  match aev RP F64 (env_exp a b) ey with
  | Some r => er r + w * (mx a b / 2 ^ 55 + 1) <=? B
  | None => false
  end.
Definition bound_exp : Z := 1076 * 2 ^ (RP + -63).
Lemma scan_neg : scan (chk_exp 1 bound_exp) ((- 11359) * 2 ^ (RP + -15)) (11359 * 2 ^ (RP + -22)) 128 = true.
Proof. vm_compute. reflexivity. Qed.
Lemma scan_small : scan (chk_exp 2 bound_exp) 0 (2 ^ (RP + -10)) 1 = true.
Proof. vm_compute. reflexivity. Qed.
Lemma scan_pos : scan (chk_exp 2 (2 * bound_exp)) 0 (11359 * 2 ^ (RP + -20)) 32 = true.
Proof. vm_compute. reflexivity. Qed.
