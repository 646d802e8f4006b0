(** Accuracy of exp: the computed value of the primary range, and the argument reduction. *)
From Coq Require Import ZArith Reals Bool List Lia Lra Psatz.
From Flocq Require Import Core.
From Verif Require Import Base FloatModel FloatSpec FloatConvSpec LibmModel LibmSpec Elem FloatErr PolyBound ElemModel ElemSpec F64Lib ExpProofs ExpProofs2.
Import ListNotations.
Open Scope Z_scope.

Lemma Hp64 : 0 < prec F64. Proof. reflexivity. Qed.
Lemma He64 : emin F64 <= 0. Proof. vm_compute. discriminate. Qed.
Lemma Hm64 : 2 <= emax F64. Proof. vm_compute. discriminate. Qed.
Lemma aev64 P o aenv env renv : 0 <= P -> ieee_ops F64 o ->
  (forall i a, nth_error aenv i = Some a -> okv P F64 a (nth i env 0) (nth i renv 0%R)) ->
  forall e a, aev P F64 aenv e = Some a -> okv P F64 a (fval o env e) (rval F64 renv e).
Proof. intros HP Ho. apply aev_sound; [exact HP|exact Ho|exact Hp64|exact He64|exact Hm64]. Qed.
(** A double as an input of the error analysis. *)
Lemma okv_var P x a b : is_float F64 x -> is_finite F64 x -> (fx P a <= value F64 x <= fx P b)%R -> okv P F64 (Ab a b 0) x (value F64 x).
Proof. intros F N H. unfold okv. cbn [lo hi er]. rewrite Rminus_diag_eq, Rabs_R0, fx_0 by reflexivity. split; [exact F|split; [exact N|split; [exact H|lra]]]. Qed.

Lemma Some_inj {A} (a b : A) : Some a = Some b -> a = b. Proof. congruence. Qed.

Section Core.
Context (o : fops) (Ho : ieee_ops F64 o).

(** The double y of exp.rs:153. *)
Definition exp_y (x h l : Z) : Z := fval o [x; h; l] ey.
Lemma exp_y_ok x h l k : exp_primary o x h l k = if k =? 0 then Ok (exp_y x h l) else scalbn F64 o (exp_y x h l) k.
Proof. reflexivity. Qed.

Definition good (x : Z) := is_float F64 x /\ is_finite F64 x.

Lemma rval_ey X H L : rval F64 [X; H; L] ey = (1 + (X * pev F64 X pc / (2 - pev F64 X pc) - L + H))%R.
Proof.
  assert (V1 : value F64 one = 1%R) by (unfold value; vm_compute exp_field; vm_compute frac_field; vm_compute sign_of; cbn; lra).
  assert (V2 : value F64 two = 2%R) by (unfold value; vm_compute exp_field; vm_compute frac_field; vm_compute sign_of; cbn; lra).
  unfold ey. cbn [rval nth]. rewrite V1, V2. reflexivity.
Qed.

Definition U53 : R := bpow radix2 (-53).
Lemma exp_core x h l d e : good x -> good h -> good l -> (Rabs (value F64 x) <= DX)%R ->
  (value F64 h - value F64 l = value F64 x + d)%R -> (Rabs (value F64 l) <= bpow radix2 (-21))%R ->
  (Rabs d <= bpow radix2 (-55))%R -> (Rabs e <= bpow radix2 (-74))%R ->
  good (exp_y x h l) /\
  ((value F64 x <= bpow radix2 (-10) -> Rabs (value F64 (exp_y x h l) - exp (value F64 x + d + e)) <= 17 / 16 * U53) /\
   (0 <= value F64 x -> Rabs (value F64 (exp_y x h l) - exp (value F64 x + d + e)) <= 17 / 8 * U53))%R.
Proof using Ho.
  intros [Fx Nx] [Fh Nh] [Fl Nl] Hx E Hl Hd He. set (X := value F64 x) in *. set (H := value F64 h) in *. set (L := value F64 l) in *.
  assert (b21 : bpow radix2 (-20) = (2 * bpow radix2 (-21))%R) by (change (-20) with (1 + -21); rewrite (bpow_plus _ 1); reflexivity).
  assert (b55 : (bpow radix2 (-55) <= bpow radix2 (-21))%R) by (apply bpow_le; lia).
  assert (m20 : fx RP (2 ^ (RP - 20)) = bpow radix2 (-20)) by (rewrite fx_pow by (unfold RP; lia); reflexivity).
  assert (Hd' := Rabs_le_inv _ _ Hd). assert (Hl' := Rabs_le_inv _ _ Hl). assert (Hx' := Rabs_le_inv _ _ Hx).
  assert (KEY : forall w B a b, chk_exp w B a b = true -> (fx RP a <= X <= fx RP b)%R -> 1 <= w ->
    good (exp_y x h l) /\ (Rabs (exp X - 1) <= IZR w * Rabs X -> Rabs (value F64 (exp_y x h l) - exp (X + d + e)) <= fx RP B + 11 * bpow radix2 (-63))%R).
  { intros w B a b C AB Hw. unfold chk_exp in C. destruct (aev RP F64 (env_exp a b) ey) as [r|] eqn:EV; [|discriminate]. apply Z.leb_le in C.
    assert (OK : okv RP F64 r (exp_y x h l) (rval F64 [X; H; L] ey)).
    { apply (aev64 RP o (env_exp a b)); [unfold RP; lia|exact Ho| |exact EV].
      intros i q. unfold env_exp. destruct i as [|[|[|i]]]; cbn [nth_error nth]; intros Q; try (apply Some_inj in Q; subst q).
      - apply okv_var; assumption.
      - apply okv_var; [assumption|assumption|]. fold H. rewrite fx_sub, fx_add, m20. lra.
      - apply okv_var; [assumption|assumption|]. fold L. rewrite fx_opp, m20. lra.
      - destruct i; discriminate. }
    destruct OK as (Fy & Ny & _ & Er). split; [split; assumption|]. intros W.
    rewrite rval_ey in Er. set (c := pev F64 X pc) in *.
    pose proof (exp_approx X Hx) as A. fold c in A. cbv zeta in A.
    pose proof (exp_shift X d e ltac:(unfold DX in Hx; lra) Hd He) as S.
    set (y := value F64 (exp_y x h l)) in *.
    replace (y - exp (X + d + e))%R with ((y - (1 + (X * c / (2 - c) - L + H))) + (1 + X + X * c / (2 - c) - exp X) + (exp X + d - exp (X + d + e)))%R by lra.
    eapply Rle_trans; [apply Rabs_triang|]. eapply Rle_trans; [apply Rplus_le_compat_r, Rabs_triang|].
    apply (fx_le RP) in C. rewrite fx_add in C.
    assert (M : (IZR w * Rabs X * bpow radix2 (-55) <= fx RP (w * (mx a b / 2 ^ 55 + 1)))%R).
    { pose proof (mx_ok RP a b X AB) as M. unfold fx. rewrite mult_IZR, !Rmult_assoc. apply Rmult_le_compat_l; [apply IZR_le; lia|].
      apply Rle_trans with (fx RP (mx a b) * bpow radix2 (-55))%R; [apply Rmult_le_compat_r; [apply bpow_ge_0|exact M]|].
      unfold fx. rewrite Rmult_assoc, (Rmult_comm (bpow radix2 (- RP))), <- Rmult_assoc. apply Rmult_le_compat_r; [apply bpow_ge_0|].
      apply Rmult_le_reg_r with (bpow radix2 55); [apply bpow_gt_0|]. rewrite Rmult_assoc, <- bpow_plus. change (bpow radix2 (-55 + 55)) with 1%R.
      change (bpow radix2 55) with (IZR (2 ^ 55)). rewrite Rmult_1_r, <- mult_IZR. apply IZR_le.
      pose proof (Z.div_mod (mx a b) (2 ^ 55) ltac:(lia)). pose proof (Z.mod_pos_bound (mx a b) (2 ^ 55) ltac:(lia)). lia. }
    assert (Z71 : (bpow radix2 (-71) <= bpow radix2 (-63))%R) by (apply bpow_le; lia).
    assert (S2 : (Rabs (exp X - 1) * bpow radix2 (-55) <= IZR w * Rabs X * bpow radix2 (-55))%R) by (apply Rmult_le_compat_r; [apply bpow_ge_0|exact W]).
    lra. }
  assert (b63 : U53 = (1024 * bpow radix2 (-63))%R) by (unfold U53; change (-53) with (10 + -63); rewrite (bpow_plus _ 10); reflexivity).
  assert (p63 := bpow_gt_0 radix2 (-63)).
  assert (BE : fx RP bound_exp = (1076 * bpow radix2 (-63))%R) by (unfold bound_exp; apply fx_scale; unfold RP; lia).
  assert (BE2 : fx RP (2 * bound_exp) = (2 * (1076 * bpow radix2 (-63)))%R) by (unfold fx; rewrite mult_IZR, Rmult_assoc; fold (fx RP bound_exp); rewrite BE; reflexivity).
  assert (WP : (0 <= X -> Rabs (exp X - 1) <= 2 * Rabs X)%R).
  { intros p. pose proof (exp_lin X ltac:(unfold DX in Hx; lra)) as Q. rewrite (Rabs_pos_eq X) by exact p. apply Rabs_le_inv in Q. apply Rabs_le. unfold DX in Hx'. nra. }
  assert (WN : (X <= 0 -> Rabs (exp X - 1) <= 1 * Rabs X)%R).
  { intros p. pose proof (exp_ineq1_le X). assert (exp X <= 1)%R. { rewrite <- exp_0. destruct p as [p| ->]; [left; apply exp_increasing, p|lra]. }
    rewrite (Rabs_left1 X) by exact p. apply Rabs_le. lra. }
  assert (NEG : (X <= 0)%R -> good (exp_y x h l) /\ (Rabs (value F64 (exp_y x h l) - exp (X + d + e)) <= 17 / 16 * U53)%R).
  { intros p. destruct (scan_ok RP _ _ _ _ X scan_neg) as (a & b & C & AB); [discriminate| |].
    - replace (-11359 * 2 ^ (RP + -15) + 11359 * 2 ^ (RP + -22) * Z.of_nat 128) with 0 by reflexivity. rewrite fx_scale by (unfold RP; lia). rewrite fx_0.
      change (bpow radix2 (-15)) with (/ 32768)%R. unfold DX in Hx'. lra.
    - destruct (KEY _ _ _ _ C AB ltac:(lia)) as [G K]. split; [exact G|]. specialize (K (WN p)). lra. }
  assert (SML : (0 <= X <= bpow radix2 (-10))%R -> good (exp_y x h l) /\ (Rabs (value F64 (exp_y x h l) - exp (X + d + e)) <= 17 / 16 * U53)%R).
  { intros p. destruct (scan_ok RP _ _ _ _ X scan_small) as (a & b & C & AB); [discriminate| |].
    - replace (0 + 2 ^ (RP + -10) * Z.of_nat 1) with (1 * 2 ^ (RP + -10)) by reflexivity. rewrite fx_scale by (unfold RP; lia). rewrite fx_0. lra.
    - destruct (KEY _ _ _ _ C AB ltac:(lia)) as [G K]. split; [exact G|]. specialize (K (WP (proj1 p))). lra. }
  assert (POS : (0 <= X)%R -> good (exp_y x h l) /\ (Rabs (value F64 (exp_y x h l) - exp (X + d + e)) <= 17 / 8 * U53)%R).
  { intros p. destruct (scan_ok RP _ _ _ _ X scan_pos) as (a & b & C & AB); [discriminate| |].
    - replace (0 + 11359 * 2 ^ (RP + -20) * Z.of_nat 32) with (11359 * 2 ^ (RP + -15)) by reflexivity. rewrite fx_scale by (unfold RP; lia). rewrite fx_0.
      change (bpow radix2 (-15)) with (/ 32768)%R. unfold DX in Hx'. lra.
    - destruct (KEY _ _ _ _ C AB ltac:(lia)) as [G K]. split; [exact G|]. specialize (K (WP p)). lra. }
  destruct (Rle_lt_dec X 0) as [p|p].
  - split; [apply NEG, p|]. split; [intros _; apply NEG, p|]. intros p'. assert (X = 0)%R by lra. apply POS. lra.
  - split; [apply POS; lra|]. split; [intros q; apply SML; lra|intros _; apply POS; lra].
Qed.
End Core.
