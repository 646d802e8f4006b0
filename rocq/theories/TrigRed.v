(** Tools for the argument reduction: exact differences and the last pair of operations. *)
From Coq Require Import ZArith Reals Bool List Lia Lra Psatz.
From Flocq Require Import Core Sterbenz.
From Verif Require Import Base FloatModel FloatSpec LibmModel LibmSpec FloatErr PolyBound ElemModel ElemSpec TrigModel F64Lib ExpProofs3 ExpProofs4 ExpProofs8 LogProofs TrigPi TrigDist.
Import ListNotations.
Open Scope Z_scope.

(** * Multiples of a power of two *)
Definition grid (g : Z) (v : R) : Prop := exists m, v = (IZR m * bpow radix2 g)%R.
Lemma grid_le g h v : h <= g -> grid g v -> grid h v.
Proof. intros H (m & ->). exists (m * 2 ^ (g - h)). rewrite mult_IZR, (IZR_Zpower radix2), Rmult_assoc, <- bpow_plus by lia. do 2 f_equal. lia. Qed.
Lemma grid_add g v w : grid g v -> grid g w -> grid g (v + w)%R.
Proof. intros (m & ->) (n & ->). exists (m + n). rewrite plus_IZR. ring. Qed.
Lemma grid_opp g v : grid g v -> grid g (- v)%R.
Proof. intros (m & ->). exists (- m). rewrite opp_IZR. ring. Qed.
Lemma grid_sub g v w : grid g v -> grid g w -> grid g (v - w)%R.
Proof. intros A B. apply grid_add; [exact A|apply grid_opp, B]. Qed.
Lemma grid_mulz g v n : grid g v -> grid g (IZR n * v)%R.
Proof. intros (m & ->). exists (n * m). rewrite mult_IZR. ring. Qed.
Lemma grid_IZR n : grid 0 (IZR n). Proof. exists n. cbn. ring. Qed.
Lemma grid_bound g v k m : 0 <= k -> v = (IZR m * bpow radix2 g)%R -> (Rabs v <= bpow radix2 (g + k))%R -> Z.abs m <= 2 ^ k.
Proof.
  intros Hk -> H. apply le_IZR. rewrite abs_IZR, (IZR_Zpower radix2) by exact Hk. apply (Rmult_le_reg_r (bpow radix2 g)); [apply bpow_gt_0|].
  rewrite <- bpow_plus, (Z.add_comm k). rewrite Rabs_mult, (Rabs_pos_eq (bpow radix2 g)) in H by apply bpow_ge_0. exact H.
Qed.
Lemma grid_exact g v : -1074 <= g -> grid g v -> (Rabs v <= bpow radix2 (g + 53))%R -> rne F64 v = v.
Proof. intros Hg (m & E) H. pose proof (grid_bound g v 53 m ltac:(lia) E H). rewrite E. apply rne_exact64; assumption. Qed.
Lemma valid_e : Valid_exp (FLT_exp (emin F64) (prec F64)). Proof. apply FLT_exp_valid. exact Hp64. Qed.
Lemma grid_rne g v : -1074 <= g -> grid g v -> grid g (rne F64 v).
Proof.
  intros Hg G. destruct (Rle_lt_dec (Rabs v) (bpow radix2 (g + 53))) as [L|L]; [rewrite (grid_exact g) by assumption; exact G|].
  apply (grid_le (cexp radix2 (FLT_exp (emin F64) (prec F64)) v)).
  - unfold cexp, FLT_exp. change (emin F64) with (-1074). change (prec F64) with 53. assert (g + 53 < mag radix2 v) by (apply (mag_gt_bpow radix2), Rlt_le, L). lia.
  - eexists. unfold rne, round, F2R. cbn [Fnum Fexp]. reflexivity.
Qed.
Lemma grid64 x e : good x -> (bpow radix2 e <= Rabs (value F64 x))%R -> grid (e - 52) (value F64 x).
Proof. apply multiple64. Qed.
Lemma rne_rel v : (bpow radix2 (-1022) <= Rabs v -> Rabs (rne F64 v - v) <= bpow radix2 (-53) * Rabs v)%R.
Proof.
  intros H. destruct (mag radix2 v) as (E & M). specialize (M ltac:(intros Z0; rewrite Z0, Rabs_R0 in H; pose proof (bpow_gt_0 radix2 (-1022)); lra)).
  assert (-1022 < E) by (apply (lt_bpow radix2); lra).
  eapply Rle_trans; [apply (rne_error64 E); [apply M|lia]|]. replace (E - 54) with (-53 + (E - 1)) by lia. rewrite bpow_plus. apply Rmult_le_compat_l; [apply bpow_ge_0|apply M].
Qed.
(** Without a lower bound *)
Lemma rne_abs v : (Rabs (rne F64 v - v) <= bpow radix2 (-53) * Rabs v + bpow radix2 (-1075))%R.
Proof.
  destruct (Rle_lt_dec (bpow radix2 (-1022)) (Rabs v)) as [G|L].
  - pose proof (rne_rel v G). pose proof (bpow_gt_0 radix2 (-1075)). lra.
  - pose proof (rne_error64 (-1021) v) as Q. assert (Rabs (rne F64 v - v) <= bpow radix2 (-1075))%R.
    { eapply Rle_trans; [apply (rne_error F64 Hp64 (-1021))|]. eapply Rlt_trans; [exact L|apply bpow_lt; lia].
      change (emin F64) with (-1074). change (prec F64) with 53. change (/ 2)%R with (bpow radix2 (-1)). rewrite <- bpow_plus. apply bpow_le. lia. }
    pose proof (bpow_gt_0 radix2 (-53)). pose proof (Rabs_pos v). nra.
Qed.

(** * The last pair of operations of the reduction *)
Section Pair.
Context (o : fops) (Ho : ieee_ops F64 o).
Definition e53 : R := bpow radix2 (-53).
Lemma e53_bounds : (0 < e53 <= / 1000000000000000)%R. Proof. split; [apply bpow_gt_0|apply small64; lia]. Qed.
Lemma big_le v k : k <= 100 -> (Rabs v <= bpow radix2 k -> Rabs v <= bpow radix2 100)%R.
Proof. intros Hk H. eapply Rle_trans; [exact H|apply bpow_le, Hk]. Qed.

(** y0 and y1 of r - w: the pair is r - w to 105 bits. *)
Definition pair_res (Rv W Y0 Y1 : R) : Prop :=
  (Rabs (Y0 + Y1 - (Rv - W)) <= bpow radix2 (-100) * Rabs Y0)%R /\
  (Rabs Y1 <= 49 * bpow radix2 (-58) * Rabs Y0)%R /\ (Rabs (Y0 - (Rv - W)) <= e53 * Rabs (Rv - W))%R /\ (Rabs Rv / 2 <= Rabs Y0)%R.
Lemma pair_real Rv W Y0 Y1 : generic_format radix2 (FLT_exp (emin F64) (prec F64)) Rv ->
  (bpow radix2 (-100) <= Rabs Rv)%R -> (Rabs Rv <= 4)%R -> (Rabs W <= Rabs Rv / 4)%R ->
  (Rabs (Rv - W) <= 8)%R /\ (Y0 = rne F64 (Rv - W) -> (Rabs (Rv - Y0) <= 16)%R /\ rne F64 (Rv - Y0) = (Rv - Y0)%R /\ (Rabs (Rv - Y0 - W) <= 8)%R /\
    (Y1 = rne F64 (Rv - Y0 - W) -> pair_res Rv W Y0 Y1)).
Proof.
  intros FR H1 H2 H3. pose proof e53_bounds as [u0 u1]. pose proof (bpow_gt_0 radix2 (-100)) as q0.
  assert (D : (Rabs Rv * (3 / 4) <= Rabs (Rv - W) <= Rabs Rv * (5 / 4))%R).
  { pose proof (Rabs_triang_inv Rv W). pose proof (Rabs_triang Rv (- W)) as T. rewrite Rabs_Ropp in T. unfold Rminus at 2. lra. }
  split; [lra|]. intros V0.
  assert (N : (bpow radix2 (-1022) <= Rabs (Rv - W))%R).
  { apply Rle_trans with (bpow radix2 (-101)); [apply bpow_le; lia|]. change (-101) with (-1 + -100). rewrite bpow_plus. change (bpow radix2 (-1)) with (/ 2)%R. lra. }
  pose proof (rne_rel _ N) as E0. rewrite <- V0 in E0. fold e53 in E0. set (dW := (Rv - W)%R) in *.
  assert (EY : (Rabs dW * (1 - e53) <= Rabs Y0 <= Rabs dW * (1 + e53))%R).
  { pose proof (Rabs_triang (Y0 - dW) dW) as T. replace (Y0 - dW + dW)%R with Y0 in T by ring.
    pose proof (Rabs_triang (dW - Y0) Y0) as T2. replace (dW - Y0 + Y0)%R with dW in T2 by ring. rewrite (Rabs_minus_sym dW) in T2. lra. }
  (* r - y0 is exact *)
  assert (VE := valid_e).
  assert (EX : rne F64 (Rv - Y0) = (Rv - Y0)%R).
  { unfold rne. apply round_generic; [auto with typeclass_instances|].
    assert (FY : generic_format radix2 (FLT_exp (emin F64) (prec F64)) Y0) by (rewrite V0; unfold rne; apply generic_format_round; auto with typeclass_instances).
    assert (ME : Monotone_exp (FLT_exp (emin F64) (prec F64))) by apply FLT_exp_monotone.
    assert (S : (Rabs (Rv - Y0) <= Rabs Rv / 3)%R).
    { replace (Rv - Y0)%R with (W - (Y0 - dW))%R by (unfold dW; ring). unfold Rminus at 1. eapply Rle_trans; [apply Rabs_triang|]. rewrite Rabs_Ropp. nra. }
    destruct (Rle_lt_dec 0 Rv) as [p|p].
    - rewrite (Rabs_pos_eq Rv p) in S. apply Rabs_le_inv in S. apply sterbenz; [exact VE|exact ME|exact FR|exact FY|lra].
    - rewrite (Rabs_left Rv p) in S. apply Rabs_le_inv in S. replace (Rv - Y0)%R with (- ((- Rv) - (- Y0)))%R by ring. apply generic_format_opp.
      apply sterbenz; [exact VE|exact ME|apply generic_format_opp, FR|apply generic_format_opp, FY|lra]. }
  assert (BS : (Rabs (Rv - Y0) <= 16)%R).
  { unfold Rminus. eapply Rle_trans; [apply Rabs_triang|]. rewrite Rabs_Ropp. nra. }
  assert (ES : (Rv - Y0 - W = dW - Y0)%R) by (unfold dW; ring).
  split; [exact BS|]. split; [exact EX|]. rewrite ES. split; [rewrite Rabs_minus_sym; nra|]. intros V1.
  pose proof (rne_abs (dW - Y0)) as E1. rewrite <- V1 in E1.
  rewrite (Rabs_minus_sym dW) in E1.
  assert (T75 : (bpow radix2 (-1075) <= / 1000 * (bpow radix2 (-100) * Rabs Rv))%R).
  { apply Rle_trans with (bpow radix2 (-10 + (-100 + -100))); [apply bpow_le; lia|]. rewrite !bpow_plus. change (bpow radix2 (-10)) with (/ 1024)%R. nra. }
  assert (S53 : (e53 * e53 <= / 32 * bpow radix2 (-100))%R).
  { unfold e53. rewrite <- bpow_plus. change (-53 + -53) with (-6 + -100). rewrite bpow_plus. change (bpow radix2 (-6)) with (/ 64)%R. lra. }
  assert (RY : (Rabs Rv / 2 <= Rabs Y0)%R) by nra.
  assert (E1' : (Rabs (Y1 - (dW - Y0)) <= bpow radix2 (-100) * Rabs Y0)%R).
  { eapply Rle_trans; [exact E1|]. fold e53.
    assert (A1 : (e53 * Rabs (Y0 - dW) <= e53 * e53 * Rabs dW)%R) by (rewrite Rmult_assoc; apply Rmult_le_compat_l; lra).
    assert (A2 : (Rabs dW <= 2 * Rabs Y0)%R) by (pose proof (Rabs_pos dW); nra).
    assert (A3 : (e53 * e53 * Rabs dW <= / 32 * bpow radix2 (-100) * Rabs dW)%R) by (apply Rmult_le_compat_r; [apply Rabs_pos|exact S53]).
    assert (A4 : (bpow radix2 (-100) * Rabs Rv <= bpow radix2 (-100) * (2 * Rabs Y0))%R) by (apply Rmult_le_compat_l; lra).
    assert (A5 : (bpow radix2 (-100) * Rabs dW <= bpow radix2 (-100) * (2 * Rabs Y0))%R) by (apply Rmult_le_compat_l; lra).
    assert (0 <= bpow radix2 (-100) * Rabs Y0)%R by (apply Rmult_le_pos; [lra|apply Rabs_pos]). lra. }
  unfold pair_res. fold dW. split; [replace (Y0 + Y1 - dW)%R with (Y1 - (dW - Y0))%R by ring; exact E1'|].
  split; [|split; [exact E0|exact RY]].
  assert (F : (49 * bpow radix2 (-58) = 49 / 32 * e53)%R) by (unfold e53; change (-58) with (-5 + -53); rewrite bpow_plus; change (bpow radix2 (-5)) with (/ 32)%R; lra).
  rewrite F.
  assert (S100 : (bpow radix2 (-100) <= / 100 * e53)%R).
  { unfold e53. change (-100) with (-47 + -53). rewrite bpow_plus. apply Rmult_le_compat_r; [apply bpow_ge_0|]. apply Rle_trans with (bpow radix2 (-7)); [apply bpow_le; lia|change (bpow radix2 (-7)) with (/ 128)%R; lra]. }
  pose proof (Rabs_triang (Y1 - (dW - Y0)) (dW - Y0)) as T. replace (Y1 - (dW - Y0) + (dW - Y0))%R with Y1 in T by ring. rewrite (Rabs_minus_sym dW Y0) in T.
  pose proof (Rabs_pos Y0). pose proof (Rabs_pos dW).
  assert (A1 : (e53 * Rabs dW <= e53 * (1.001 * Rabs Y0))%R) by (apply Rmult_le_compat_l; [lra|nra]).
  assert (A2 : (bpow radix2 (-100) * Rabs Y0 <= / 100 * e53 * Rabs Y0)%R) by (apply Rmult_le_compat_r; assumption).
  lra.
Qed.
Lemma pair_sub r w (Rv := value F64 r) (W := value F64 w) (y0 := o_sub o r w) (y1 := o_sub o (o_sub o r y0) w) :
  good r -> good w -> (bpow radix2 (-100) <= Rabs Rv)%R -> (Rabs Rv <= 4)%R -> (Rabs W <= Rabs Rv / 4)%R ->
  good y0 /\ good y1 /\ pair_res Rv W (value F64 y0) (value F64 y1).
Proof using Ho.
  intros Gr Gw H1 H2 H3. assert (FR := format64 r (proj1 Gr) (proj2 Gr)). destruct (pair_real Rv W (value F64 y0) (value F64 y1) FR H1 H2 H3) as [B1 Q].
  destruct (sub64 o Ho r w Gr Gw (big_le _ 3 ltac:(lia) B1)) as [G0 V0]. fold y0 in G0, V0. destruct (Q V0) as (B2 & X2 & B3 & Q2).
  destruct (sub64 o Ho r y0 Gr G0 (big_le _ 4 ltac:(lia) B2)) as [Gd Vd]. fold Rv in Vd. rewrite X2 in Vd.
  destruct (sub64 o Ho (o_sub o r y0) w Gd Gw) as [G1 V1]; [rewrite Vd; apply (big_le _ 3 ltac:(lia) B3)|]. fold y1 in G1, V1. rewrite Vd in V1.
  split; [exact G0|split; [exact G1|apply Q2, V1]].
Qed.
Lemma pair_add r w (Rv := value F64 r) (W := value F64 w) (y0 := o_add o r w) (y1 := o_add o (o_sub o r y0) w) :
  good r -> good w -> (bpow radix2 (-100) <= Rabs Rv)%R -> (Rabs Rv <= 4)%R -> (Rabs W <= Rabs Rv / 4)%R ->
  good y0 /\ good y1 /\ pair_res Rv (- W) (value F64 y0) (value F64 y1).
Proof using Ho.
  intros Gr Gw H1 H2 H3. assert (FR := format64 r (proj1 Gr) (proj2 Gr)). rewrite <- Rabs_Ropp in H3. destruct (pair_real Rv (- W) (value F64 y0) (value F64 y1) FR H1 H2 H3) as [B1 Q].
  unfold Rminus at 1 in B1. rewrite Ropp_involutive in B1. replace (Rv - - W)%R with (Rv + W)%R in Q by ring.
  destruct (add64 o Ho r w Gr Gw (big_le _ 3 ltac:(lia) B1)) as [G0 V0]. fold y0 in G0, V0. destruct (Q V0) as (B2 & X2 & B3 & Q2).
  replace (Rv - value F64 y0 - - W)%R with (Rv - value F64 y0 + W)%R in B3, Q2 by ring.
  destruct (sub64 o Ho r y0 Gr G0 (big_le _ 4 ltac:(lia) B2)) as [Gd Vd]. fold Rv in Vd. rewrite X2 in Vd.
  destruct (add64 o Ho (o_sub o r y0) w Gd Gw) as [G1 V1]; [rewrite Vd; apply (big_le _ 3 ltac:(lia) B3)|]. fold y1 in G1, V1. rewrite Vd in V1.
  split; [exact G0|split; [exact G1|apply Q2, V1]].
Qed.

(** What the kernels need of a reduced argument *)
Definition reduced (X : R) (n y0 y1 : Z) : Prop :=
  Z.abs n <= 2 ^ 30 /\ good y0 /\ good y1 /\ (Rabs (value F64 y0) <= 0.7856)%R /\ (bpow radix2 (-70) <= Rabs (value F64 y0))%R /\
  (Rabs (value F64 y1) <= 49 * bpow radix2 (-58) * Rabs (value F64 y0))%R /\
  (Rabs (X - IZR n * (PI / 2) - (value F64 y0 + value F64 y1)) <= bpow radix2 (-62) * Rabs (value F64 y0))%R.
Lemma reduced_of X n y0 y1 Rv W : Z.abs n <= 2 ^ 30 -> good y0 -> good y1 -> pair_res Rv W (value F64 y0) (value F64 y1) ->
  (bpow radix2 (-68) <= Rabs Rv)%R -> (Rabs Rv <= 4)%R -> (Rabs (X - IZR n * (PI / 2)) <= 0.7855)%R -> (Rabs (X - IZR n * (PI / 2) - (Rv - W)) <= bpow radix2 (-64) * Rabs Rv)%R ->
  reduced X n y0 y1.
Proof using o.
  clear Ho. intros Hn G0 G1 (P1 & P2 & P3 & P4) H1 H2 H3 H4. set (Y0 := value F64 y0) in *. set (Y1 := value F64 y1) in *. set (T := (X - IZR n * (PI / 2))%R) in *. set (D := (Rv - W)%R) in *.
  pose proof e53_bounds as [u0 u1]. pose proof (small64 (-64) ltac:(lia)) as s64. pose proof (bpow_gt_0 radix2 (-64)) as p64.
  assert (E62 : bpow radix2 (-62) = (4 * bpow radix2 (-64))%R) by (change 4%R with (bpow radix2 2); rewrite <- bpow_plus; reflexivity).
  assert (E100 : (bpow radix2 (-100) <= bpow radix2 (-64))%R) by (apply bpow_le; lia).
  assert (y0p := Rabs_pos Y0).
  unfold reduced. fold T Y0 Y1. split; [exact Hn|split; [exact G0|split; [exact G1|split; [|split; [|split; [exact P2|]]]]]].
  - assert (A : (Rabs D <= 0.78551)%R).
    { pose proof (Rabs_triang (D - T) T) as Q. replace (D - T + T)%R with D in Q by ring. rewrite (Rabs_minus_sym D) in Q. nra. }
    pose proof (Rabs_triang (Y0 - D) D) as Q. replace (Y0 - D + D)%R with Y0 in Q by ring. nra.
  - assert (bpow radix2 (-70) <= bpow radix2 (-1) * bpow radix2 (-68))%R by (rewrite <- bpow_plus; apply bpow_le; lia). change (bpow radix2 (-1)) with (/ 2)%R in H. lra.
  - replace (T - (Y0 + Y1))%R with ((T - D) - (Y0 + Y1 - D))%R by ring. unfold Rminus at 1. eapply Rle_trans; [apply Rabs_triang|]. rewrite Rabs_Ropp, E62.
    assert (bpow radix2 (-64) * Rabs Rv <= bpow radix2 (-64) * (2 * Rabs Y0))%R by (apply Rmult_le_compat_l; lra).
    assert (bpow radix2 (-100) * Rabs Y0 <= bpow radix2 (-64) * Rabs Y0)%R by (apply Rmult_le_compat_r; lra). assert (0 <= bpow radix2 (-64) * Rabs Y0)%R by (apply Rmult_le_pos; lra). lra.
Qed.
End Pair.
