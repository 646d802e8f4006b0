(** Argument reduction below 2^20 pi / 2: rp_medium. *)
From Coq Require Import ZArith Reals Bool List Lia Lra Psatz.
From Flocq Require Import Core.
From Verif Require Import Base BaseLemmas FloatModel FloatSpec LibmModel LibmSpec FloatConvSpec FloatErr PolyBound ElemModel ElemSpec TrigModel F64Lib ExpProofs3 ExpProofs4 ExpProofs7 ExpProofs8 LogProofs2 TrigPi TrigDist TrigRed TrigRed2 TrigRed3.
Import ListNotations.
Open Scope Z_scope.

Definition tny : R := bpow radix2 (-1075).
Lemma tny_le b : (bpow radix2 (-1000) <= b -> 0 < tny <= / 100 * (e53 * b))%R.
Proof.
  intros H. split; [apply bpow_gt_0|]. unfold tny. replace (-1075) with (-7 + -53 + -15 + -1000) by lia. rewrite !bpow_plus. fold e53. change (bpow radix2 (-7)) with (/ 128)%R. change (bpow radix2 (-15)) with (/ 32768)%R.
  pose proof e53_bounds. pose proof (bpow_gt_0 radix2 (-1000)). assert (e53 * bpow radix2 (-1000) <= e53 * b)%R by (apply Rmult_le_compat_l; lra). assert (0 < e53 * bpow radix2 (-1000))%R by (apply Rmult_lt_0_compat; lra). lra.
Qed.
Lemma abs_le_add a b : (Rabs a <= Rabs b + Rabs (a - b))%R.
Proof. replace a with (b + (a - b))%R at 1 by ring. apply Rabs_triang. Qed.

(** The error of a refinement, in real terms *)
Lemma refine_err th T W Qr Q Rv W' b (u := e53) : (bpow radix2 (-1000) <= b)%R -> (Rabs Qr <= b)%R -> (Rabs (Q - Qr) <= u * Rabs Qr + tny)%R -> (Rabs (th - (T - W - Qr)) <= u * b)%R ->
  (Rabs (T - W - Rv) <= u * Rabs (T - W))%R -> (Rabs (W' - (Q - (T - W - Rv))) <= u * (Rabs Q + Rabs (T - W - Rv)) + tny)%R ->
  (Rabs (T - W - Rv) <= 2 * u * Rabs Rv)%R /\ (Rabs W' <= 2 * b + 4 * u * Rabs Rv)%R /\ (Rabs (th - (Rv - W')) <= 4 * (u * b) + 4 * (u * (u * Rabs Rv)))%R.
Proof.
  intros Hb H1 H2 H3 H4 H5. pose proof (tny_le b Hb) as Ht. pose proof e53_bounds as [u0 u1]. change e53 with u in Ht, u0, u1. clearbody u. pose proof (bpow_gt_0 radix2 (-1000)) as b0.
  set (D := (T - W - Rv)%R) in *.
  assert (H6 : (Rabs (T - W) <= Rabs Rv + Rabs D)%R) by (pose proof (abs_le_add (T - W) Rv) as Q0; replace (T - W - Rv)%R with D in Q0 by reflexivity; exact Q0).
  pose proof (Rabs_pos D) as D0. pose proof (Rabs_pos Rv) as R0. pose proof (Rabs_pos Qr) as Q0.
  assert (HD : (Rabs D <= 2 * (u * Rabs Rv))%R).
  { assert (u * Rabs (T - W) <= u * Rabs Rv + u * Rabs D)%R by (rewrite <- Rmult_plus_distr_l; apply Rmult_le_compat_l; lra). assert (u * Rabs D <= / 2 * Rabs D)%R by (apply Rmult_le_compat_r; lra). lra. }
  assert (ub : (0 < u * b <= / 1000 * b)%R) by (split; [apply Rmult_lt_0_compat; lra|apply Rmult_le_compat_r; lra]).
  assert (uQ : (u * Rabs Qr <= u * b)%R) by (apply Rmult_le_compat_l; lra).
  assert (HQ : (Rabs Q <= 1.01 * b)%R) by (pose proof (abs_le_add Q Qr); lra).
  assert (uR : (0 <= u * Rabs Rv)%R) by (apply Rmult_le_pos; lra).
  assert (uD : (u * Rabs D <= 2 * (u * (u * Rabs Rv)))%R) by (replace (2 * (u * (u * Rabs Rv)))%R with (u * (2 * (u * Rabs Rv)))%R by ring; apply Rmult_le_compat_l; lra).
  assert (uq : (u * Rabs Q <= 1.01 * (u * b))%R) by (replace (1.01 * (u * b))%R with (u * (1.01 * b))%R by ring; apply Rmult_le_compat_l; lra).
  assert (uuR : (0 <= u * (u * Rabs Rv) <= / 1000 * (u * Rabs Rv))%R) by (split; [apply Rmult_le_pos; lra|apply Rmult_le_compat_r; lra]).
  rewrite Rmult_plus_distr_l in H5.
  split; [lra|]. split.
  - pose proof (abs_le_add W' (Q - D)). assert (Rabs (Q - D) <= Rabs Q + Rabs D)%R by (unfold Rminus; eapply Rle_trans; [apply Rabs_triang|rewrite Rabs_Ropp; lra]). lra.
  - replace (th - (Rv - W'))%R with ((th - (T - W - Qr)) + (W' - (Q - D)) + (Q - Qr))%R by (unfold D; ring).
    eapply Rle_trans; [apply Rabs_triang|]. eapply Rle_trans; [apply Rplus_le_compat_r, Rabs_triang|]. lra.
Qed.

Section Medium.
Context (o : fops) (Ho : ieee_ops F64 o) (c : icast) (Hc : icast_ok c).

Lemma accept X n r w b (Rv := value F64 r) (W := value F64 w) (y0 := o_sub o r w) : good r -> good w -> Z.abs n <= 2 ^ 30 -> (Rabs (X - IZR n * (PI / 2)) <= 0.7855)%R ->
  (0 <= b)%R -> (Rabs W <= 2 * b + 4 * e53 * Rabs Rv)%R -> (Rabs (X - IZR n * (PI / 2) - (Rv - W)) <= 4 * (e53 * b) + 4 * (e53 * (e53 * Rabs Rv)))%R ->
  (bpow radix2 (-68) <= Rabs Rv)%R -> (Rabs Rv <= 4)%R -> (b <= bpow radix2 (-14) * Rabs Rv)%R ->
  reduced X n y0 (o_sub o (o_sub o r y0) w).
Proof using Ho.
  intros Gr Gw Hn HT Hb HW HE R1 R2 HbR. pose proof e53_bounds as [u0 u1]. set (q := bpow radix2 (-14)) in *. assert (Eq : q = (/ 16384)%R) by reflexivity. rewrite Eq in HbR. clear q Eq.
  pose proof (Rabs_pos Rv) as R0.
  assert (uR : (e53 * Rabs Rv <= / 1000 * Rabs Rv)%R) by (apply Rmult_le_compat_r; lra).
  assert (W4 : (Rabs W <= Rabs Rv / 4)%R) by lra.
  assert (R100 : (bpow radix2 (-100) <= Rabs Rv)%R) by (eapply Rle_trans; [|exact R1]; apply bpow_le; lia).
  destruct (pair_sub o Ho r w Gr Gw R100 R2 W4) as (G0 & G1 & PR).
  refine (reduced_of o _ _ _ _ _ _ Hn G0 G1 PR R1 R2 HT _). eapply Rle_trans; [exact HE|]. fold Rv.
  replace (bpow radix2 (-64)) with (e53 * bpow radix2 (-11))%R by (unfold e53; rewrite <- bpow_plus; reflexivity). change (bpow radix2 (-11)) with (/ 2048)%R.
  assert (e53 * b <= e53 * (/ 16384 * Rabs Rv))%R by (apply Rmult_le_compat_l; [lra|exact HbR]).
  assert (e53 * (e53 * Rabs Rv) <= e53 * (/ 100000 * Rabs Rv))%R by (apply Rmult_le_compat_l; [lra|apply Rmult_le_compat_r; lra]). assert (0 <= e53 * Rabs Rv)%R by (apply Rmult_le_pos; lra). lra.
Qed.

(** The nearest multiple *)
Lemma value_INV : (Rabs (value F64 INV_PIO2 - tau) <= bpow radix2 (-53))%R.
Proof.
  replace (value F64 INV_PIO2) with (fx 1584 (0x145f306dc9c883 * 2 ^ 1531)) by (symmetry; apply (kb_val 1584); vm_compute; reflexivity).
  pose proof table_ok as [A B]. replace (bpow radix2 (-53)) with (fx 1584 (2 ^ 1531)) by (rewrite fx_pow by lia; reflexivity).
  assert (C1 : (fx 1584 (0x145f306dc9c883 * 2 ^ 1531) - fx 1584 (2 ^ 1531) <= fx 1584 TWO_PI)%R) by (rewrite <- fx_sub; apply fx_le; vm_compute; discriminate).
  assert (C2 : (fx 1584 (TWO_PI + 1) <= fx 1584 (0x145f306dc9c883 * 2 ^ 1531) + fx 1584 (2 ^ 1531))%R) by (rewrite <- fx_add; apply fx_le; vm_compute; discriminate).
  apply Rabs_le. lra.
Qed.
Lemma good_INV : good INV_PIO2. Proof. const_good. Qed.
Lemma good_TO : good TO_INT. Proof. const_good. Qed.
Lemma value_TO : value F64 TO_INT = (IZR 6755399441055744)%R. Proof. rewrite (kb_val 0 TO_INT 6755399441055744 eq_refl). unfold fx. cbn [bpow Z.opp]. ring. Qed.
Lemma toi_int x k : good x -> value F64 x = IZR k -> - 2 ^ 31 <= k < 2 ^ 31 -> c_toi c x = k.
Proof using Hc.
  intros [F N] V Hk. destruct (cast_toi c Hc x F) as (_ & _ & K). specialize (K N). rewrite K, V, Ztrunc_IZR. unfold clamp; cbn; lia.
Qed.
Lemma medium_n x (X := value F64 x) (fn := o_sub o (o_add o (o_mul o x INV_PIO2) TO_INT) TO_INT) : good x -> (0.785 <= Rabs X <= 1647100)%R ->
  exists N, good fn /\ value F64 fn = IZR N /\ c_toi c fn = N /\ (Rabs (X - IZR N * (PI / 2)) <= 0.7855)%R /\ (Rabs (IZR N) <= 1.28 * Rabs X)%R /\ Z.abs N <= 1048580.
Proof using Ho Hc.
  intros Gx HX. pose proof value_INV as VI. fold e53 in VI. pose proof e53_bounds as [u0 u1]. pose proof pi_num as PN. pose proof tau_pi as TP.
  assert (TN : (0.6366 <= tau <= 0.6367)%R) by nra.
  set (I := value F64 INV_PIO2) in *. apply Rabs_le_inv in VI.
  assert (XI : (Rabs (X * I) <= 2097152)%R) by (rewrite Rabs_mult, (Rabs_pos_eq I) by lra; nra).
  assert (B100 : forall v, (Rabs v <= 9007199254740992 -> Rabs v <= bpow radix2 100)%R) by (intros v Hv; apply (big_le v 53); [lia|exact Hv]).
  destruct (mul64 o Ho x INV_PIO2 Gx good_INV) as [G1 V1]; [apply B100; fold X I; lra|]. fold X I in V1. set (p := o_mul o x INV_PIO2) in *.
  assert (E1 : (Rabs (value F64 p - X * I) <= / 1000000000)%R).
  { rewrite V1. eapply Rle_trans; [apply (rne_error64 22); [change (bpow radix2 22) with 4194304%R; lra|lia]|]. change (bpow radix2 (22 - 54)) with (/ 4294967296)%R. lra. }
  assert (E2 : (Rabs (X * I - X * tau) <= / 100000000)%R).
  { rewrite <- Rmult_minus_distr_l, Rabs_mult. apply Rle_trans with (1647100 * / 1000000000000000)%R; [|lra]. apply Rmult_le_compat; try apply Rabs_pos; [lra|apply Rabs_le; lra]. }
  apply Rabs_le_inv in XI, E1, E2. set (P := value F64 p) in *.
  destruct (add64 o Ho p TO_INT G1 good_TO) as [G2 V2]; [apply B100; rewrite value_TO; fold P; apply Rabs_le; lra|]. rewrite value_TO in V2. fold P in V2. set (t := o_add o p TO_INT) in *.
  assert (E3 : (Rabs (value F64 t - (P + 6755399441055744)) <= / 2)%R).
  { rewrite V2. eapply Rle_trans; [apply (rne_error64 53); [change (bpow radix2 53) with 9007199254740992%R; apply Rabs_lt; lra|lia]|]. change (bpow radix2 (53 - 54)) with (/ 2)%R. lra. }
  apply Rabs_le_inv in E3. set (T := value F64 t) in *.
  assert (GT : grid 0 T).
  { assert (Q := grid64 t 52 G2). change (52 - 52) with 0 in Q. apply Q. fold T. change (bpow radix2 52) with 4503599627370496%R. rewrite Rabs_pos_eq; lra. }
  destruct (sub64 o Ho t TO_INT G2 good_TO) as [G3 V3]; [apply B100; rewrite value_TO; fold T; apply Rabs_le; lra|]. rewrite value_TO in V3. fold T fn in V3, G3.
  rewrite (grid_exact 0) in V3; [|lia|apply grid_sub; [exact GT|apply grid_IZR]|change (bpow radix2 (0 + 53)) with 9007199254740992%R; apply Rabs_le; lra].
  destruct GT as (m & Em). change (bpow radix2 0) with 1%R in Em. rewrite Rmult_1_r in Em. exists (m - 6755399441055744). rewrite Em, <- minus_IZR in V3. set (N := m - 6755399441055744) in *.
  assert (EN : (Rabs (IZR N - X * tau) <= 0.50001)%R) by (unfold N; rewrite minus_IZR, <- Em; apply Rabs_le; lra).
  assert (XT : (Rabs (X * tau) = Rabs X * tau)%R) by (rewrite Rabs_mult, (Rabs_pos_eq tau) by lra; reflexivity).
  assert (AN : (Rabs (IZR N) <= Rabs X * tau + 0.50001)%R) by (pose proof (abs_le_add (IZR N) (X * tau)); lra).
  assert (NB : Z.abs N <= 1048580). { assert (Z.abs N < 1048581); [|lia]. apply lt_IZR. rewrite abs_IZR. apply Rle_lt_trans with (1647100 * tau + 0.50001)%R; [nra|]. 
    assert (1647100 * tau <= 1048579)%R; [|lra]. assert (1647100 <= 1048579 * (PI / 2))%R by lra. apply Rmult_le_reg_r with (PI / 2)%R; [lra|]. rewrite Rmult_assoc, TP. lra. }
  split; [exact G3|]. split; [exact V3|]. split; [apply toi_int; [exact G3|exact V3|lia]|]. split; [|split; [|exact NB]].
  - replace (X - IZR N * (PI / 2))%R with (- (IZR N - X * tau) * (PI / 2))%R by (rewrite Ropp_mult_distr_l_reverse, Rmult_minus_distr_r, Rmult_assoc, TP; ring).
    rewrite Rabs_mult, Rabs_Ropp, (Rabs_pos_eq (PI / 2)) by lra. nra.
  - assert (Rabs X * tau <= Rabs X * 0.6367)%R by (apply Rmult_le_compat_l; lra). lra.
Qed.

(** A product with one of the tails *)
Lemma tail_mul fn N p k (P := value F64 p) b : good fn -> value F64 fn = IZR N -> Z.abs N <= 1048580 -> good p -> (0 <= k <= 120)%Z -> (Rabs P <= bpow radix2 (- k))%R -> (Rabs (IZR N) * bpow radix2 (- k) <= b)%R ->
  good (o_mul o fn p) /\ (Rabs (value F64 (o_mul o fn p) - IZR N * P) <= e53 * Rabs (IZR N * P) + tny)%R /\ (Rabs (IZR N * P) <= b)%R.
Proof using Ho.
  intros Gf Vf HN Gp Hk HP Hb.
  assert (A : (Rabs (IZR N * P) <= Rabs (IZR N) * bpow radix2 (- k))%R) by (rewrite Rabs_mult; apply Rmult_le_compat_l; [apply Rabs_pos|exact HP]).
  assert (NA : (Rabs (IZR N) <= 1048580)%R) by (rewrite <- abs_IZR; apply IZR_le, HN).
  assert (K1 : (bpow radix2 (- k) <= 1)%R) by (change 1%R with (bpow radix2 0); apply bpow_le; lia).
  destruct (mul64 o Ho fn p Gf Gp) as [G V].
  { rewrite Vf. fold P. apply (big_le _ 21); [lia|]. change (bpow radix2 21) with 2097152%R. pose proof (Rabs_pos (IZR N)). pose proof (bpow_gt_0 radix2 (- k)). nra. }
  split; [exact G|]. split; [|lra]. rewrite V, Vf. apply rne_abs.
Qed.
(** An exact product *)
Lemma exact_mul fn N p g m : good fn -> value F64 fn = IZR N -> Z.abs N <= 1048580 -> good p -> value F64 p = (IZR m * bpow radix2 g)%R -> 0 <= m < 2 ^ 32 -> -1000 <= g <= 0 ->
  good (o_mul o fn p) /\ value F64 (o_mul o fn p) = (IZR N * value F64 p)%R /\ grid g (IZR N * value F64 p) /\ (Rabs (IZR N * value F64 p) <= bpow radix2 (g + 53))%R.
Proof using Ho.
  intros Gf Vf HN Gp Vp Hm Hg.
  assert (A : (Rabs (IZR N * value F64 p) <= bpow radix2 (g + 53))%R).
  { rewrite Vp, <- Rmult_assoc, <- mult_IZR, Rabs_mult, (Rabs_pos_eq (bpow radix2 g)) by apply bpow_ge_0. rewrite Z.add_comm, bpow_plus. apply Rmult_le_compat_r; [apply bpow_ge_0|].
    rewrite <- abs_IZR. change (bpow radix2 53) with (IZR (2 ^ 53)). apply IZR_le. rewrite Z.abs_mul. rewrite (Z.abs_eq m) by lia. nia. }
  assert (G0 : grid g (IZR N * value F64 p)) by (apply grid_mulz; rewrite Vp; eexists; reflexivity).
  destruct (mul64 o Ho fn p Gf Gp) as [G V]; [rewrite Vf; apply (big_le _ 53); [lia|]; eapply Rle_trans; [exact A|apply bpow_le; lia]|].
  rewrite Vf, (grid_exact g) in V; [|lia|exact G0|exact A]. tauto.
Qed.
Lemma rne_half v L : (bpow radix2 (-1000) <= L)%R -> (L <= Rabs (rne F64 v))%R -> (0.99 * L <= Rabs v)%R.
Proof using.
  clear. intros HL H. pose proof (rne_abs v) as E. fold e53 tny in E. pose proof (abs_le_add (rne F64 v) v). pose proof e53_bounds. pose proof (tny_le L HL) as [t0 t1]. pose proof (bpow_gt_0 radix2 (-1000)).
  assert (e53 * Rabs v <= / 1000 * Rabs v)%R by (apply Rmult_le_compat_r; [apply Rabs_pos|lra]). assert (e53 * L <= / 1000 * L)%R by (apply Rmult_le_compat_r; lra). lra.
Qed.
Lemma rne_double v L : (bpow radix2 (-1000) <= L)%R -> (Rabs (rne F64 v) <= L)%R -> (Rabs v <= 2 * L)%R.
Proof using.
  clear. intros HL H. pose proof (rne_abs v) as E. fold e53 tny in E. pose proof (abs_le_add v (rne F64 v)) as Q. rewrite Rabs_minus_sym in Q. pose proof e53_bounds. pose proof (tny_le L HL) as [t0 t1]. pose proof (bpow_gt_0 radix2 (-1000)).
  assert (e53 * Rabs v <= / 1000 * Rabs v)%R by (apply Rmult_le_compat_r; [apply Rabs_pos|lra]). assert (e53 * L <= / 1000 * L)%R by (apply Rmult_le_compat_r; lra). lra.
Qed.

Lemma lower_R Rv W b L : (0 <= b)%R -> (Rabs W <= 2 * b + 4 * e53 * Rabs Rv)%R -> (0.99 * L <= Rabs (Rv - W))%R -> (b <= / 1000 * L)%R -> (0.98 * L <= Rabs Rv)%R.
Proof using.
  clear. intros Hb HW HL HbL. pose proof e53_bounds. pose proof (Rabs_pos Rv). assert (e53 * Rabs Rv <= / 100000 * Rabs Rv)%R by (apply Rmult_le_compat_r; lra).
  assert (Rabs (Rv - W) <= Rabs Rv + Rabs W)%R by (unfold Rminus; eapply Rle_trans; [apply Rabs_triang|rewrite Rabs_Ropp; lra]). lra.
Qed.
Lemma rp_medium_ok s n (x := mk64 s n) : 0x3fe921fc00000000 <= n < 0x413921fb00000000 ->
  exists k y0 y1, rp_medium o c x (n / 2 ^ 32) = Ok (k, y0, y1) /\ reduced (value F64 x) k y0 y1.
Proof using Ho Hc.
  intros Hn. assert (Gx : good x) by (apply good64; lia). set (X := value F64 x).
  assert (RX : Rabs X = mag64 n) by (unfold X, x; apply Rabs64; lia).
  assert (BX : (0.785 <= Rabs X <= 1647100)%R).
  { rewrite RX. split.
    - apply Rle_trans with (fx 19 0x6487f); [unfold fx; change (bpow radix2 (- (19))) with (/ 524288)%R; lra|]. apply (mag_ge 0x3fe921fc00000000); [vm_compute; reflexivity|lia|lia].
    - apply Rlt_le, Rlt_le_trans with (fx 0 0x1921fb); [|unfold fx; cbn [bpow Z.opp]; lra]. apply (mag_lt 0x413921fb00000000); [vm_compute; reflexivity|lia|lia]. }
  destruct (medium_n x Gx BX) as (N & Gf & Vf & TN & TH & NX & NB). fold X in TH, NX. unfold rp_medium. rewrite TN. set (fn := o_sub o (o_add o (o_mul o x INV_PIO2) TO_INT) TO_INT) in *. clearbody fn.
  set (th := (X - IZR N * (PI / 2))%R) in *. set (A := Rabs X) in *.
  pose proof pi_num as PN. pose proof P1_num as PB. pose proof P1T_num as PT. pose proof e53_bounds as [u0 u1].
  assert (NA : (Rabs (IZR N) <= 1048580)%R) by (rewrite <- abs_IZR; apply IZR_le, NB).
  assert (N0 : (0 <= Rabs (IZR N))%R) by apply Rabs_pos.
  assert (NN : Z.abs N <= 2 ^ 30) by lia.
  assert (bp : forall k, (0 < bpow radix2 k)%R) by (intros; apply bpow_gt_0).
  assert (mA : forall k, -999 <= k -> (bpow radix2 (-1000) <= 1.28 * A * bpow radix2 k)%R).
  { intros k Hk. apply Rle_trans with (bpow radix2 k); [apply bpow_le; lia|]. pose proof (bp k). nra. }
  (* first round *)
  destruct (exact_mul fn N PIO2_1 (-30) _ Gf Vf NB good_P1 value_P1 ltac:(lia) ltac:(lia)) as (Ga & Va & Ra & Ba). set (p1 := o_mul o fn PIO2_1) in *.
  assert (R1 : (Rabs (X - IZR N * value F64 PIO2_1) <= 0.7857)%R).
  { replace (X - IZR N * value F64 PIO2_1)%R with (th + IZR N * (PI / 2 - value F64 PIO2_1))%R by (unfold th; ring). eapply Rle_trans; [apply Rabs_triang|]. rewrite Rabs_mult, (Rabs_pos_eq (PI / 2 - _)) by lra. nra. }
  assert (GX : grid (-53) X) by (assert (Q := grid64 x (-1) Gx); apply Q; change (bpow radix2 (-1)) with (/ 2)%R; fold X A; lra).
  assert (G1 : grid (-53) (X - IZR N * value F64 PIO2_1)) by (apply grid_sub; [exact GX|apply (grid_le (-30)); [lia|exact Ra]]).
  destruct (sub64 o Ho x p1 Gx Ga) as [Gr Vr]; [rewrite Va; fold X; apply (big_le _ 0); [lia|change (bpow radix2 0) with 1%R; lra]|]. rewrite Va in Vr. fold X in Vr.
  rewrite (grid_exact (-53)) in Vr; [|lia|exact G1|change (bpow radix2 (-53 + 53)) with 1%R; lra]. set (r1 := o_sub o x p1) in *.
  set (b1 := (1.28 * A * bpow radix2 (-33))%R).
  assert (T33 : (Rabs (value F64 PIO2_1T) <= bpow radix2 (-33))%R) by (change (bpow radix2 (-33)) with (/ 8589934592)%R; rewrite Rabs_pos_eq; lra).
  assert (bb : forall k, (Rabs (IZR N) * bpow radix2 k <= 1.28 * A * bpow radix2 k)%R) by (intros k; apply Rmult_le_compat_r; [apply Rlt_le, bp|exact NX]).
  destruct (tail_mul fn N PIO2_1T 33 b1 Gf Vf NB good_P1T ltac:(lia) T33 (bb (-33))) as (Gw & Ew & Bw). set (w1 := o_mul o fn PIO2_1T) in *.
  assert (M1 := mA (-33) ltac:(lia)). fold b1 in M1. pose proof (tny_le b1 M1) as [t0 t1].
  assert (W1 : (Rabs (value F64 w1) <= 2 * b1 + 4 * e53 * Rabs (value F64 r1))%R).
  { pose proof (abs_le_add (value F64 w1) (IZR N * value F64 PIO2_1T)). assert (e53 * Rabs (IZR N * value F64 PIO2_1T) <= / 1000 * b1)%R by (apply Rmult_le_compat; lra || apply Rabs_pos).
    assert (0 <= e53 * Rabs (value F64 r1))%R by (apply Rmult_le_pos; [lra|apply Rabs_pos]). assert (e53 * b1 <= / 1000 * b1)%R by (apply Rmult_le_compat_r; [unfold b1; pose proof (bp (-33)); nra|lra]). unfold b1 in *. pose proof (bp (-33)). assert (0 < 1.28 * A * bpow radix2 (-33))%R by nra. lra. }
  assert (E1 : (Rabs (th - (value F64 r1 - value F64 w1)) <= 4 * (e53 * b1) + 4 * (e53 * (e53 * Rabs (value F64 r1))))%R).
  { replace (th - (value F64 r1 - value F64 w1))%R with ((value F64 w1 - IZR N * value F64 PIO2_1T) - IZR N * (PI / 2 - (value F64 PIO2_1 + value F64 PIO2_1T)))%R by (rewrite Vr; unfold th; ring).
    unfold Rminus at 1. eapply Rle_trans; [apply Rabs_triang|]. rewrite Rabs_Ropp, (Rabs_mult (IZR N)). pose proof pi_split1 as PS.
    assert (Rabs (IZR N) * Rabs (PI / 2 - (value F64 PIO2_1 + value F64 PIO2_1T)) <= e53 * b1)%R.
    { apply Rle_trans with (Rabs (IZR N) * bpow radix2 (-86))%R; [apply Rmult_le_compat_l; [exact N0|eapply Rle_trans; [exact PS|apply bpow_le; lia]]|]. eapply Rle_trans; [apply bb|]. unfold b1, e53. replace (-86) with (-53 + -33) by lia. rewrite bpow_plus. lra. }
    assert (e53 * Rabs (IZR N * value F64 PIO2_1T) <= e53 * b1)%R by (apply Rmult_le_compat_l; lra).
    assert (0 <= e53 * (e53 * Rabs (value F64 r1)))%R by (repeat apply Rmult_le_pos; lra || apply Rabs_pos). lra. }
  destruct (sub64 o Ho r1 w1 Gr Gw) as [Gy Vy].
  { apply (big_le _ 3); [lia|]. change (bpow radix2 3) with 8%R. unfold Rminus. eapply Rle_trans; [apply Rabs_triang|]. rewrite Rabs_Ropp, Vr in *. assert (b1 <= 1)%R by (unfold b1; change (bpow radix2 (-33)) with (/ 8589934592)%R; lra). nra. }
  destruct (exp_test s n _ 16 Gy ltac:(lia) ltac:(lia)) as (d & Ed & Td). change (mk64 s n) with x in Td. fold X A in Td. rewrite Ed. cbn [bind]. clear Ed.
  destruct (16 <? d) eqn:D1.
  2:{ eexists _, _, _. split; [reflexivity|]. rewrite Vy in Td. change (- (16 + 1)) with (-17) in Td. apply rne_half in Td; [|apply Rle_trans with (bpow radix2 (-18)); [apply bpow_le; lia|change (-18) with (-1 + -17); rewrite bpow_plus; change (bpow radix2 (-1)) with (/ 2)%R; pose proof (bp (-17)); nra]].
    assert (B1 : (0 <= b1 <= / 1000 * (bpow radix2 (-17) * A))%R) by (unfold b1; change (bpow radix2 (-33)) with (/ 8589934592)%R; change (bpow radix2 (-17)) with (/ 131072)%R; lra).
    pose proof (lower_R _ _ b1 _ (proj1 B1) W1 Td (proj2 B1)) as LR. change (bpow radix2 (-17)) with (/ 131072)%R in LR.
    refine (accept X N r1 w1 b1 Gr Gw NN TH (proj1 B1) W1 E1 _ _ _).
    - apply Rle_trans with (bpow radix2 (-18)); [apply bpow_le; lia|change (bpow radix2 (-18)) with (/ 262144)%R; lra].
    - rewrite Vr. lra.
    - unfold b1. change (bpow radix2 (-33)) with (/ 8589934592)%R. change (bpow radix2 (-14)) with (/ 16384)%R. lra. }
  (* second round *)
  clear E1 W1 Td Gy Vy M1 t0 t1. clear w1 Gw Ew Bw b1.
  destruct (exact_mul fn N PIO2_2 (-65) _ Gf Vf NB good_P2 value_P2 ltac:(lia) ltac:(lia)) as (Gb & Vb & Rb & _). set (w2 := o_mul o fn PIO2_2) in *.
  assert (B2 : (Rabs (value F64 w2) <= bpow radix2 (-65 + 52))%R).
  { rewrite Vb, Rabs_mult. change (bpow radix2 (-65 + 52)) with (/ 8192)%R. rewrite value_P2, Rabs_mult, (Rabs_pos_eq (bpow radix2 (-65))), (Rabs_pos_eq 2242054355) by (lra || apply bpow_ge_0).
    change (-65) with (-35 + -30). rewrite bpow_plus. change (bpow radix2 (-35)) with (/ 34359738368)%R. change (bpow radix2 (-30)) with (/ 1073741824)%R. lra. }
  assert (T68 : (Rabs (value F64 PIO2_2T) <= bpow radix2 (-68))%R).
  { rewrite value_P2T, Rabs_mult, (Rabs_pos_eq (bpow radix2 (-121))) by apply bpow_ge_0. change (-68) with (53 + -121). rewrite bpow_plus. apply Rmult_le_compat_r; [apply bpow_ge_0|]. change (bpow radix2 53) with 9007199254740992%R. rewrite Rabs_pos_eq; lra. }
  set (b2 := (1.28 * A * bpow radix2 (-68))%R).
  destruct (tail_mul fn N PIO2_2T 68 b2 Gf Vf NB good_P2T ltac:(lia) T68 (bb (-68))) as (Gw & Ew & Bw). set (q2 := o_mul o fn PIO2_2T) in *.
  assert (M2 := mA (-68) ltac:(lia)). fold b2 in M2. pose proof (tny_le b2 M2) as [t0 t1].
  assert (b2s : (b2 <= / 10000000000)%R) by (unfold b2; apply Rle_trans with (1.28 * 1647100 * bpow radix2 (-68))%R; [apply Rmult_le_compat_r; [apply bpow_ge_0|lra]|]; change (-68) with (-8 + -60); rewrite bpow_plus; pose proof (small64 (-60) ltac:(lia)); change (bpow radix2 (-8)) with (/ 256)%R; lra).
  assert (b20 : (0 < b2)%R) by (pose proof (bp (-1000)); lra).
  assert (ub2 : (0 < e53 * b2 <= / 1000 * b2)%R) by (split; [apply Rmult_lt_0_compat; lra|apply Rmult_le_compat_r; lra]).
  assert (Q2 : (Rabs (value F64 q2) <= 1)%R).
  { pose proof (abs_le_add (value F64 q2) (IZR N * value F64 PIO2_2T)). assert (e53 * Rabs (IZR N * value F64 PIO2_2T) <= e53 * b2)%R by (apply Rmult_le_compat_l; lra). lra. }
  destruct (refine o Ho r1 w2 q2 (-65) Gr Gb Gw ltac:(lia)) as (Gr2 & Gw2 & Vr2 & A2 & C2); [rewrite Vr; apply (grid_le (-53)); [lia|exact G1]|rewrite Vb; exact Rb|rewrite Vr; lra|exact B2|exact Q2|].
  fold tny in C2. set (r2 := o_sub o r1 w2) in *. set (w2' := o_sub o q2 (o_sub o (o_sub o r1 r2) w2)) in *.
  assert (S2 : (Rabs (th - (value F64 r1 - value F64 w2 - IZR N * value F64 PIO2_2T)) <= e53 * b2)%R).
  { replace (th - (value F64 r1 - value F64 w2 - IZR N * value F64 PIO2_2T))%R with (- (IZR N * (PI / 2 - (value F64 PIO2_1 + value F64 PIO2_2 + value F64 PIO2_2T))))%R by (rewrite Vr, Vb; unfold th; ring).
    rewrite Rabs_Ropp, Rabs_mult. apply Rle_trans with (Rabs (IZR N) * bpow radix2 (-121))%R; [apply Rmult_le_compat_l; [exact N0|exact pi_split2]|]. eapply Rle_trans; [apply bb|]. unfold b2, e53. change (-121) with (-53 + -68). rewrite bpow_plus. lra. }
  destruct (refine_err th _ _ _ _ _ _ b2 M2 Bw Ew S2 A2 C2) as (D2 & W2 & E2).
  assert (R2a : (Rabs (value F64 r1 - value F64 w2) <= 1)%R).
  { unfold Rminus. eapply Rle_trans; [apply Rabs_triang|]. rewrite Rabs_Ropp, Vr. change (bpow radix2 (-65 + 52)) with (/ 8192)%R in B2. lra. }
  assert (R2b : (Rabs (value F64 r2) <= 2)%R).
  { pose proof (abs_le_add (value F64 r2) (value F64 r1 - value F64 w2)) as Q. rewrite (Rabs_minus_sym (value F64 r2)) in Q. assert (e53 * Rabs (value F64 r1 - value F64 w2) <= / 1000 * 1)%R by (apply Rmult_le_compat; lra || apply Rabs_pos). lra. }
  destruct (sub64 o Ho r2 w2' Gr2 Gw2) as [Gy Vy].
  { apply (big_le _ 3); [lia|]. change (bpow radix2 3) with 8%R. unfold Rminus. eapply Rle_trans; [apply Rabs_triang|]. rewrite Rabs_Ropp. assert (e53 * Rabs (value F64 r2) <= / 1000 * 2)%R by (apply Rmult_le_compat; lra || apply Rabs_pos). lra. }
  destruct (exp_test s n _ 49 Gy ltac:(lia) ltac:(lia)) as (d2 & Ed & Td). change (mk64 s n) with x in Td. fold X A in Td. rewrite Ed. cbn [bind]. clear Ed.
  destruct (49 <? d2) eqn:D3.
  2:{ eexists _, _, _. split; [reflexivity|]. rewrite Vy in Td. change (- (49 + 1)) with (-50) in Td. apply rne_half in Td; [|apply Rle_trans with (bpow radix2 (-51)); [apply bpow_le; lia|change (-51) with (-1 + -50); rewrite bpow_plus; change (bpow radix2 (-1)) with (/ 2)%R; pose proof (bp (-50)); nra]].
    assert (e50 : bpow radix2 (-68) = (/ 262144 * bpow radix2 (-50))%R) by (change (/ 262144)%R with (bpow radix2 (-18)); rewrite <- bpow_plus; reflexivity).
    set (z := bpow radix2 (-50)) in *. assert (z0 : (0 < z)%R) by apply bpow_gt_0. assert (zA : (0 < z * A)%R) by (apply Rmult_lt_0_compat; lra).
    assert (eb : b2 = (1.28 * / 262144 * (z * A))%R) by (unfold b2; rewrite e50; ring).
    assert (LR : (0.98 * (z * A) <= Rabs (value F64 r2))%R) by (refine (lower_R _ _ b2 _ _ W2 Td _); lra).
    refine (accept X N r2 w2' b2 Gr2 Gw2 NN TH _ W2 E2 _ _ _); [lra| |lra|].
    - apply Rle_trans with (bpow radix2 (-51)); [apply bpow_le; lia|]. change (-51) with (-1 + -50). rewrite bpow_plus. fold z. change (bpow radix2 (-1)) with (/ 2)%R. nra.
    - rewrite eb. change (bpow radix2 (-14)) with (/ 16384)%R. lra. }
  (* third round *)
  rewrite Vy in Td. change (- (49)) with (-49) in Td. apply rne_double in Td; [|apply Rle_trans with (bpow radix2 (-50)); [apply bpow_le; lia|change (-50) with (-1 + -49); rewrite bpow_plus; change (bpow radix2 (-1)) with (/ 2)%R; pose proof (bp (-49)); nra]].
  assert (R2c : (Rabs (value F64 r2) <= / 100000)%R).
  { assert (bpow radix2 (-49) * A <= / 100000000)%R by (change (bpow radix2 (-49)) with (/ 562949953421312)%R; lra).
    assert (e53 * Rabs (value F64 r2) <= / 1000 * Rabs (value F64 r2))%R by (apply Rmult_le_compat_r; [apply Rabs_pos|lra]).
    pose proof (abs_le_add (value F64 r2) (value F64 r2 - value F64 w2')) as Q. replace (value F64 r2 - (value F64 r2 - value F64 w2'))%R with (value F64 w2') in Q by ring. lra. }
  assert (V2 : value F64 r2 = (value F64 r1 - value F64 w2)%R).
  { rewrite Vr2. apply (grid_exact (-65)); [lia|apply grid_sub; [rewrite Vr; apply (grid_le (-53)); [lia|exact G1]|rewrite Vb; exact Rb]|].
    change (bpow radix2 (-65 + 53)) with (/ 4096)%R. pose proof (abs_le_add (value F64 r1 - value F64 w2) (value F64 r2)). assert (e53 * Rabs (value F64 r2) <= / 1000 * Rabs (value F64 r2))%R by (apply Rmult_le_compat_r; [apply Rabs_pos|lra]). lra. }
  clear Td Gy Vy D2 W2 E2 A2 C2 S2.
  destruct (exact_mul fn N PIO2_3 (-96) _ Gf Vf NB good_P3 value_P3 ltac:(lia) ltac:(lia)) as (Gc & Vc & Rc & _). set (w3 := o_mul o fn PIO2_3) in *.
  assert (B3 : (Rabs (value F64 w3) <= bpow radix2 (-96 + 52))%R).
  { rewrite Vc, Rabs_mult. rewrite value_P3, Rabs_mult, (Rabs_pos_eq (bpow radix2 (-96))), (Rabs_pos_eq 160220439) by (lra || apply bpow_ge_0).
    rewrite Z.add_comm, bpow_plus. change (bpow radix2 52) with 4503599627370496%R. rewrite <- Rmult_assoc. apply Rmult_le_compat_r; [apply bpow_ge_0|lra]. }
  assert (T103 : (Rabs (value F64 PIO2_3T) <= bpow radix2 (-103))%R).
  { rewrite value_P3T, Rabs_mult, (Rabs_pos_eq (bpow radix2 (-156))) by apply bpow_ge_0. change (-103) with (53 + -156). rewrite bpow_plus. apply Rmult_le_compat_r; [apply bpow_ge_0|]. change (bpow radix2 53) with 9007199254740992%R. rewrite Rabs_pos_eq; lra. }
  set (b3 := (1.28 * A * bpow radix2 (-103))%R).
  destruct (tail_mul fn N PIO2_3T 103 b3 Gf Vf NB good_P3T ltac:(lia) T103 (bb (-103))) as (Gw3 & Ew3 & Bw3). set (q3 := o_mul o fn PIO2_3T) in *.
  assert (M3 := mA (-103) ltac:(lia)). fold b3 in M3. pose proof (tny_le b3 M3) as [t2 t3].
  assert (b3s : (b3 <= bpow radix2 (-81))%R).
  { unfold b3. change (-103) with (-22 + -81). rewrite bpow_plus. change (bpow radix2 (-22)) with (/ 4194304)%R. rewrite <- Rmult_assoc. rewrite <- (Rmult_1_l (bpow radix2 (-81))) at 2. apply Rmult_le_compat_r; [apply bpow_ge_0|lra]. }
  assert (s81 : (bpow radix2 (-81) <= / 100000 * bpow radix2 (-62))%R) by (change (-81) with (-19 + -62); rewrite bpow_plus; apply Rmult_le_compat_r; [apply bpow_ge_0|change (bpow radix2 (-19)) with (/ 524288)%R; lra]).
  assert (s62 : (0 < bpow radix2 (-62) <= / 1000000000000000)%R) by (split; [apply bp|apply small64; lia]).
  assert (b30 : (0 < b3)%R) by (pose proof (bp (-1000)); lra).
  assert (ub3 : (0 < e53 * b3 <= / 1000 * b3)%R) by (split; [apply Rmult_lt_0_compat; lra|apply Rmult_le_compat_r; lra]).
  assert (Q3 : (Rabs (value F64 q3) <= 1)%R).
  { pose proof (abs_le_add (value F64 q3) (IZR N * value F64 PIO2_3T)). assert (e53 * Rabs (IZR N * value F64 PIO2_3T) <= e53 * b3)%R by (apply Rmult_le_compat_l; lra). lra. }
  assert (R2d : (Rabs (value F64 r2) <= 1)%R) by lra.
  destruct (refine o Ho r2 w3 q3 (-96) Gr2 Gc Gw3 ltac:(lia)) as (Gr3 & Gw3' & Vr3 & A3 & C3); [|rewrite Vc; exact Rc|exact R2d|exact B3|exact Q3|].
  { rewrite V2. apply (grid_le (-65)); [lia|]. apply grid_sub; [rewrite Vr; apply (grid_le (-53)); [lia|exact G1]|rewrite Vb; exact Rb]. }
  fold tny in C3. set (r3 := o_sub o r2 w3) in *. set (w3' := o_sub o q3 (o_sub o (o_sub o r2 r3) w3)) in *.
  assert (S3 : (Rabs (th - (value F64 r2 - value F64 w3 - IZR N * value F64 PIO2_3T)) <= e53 * b3)%R).
  { replace (th - (value F64 r2 - value F64 w3 - IZR N * value F64 PIO2_3T))%R with (- (IZR N * (PI / 2 - (value F64 PIO2_1 + value F64 PIO2_2 + value F64 PIO2_3 + value F64 PIO2_3T))))%R by (rewrite V2, Vr, Vb, Vc; unfold th; ring).
    rewrite Rabs_Ropp, Rabs_mult. apply Rle_trans with (Rabs (IZR N) * bpow radix2 (-156))%R; [apply Rmult_le_compat_l; [exact N0|exact pi_split3]|]. eapply Rle_trans; [apply bb|]. unfold b3, e53. change (-156) with (-53 + -103). rewrite bpow_plus. lra. }
  destruct (refine_err th _ _ _ _ _ _ b3 M3 Bw3 Ew3 S3 A3 C3) as (_ & W3 & E3).
  assert (TL : (bpow radix2 (-62) <= Rabs th)%R).
  { unfold th, X, x. rewrite value64 by lia. destruct s.
    - replace (- mag64 n - IZR N * (PI / 2))%R with (- (mag64 n - IZR (- N) * (PI / 2)))%R by (rewrite opp_IZR; ring). rewrite Rabs_Ropp. apply dist_pi. lia.
    - apply dist_pi. lia. }
  set (Rv := value F64 r3) in *. set (W := value F64 w3') in *. pose proof (Rabs_pos Rv) as R0.
  assert (uR : (0 <= e53 * Rabs Rv <= / 100000 * Rabs Rv)%R) by (split; [apply Rmult_le_pos; lra|apply Rmult_le_compat_r; lra]).
  assert (uuR : (0 <= e53 * (e53 * Rabs Rv) <= / 1000 * (e53 * Rabs Rv))%R) by (split; [apply Rmult_le_pos; lra|apply Rmult_le_compat_r; lra]).
  assert (LR : (0.98 * bpow radix2 (-62) <= Rabs Rv)%R).
  { pose proof (abs_le_add th (Rv - W)). assert (Rabs (Rv - W) <= Rabs Rv + Rabs W)%R by (unfold Rminus; eapply Rle_trans; [apply Rabs_triang|rewrite Rabs_Ropp; lra]). lra. }
  assert (UR : (Rabs Rv <= 4)%R).
  { assert (bpow radix2 (-96 + 52) <= 1)%R by (change 1%R with (bpow radix2 0); apply bpow_le; lia).
    pose proof (abs_le_add Rv (value F64 r2 - value F64 w3)) as Q. rewrite (Rabs_minus_sym Rv) in Q. assert (Rabs (value F64 r2 - value F64 w3) <= 2)%R by (unfold Rminus; eapply Rle_trans; [apply Rabs_triang|rewrite Rabs_Ropp; lra]).
    assert (e53 * Rabs (value F64 r2 - value F64 w3) <= / 1000 * 2)%R by (apply Rmult_le_compat; lra || apply Rabs_pos). lra. }
  eexists _, _, _. split; [reflexivity|]. refine (accept X N r3 w3' b3 Gr3 Gw3' NN TH _ W3 E3 _ UR _); fold Rv.
  - lra.
  - apply Rle_trans with (bpow radix2 (-63)); [apply bpow_le; lia|]. change (-63) with (-1 + -62). rewrite bpow_plus. change (bpow radix2 (-1)) with (/ 2)%R. lra.
  - change (bpow radix2 (-14)) with (/ 16384)%R. lra.
Qed.
End Medium.
