(** rem_pio2_large: the summation of the products. *)
From Coq Require Import ZArith Reals Bool List Lia Lra Psatz.
From Flocq Require Import Core.
From Verif Require Import Base BaseLemmas FloatModel FloatSpec FloatProofs5 LibmModel LibmSpec LibmProps FloatConvSpec FloatErr PolyBound Elem ElemModel ElemSpec TrigModel F64Lib ExpProofs3 ExpProofs4 ExpProofs7 TrigDist TrigRed TrigRed3 TrigRed4 TrigLg.
Import ListNotations.
Open Scope Z_scope.

Lemma grid_rel2 g v : -1000 <= g -> grid g v -> (Rabs (rne F64 v - v) <= e53 * Rabs v)%R.
Proof.
  intros Hg (m & E). destruct (Z.eq_dec m 0) as [->|N].
  - rewrite E, Rmult_0_l. unfold rne. rewrite round_0; [rewrite Rminus_0_r, Rabs_R0; lra|exact (valid_rnd_N _)].
  - apply rne_rel. apply Rle_trans with (bpow radix2 g); [apply bpow_le; lia|]. rewrite E, Rabs_mult, (Rabs_pos_eq (bpow radix2 g)) by apply bpow_ge_0.
    assert (1 <= Rabs (IZR m))%R by (rewrite <- abs_IZR; apply IZR_le; lia). pose proof (bpow_gt_0 radix2 g). nra.
Qed.
Lemma two100 v : (Rabs v <= 1000 -> Rabs v <= bpow radix2 100)%R.
Proof. intros H. apply Rle_trans with (bpow radix2 10); [change (bpow radix2 10) with 1024%R; lra|apply bpow_le; lia]. Qed.

Section Trig.
Context (o : fops) (Ho : ieee_ops F64 o).
Context (jz gr h : Z) (fq : list Z) (a : Z -> R) (Hj : 4 <= jz <= 8) (Hg : -1000 <= gr) (Lf : len fq = 20)
  (Hv : forall d, 0 <= d <= jz -> good (el fq d) /\ value F64 (el fq d) = a d) (Hgr : forall d, 0 <= d <= jz -> grid gr (a d)) (Hpos : forall d, (0 <= a d)%R) (Hz : forall d, jz < d -> a d = 0%R)
  (Ha0 : (0 < a 0%Z <= 2)%R) (Ha1 : (a 1%Z <= 1.000001 * a 0%Z)%R) (Ha2 : forall d, 2 <= d -> (a d <= 1e-6 * a 0%Z)%R) (Hh : grid h (a 0%Z)) (Hh' : (a 0%Z <= bpow radix2 (h + 48))%R) (Hh0 : -900 <= h).
Fixpoint sumr (n : nat) : R := match n with O => 0%R | S n => (sumr n + a (Z.of_nat n))%R end.
Fixpoint wsum (n : nat) : R := match n with O => 0%R | S n => (wsum n + (INR n + 1) * a (Z.of_nat n))%R end.
Lemma sumr_mono n m : (n <= m)%nat -> (sumr n <= sumr m)%R.
Proof using Hpos. induction 1 as [|m _ IH]; [lra|]. cbn [sumr]. pose proof (Hpos (Z.of_nat m)). lra. Qed.
Lemma sumr_pos n : (0 <= sumr n)%R. Proof using Hpos. apply (sumr_mono 0 n). lia. Qed.
Let S0 := sumr (S (Z.to_nat jz)).
Lemma sums : (a 0%Z + a 1%Z <= S0 <= a 0%Z + a 1%Z + 7e-6 * a 0%Z)%R /\ (wsum (S (Z.to_nat jz)) <= 1.5001 * S0)%R.
Proof using Hj Hpos Hz Ha0 Ha1 Ha2.
  pose proof (Ha2 2 ltac:(lia)). pose proof (Ha2 3 ltac:(lia)). pose proof (Ha2 4 ltac:(lia)). pose proof (Ha2 5 ltac:(lia)). pose proof (Ha2 6 ltac:(lia)). pose proof (Ha2 7 ltac:(lia)). pose proof (Ha2 8 ltac:(lia)).
  pose proof (Hpos 1). pose proof (Hpos 2). pose proof (Hpos 3). pose proof (Hpos 4). pose proof (Hpos 5). pose proof (Hpos 6). pose proof (Hpos 7). pose proof (Hpos 8).
  unfold S0. assert (jz = 4 \/ jz = 5 \/ jz = 6 \/ jz = 7 \/ jz = 8) as [E|[E|[E|[E|E]]]] by lia; rewrite E;
    match goal with |- context [Z.to_nat ?k] => let n := eval compute in (Z.to_nat k) in change (Z.to_nat k) with n end; cbn [sumr wsum]; rewrite ?S_INR; cbn [INR Z.of_nat Pos.of_succ_nat Pos.succ]; lra.
Qed.
Lemma sum_ok n : forall fw t k U, Z.of_nat n <= jz + 1 -> 0 <= k -> k + Z.of_nat n <= 9 -> good fw -> grid gr (value F64 fw) -> (0 <= t)%R -> (t + sumr n <= 100)%R -> (0 <= U <= IZR k * t)%R -> (Rabs (value F64 fw - t) <= 1.001 * e53 * U)%R ->
  exists r, lg_sum o n fq fw = Ok r /\ good r /\ grid gr (value F64 r) /\ (Rabs (value F64 r - (t + sumr n)) <= 1.001 * e53 * (U + INR n * t + wsum n))%R.
Proof using Ho Hg Hj Lf Hv Hgr Hpos.
  induction n as [|n IH]; intros fw t k U Hn Hk Hkn Gf Gr Ht Hs HU He.
  - exists fw. split; [reflexivity|]. split; [exact Gf|]. split; [exact Gr|]. cbn [sumr wsum INR]. replace (t + 0)%R with t by ring. replace (U + 0 * t + 0)%R with U by ring. exact He.
  - cbn [lg_sum]. rewrite tab_el by lia. cbn [bind]. destruct (Hv (Z.of_nat n) ltac:(lia)) as (Ga & Va). cbn [sumr] in Hs. pose proof (Hpos (Z.of_nat n)) as Pa. pose proof (sumr_pos n) as Ps. set (an := a (Z.of_nat n)) in *.
    pose proof e53_bounds as [u0 u1]. set (v := value F64 fw) in *.
    assert (K9 : (IZR k * t <= 9 * t)%R) by (apply Rmult_le_compat_r; [lra|apply IZR_le; lia]). assert (UB : (U <= 9 * t)%R) by lra.
    assert (eU : (0 <= e53 * U <= 1e-12 * t)%R). { split; [apply Rmult_le_pos; lra|]. apply Rle_trans with (1e-13 * (9 * t))%R; [apply Rmult_le_compat; lra|lra]. }
    assert (Bv : (Rabs v <= t + 1.001 * e53 * U)%R) by (pose proof (abs_le_add v t) as Q; rewrite (Rabs_pos_eq t) in Q by lra; lra).
    assert (Bp : (Rabs (v + an) <= t + an + 1.001 * e53 * U)%R) by (pose proof (Rabs_triang v an) as Q; rewrite (Rabs_pos_eq an) in Q by lra; lra).
    destruct (add64 o Ho fw (el fq (Z.of_nat n)) Gf Ga) as (G1 & V1); [rewrite Va; fold an v; apply two100; lra|]. rewrite Va in V1. fold an v in V1.
    assert (Gp : grid gr (v + an)) by (apply grid_add; [exact Gr|apply Hgr; lia]).
    pose proof (grid_rel2 gr _ Hg Gp) as RR. rewrite <- V1 in RR. set (v1 := value F64 (o_add o fw (el fq (Z.of_nat n)))) in *.
    assert (E1 : (Rabs (v1 - (t + an)) <= 1.001 * e53 * (U + (t + an)))%R).
    { replace (v1 - (t + an))%R with ((v1 - (v + an)) + (v - t))%R by ring. pose proof (Rabs_triang (v1 - (v + an)) (v - t)) as Q.
      assert (e53 * Rabs (v + an) <= e53 * (t + an + 1.001 * e53 * U))%R by (apply Rmult_le_compat_l; lra). assert (e53 * (1.001 * e53 * U) <= 0.001 * (e53 * (t + an)))%R.
      { replace (e53 * (1.001 * e53 * U))%R with (e53 * (1.001 * (e53 * U)))%R by ring. replace (0.001 * (e53 * (t + an)))%R with (e53 * (0.001 * (t + an)))%R by ring. apply Rmult_le_compat_l; lra. }
      assert (0 <= e53 * (t + an))%R by (apply Rmult_le_pos; lra). lra. }
    destruct (IH (o_add o fw (el fq (Z.of_nat n))) (t + an)%R (k + 1) (U + (t + an))%R) as (r & -> & Gr' & Gg & Er); try lia; try lra.
    + exact G1.
    + fold v1. rewrite V1. apply grid_rne; [lia|exact Gp].
    + rewrite plus_IZR. split; [lra|]. assert (0 <= IZR k)%R by (apply IZR_le; exact Hk). assert (IZR k * t <= IZR k * (t + an))%R by (apply Rmult_le_compat_l; lra). lra.
    + exact E1.
    + exists r. split; [reflexivity|]. split; [exact Gr'|]. split; [exact Gg|]. cbn [sumr wsum]. fold an. replace (t + (sumr n + an))%R with (t + an + sumr n)%R by ring. rewrite S_INR.
      replace (U + (INR n + 1) * t + (wsum n + (INR n + 1) * an))%R with (U + (t + an) + INR n * (t + an) + wsum n)%R by ring. exact Er.
Qed.
Lemma up_ok Y M n : forall i k fw, 1 <= i -> 0 <= k -> k + Z.of_nat n <= 9 -> i + Z.of_nat n <= jz + 1 -> (0 <= M <= 100)%R -> (forall j, 1 < j <= jz + 1 -> (Rabs (sumr (Z.to_nat j) - Y) <= M)%R) ->
  good fw -> grid gr (value F64 fw) -> (Rabs (value F64 fw - (sumr (Z.to_nat i) - Y)) <= IZR k * (2 * e53 * M))%R ->
  exists r, lg_up o n i fq fw = Ok r /\ good r /\ grid gr (value F64 r) /\ (Rabs (value F64 r - (sumr (Z.to_nat (i + Z.of_nat n)) - Y)) <= (IZR (k + Z.of_nat n)) * (2 * e53 * M))%R.
Proof using Ho Hg Hj Lf Hv Hgr.
  induction n as [|n IH]; intros i k fw Hi Hk Hkn Hin HM HE Gf Gr He.
  - exists fw. rewrite !Z.add_0_r. auto.
  - cbn [lg_up]. rewrite tab_el by lia. cbn [bind]. destruct (Hv i ltac:(lia)) as (Ga & Va). pose proof e53_bounds as [u0 u1]. set (v := value F64 fw) in *.
    assert (SI : sumr (Z.to_nat (i + 1)) = (sumr (Z.to_nat i) + a i)%R) by (replace (Z.to_nat (i + 1)) with (S (Z.to_nat i)) by lia; cbn [sumr]; rewrite Z2Nat.id by lia; reflexivity).
    pose proof (HE (i + 1) ltac:(lia)) as E1. rewrite SI in E1.
    assert (K9 : (IZR k <= 9)%R) by (apply IZR_le; lia). assert (uM : (0 <= e53 * M <= 1e-12 * M)%R) by (split; [apply Rmult_le_pos; lra|apply Rmult_le_compat_r; lra]).
    assert (Kd : (IZR k * (2 * e53 * M) <= M)%R) by (apply Rle_trans with (9 * (2 * e53 * M))%R; [apply Rmult_le_compat_r; lra|lra]).
    assert (Bp : (Rabs (v + a i) <= 2 * M)%R). { replace (v + a i)%R with ((v - (sumr (Z.to_nat i) - Y)) + (sumr (Z.to_nat i) + a i - Y))%R by ring. eapply Rle_trans; [apply Rabs_triang|]. lra. }
    destruct (add64 o Ho fw (el fq i) Gf Ga) as (G1 & V1); [rewrite Va; fold v; apply two100; lra|]. rewrite Va in V1. fold v in V1.
    assert (Gp : grid gr (v + a i)) by (apply grid_add; [exact Gr|apply Hgr; lia]).
    pose proof (grid_rel2 gr _ Hg Gp) as RR. rewrite <- V1 in RR. set (v1 := value F64 (o_add o fw (el fq i))) in *.
    destruct (IH (i + 1) (k + 1) (o_add o fw (el fq i))) as (r & -> & Gr' & Gg & Er); try lia; try assumption.
    + fold v1. rewrite V1. apply grid_rne; [lia|exact Gp].
    + fold v1. rewrite SI, plus_IZR. replace (v1 - (sumr (Z.to_nat i) + a i - Y))%R with ((v1 - (v + a i)) + (v - (sumr (Z.to_nat i) - Y)))%R by ring. eapply Rle_trans; [apply Rabs_triang|].
      assert (e53 * Rabs (v + a i) <= e53 * (2 * M))%R by (apply Rmult_le_compat_l; lra). lra.
    + exists r. split; [reflexivity|]. split; [exact Gr'|]. split; [exact Gg|]. replace (i + Z.of_nat (S n)) with (i + 1 + Z.of_nat n) by lia. replace (k + Z.of_nat (S n)) with (k + 1 + Z.of_nat n) by lia. exact Er.
Qed.
Lemma compress_ok : exists y0 y1, lg_sum o (S (Z.to_nat jz)) fq 0 = Ok y0 /\ lg_up o (Z.to_nat jz) 1 fq (o_sub o (el fq 0) y0) = Ok y1 /\ good y0 /\ good y1 /\
  (Rabs (value F64 y0 - S0) <= 1.503 * e53 * S0)%R /\ (Rabs (value F64 y0 + value F64 y1 - S0) <= 0.0002 * e53 * a 0%Z)%R.
Proof using Ho Hg Hj Lf Hv Hgr Hpos Hz Ha0 Ha1 Ha2 Hh Hh' Hh0.
  destruct sums as ((S1 & S2) & S3). pose proof e53_bounds as [u0 u1]. pose proof (Hpos 1) as P1. destruct sc_zero as (G0 & V0).
  destruct (sum_ok (S (Z.to_nat jz)) 0 0%R 0 0%R) as (y0 & E0 & Gy & Gg & Ey); try lia; try lra; try assumption.
  { rewrite V0. exists 0. ring. }
  { fold S0. lra. }
  { rewrite V0, Rmult_0_l, Rminus_0_r, Rabs_R0. lra. }
  rewrite Rmult_0_r, !Rplus_0_l in Ey. fold S0 in Ey. set (Y := value F64 y0) in *.
  assert (EY : (Rabs (Y - S0) <= 1.503 * e53 * S0)%R).
  { eapply Rle_trans; [exact Ey|]. assert (e53 * wsum (S (Z.to_nat jz)) <= e53 * (1.5001 * S0))%R by (apply Rmult_le_compat_l; lra). assert (0 <= e53 * S0)%R by (apply Rmult_le_pos; lra). lra. }
  assert (uS : (0 <= e53 * S0 <= 1e-13 * S0)%R) by (split; [apply Rmult_le_pos; lra|apply Rmult_le_compat_r; lra]).
  assert (YB : (0.999999 * a 0%Z <= Y <= 2.001 * a 0%Z)%R) by (apply Rabs_def2' in EY || apply Rabs_le_inv in EY; lra).
  destruct (Hv 0 ltac:(lia)) as (Ga & Va).
  assert (EX : rne F64 (a 0%Z - Y) = (a 0%Z - Y)%R).
  { destruct (mag radix2 Y) as (e & Me). specialize (Me ltac:(lra)). rewrite Rabs_pos_eq in Me by lra.
    assert (He : e - 1 < h + 50). { apply (lt_bpow radix2). apply Rle_lt_trans with Y; [apply Me|]. replace (h + 50) with (2 + (h + 48)) by lia. rewrite bpow_plus. change (bpow radix2 2) with 4%R. lra. }
    assert (He2 : -960 < e). { apply (lt_bpow radix2). apply Rle_lt_trans with (0.999999 * a 0%Z)%R; [|lra]. destruct Hh as (m & Em). assert (1 <= IZR m)%R.
      { apply IZR_le. assert (0 < IZR m)%R by (apply (Rmult_lt_reg_r (bpow radix2 h)); [apply bpow_gt_0|lra]). apply lt_IZR in H. lia. }
      assert (bpow radix2 (-960) <= / 2 * bpow radix2 (h))%R.
      { apply Rle_trans with (bpow radix2 (-1 + h)); [apply bpow_le; lia|]. rewrite bpow_plus. change (bpow radix2 (-1)) with (/ 2)%R. lra. }
      pose proof (bpow_gt_0 radix2 h). rewrite Em. nra. }
    apply (grid_exact (e - 53)); [lia| |].
    - apply grid_sub; [apply (grid_le h); [lia|exact Hh]|]. replace (e - 53) with (e - 1 - 52) by lia. apply grid64; [exact Gy|]. fold Y. rewrite Rabs_pos_eq by lra. apply Me.
    - replace (e - 53 + 53) with e by lia. apply Rabs_le. lra. }
  destruct (sub64 o Ho (el fq 0) y0 Ga Gy) as (Gt & Vt); [rewrite Va; fold Y; apply two100; apply Rabs_le; lra|]. rewrite Va in Vt. fold Y in Vt. rewrite EX in Vt.
  assert (SJ : S0 = sumr (Z.to_nat (jz + 1))) by (unfold S0; f_equal; lia).
  assert (S2' : sumr 2 = (a 0%Z + a 1%Z)%R) by (cbn [sumr Z.of_nat Pos.of_succ_nat]; ring).
  destruct (up_ok Y (1e-5 * a 0%Z)%R (Z.to_nat jz) 1 0 (o_sub o (el fq 0) y0)) as (y1 & E1 & G1 & _ & Er); try lia; try lra; try assumption.
  - intros j Hjj. pose proof (sumr_mono 2 (Z.to_nat j) ltac:(lia)) as M1. pose proof (sumr_mono (Z.to_nat j) (Z.to_nat (jz + 1)) ltac:(lia)) as M2. rewrite <- SJ in M2. rewrite S2' in M1.
    apply Rabs_le_inv in EY. apply Rabs_le. lra.
  - rewrite Vt. apply grid_sub; [apply Hgr; lia|exact Gg].
  - rewrite Vt. change (Z.to_nat 1) with 1%nat. cbn [sumr Z.of_nat]. replace (a 0%Z - Y - (0 + a 0%Z - Y))%R with 0%R by ring. rewrite Rabs_R0. lra.
  - exists y0, y1. split; [exact E0|]. split; [exact E1|]. split; [exact Gy|]. split; [exact G1|]. split; [exact EY|]. fold Y. rewrite Z2Nat.id in Er by lia. rewrite (Z.add_comm 1), <- SJ in Er.
    replace (Y + value F64 y1 - S0)%R with (value F64 y1 - (S0 - Y))%R by ring. eapply Rle_trans; [exact Er|]. rewrite Z.add_0_l.
    assert (I8 : (IZR jz <= 8)%R) by (apply IZR_le; lia). assert (ua : (0 <= e53 * a 0%Z)%R) by (apply Rmult_le_pos; lra).
    apply Rle_trans with (8 * (2 * e53 * (1e-5 * a 0%Z)))%R; [apply Rmult_le_compat_r; lra|lra].
Qed.
End Trig.
