(** sincos returns the same bits as sin and cos. *)
From Coq Require Import ZArith Reals Bool List Lia Lra Psatz.
From Flocq Require Import Core.
From Verif Require Import Base BaseLemmas FloatModel FloatSpec FloatProofs FloatProofs5 LibmModel LibmSpec LibmProps FloatConvSpec FloatErr PolyBound Elem ElemModel ElemSpec TrigModel F64Lib ExpProofs3 ExpProofs4 ExpProofs5 ExpProofs7 ExpProofs8 LogProofs LogProofs2 LogProofs4 TrigProofs TrigProofs2 TrigProofs3 TrigProofs4 TrigPi TrigDist TrigRed TrigRed2 TrigRed3 TrigRed4 TrigRed5 TrigLg TrigLg2 TrigLg10 TrigLg11 OddProofs ParityProofs ParityProofs2 ParityProofs3.
Open Scope Z_scope.

(** Less than a quarter of a unit in the last place is lost. *)
Lemma keep_pos X P : generic_format radix2 fexp64 X -> (0 < X)%R -> (Rabs P <= 0.4 * e53 * X)%R -> rne F64 (X + P) = X.
Proof.
  intros F H0 HP. apply Rabs_le_inv in HP. unfold rne. change (FLT_exp (emin F64) (prec F64)) with fexp64. assert (Pr : Prec_gt_0 53) by reflexivity. assert (V : Valid_exp fexp64) by (apply FLT_exp_valid; exact Pr).
  pose proof e53_bounds as [u0 u1]. assert (M : Monotone_exp fexp64) by apply FLT_exp_monotone. 
  assert (G : forall y, (Rabs y * e53 < ulp radix2 fexp64 y)%R) by (intros y; exact (ulp_FLT_gt radix2 (-1074) 53 y)). apply Rle_antisym.
  - apply round_N_le_midp; [exact V|exact F|]. rewrite succ_eq_pos by lra. pose proof (G X) as Q. rewrite Rabs_pos_eq in Q by lra. nra.
  - apply round_N_ge_midp; [exact V|exact F|]. pose proof (pred_ge_0 radix2 fexp64 X H0 F) as P0. pose proof (succ_pred radix2 fexp64 X F) as SP. rewrite succ_eq_pos in SP by exact P0. pose proof (G (pred radix2 fexp64 X)) as Q. rewrite Rabs_pos_eq in Q by exact P0. set (p := pred radix2 fexp64 X) in *. set (w := ulp radix2 fexp64 p) in *.
    assert (w = X - p)%R by lra. assert (e53 * p < X - p)%R by lra. nra.
Qed.
Lemma keep X P : generic_format radix2 fexp64 X -> X <> 0%R -> (Rabs P <= 0.4 * e53 * Rabs X)%R -> rne F64 (X + P) = X.
Proof.
  intros F N HP. destruct (Rlt_le_dec 0 X) as [H|H]; [apply keep_pos; try assumption; rewrite (Rabs_pos_eq X) in HP by lra; exact HP|].
  assert (K : rne F64 (- X + - P) = (- X)%R) by (apply keep_pos; [apply generic_format_opp; exact F|lra|rewrite Rabs_Ropp; rewrite (Rabs_left1 X) in HP by exact H; exact HP]).
  replace (X + P)%R with (- (- X + - P))%R by ring. rewrite rne_opp, K. ring.
Qed.

Tactic Notation "kv" constr(S) ident(K) := let a := eval vm_compute in (kbits 60 F64 S) in match a with Some ?v => assert (K : kbits 60 F64 S = Some v) by (vm_compute; reflexivity); apply kval in K; cbn [lo hi] in K end.
Lemma sbd1 : good S1 /\ (Rabs (value F64 S1) <= 0.1667)%R.
Proof. split; [const_good|]. kv S1 K. unfold fx in K. change (bpow radix2 (- (60))) with (/ 1152921504606846976)%R in K. apply Rabs_le. lra. Qed.
Lemma sbd2 : good S2 /\ (Rabs (value F64 S2) <= 0.01)%R.
Proof. split; [const_good|]. kv S2 K. unfold fx in K. change (bpow radix2 (- (60))) with (/ 1152921504606846976)%R in K. apply Rabs_le. lra. Qed.
Lemma sbd3 : good S3 /\ (Rabs (value F64 S3) <= 0.01)%R.
Proof. split; [const_good|]. kv S3 K. unfold fx in K. change (bpow radix2 (- (60))) with (/ 1152921504606846976)%R in K. apply Rabs_le. lra. Qed.
Lemma sbd4 : good S4 /\ (Rabs (value F64 S4) <= 0.01)%R.
Proof. split; [const_good|]. kv S4 K. unfold fx in K. change (bpow radix2 (- (60))) with (/ 1152921504606846976)%R in K. apply Rabs_le. lra. Qed.
Lemma sbd5 : good S5 /\ (Rabs (value F64 S5) <= 0.01)%R.
Proof. split; [const_good|]. kv S5 K. unfold fx in K. change (bpow radix2 (- (60))) with (/ 1152921504606846976)%R in K. apply Rabs_le. lra. Qed.
Lemma sbd6 : good S6 /\ (Rabs (value F64 S6) <= 0.01)%R.
Proof. split; [const_good|]. kv S6 K. unfold fx in K. change (bpow radix2 (- (60))) with (/ 1152921504606846976)%R in K. apply Rabs_le. lra. Qed.

Section Ops.
Context (o : fops) (Ho : ieee_ops F64 o) (c : icast) (Hc : icast_ok c) (tbl : list Z) (Ht : forall j, 0 <= j < 66 -> tab tbl j = Ok (tt j)).
Lemma rne_near v B : (Rabs v <= B)%R -> (bpow radix2 (-1000) <= B <= 1)%R -> (Rabs (rne F64 v) <= 1.001 * B)%R.
Proof using.
  clear. intros H [B1 B2]. pose proof (rne_abs v) as E. fold e53 tny in E. pose proof (tny_le B B1) as [t0 t1]. pose proof e53_bounds. pose proof (abs_le_add (rne F64 v) v). assert (e53 * Rabs v <= e53 * B)%R by (apply Rmult_le_compat_l; lra). nra.
Qed.
Lemma mb a b A B M : good a -> good b -> (Rabs (value F64 a) <= A)%R -> (Rabs (value F64 b) <= B)%R -> (A * B <= M)%R -> (bpow radix2 (-1000) <= M <= 1)%R ->
  good (o_mul o a b) /\ (Rabs (value F64 (o_mul o a b)) <= 1.001 * M)%R.
Proof using Ho.
  intros Ga Gb HA HB HM M1. assert (Q : (Rabs (value F64 a * value F64 b) <= M)%R) by (rewrite Rabs_mult; eapply Rle_trans; [apply Rmult_le_compat; [apply Rabs_pos|apply Rabs_pos|exact HA|exact HB]|exact HM]).
  destruct (mul64 o Ho a b Ga Gb) as [G V]; [apply (big_le _ 0); [lia|change (bpow radix2 0) with 1%R; lra]|]. split; [exact G|]. rewrite V. apply rne_near; assumption.
Qed.
Lemma ab a b A B : good a -> good b -> (Rabs (value F64 a) <= A)%R -> (Rabs (value F64 b) <= B)%R -> (bpow radix2 (-1000) <= A + B <= 1)%R ->
  good (o_add o a b) /\ (Rabs (value F64 (o_add o a b)) <= 1.001 * (A + B))%R.
Proof using Ho.
  intros Ga Gb HA HB M1. assert (Q : (Rabs (value F64 a + value F64 b) <= A + B)%R) by (eapply Rle_trans; [apply Rabs_triang|lra]).
  destruct (add64 o Ho a b Ga Gb) as [G V]; [apply (big_le _ 0); [lia|change (bpow radix2 0) with 1%R; lra]|]. split; [exact G|]. rewrite V. apply rne_near; assumption.
Qed.
Lemma small1000 M : (/ 1000000 <= M)%R -> (bpow radix2 (-1000) <= M)%R.
Proof using. clear. intros H. eapply Rle_trans; [|exact H]. apply Rle_trans with (bpow radix2 (-20)); [apply bpow_le; lia|]. change (bpow radix2 (-20)) with (/ 1048576)%R. lra. Qed.
Lemma k_sin_tiny x : good x -> (bpow radix2 (-60) <= Rabs (value F64 x) <= bpow radix2 (-26))%R -> k_sin o x 0 0 = x.
Proof using Ho.
  intros G [L U]. set (X := value F64 x) in *. change (bpow radix2 (-26)) with (/ 67108864)%R in U. pose proof (Rabs_pos X) as X0.
  unfold k_sin. cbn [Z.eqb]. set (q := (/ 67108864 * / 67108864)%R). assert (q1 : (0 < q <= / 1000000000000000)%R) by (unfold q; lra). assert (q2 : (bpow radix2 (-1000) <= q)%R) by (unfold q; change (/ 67108864)%R with (bpow radix2 (-26)); rewrite <- bpow_plus; apply bpow_le; lia).
  assert (qe : q = (2 * e53)%R) by (unfold q, e53; change (/ 67108864)%R with (bpow radix2 (-26)); change 2%R with (bpow radix2 1); rewrite <- !bpow_plus; f_equal; reflexivity).
  destruct (mb x x _ _ q G G U U ltac:(unfold q; lra) ltac:(lra)) as [Gz Bz]. set (z := o_mul o x x) in *. clearbody z. set (zz := (1.001 * q)%R) in *. assert (zb : (0 < zz <= / 100000000000000)%R) by (unfold zz; lra).
  assert (T : forall a M, good a -> (Rabs (value F64 a) <= M)%R -> (M <= 100)%R -> good (o_mul o z a) /\ (Rabs (value F64 (o_mul o z a)) <= 0.01)%R).
  { intros a M Ga Ba HM. destruct (mb z a zz M 0.001 Gz Ga Bz Ba) as [A B]; [pose proof (Rabs_pos (value F64 a)); nra|split; [apply small1000; lra|lra]|]. split; [exact A|lra]. }
  assert (SUM : forall a b, good a -> good b -> (Rabs (value F64 a) <= 0.1)%R -> (Rabs (value F64 b) <= 0.1)%R -> good (o_add o a b) /\ (Rabs (value F64 (o_add o a b)) <= 0.21)%R).
  { intros a b Ga Gb Ba Bb. destruct (ab a b 0.1 0.1 Ga Gb Ba Bb) as [A B]; [split; [apply small1000; lra|lra]|]. split; [exact A|lra]. }
  assert (PRD : forall a b, good a -> good b -> (Rabs (value F64 a) <= 0.01)%R -> (Rabs (value F64 b) <= 0.21)%R -> good (o_mul o a b) /\ (Rabs (value F64 (o_mul o a b)) <= 0.01)%R).
  { intros a b Ga Gb Ba Bb. destruct (mb a b 0.01 0.21 0.0021 Ga Gb Ba Bb) as [A B]; [lra|split; [apply small1000; lra|lra]|]. split; [exact A|lra]. }
  destruct sbd1 as [g1 b1], sbd2 as [g2 b2], sbd3 as [g3 b3], sbd4 as [g4 b4], sbd5 as [g5 b5], sbd6 as [g6 b6].
  destruct (T z _ Gz Bz ltac:(lra)) as [Gw Bw]. destruct (T _ _ Gw Bw ltac:(lra)) as [Gzw Bzw]. destruct (T S4 _ g4 b4 ltac:(lra)) as [h4 c4]. destruct (T S6 _ g6 b6 ltac:(lra)) as [h6 c6].
  destruct (SUM S3 _ g3 h4 ltac:(lra) ltac:(lra)) as [h3 c3]. destruct (SUM S5 _ g5 h6 ltac:(lra) ltac:(lra)) as [h5 c5]. destruct (T _ _ h3 c3 ltac:(lra)) as [i3 d3]. destruct (SUM S2 _ g2 i3 ltac:(lra) ltac:(lra)) as [h2 c2].
  destruct (PRD _ _ Gzw h5 Bzw c5) as [i5 d5]. assert (GR : good (o_add o (o_add o S2 (o_mul o z (o_add o S3 (o_mul o z S4)))) (o_mul o (o_mul o z (o_mul o z z)) (o_add o S5 (o_mul o z S6)))) /\ (Rabs (value F64 (o_add o (o_add o S2 (o_mul o z (o_add o S3 (o_mul o z S4)))) (o_mul o (o_mul o z (o_mul o z z)) (o_add o S5 (o_mul o z S6))))) <= 1)%R).
  { destruct (ab _ _ 0.21 0.01 h2 i5 c2 d5) as [A B]; [split; [apply small1000; lra|lra]|]. split; [exact A|lra]. }
  set (r := o_add o (o_add o S2 _) _) in *. clearbody r. destruct GR as [Gr Br].
  destruct (mb z r zz 1 zz Gz Gr Bz Br ltac:(lra)) as [Gzr Bzr]; [split; [unfold zz; lra|lra]|]. destruct (ab S1 _ 0.1667 (1.001 * zz) g1 Gzr b1 Bzr) as [Gu Bu]; [split; [apply small1000; lra|lra]|]. set (u := o_add o S1 _) in *. clearbody u.
  assert (XL : (bpow radix2 (-60) <= Rabs X)%R) by exact L. assert (qX : (bpow radix2 (-1000) <= 1.001 * (q * Rabs X))%R). { apply Rle_trans with (1 * (bpow radix2 (-60) * bpow radix2 (-60)))%R; [rewrite Rmult_1_l, <- bpow_plus; apply bpow_le; lia|]. assert (bpow radix2 (-60) <= q)%R by (unfold q; change (/ 67108864)%R with (bpow radix2 (-26)); rewrite <- bpow_plus; apply bpow_le; lia). pose proof (bpow_gt_0 radix2 (-60)). assert (bpow radix2 (-60) * bpow radix2 (-60) <= q * Rabs X)%R by (apply Rmult_le_compat; lra). nra. }
  assert (qX1 : (0 <= q * Rabs X <= / 1000)%R) by (split; [nra|]; apply Rle_trans with (/ 1000000000000000 * 1)%R; [apply Rmult_le_compat; lra|lra]).
  destruct (mb z x zz (Rabs X) (1.001 * (q * Rabs X)) Gz G Bz (Rle_refl _)) as [Gv Bv]; [unfold zz; lra|split; [exact qX|lra]|]. set (v := o_mul o z x) in *. clearbody v.
  assert (Bu' : (Rabs (value F64 u) <= 0.168)%R) by lra. set (m := (0.17 * (q * Rabs X))%R).
  destruct (mb v u _ _ m Gv Gu Bv Bu') as [Gp Bp]; [unfold m; lra|split; [|unfold m; lra]|].
  { unfold m. assert (/ 8 * bpow radix2 (-1000) <= 0.17 * (q * Rabs X))%R; [|]. lra. 
    apply Rle_trans with (/ 8 * (bpow radix2 (-60) * bpow radix2 (-60)))%R; [change (/ 8)%R with (bpow radix2 (-3)); rewrite <- !bpow_plus; apply bpow_le; lia|]. assert (bpow radix2 (-60) <= q)%R by (unfold q; change (/ 67108864)%R with (bpow radix2 (-26)); rewrite <- bpow_plus; apply bpow_le; lia). pose proof (bpow_gt_0 radix2 (-60)). assert (bpow radix2 (-60) * bpow radix2 (-60) <= q * Rabs X)%R by (apply Rmult_le_compat; lra). lra. }
  set (p := o_mul o v u) in *. clearbody p. destruct G as [Fx Nx]. assert (XN : X <> 0%R) by (intros Z; rewrite Z, Rabs_R0 in L; pose proof (bpow_gt_0 radix2 (-60)); lra).
  destruct (add64 o Ho x p (conj Fx Nx) Gp) as [[Fs Ns] Vs]; [apply (big_le _ 0); [lia|]; change (bpow radix2 0) with 1%R; fold X; eapply Rle_trans; [apply Rabs_triang|]; unfold m in Bp; lra|]. fold X in Vs.
  rewrite keep in Vs; [|apply format64; assumption|exact XN|unfold m in Bp; rewrite qe in Bp; clear - Bp X0; pose proof e53_bounds as [u0 _]; assert (0 <= e53 * Rabs X)%R by (apply Rmult_le_pos; lra); lra]. apply (rel_bits false x); [|exact Nx|exact XN]. split; [exact Fx|]. split; [exact Fs|]. left. split; [exact Nx|]. split; [exact Ns|exact Vs].
Qed.
Lemma sincos_same fuel x : (4 <= fuel)%nat -> is_float F64 x -> exists r q, libm_sincos o c tbl fuel x = Ok (r, q) /\ libm_sin o c tbl fuel x = Ok r /\ libm_cos o c tbl fuel x = Ok q.
Proof using Ho Hc Ht.
  intros Hf F. destruct (split64 x F) as (s & n & E & Hn). unfold libm_sin, libm_cos, libm_sincos. replace (Z.land (high_word x) 0x7fffffff) with (n / 2 ^ 32) by (rewrite E, high_abs by exact Hn; reflexivity). rewrite hx_div', hx_div, !ix_lt by lia.
  destruct (Z.ltb_spec n ((0x3fe921fb + 1) * 2 ^ 32)) as [L|L].
  - destruct (Z.ltb_spec n (0x3e46a09e * 2 ^ 32)) as [L2|L2].
    + replace (n <? 0x3e500000 * 2 ^ 32) with true by lia. rewrite E, (toi_small c Hc) by lia. do 2 eexists. split; [reflexivity|]. split; reflexivity.
    + cbn [andb]. do 2 eexists. split; [reflexivity|]. split; [|reflexivity]. destruct (Z.ltb_spec n (0x3e500000 * 2 ^ 32)) as [L3|L3]; [|reflexivity]. rewrite k_sin_tiny; [reflexivity|rewrite E; apply good64; lia|]. rewrite E, Rabs64 by lia. split.
      * apply Rle_trans with (mag64 0x3e40000000000000); [|apply mag_le64; lia]. change 0x3e40000000000000 with (0x3e4 * 2 ^ 52). rewrite mag_pow2 by lia. apply bpow_le. lia.
      * apply Rle_trans with (mag64 0x3e50000000000000); [apply mag_le64; lia|]. change 0x3e50000000000000 with (0x3e5 * 2 ^ 52). rewrite mag_pow2 by lia. apply bpow_le. lia.
  - destruct (Z.leb_spec (0x7ff00000 * 2 ^ 32) n) as [G|G]; [do 2 eexists; split; [reflexivity|]; split; reflexivity|].
    destruct (rem_trig o Ho c Hc tbl Ht fuel x s n Hf E ltac:(lia)) as (k & y0 & y1 & -> & _). cbn [bind]. destruct (Z.land k 3 =? 0); [|destruct (Z.land k 3 =? 1); [|destruct (Z.land k 3 =? 2)]]; do 2 eexists; (split; [reflexivity|]); split; reflexivity.
Qed.
End Ops.
