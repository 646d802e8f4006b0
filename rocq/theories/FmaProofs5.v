(** Proofs about the fused multiply-add by a wider format (fmaf). *)
From Coq Require Import ZArith Reals Bool Lia Lra Psatz.
From Flocq Require Import Core Pff2Flocq.
From Verif Require Import Base BaseLemmas FloatModel FloatSpec FloatConvSpec FloatProofs FloatProofs2 FloatProofs3 FloatProofs6 FloatConvProofs FloatLib LibmModel LibmSpec LibmProofs LibmProofs2 LibmProofs3 LibmProofs4 LibmProofs5 LibmProofs6 RemModel RemProofs3 FmaModel FmaSpec FmaProofs FmaProofs2.
Open Scope Z_scope.

Notation f := F32.
Notation g := F64.
Lemma Wf : wf f. Proof. apply std_wf. unfold std. tauto. Qed.
Lemma Wg : wf g. Proof. apply std_wf. unfold std. tauto. Qed.
Notation fe n := (Z.max (n - 24) (-149)).

Lemma rne_f n X : (bp (n - 1) <= X < bp n)%R -> rne f X = (IZR (ZnearestE (X * bp (- fe n))) * bp (fe n))%R.
Proof. intros H. rewrite (rne_eq f n X H). unfold FLT_exp. reflexivity. Qed.

Section Real.
Context (n : Z) (X : R) (HX : (bp (n - 1) <= X < bp n)%R).
Let Q := (X * bp (53 - n))%R.
Let q := ZnearestE Q.
Let e := fe n.
Let h := e - n + 52.
Lemma Q_range : (bp 52 <= Q < bp 53)%R.
Proof. unfold Q. destruct HX as [A B]. pose proof (bpow_gt_0 radix2 (53 - n)). assert (bp 52 = bp (n - 1) * bp (53 - n))%R as -> by (rewrite <- bpow_plus; f_equal; lia). assert (bp 53 = bp n * bp (53 - n))%R as -> by (rewrite <- bpow_plus; f_equal; lia). split; [apply Rmult_le_compat_r; lra|apply Rmult_lt_compat_r; lra]. Qed.
Lemma XQ : X = (Q * bp (n - 53))%R.
Proof. unfold Q. rewrite Rmult_assoc, <- bpow_plus. replace (53 - n + (n - 53)) with 0 by lia. cbn [bpow]. ring. Qed.
Lemma h28 : 28 <= h. Proof. unfold h, e. lia. Qed.
Lemma q_range : 2 ^ 52 <= q <= 2 ^ 53.
Proof.
  pose proof Q_range as [A B]. unfold q. rewrite <- !IZR_pow in * by lia. split.
  - apply Z.le_trans with (Zfloor Q); [apply Zfloor_lub, A|apply Znearest_ge_floor].
  - apply Z.le_trans with (Zceil Q); [apply Znearest_le_ceil|apply Zceil_glb, Rlt_le, B].
Qed.
Lemma q_half : (Rabs (IZR q - Q) <= / 2)%R.
Proof. unfold q. rewrite Rabs_minus_sym. apply Znearest_half. Qed.
Lemma f_X : rne f X = (IZR (ZnearestE (Q * bp (- (h + 1)))) * bp e)%R.
Proof. rewrite (rne_f n X HX). fold e. f_equal. f_equal. f_equal. rewrite XQ at 1. rewrite Rmult_assoc, <- bpow_plus. do 2 f_equal. unfold h. lia. Qed.
Lemma f_q k : 2 ^ 52 <= k < 2 ^ 53 -> rne f (IZR k * bp (n - 53)) = (IZR (ZnearestE (IZR k * bp (- (h + 1)))) * bp e)%R.
Proof.
  intros Hk. rewrite (rne_f n). 2: { assert (bp 52 <= IZR k < bp 53)%R as [A B] by (rewrite <- !IZR_pow by lia; split; [apply IZR_le|apply IZR_lt]; lia). pose proof (bpow_gt_0 radix2 (n - 53)). replace (n - 1) with (52 + (n - 53)) by lia. replace (bp n) with (bp 53 * bp (n - 53))%R by (rewrite <- bpow_plus; f_equal; lia). rewrite bpow_plus. split; [apply Rmult_le_compat_r; lra|apply Rmult_lt_compat_r; lra]. }
  fold e. f_equal. f_equal. f_equal. rewrite Rmult_assoc, <- bpow_plus. do 2 f_equal. unfold h. lia.
Qed.
Lemma near_cell k Y : (Rabs (IZR k - Y) <= / 2)%R -> k mod 2 ^ h <> 0 -> cell h Y (IZR k).
Proof.
  intros H K. pose proof h28. pose proof (pow2_pos h ltac:(lia)) as P. pose proof (Z.mod_pos_bound k (2 ^ h) P) as MB. pose proof (Z.div_mod k (2 ^ h) ltac:(lia)) as DM.
  apply Rabs_le_inv in H. apply (cell_between h _ _ (k / 2 ^ h)); rewrite <- (IZR_pow h), <- !mult_IZR by lia.
  - assert (IZR (k / 2 ^ h * 2 ^ h) + 1 <= IZR k /\ IZR k + 1 <= IZR ((k / 2 ^ h + 1) * 2 ^ h))%R as [A B] by (rewrite <- !plus_IZR; split; apply IZR_le; lia). lra.
  - split; apply IZR_lt; lia.
Qed.

(** Rounding first to 53 bits is harmless unless the intermediate is half way. *)
Lemma two_step : (q mod 2 ^ (h + 1) = 2 ^ h -> Q = IZR q) -> (n = -150 -> q = 2 ^ 53 -> False) -> rne f (IZR q * bp (n - 53)) = rne f X.
Proof.
  intros NM NB. pose proof h28 as H28. pose proof q_range as QR. pose proof q_half as QH. pose proof (pow2_pos h ltac:(lia)) as P. pose proof (pow2_pos (h + 1) ltac:(lia)) as P1. assert (2 ^ (h + 1) = 2 * 2 ^ h) as E2 by (rewrite Z.pow_add_r by lia; lia).
  assert (SMALL : forall M, (Rabs (IZR q - Q) <= / 2)%R -> (IZR q * bp (- (h + 1)) = IZR M)%R -> ZnearestE (Q * bp (- (h + 1))) = M).
  { intros M A EM. apply Rabs_le_inv in A. apply ZnearestE_int_near. rewrite <- EM. assert (0 < bp (- (h + 1)) < 1)%R as [B1 B2] by (split; [apply bpow_gt_0|change 1%R with (bp 0); apply bpow_lt; lia]). 
    assert (Rabs (Q * bp (- (h + 1)) - IZR q * bp (- (h + 1))) < / 2)%R as L; [|apply Rabs_def2 in L; lra]. rewrite <- Rmult_minus_distr_r, Rabs_mult, (Rabs_pos_eq (bp (- (h + 1)))) by lra. rewrite Rabs_minus_sym.
    apply Rle_lt_trans with (/ 2 * bp (- (h + 1)))%R; [apply Rmult_le_compat_r; lra|lra]. }
  destruct (Z.eq_dec q (2 ^ 53)) as [E|E].
  - assert (IZR q * bp (n - 53) = bp n)%R as R1 by (rewrite E, IZR_pow by lia; rewrite <- bpow_plus; f_equal; lia). rewrite R1.
    destruct (Z_lt_ge_dec n e) as [L|L].
    + assert (e = -149) as Ee by (unfold e in *; lia). assert (n <= -151) by lia.
      assert (rne f (bp n) = 0%R) as ->. { rewrite (rne_f (n + 1)). 2: { replace (n + 1 - 1) with n by lia. split; [lra|apply bpow_lt; lia]. } replace (fe (n + 1)) with (-149) by lia. rewrite (ZnearestE_int_near _ 0); [ring|]. rewrite <- bpow_plus. pose proof (bpow_gt_0 radix2 (n + - -149)). assert (bp (n + - -149) <= bp (-2))%R by (apply bpow_le; lia). change (bp (-2)) with (/ 4)%R in *. lra. }
      rewrite f_X. rewrite (ZnearestE_int_near _ 0); [ring|]. pose proof Q_range as [A B]. pose proof (bpow_gt_0 radix2 (- (h + 1))). pose proof (bpow_gt_0 radix2 52).
      assert (0 < Q * bp (- (h + 1)))%R by (apply Rmult_lt_0_compat; lra). assert (Q * bp (- (h + 1)) < bp 53 * bp (- (h + 1)))%R by (apply Rmult_lt_compat_r; lra). rewrite <- bpow_plus in *. assert (bp (53 + - (h + 1)) <= bp (-2))%R by (apply bpow_le; unfold h; lia). change (bp (-2)) with (/ 4)%R in *. lra.
    + replace (bp n) with (IZR 1 * bp n)%R by ring. rewrite (rne_int f Wf) by (cbn; unfold e in *; lia). rewrite f_X. rewrite (SMALL (2 ^ (n - e)) QH); [rewrite (IZR_pow (n - e)), <- bpow_plus by lia; rewrite Rmult_1_l; f_equal; lia|].
      rewrite E. rewrite !IZR_pow by lia. rewrite <- bpow_plus. f_equal. unfold h. lia.
  - rewrite f_q by lia. rewrite f_X. f_equal. f_equal. pose proof (Z.mod_pos_bound q (2 ^ (h + 1)) P1) as MB. pose proof (Z.div_mod q (2 ^ (h + 1)) ltac:(lia)) as DM.
    destruct (Z.eq_dec (q mod 2 ^ h) 0) as [Z0|Z0].
    + assert (q mod 2 ^ (h + 1) = 0 \/ q mod 2 ^ (h + 1) = 2 ^ h) as [K|K].
      { assert ((q mod 2 ^ (h + 1)) mod 2 ^ h = 0) as K by (rewrite <- Znumtheory.Zmod_div_mod; [exact Z0|lia|lia|exists 2; lia]).
        destruct (Z_lt_ge_dec (q mod 2 ^ (h + 1)) (2 ^ h)) as [L|L]; [left; rewrite Z.mod_small in K; lia|right].
        assert ((q mod 2 ^ (h + 1)) mod 2 ^ h = q mod 2 ^ (h + 1) - 2 ^ h) by (symmetry; apply Z.mod_unique with (q := 1); lia). lia. }
      * assert (IZR q * bp (- (h + 1)) = IZR (q / 2 ^ (h + 1)))%R as EM. { rewrite DM at 1. rewrite K, Z.add_0_r, mult_IZR, (IZR_pow (h + 1)) by lia. rewrite (Rmult_comm (bp (h + 1))), Rmult_assoc, <- bpow_plus. replace (h + 1 + - (h + 1)) with 0 by lia. cbn [bpow]. ring. }
        rewrite (SMALL _ QH EM), EM. apply ZnearestE_int_near. lra.
      * rewrite (NM K). reflexivity.
    + symmetry. apply cell_near with h; [|lia]. apply near_cell; assumption.
Qed.

(** The neighbour of a half way point on the side of the exact value. *)
Lemma adjusted k : q mod 2 ^ 29 = 2 ^ 28 -> Q <> IZR q -> k = (if Rlt_bool (IZR q) Q then q + 1 else q - 1) -> 2 ^ 52 <= k < 2 ^ 53 /\ rne f (IZR k * bp (n - 53)) = rne f X.
Proof.
  intros HM NE Ek. pose proof h28 as H28. pose proof q_range as QR. pose proof q_half as QH. apply Rabs_le_inv in QH. pose proof (Z.div_mod q (2 ^ 29) ltac:(lia)) as DM. rewrite HM in DM.
  assert (2 ^ 52 = 2 ^ 29 * 2 ^ 23 /\ 2 ^ 53 = 2 ^ 29 * 2 ^ 24) as [T1 T2] by (split; reflexivity).
  assert (2 ^ 52 <= k < 2 ^ 53) as Hk. { rewrite T1, T2 in *. change (2 ^ 29) with (2 * 2 ^ 28) in *. destruct (Rlt_bool (IZR q) Q); lia. } split; [exact Hk|].
  rewrite f_q, f_X by assumption. f_equal. f_equal. symmetry. apply cell_near with h; [|lia].
  assert (k = q + 1 /\ (IZR q < Q)%R \/ k = q - 1 /\ (Q < IZR q)%R) as C. { destruct (Rlt_bool_spec (IZR q) Q); [left|right]; split; lra || lia. }
  pose proof (pow2_pos h ltac:(lia)) as P.
  destruct (Z.eq_dec h 28) as [h8|h8].
  - set (j := 2 * (q / 2 ^ 29) + 1). assert (Hj : q = j * 2 ^ h) by (rewrite h8; unfold j; lia). assert (2 <= 2 ^ h) by (rewrite h8; lia).
    destruct C as [[Ck L]|[Ck L]]; [apply (cell_between h _ _ j)|apply (cell_between h _ _ (j - 1))]; rewrite <- (IZR_pow h), <- !mult_IZR by lia.
    + rewrite <- Hj. assert (IZR q + 1 <= IZR ((j + 1) * 2 ^ h))%R by (rewrite <- plus_IZR; apply IZR_le; lia). lra.
    + rewrite <- Hj. split; apply IZR_lt; lia.
    + replace (j - 1 + 1) with j by lia. rewrite <- Hj. assert (IZR ((j - 1) * 2 ^ h) + 1 <= IZR q)%R by (rewrite <- plus_IZR; apply IZR_le; lia). lra.
    + replace (j - 1 + 1) with j by lia. rewrite <- Hj. split; apply IZR_lt; lia.
  - assert (2 ^ h = 2 ^ 29 * 2 ^ (h - 29)) as Eh by (rewrite <- pow2_add by lia; f_equal; lia). pose proof (pow2_pos (h - 29) ltac:(lia)).
    pose proof (Z.mod_pos_bound q (2 ^ h) P) as MB. pose proof (Z.div_mod q (2 ^ h) ltac:(lia)) as DH.
    assert ((q mod 2 ^ h) mod 2 ^ 29 = 2 ^ 28) as M29 by (rewrite <- Znumtheory.Zmod_div_mod; [exact HM|lia|lia|exists (2 ^ (h - 29)); lia]).
    pose proof (Z.div_mod (q mod 2 ^ h) (2 ^ 29) ltac:(lia)) as D9. rewrite M29 in D9. set (a := q mod 2 ^ h) in *. set (a1 := a / 2 ^ 29) in *.
    assert (2 ^ 28 <= a /\ a + 2 ^ 28 <= 2 ^ h) as [A1 A2]. { change (2 ^ 29) with (2 * 2 ^ 28) in *. clearbody a a1. set (w := 2 ^ (h - 29)) in *. clearbody w. lia. }
    apply (cell_between h _ _ (q / 2 ^ h)); rewrite <- (IZR_pow h), <- !mult_IZR by lia.
    + assert (IZR (q / 2 ^ h * 2 ^ h) + 1 <= IZR q /\ IZR q + 1 <= IZR ((q / 2 ^ h + 1) * 2 ^ h))%R as [B1 B2] by (rewrite <- !plus_IZR; split; apply IZR_le; lia). lra.
    + split; apply IZR_lt; lia.
Qed.
Lemma g_X : -1021 <= n -> rne g X = (IZR q * bp (n - 53))%R.
Proof.
  intros Hn. rewrite (rne_eq g n X HX). unfold FLT_exp. change (prec g) with 53. change (emin g) with (-1074). rewrite Z.max_l by lia. unfold q, Q. do 5 f_equal. lia.
Qed.
End Real.
