(** Accuracy of tan: the polynomial. *)
From Coq Require Import ZArith Reals Bool List Lia Lra Psatz.
From Flocq Require Import Core.
From Coquelicot Require Import Coquelicot.
From Verif Require Import Base FloatModel FloatSpec LibmModel LibmSpec Elem FloatErr PolyBound ElemModel ElemSpec TrigModel F64Lib TrigProofs AsinProofs2 TanModel.
Import ListNotations.
Open Scope Z_scope.

Definition pTq : pe :=
  PAdd (PAdd (PK T_1) (PMul pw (PAdd (PK T_3) (PMul pw (PAdd (PK T_5) (PMul pw (PAdd (PK T_7) (PMul pw (PAdd (PK T_9) (PMul pw (PK T_11)))))))))))
       (PMul PX (PAdd (PK T_2) (PMul pw (PAdd (PK T_4) (PMul pw (PAdd (PK T_6) (PMul pw (PAdd (PK T_8) (PMul pw (PAdd (PK T_10) (PMul pw (PK T_12))))))))))) ).
Definition pTan : pe := PAdd (PQ 1 1) (PMul PX (PAdd (PK T_0) (PMul PX pTq))).
Definition pTD : pe := PSub (PMul pTan (pCosT 9)) (pSinT 9).
(** [a] in units of 2^-12, [d] in units of 2^-16, up to 2^-57 *)
Definition tdc (a d : Z) (n : nat) : bool := pcheck 70 F64 pTD (a * 2 ^ 58) (d * 2 ^ 54) n (- (2 ^ 13)) (2 ^ 13).
Lemma chk_TD : tdc 0 512 4 && tdc 256 1203 10 && tdc 1757 428 2 = true. Proof. vm_compute. reflexivity. Qed.
Lemma tdc_ok a d n z : tdc a d n = true -> 0 <= d -> n <> O -> (IZR a / 4096 <= z <= IZR a / 4096 + IZR (d * Z.of_nat n) / 32768)%R -> (Rabs (pev F64 z pTD) <= bpow radix2 (-57))%R.
Proof.
  intros H Hd Hn Hz. pose proof (pcheck_ok 70 ltac:(lia) F64 pTD _ _ _ _ _ H ltac:(lia) z) as Q. rewrite fx_add in Q.
  replace (fx 70 (a * 2 ^ 58)) with (IZR a / 4096)%R in Q by (unfold fx; rewrite mult_IZR; change (IZR (2 ^ 58)) with (bpow radix2 58); rewrite Rmult_assoc, <- bpow_plus; reflexivity).
  replace (2 * (d * 2 ^ 54) * Z.of_nat n) with (d * Z.of_nat n * 2 ^ 55) in Q by (rewrite !(Z.mul_comm _ (2 ^ 54)); lia).
  replace (fx 70 (d * Z.of_nat n * 2 ^ 55)) with (IZR (d * Z.of_nat n) / 32768)%R in Q by (unfold fx; rewrite (mult_IZR _ (2 ^ 55)); change (IZR (2 ^ 55)) with (bpow radix2 55); rewrite (Rmult_assoc _ (bpow radix2 55)), <- bpow_plus; reflexivity).
  specialize (Q Hz Hn). rewrite fx_opp, fx_pow in Q by lia. change (13 - 70) with (-57) in Q. apply Rabs_le. exact Q.
Qed.
Lemma TD_ok z : (0 <= z <= 0.455)%R -> (Rabs (pev F64 z pTan * pev F64 z (pCosT 9) - pev F64 z (pSinT 9)) <= bpow radix2 (-57))%R.
Proof.
  intros H. pose proof chk_TD as C. apply andb_prop in C. destruct C as [C C3]. apply andb_prop in C. destruct C as [C1 C2]. change (Rabs (pev F64 z pTD) <= bpow radix2 (-57))%R.
  destruct (Rle_lt_dec z (256 / 4096)) as [l|l]; [apply (tdc_ok 0 512 4 z C1); [lia|discriminate|]; change (512 * Z.of_nat 4) with 2048; lra|].
  destruct (Rle_lt_dec z (1757 / 4096)) as [l2|l2]; [apply (tdc_ok 256 1203 10 z C2); [lia|discriminate|]; change (1203 * Z.of_nat 10) with 12030; lra|].
  apply (tdc_ok 1757 428 2 z C3); [lia|discriminate|]; change (428 * Z.of_nat 2) with 856; lra.
Qed.
Definition pTa : pe := PAdd (PK T_0) (PMul PX pTq).
Lemma chk_Ta : pcheck 30 F64 pTa 0 (466 * 2 ^ 17) 4 350000000 441000000 = true. Proof. vm_compute. reflexivity. Qed.
Lemma pTan_bound z : (0 <= z <= 0.455)%R -> (1 + 0.325 * z <= pev F64 z pTan <= 1.1871)%R.
Proof.
  intros H. pose proof (pcheck_ok 30 ltac:(lia) F64 pTa _ _ _ _ _ chk_Ta ltac:(lia) z) as Q.
  assert (fx 30 0 <= z <= fx 30 (0 + 2 * (466 * 2 ^ 17) * Z.of_nat 4))%R as Hz. { rewrite fx_0. split; [lra|]. unfold fx. change (bpow radix2 (- (30))) with (/ 1073741824)%R. change (0 + 2 * (466 * 2 ^ 17) * Z.of_nat 4) with 488636416. lra. }
  specialize (Q Hz ltac:(discriminate)). unfold fx in Q. change (bpow radix2 (- (30))) with (/ 1073741824)%R in Q.
  change (pev F64 z pTan) with (1 / 1 + z * pev F64 z pTa)%R. nra.
Qed.
(** tan x = x (1 + z T(z)) *)
Lemma tan_P x : (x * x <= 0.455)%R -> (Rabs (x * pev F64 (x * x) pTan - tan x) <= Rabs x * (0.082 * u53))%R /\ (0.77 <= cos x)%R.
Proof.
  intros H. assert (0 <= x * x)%R as H0 by nra. assert (Rabs x <= 0.7856)%R as HX by (apply Rabs_le; nra). pose proof (TD_ok _ (conj H0 H)) as D. pose proof (pTan_bound _ (conj H0 H)) as B.
  pose proof (sin_taylor x HX) as S. pose proof (cos_taylor x HX) as C. set (p := pev F64 (x * x) pTan) in *. set (S9 := pev F64 (x * x) (pSinT 9)) in *. set (C9 := pev F64 (x * x) (pCosT 9)) in *.
  assert (0.77 <= cos x)%R as CX. { pose proof (TrigProofs2.cos_small x) as Q. specialize (Q ltac:(apply Rabs_le_inv in HX; lra)). lra. }
  split; [|exact CX]. set (a := Rabs x) in *. assert (0 <= a)%R as A0 by apply Rabs_pos.
  assert (bpow radix2 (-57) = / 16 * u53)%R as E57 by (unfold u53; change (-57) with (-4 + -53); rewrite bpow_plus; reflexivity).
  assert (bpow radix2 (-66) = / 8192 * u53)%R as E66 by (unfold u53; change (-66) with (-13 + -53); rewrite bpow_plus; reflexivity).
  assert (bpow radix2 (-70) = / 131072 * u53)%R as E70 by (unfold u53; change (-70) with (-17 + -53); rewrite bpow_plus; reflexivity). pose proof u53_small as US.
  assert (Rabs (x * p * cos x - sin x) <= a * (0.0625 * u53 + 0.0002 * u53))%R as N.
  { replace (x * p * cos x - sin x)%R with (x * (p * C9 - S9) + (x * p * (cos x - C9) - (sin x - x * S9)))%R by ring. eapply Rle_trans; [apply Rabs_triang|].
    assert (Rabs (x * (p * C9 - S9)) <= a * (/ 16 * u53))%R as N1 by (rewrite Rabs_mult; fold a; apply Rmult_le_compat_l; lra).
    assert (Rabs (x * p * (cos x - C9)) <= a * (1.2 * (/ 8192 * u53)))%R as N2. { rewrite !Rabs_mult. fold a. rewrite Rmult_assoc. apply Rmult_le_compat_l; [exact A0|]. apply Rmult_le_compat; [apply Rabs_pos|apply Rabs_pos|rewrite Rabs_pos_eq; lra|lra]. }
    rewrite E70 in S. unfold Rminus at 2. pose proof (Rabs_triang (x * p * (cos x - C9)) (- (sin x - x * S9))) as Q. rewrite Rabs_Ropp in Q. assert (0 <= a * u53)%R by nra. lra. }
  replace (x * p - tan x)%R with ((x * p * cos x - sin x) * / cos x)%R by (unfold tan; field; lra). rewrite Rabs_mult, (Rabs_pos_eq (/ cos x)) by (left; apply Rinv_0_lt_compat; lra).
  assert (/ cos x <= / 0.77)%R by (apply Rinv_le; lra). assert (0 <= / cos x)%R by (left; apply Rinv_0_lt_compat; lra).
  apply Rle_trans with (a * (0.0625 * u53 + 0.0002 * u53) * / 0.77)%R; [apply Rmult_le_compat; [apply Rabs_pos|lra|exact N|lra]|]. assert (0 <= a * u53)%R by nra. lra.
Qed.
(** The derivative *)
Lemma tan_step x t : (x * x <= 0.4548)%R -> (Rabs (t - x) <= / 1000000000000 * Rabs x)%R -> exists c, (tan t - tan x = (1 + tan c * tan c) * (t - x))%R /\ (0.999999 * (x * x) <= tan c * tan c <= 1.41 * (x * x))%R.
Proof.
  intros H D. set (a := Rabs x) in *. assert (0 <= a)%R as A0 by apply Rabs_pos. assert (x * x = a * a)%R as AA by (unfold a; rewrite <- Rabs_mult, Rabs_pos_eq; [reflexivity|nra]).
  assert (forall c, (Rmin x t <= c <= Rmax x t)%R -> (0.9999999 * (a * a) <= c * c <= 1.0000001 * (a * a))%R) as BC.
  { intros c Hc. assert (Rabs (c - x) <= / 1000000000000 * a)%R as DC. { eapply Rle_trans; [|exact D]. unfold Rmin, Rmax in Hc. apply Rabs_le. destruct (Rle_dec x t); [rewrite Rabs_pos_eq by lra|rewrite Rabs_left by lra]; lra. }
    replace (c * c)%R with (x * x + (c - x) * (2 * x + (c - x)))%R by ring. assert (Rabs ((c - x) * (2 * x + (c - x))) <= / 1000000000000 * a * (3 * a))%R as Q.
    { rewrite Rabs_mult. apply Rmult_le_compat; [apply Rabs_pos|apply Rabs_pos|exact DC|]. eapply Rle_trans; [apply Rabs_triang|]. rewrite Rabs_mult, (Rabs_pos_eq 2) by lra. fold a. lra. }
    apply Rabs_le_inv in Q. rewrite AA. nra. }
  rewrite AA in H.
  destruct (MVT_gen tan x t (fun c => 1 + tan c * tan c)%R) as (c & Hc & E).
  - intros c Hc. specialize (BC c ltac:(lra)). destruct (tan_P c ltac:(lra)) as [_ CC]. unfold tan. auto_derive; [lra|].
    field. lra.
  - intros c Hc. specialize (BC c Hc). destruct (tan_P c ltac:(lra)) as [_ CC]. unfold tan. reg. lra.
  - exists c. split; [exact E|]. specialize (BC c Hc). destruct (tan_P c ltac:(lra)) as [TP _]. assert (0 <= c * c)%R by nra. pose proof (pTan_bound (c * c) ltac:(lra)) as PB. set (p := pev F64 (c * c) pTan) in *. rewrite AA. pose proof u53_small as US.
    assert (tan c * tan c = c * c * (p * p) + (tan c - c * p) * (tan c + c * p))%R as -> by ring. set (d := Rabs c) in *. assert (0 <= d)%R as D0 by apply Rabs_pos. assert (c * c = d * d)%R as DD by (unfold d; rewrite <- Rabs_mult, Rabs_pos_eq; [reflexivity|nra]).
    assert (Rabs (c * p) <= 1.1871 * d)%R as B1 by (rewrite Rabs_mult, Rmult_comm; fold d; apply Rmult_le_compat_r; [exact D0|rewrite Rabs_pos_eq; lra]).
    assert (Rabs (tan c - c * p) <= d * / 1000000000)%R as B2 by (rewrite Rabs_minus_sym; eapply Rle_trans; [exact TP|apply Rmult_le_compat_l; lra]).
    assert (Rabs (tan c + c * p) <= 3 * d)%R as B3. { replace (tan c + c * p)%R with ((tan c - c * p) + 2 * (c * p))%R by ring. eapply Rle_trans; [apply Rabs_triang|]. rewrite (Rabs_mult 2), (Rabs_pos_eq 2) by lra. lra. }
    assert (Rabs ((tan c - c * p) * (tan c + c * p)) <= d * / 1000000000 * (3 * d))%R as Q by (rewrite Rabs_mult; apply Rmult_le_compat; try apply Rabs_pos; assumption). apply Rabs_le_inv in Q.
    assert (0.9999999 <= p * p <= 1.40921)%R as PP by nra. assert (c * c * 0.9999999 <= c * c * (p * p) <= c * c * 1.40921)%R as Q2 by (split; apply Rmult_le_compat_l; lra). rewrite DD in *. lra.
Qed.
