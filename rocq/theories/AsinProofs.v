(** Accuracy of asin and acos: the series and the rational function. *)
From Coq Require Import ZArith Reals Bool List Lia Lra Psatz.
From Flocq Require Import Core.
From Coquelicot Require Import Coquelicot.
From Verif Require Import Base FloatModel FloatSpec LibmModel Elem FloatErr PolyBound ElemModel ElemSpec F64Lib TrigProofs AtanModel AsinModel.
Import ListNotations.
Open Scope R_scope.

(** * Polynomials with integer coefficients *)
Fixpoint leval (l : list Z) (w : R) : R := match l with [] => 0 | a :: t => IZR a + w * leval t w end.
Fixpoint ladd (p q : list Z) : list Z := match p, q with [], _ => q | _, [] => p | a :: s, b :: t => (a + b)%Z :: ladd s t end.
Fixpoint lmul (p q : list Z) : list Z := match p with [] => [] | a :: t => ladd (map (Z.mul a) q) (0%Z :: lmul t q) end.
Lemma leval_add p : forall q w, leval (ladd p q) w = leval p w + leval q w.
Proof. induction p as [|a s IH]; intros [|b t] w; cbn [ladd leval]; try ring. rewrite IH, plus_IZR. ring. Qed.
Lemma leval_scale a q w : leval (map (Z.mul a) q) w = IZR a * leval q w.
Proof. induction q as [|b t IH]; cbn [map leval]; [ring|]. rewrite IH, mult_IZR. ring. Qed.
Lemma leval_mul p q w : leval (lmul p q) w = leval p w * leval q w.
Proof. induction p as [|a s IH]; cbn [lmul leval]; [ring|]. rewrite leval_add, leval_scale. cbn [leval]. rewrite IH. ring. Qed.
Lemma leval_app l a w : leval (l ++ [a]) w = leval l w + IZR a * w ^ length l.
Proof. induction l as [|b t IH]; cbn [app leval length pow]; [ring|]. rewrite IH. ring. Qed.
Lemma leval_nonneg l w : forallb (Z.leb 0) l = true -> 0 <= w -> 0 <= leval l w.
Proof.
  intros H Hw. induction l as [|a t IH]; cbn [leval]; [lra|]. cbn [forallb] in H. apply andb_prop in H. destruct H as [H1 H2]. apply Z.leb_le, IZR_le in H1. specialize (IH H2). nra.
Qed.
(** A bound on [0, 1/16], in units of 2^-80 *)
Fixpoint lbound (l : list Z) : Z := match l with [] => 0%Z | a :: t => (Z.abs a * 2 ^ 80 + (lbound t / 16 + 1))%Z end.
Lemma lbound_ok l w : 0 <= w <= / 16 -> Rabs (leval l w) <= fx 80 (lbound l).
Proof.
  intros H. induction l as [|a t IH]; cbn [leval lbound]; [rewrite Rabs_R0, fx_0; lra|].
  rewrite fx_add, fx_P by lia. rewrite abs_IZR. eapply Rle_trans; [apply Rabs_triang|]. apply Rplus_le_compat_l. rewrite Rabs_mult, (Rabs_pos_eq w) by lra.
  apply Rle_trans with (/ 16 * fx 80 (lbound t)); [pose proof (Rabs_pos (leval t w)); apply Rmult_le_compat; lra|].
  unfold fx. rewrite <- Rmult_assoc. apply Rmult_le_compat_r; [apply bpow_ge_0|]. pose proof (Z_div_mod_eq_full (lbound t) 16) as D. pose proof (Z.mod_pos_bound (lbound t) 16 ltac:(lia)) as M.
  assert (lbound t <= 16 * (lbound t / 16 + 1))%Z as Q by lia. apply IZR_le in Q. rewrite mult_IZR in Q. lra.
Qed.

(** * The series *)
Fixpoint cbin (n : nat) : Z := match n with O => 1 | S m => cbin m * (2 * (2 * Z.of_nat m + 1)) / (Z.of_nat m + 1) end.
Fixpoint asin_taylor (n : nat) (x : R) : R :=
  match n with O => 0 | S m => asin_taylor m x + IZR (cbin m) / 4 ^ m * (x ^ (2 * m + 1) / INR (2 * m + 1)) end.
Fixpoint inv_taylor (n : nat) (x : R) : R := match n with O => 0 | S m => inv_taylor m x + IZR (cbin m) / 4 ^ m * x ^ (2 * m) end.
Lemma taylor_derive n x : is_derive (asin_taylor n) x (inv_taylor n x).
Proof.
  induction n as [|n IH]; cbn [asin_taylor inv_taylor]; [apply (is_derive_const (V := R_NormedModule))|].
  apply (is_derive_plus (V := R_NormedModule)); [exact IH|]. auto_derive; [exact Logic.I|]. change (n + (n + 0) + 1)%nat with (2 * n + 1)%nat. replace (Init.Nat.pred (2 * n + 1)%nat) with (2 * n)%nat by lia.
  change (n + (n + 0))%nat with (2 * n)%nat. field. split; first [apply not_0_INR; lia|apply pow_nonzero; lra].
Qed.
Lemma inv_leval n x : inv_taylor n x = leval (map cbin (seq 0 n)) (x * x / 4).
Proof.
  induction n as [|n IH]; [reflexivity|]. cbn [inv_taylor]. rewrite seq_S, map_app. cbn [map]. rewrite leval_app, map_length, seq_length, <- IH. cbn [Nat.add].
  f_equal. rewrite pow_mult. replace (x ^ 2) with (x * x) by ring. unfold Rdiv. rewrite (Rpow_mult_distr (x * x)). rewrite pow_inv. ring.
Qed.
Definition NT : nat := 32.
Definition CB : list Z := Eval vm_compute in map cbin (seq 0 NT).
Lemma CB_ok : map cbin (seq 0 NT) = CB. Proof. vm_compute. reflexivity. Qed.
Lemma chk_sqrt : forallb (Z.leb 0) CB && (lbound (ladd (lmul [1; -4]%Z (lmul CB CB)) [-1]%Z) <=? 2 ^ 17)%Z = true. Proof. vm_compute. reflexivity. Qed.
Lemma asin_derive x : -1 < x < 1 -> is_derive asin x (/ sqrt (1 - x * x)).
Proof.
  intros H. pose proof (derive_pt_asin x H) as E. destruct (derivable_pt_asin x H) as [l L] eqn:Q. cbn in E. apply is_derive_Reals. replace (/ sqrt (1 - x * x)) with l; [exact L|]. unfold Rsqr in E. rewrite E. unfold Rdiv. ring.
Qed.
Lemma inv_ok x : Rabs x <= / 2 -> Rabs (inv_taylor NT x - / sqrt (1 - x * x)) <= bpow radix2 (-62).
Proof.
  intros H. apply Rabs_le_inv in H. pose proof chk_sqrt as C. apply andb_prop in C. destruct C as [C1 C2]. apply Z.leb_le in C2. rewrite inv_leval, CB_ok. assert (0 <= x * x / 4 <= / 16) as W by nra.
  set (w := x * x / 4) in *. pose proof (leval_nonneg CB w C1 ltac:(lra)) as P. pose proof (lbound_ok (ladd (lmul [1; -4]%Z (lmul CB CB)) [-1]%Z) w W) as B. rewrite leval_add, !leval_mul in B. cbn [leval] in B.
  apply (fx_le 80) in C2. rewrite fx_pow in C2 by lia. change (17 - 80)%Z with (-63)%Z in C2. set (s := leval CB w) in *. set (d := 1 - x * x) in *. assert (3 / 4 <= d <= 1) as D by (unfold d; nra).
  replace ((1 + w * (-4 + w * 0)) * (s * s) + (-1 + w * 0)) with (s * s * d - 1) in B by (unfold w, d; field).
  pose proof (sqrt_sqrt d ltac:(lra)) as SS. pose proof (sqrt_lt_R0 d ltac:(lra)) as S0. set (r := sqrt d) in *. rewrite <- SS in B. replace (s * s * (r * r) - 1) with ((s * r - 1) * (s * r + 1)) in B by ring. rewrite Rabs_mult in B.
  assert (Rabs (s * r - 1) <= bpow radix2 (-63)) as Q. { rewrite (Rabs_pos_eq (s * r + 1)) in B by nra. assert (1 <= s * r + 1) by nra. pose proof (Rabs_pos (s * r - 1)). nra. }
  replace (s - / r) with ((s * r - 1) * / r) by (field; lra). rewrite Rabs_mult, (Rabs_pos_eq (/ r)) by (left; apply Rinv_0_lt_compat, S0).
  assert (/ r <= 2). { apply Rle_trans with (/ / 2); [|lra]. apply Rinv_le; [lra|]. nra. } pose proof (Rabs_pos (s * r - 1)). assert (0 < / r) by (apply Rinv_0_lt_compat, S0).
  replace (bpow radix2 (-62)) with (bpow radix2 (-63) * 2) by (change 2 with (bpow radix2 1); rewrite <- bpow_plus; reflexivity). apply Rmult_le_compat; lra.
Qed.
Lemma asin_taylor_0 n : asin_taylor n 0 = 0.
Proof. induction n as [|n IH]; [reflexivity|]. cbn [asin_taylor]. rewrite IH. replace (2 * n + 1)%nat with (S (2 * n)) at 1 by lia. cbn [pow]. unfold Rdiv. ring. Qed.
Lemma asin_taylor_ok x : Rabs x <= / 2 -> Rabs (asin_taylor NT x - asin x) <= Rabs x * bpow radix2 (-62).
Proof.
  intros H. assert (H' := Rabs_le_inv _ _ H).
  assert (forall t, Rmin 0 x <= t <= Rmax 0 x -> Rabs t <= / 2) as IN. { intros t. unfold Rmin, Rmax. destruct (Rle_dec 0 x); intros; apply Rabs_le; lra. }
  assert (forall t, Rmin 0 x <= t <= Rmax 0 x -> is_derive (fun s => asin_taylor NT s - asin s) t (inv_taylor NT t - / sqrt (1 - t * t))) as DD.
  { intros t Ht. apply (is_derive_minus (V := R_NormedModule)); [apply taylor_derive|]. specialize (IN t Ht). apply Rabs_le_inv in IN. apply asin_derive. lra. }
  destruct (MVT_gen (fun s => asin_taylor NT s - asin s) 0 x (fun t => inv_taylor NT t - / sqrt (1 - t * t))) as (c & Hc & E).
  - intros t Ht. apply DD. lra.
  - intros t Ht. apply continuity_pt_filterlim, (ex_derive_continuous (fun s => asin_taylor NT s - asin s)). eexists. apply DD, Ht.
  - rewrite asin_taylor_0, asin_0 in E. replace (asin_taylor NT x - asin x) with ((inv_taylor NT c - / sqrt (1 - c * c)) * x) by lra.
    rewrite Rabs_mult, Rmult_comm. apply Rmult_le_compat_l; [apply Rabs_pos|]. apply inv_ok, IN, Hc.
Qed.
Open Scope Z_scope.

(** * The rational function *)
Definition pPS : pe := PAdd (PK P_S0) (PMul PX (PAdd (PK P_S1) (PMul PX (PAdd (PK P_S2) (PMul PX (PAdd (PK P_S3) (PMul PX (PAdd (PK P_S4) (PMul PX (PK P_S5)))))))))).
Definition pQS : pe := PAdd (PK one) (PMul PX (PAdd (PK Q_S1) (PMul PX (PAdd (PK Q_S2) (PMul PX (PAdd (PK Q_S3) (PMul PX (PK Q_S4)))))))).
Definition pT (n : nat) : pe := phorn (fun i => (cbin (S i), 4 ^ Z.of_nat (S i) * Z.of_nat (2 * i + 3))) PX 0 n.
Definition pT1 : pe := pT 30.
Definition pT1v : pe := Eval vm_compute in pT1.
Lemma pT1v_ok : pT1 = pT1v. Proof. vm_compute. reflexivity. Qed.
Definition pRD : pe := PSub pPS (PMul pQS pT1v).
Lemma chk_RD : pcheck 68 F64 pRD 0 (2 ^ 61) 16 (- (2 ^ 12)) (2 ^ 12) = true. Proof. vm_compute. reflexivity. Qed.
Lemma chk_QS : pcheck 40 F64 pQS 0 (2 ^ 34) 8 (2 ^ 39) (2 ^ 41) = true. Proof. vm_compute. reflexivity. Qed.
Lemma RD_ok z : (0 <= z <= / 4)%R -> (Rabs (pev F64 z pPS - pev F64 z pQS * pev F64 z pT1) <= bpow radix2 (-56))%R.
Proof.
  intros H. rewrite pT1v_ok. change (pev F64 z pPS - pev F64 z pQS * pev F64 z pT1v)%R with (pev F64 z pRD).
  pose proof (pcheck_ok 68 ltac:(lia) F64 pRD _ _ _ _ _ chk_RD) as C. rewrite fx_opp, fx_pow in C by lia. change (12 - 68) with (-56) in C. apply Rabs_le. apply C; [lia| |discriminate].
  rewrite fx_0. change (0 + 2 * 2 ^ 61 * Z.of_nat 16) with (2 ^ 66). rewrite fx_pow by lia. change (bpow radix2 (66 - 68)) with (/ 4)%R. lra.
Qed.
Lemma QS_ok z : (0 <= z <= / 4)%R -> (/ 2 <= pev F64 z pQS <= 2)%R.
Proof.
  intros H. pose proof (pcheck_ok 40 ltac:(lia) F64 pQS _ _ _ _ _ chk_QS) as C. rewrite !fx_pow in C by lia. change (bpow radix2 (39 - 40)) with (/ 2)%R in C. change (bpow radix2 (41 - 40)) with 2%R in C. apply C; [lia| |discriminate].
  rewrite fx_0. change (0 + 2 * 2 ^ 34 * Z.of_nat 8) with (2 ^ 38). rewrite fx_pow by lia. change (bpow radix2 (38 - 40)) with (/ 4)%R. lra.
Qed.
(** The rational function, and the real function it stands for *)
Definition Rr (z : R) : R := (z * pev F64 z pPS / pev F64 z pQS)%R.
Lemma T1_ok n x : (x + x * (x * x * pev F64 (x * x) (pT n)) = asin_taylor (n + 2) x)%R.
Proof.
  unfold pT. rewrite pev_horn. cbn [pev]. induction n as [|n IH].
  - cbn. field.
  - rewrite tech5. replace (S n + 2)%nat with (S (n + 2)) by lia. cbn [asin_taylor]. rewrite <- IH. cbn [fst snd Nat.add].
    replace (2 * (n + 2) + 1)%nat with (2 * S n + 3)%nat by lia. replace (n + 2)%nat with (S (S n)) by lia. replace (x ^ (2 * S n + 3))%R with (x * (x * x) * (x * x) ^ S n)%R by (rewrite pow_add, pow_mult; replace (x ^ 2)%R with (x * x)%R by ring; ring).
    rewrite mult_IZR, <- INR_IZR_INZ, <- pow_IZR. field. split; first [apply not_0_INR; lia|apply pow_nonzero; lra].
Qed.
Lemma asin_R x : (Rabs x <= / 2)%R -> (Rabs (x + x * Rr (x * x) - asin x) <= Rabs x * (3 / 2 * bpow radix2 (-57)))%R.
Proof.
  intros H. assert (H' := Rabs_le_inv _ _ H). assert (0 <= x * x <= / 4)%R as Z by nra. set (z := (x * x)%R) in *. pose proof (RD_ok z Z) as A. pose proof (QS_ok z Z) as B. pose proof (asin_taylor_ok x H) as T.
  change NT with (30 + 2)%nat in T. rewrite <- T1_ok in T. fold z in T. fold pT1 in T. set (p := pev F64 z pPS) in *. set (q := pev F64 z pQS) in *. set (t := pev F64 z pT1) in *.
  assert (Rabs (Rr z - z * t) <= bpow radix2 (-57))%R as D.
  { unfold Rr. fold p q. replace (z * p / q - z * t)%R with (z * / q * (p - q * t))%R by (field; lra). rewrite Rabs_mult.
    assert (0 <= z * / q <= / 2)%R as ZQ. { assert (0 < / q)%R by (apply Rinv_0_lt_compat; lra). assert (/ q <= 2)%R by (apply Rle_trans with (/ / 2)%R; [apply Rinv_le; lra|lra]). nra. }
    rewrite (Rabs_pos_eq (z * / q)) by lra. replace (bpow radix2 (-57)) with (/ 2 * bpow radix2 (-56))%R by (change (/ 2)%R with (bpow radix2 (-1)); rewrite <- bpow_plus; reflexivity). apply Rmult_le_compat; [lra|apply Rabs_pos|lra|exact A]. }
  replace (x + x * Rr z - asin x)%R with (x * (Rr z - z * t) + (x + x * (z * t) - asin x))%R by ring. eapply Rle_trans; [apply Rabs_triang|]. rewrite Rabs_mult.
  assert (Rabs x * Rabs (Rr z - z * t) <= Rabs x * bpow radix2 (-57))%R by (apply Rmult_le_compat_l; [apply Rabs_pos|exact D]).
  replace (bpow radix2 (-62)) with (/ 32 * bpow radix2 (-57))%R in T by (change (/ 32)%R with (bpow radix2 (-5)); rewrite <- bpow_plus; reflexivity). pose proof (bpow_gt_0 radix2 (-57)). pose proof (Rabs_pos x). nra.
Qed.
