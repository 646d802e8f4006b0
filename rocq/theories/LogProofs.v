(** Accuracy of log: the approximation and the rounding errors of the primary range. *)
From Coq Require Import ZArith Reals Bool List Lia Lra Psatz.
From Flocq Require Import Core.
From Verif Require Import Base FloatModel FloatSpec FloatConvSpec LibmModel LibmSpec Elem FloatErr PolyBound ElemModel ElemSpec F64Lib ExpProofs3 ExpProofs4 ExpProofs5 ExpProofs6.
Import ListNotations.
Open Scope Z_scope.

(** * The last rounding *)
Lemma final_round_pos v y c : (bpow radix2 (-1022) <= y)%R -> (Rabs (v - y) <= c * ulp64 y)%R -> (c <= 1)%R ->
  (Rabs (rne F64 v - y) <= (c + / 2) * ulp64 y)%R.
Proof.
  assert (VE : Valid_exp (FLT_exp (emin F64) (prec F64))) by (apply FLT_exp_valid; exact Hp64).
  intros Hy H Hc. assert (p0 := bpow_gt_0 radix2 (-1022)).
  destruct (mag radix2 y) as (E & M). specialize (M ltac:(lra)). rewrite Rabs_pos_eq in M by lra.
  assert (HE : -1021 <= E). { assert (-1022 < E); [|lia]. apply (lt_bpow radix2). lra. }
  assert (U : ulp64 y = bpow radix2 (E - 53)).
  { unfold ulp64. rewrite ulp_neq_0 by lra. f_equal. unfold cexp. rewrite (mag_unique_pos radix2 y E M). unfold FLT_exp. change (emin F64) with (-1074). change (prec F64) with 53. lia. }
  rewrite U in *. assert (u0 := bpow_gt_0 radix2 (E - 53)). set (u := bpow radix2 (E - 53)) in *.
  assert (uE : (u < bpow radix2 E)%R) by (apply bpow_lt; lia). assert (H' := Rabs_le_inv _ _ H).
  assert (uE2 : (4 * u <= bpow radix2 E)%R) by (unfold u; change 4%R with (bpow radix2 2); rewrite <- bpow_plus; apply bpow_le; lia).
  assert (hE : (/ 2 * bpow radix2 E <= y)%R) by (change (/ 2)%R with (bpow radix2 (-1)); rewrite <- bpow_plus; replace (-1 + E) with (E - 1) by lia; apply M).
  destruct (Rlt_le_dec v (bpow radix2 E)) as [L|G].
  - assert (Rabs (rne F64 v - v) <= / 2 * u)%R.
    { pose proof (rne_error F64 Hp64 E v) as Q. change (prec F64) with 53 in Q. change (emin F64) with (-1074) in Q. rewrite Z.max_l in Q by lia. apply Q. apply Rabs_lt.
      split; [|exact L]. nra. }
    replace (rne F64 v - y)%R with ((rne F64 v - v) + (v - y))%R by ring. eapply Rle_trans; [apply Rabs_triang|]. lra.
  - assert (FE : generic_format radix2 (FLT_exp (emin F64) (prec F64)) (bpow radix2 E)).
    { apply generic_format_bpow. unfold FLT_exp. change (emin F64) with (-1074). change (prec F64) with 53. lia. }
    assert (A : (bpow radix2 E <= rne F64 v)%R) by (unfold rne; apply round_ge_generic; [apply FLT_exp_valid; exact Hp64|auto with typeclass_instances|exact FE|exact G]).
    assert (B : (rne F64 v <= bpow radix2 E)%R).
    { unfold rne. apply (round_N_le_midp radix2 (FLT_exp (emin F64) (prec F64)) (fun t => negb (Z.even t))); [exact FE|].
      rewrite succ_eq_pos by apply bpow_ge_0. rewrite ulp_bpow. unfold FLT_exp. change (emin F64) with (-1074). change (prec F64) with 53.
      rewrite Z.max_l by lia. replace (E + 1 - 53) with (1 + (E - 53)) by lia. rewrite (bpow_plus _ 1). change (bpow radix2 1) with 2%R. fold u. nra. }
    apply Rabs_le. nra.
Qed.
Lemma ulp64_opp y : ulp64 (- y) = ulp64 y. Proof. apply ulp_opp. Qed.
Lemma final_round v y c : (bpow radix2 (-1022) <= Rabs y)%R -> (Rabs (v - y) <= c * ulp64 y)%R -> (c <= 1)%R ->
  (Rabs (rne F64 v - y) <= (c + / 2) * ulp64 y)%R.
Proof.
  intros Hy H Hc. destruct (Rle_lt_dec 0 y) as [p|p].
  - apply final_round_pos; [rewrite Rabs_pos_eq in Hy by exact p; exact Hy|exact H|exact Hc].
  - rewrite Rabs_left in Hy by exact p. rewrite <- ulp64_opp in *.
    replace (rne F64 v - y)%R with (- (rne F64 (- v) - - y))%R by (rewrite rne_opp; ring). rewrite Rabs_Ropp.
    apply final_round_pos; [exact Hy| |exact Hc]. replace (- v - - y)%R with (- (v - y))%R by ring. rewrite Rabs_Ropp. exact H.
Qed.

(** * Approximation *)
(** The polynomial R of log.rs:111-115, as a function of z = s^2, and the series it stands for. *)
Definition pw : pe := PMul PX PX.
Definition pR : pe :=
  PAdd (PMul PX (PAdd (PK LG1) (PMul pw (PAdd (PK LG3) (PMul pw (PAdd (PK LG5) (PMul pw (PK LG7))))))))
       (PMul pw (PAdd (PK LG2) (PMul pw (PAdd (PK LG4) (PMul pw (PK LG6)))))).
Definition pS : pe := PMul PX (phorn (fun i => (2, Z.of_nat (2 * i + 3))) PX 0 13).
Lemma pR_ok z : (0 <= z <= 0.0295)%R -> (Rabs (pev F64 z pR - pev F64 z pS) <= 4 * bpow radix2 (-60))%R.
Proof.
  intros H. apply Rabs_le. rewrite <- (fx_scale 76 (-60) 4) by lia. rewrite <- fx_opp.
  change (pev F64 z pR - pev F64 z pS)%R with (pev F64 z (PSub pR pS)).
  apply (pcheck_ok 76 ltac:(lia) F64 (PSub pR pS) 0 (967 * 2 ^ 54) 64); [vm_compute; reflexivity|lia| |discriminate].
  replace (0 + 2 * (967 * 2 ^ 54) * Z.of_nat 64) with (967 * 2 ^ (76 + -15)) by reflexivity. rewrite fx_scale, fx_0 by lia.
  change (bpow radix2 (-15)) with (/ 32768)%R. lra.
Qed.
Lemma pS_ok s : (s * pev F64 (s * s) pS + 2 * s = atanh_taylor 15 s)%R.
Proof.
  change (atanh_taylor 15 s) with (atanh_taylor 15 (pev F64 s PX)). rewrite <- (pev_atanh F64 s PX 14). unfold patanh, pS. cbn [pev]. rewrite !pev_horn. cbn [pev].
  rewrite (decomp_sum _ 14) by lia. cbn [pred]. rewrite Rmult_plus_distr_l, Rplus_comm. f_equal.
  - cbn. field.
  - f_equal. rewrite scal_sum. apply sum_eq. intros i _. cbn [fst snd Nat.add]. replace (2 * S i + 1)%nat with (2 * i + 3)%nat by lia. cbn [pow]. ring.
Qed.
Lemma log_R s : (Rabs s <= 0.1717)%R ->
  (Rabs (2 * s + s * pev F64 (s * s) pR - ln ((1 + s) / (1 - s))) <= Rabs s * (5 * bpow radix2 (-60)))%R.
Proof.
  intros H. assert (H' := Rabs_le_inv _ _ H).
  pose proof (atanh_taylor_ok 15 s 0.1717 H ltac:(lra)) as T.
  assert (Z : (0 <= s * s <= 0.0295)%R) by nra. pose proof (pR_ok _ Z) as A. rewrite <- pS_ok in T.
  assert (B : (2 * Rabs s ^ (2 * 15 + 1) / INR (2 * 15 + 1) / (1 - 0.1717 * 0.1717) <= Rabs s * bpow radix2 (-60))%R).
  { set (t := Rabs s) in *. assert (t0 : (0 <= t)%R) by apply Rabs_pos. change (2 * 15 + 1)%nat with (S 30). rewrite INR_IZR_INZ. change (Z.of_nat 31) with 31.
    assert (E : (t ^ 30 <= bpow radix2 (-75))%R).
    { replace (t ^ 30)%R with ((t ^ 2) ^ 15)%R by (rewrite <- pow_mult; reflexivity). replace (bpow radix2 (-75)) with ((/ 32) ^ 15)%R by (cbn; lra).
      apply pow_incr. split; [apply pow_le, t0|]. cbn. nra. }
    change (t ^ S 30)%R with (t * t ^ 30)%R. assert (b1 : (bpow radix2 (-75) <= / 1000 * bpow radix2 (-60))%R) by (change (-75) with (-15 + -60); rewrite bpow_plus; change (bpow radix2 (-15)) with (/ 32768)%R; pose proof (bpow_gt_0 radix2 (-60)); lra).
    assert (t * t ^ 30 <= t * (/ 1000 * bpow radix2 (-60)))%R by (apply Rmult_le_compat_l; lra).
    set (q := (t * t ^ 30)%R) in *. assert (0 <= q)%R by (unfold q; apply Rmult_le_pos; [exact t0|apply pow_le, t0]).
    replace (2 * q / 31 / (1 - 0.1717 * 0.1717))%R with (q * (2 / 31 / (1 - 0.1717 * 0.1717)))%R by (unfold Rdiv; ring). nra. }
  replace (2 * s + s * pev F64 (s * s) pR - ln ((1 + s) / (1 - s)))%R with
    (s * (pev F64 (s * s) pR - pev F64 (s * s) pS) - (ln ((1 + s) / (1 - s)) - (s * pev F64 (s * s) pS + 2 * s)))%R by ring.
  unfold Rminus at 1. eapply Rle_trans; [apply Rabs_triang|]. rewrite Rabs_Ropp, Rabs_mult.
  assert (Rabs s * Rabs (pev F64 (s * s) pR - pev F64 (s * s) pS) <= Rabs s * (4 * bpow radix2 (-60)))%R by (apply Rmult_le_compat_l; [apply Rabs_pos|exact A]).
  lra.
Qed.

(** * Straight-line programs: each result is added to the environment *)
Fixpoint aprog (P : Z) (env : list ab) (es : list ex) : option (list ab) :=
  match es with
  | [] => Some env
  | e :: t => match aev P F64 env e with Some a => aprog P (env ++ [a]) t | None => None end
  end.
Fixpoint fprog (o : fops) (env : list Z) (es : list ex) : list Z :=
  match es with [] => env | e :: t => fprog o (env ++ [fval o env e]) t end.
Fixpoint rprog (env : list R) (es : list ex) : list R :=
  match es with [] => env | e :: t => rprog (env ++ [rval F64 env e]) t end.
Definition rel (P : Z) (aenv : list ab) (env : list Z) (renv : list R) : Prop :=
  length env = length aenv /\ length renv = length aenv /\
  forall i a, nth_error aenv i = Some a -> okv P F64 a (nth i env 0) (nth i renv 0%R).
Lemma rel_app P aenv env renv a x r : rel P aenv env renv -> okv P F64 a x r -> rel P (aenv ++ [a]) (env ++ [x]) (renv ++ [r]).
Proof.
  intros (L1 & L2 & H) Hx. unfold rel. rewrite !app_length. cbn [length]. split; [lia|split; [lia|]].
  intros i b. destruct (Nat.lt_ge_cases i (length aenv)) as [L|G].
  - rewrite nth_error_app1, !app_nth1 by lia. apply H.
  - rewrite nth_error_app2, !app_nth2 by lia. rewrite L1, L2. destruct (i - length aenv)%nat as [|[|j]]; cbn [nth_error nth]; [|discriminate..].
    intros E. apply Some_inj in E. subst b. exact Hx.
Qed.
Theorem aprog_sound P o : 0 <= P -> ieee_ops F64 o -> forall es aenv env renv out, rel P aenv env renv ->
  aprog P aenv es = Some out -> rel P out (fprog o env es) (rprog renv es).
Proof.
  intros HP Ho. induction es as [|e t IH]; intros aenv env renv out R; cbn [aprog fprog rprog].
  - intros E. apply Some_inj in E. subst out. exact R.
  - destruct (aev P F64 aenv e) as [a|] eqn:E; [|discriminate]. apply IH. apply rel_app; [exact R|].
    apply (aev64 P o aenv env renv HP Ho); [apply R|exact E].
Qed.
Definition lasta (l : list ab) : ab := last l (Ab 0 0 0).
Lemma rel_nth P aenv env renv i a : rel P aenv env renv -> nth_error aenv i = Some a -> okv P F64 a (nth i env 0) (nth i renv 0%R).
Proof. intros R. apply R. Qed.

(** * Rounding errors *)
(** Vr 0 = f, Vr 1 = f / 2, Vr 2 = k ln2lo *)
Definition log_prog : list ex := [
  Div (Vr 0) (Add (K two) (Vr 0)) (* 3: s *);
  Mul (Vr 1) (Vr 0) (* 4: hfsq *);
  Mul (Vr 3) (Vr 3) (* 5: z *);
  Mul (Vr 5) (Vr 5) (* 6: w *);
  Add (Mul (Vr 5) (Add (K LG1) (Mul (Vr 6) (Add (K LG3) (Mul (Vr 6) (Add (K LG5) (Mul (Vr 6) (K LG7))))))))
      (Mul (Vr 6) (Add (K LG2) (Mul (Vr 6) (Add (K LG4) (Mul (Vr 6) (K LG6)))))) (* 7: r *);
  Sub (Add (Mul (Vr 3) (Add (Vr 4) (Vr 7))) (Vr 2)) (Vr 4) (* 8 *);
  Add (Vr 8) (Vr 0) (* 9 *)].
Definition LP : Z := 160.
Definition env_log (a b l e : Z) : list ab := [Ab a b 0; Ab (a / 2) (b / 2 + 1) 0; Ab (- l) l e].
Definition log_er (i : nat) (env : list ab) : option Z :=
  match aprog LP env log_prog with
  | Some r => match nth_error r i with Some a => Some (er a) | None => None end
  | None => None
  end.
Definition chkT (a b : Z) : bool :=
  match log_er 9 (env_log a b (2 ^ (LP - 22)) (2 ^ (LP - 74))) with
  | Some e => e + 2 ^ (LP + -60) <=? 2 ^ (LP + -54)
  | None => false
  end.
Definition chkA (j a b : Z) : bool :=
  match log_er 8 (env_log a b 0 0) with
  | Some e => e + 5 * 2 ^ (LP + (-59 - j)) <=? 2 ^ (LP + (-53 - j))
  | None => false
  end.
Lemma scanT : scan chkT ((- 20) * 2 ^ (LP + -6)) (2 ^ (LP + -4)) 12 = true.
Proof. vm_compute. reflexivity. Qed.
Lemma scanA2 : scan (chkA 2) (16 * 2 ^ (LP + -6)) (2 ^ (LP + -6)) 11 && scan (chkA 2) ((- 19) * 2 ^ (LP + -6)) (2 ^ (LP + -6)) 3 = true.
Proof. vm_compute. reflexivity. Qed.
(** The binades j to j', by their larger and their smaller magnitudes *)
Definition chk_binades (g : Z * Z) : bool := let (j, j') := g in
  chkA j' (1 * 2 ^ (LP + - j')) (2 * 2 ^ (LP + - j)) && chkA j' ((-2) * 2 ^ (LP + - j)) ((-1) * 2 ^ (LP + - j')).
Definition groups : list (Z * Z) := [(3, 3); (4, 4); (5, 6); (7, 10); (11, 18); (19, 34); (35, 53)].
Lemma scan_binades : forallb chk_binades groups = true.
Proof. vm_compute. reflexivity. Qed.
Lemma groups_ok j : 3 <= j <= 53 -> exists g, In g groups /\ 3 <= fst g <= j /\ j <= snd g <= 53.
Proof.
  intros H. unfold groups. destruct (Z_le_gt_dec j 3); [exists (3, 3); cbn; intuition lia|]. destruct (Z_le_gt_dec j 4); [exists (4, 4); cbn; intuition lia|].
  destruct (Z_le_gt_dec j 6); [exists (5, 6); cbn; intuition lia|]. destruct (Z_le_gt_dec j 10); [exists (7, 10); cbn; intuition lia|].
  destruct (Z_le_gt_dec j 18); [exists (11, 18); cbn; intuition lia|]. destruct (Z_le_gt_dec j 34); [exists (19, 34); cbn; intuition lia|exists (35, 53); cbn; intuition lia].
Qed.
