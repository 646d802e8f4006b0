(** Accuracy of log: the primary range. *)
From Coq Require Import ZArith Reals Bool List Lia Lra Psatz.
From Flocq Require Import Core.
From Verif Require Import Base FloatModel FloatSpec FloatConvSpec LibmModel LibmSpec Elem FloatErr PolyBound ElemModel ElemSpec F64Lib ExpProofs3 ExpProofs4 ExpProofs5 ExpProofs6 ExpProofs7 LogProofs.
Import ListNotations.
Open Scope Z_scope.

Lemma value_two : value F64 two = 2%R.
Proof. rewrite (kb_val 0 two 2) by (vm_compute; reflexivity). unfold fx. cbn. lra. Qed.

(** The real values of the last two expressions. *)
Definition rA (F L : R) : R := let s := (F / (value F64 two + F))%R in (s * (F / 2 * F + pev F64 (s * s) pR) + L - F / 2 * F)%R.
Lemma rprog_A F L : nth 8 (rprog [F; (F / 2)%R; L] log_prog) 0%R = rA F L.
Proof. reflexivity. Qed.
Lemma rprog_T F L : nth 9 (rprog [F; (F / 2)%R; L] log_prog) 0%R = (rA F L + F)%R.
Proof. rewrite <- rprog_A. reflexivity. Qed.
Lemma s_bound F : (-19 / 64 <= F <= 27 / 64 -> Rabs (F / (2 + F)) <= 0.6 * Rabs F /\ Rabs (F / (2 + F)) <= 0.1744)%R.
Proof.
  intros H. unfold Rdiv. rewrite Rabs_mult, (Rabs_pos_eq (/ _)) by (left; apply Rinv_0_lt_compat; lra).
  assert (A : (/ (2 + F) <= 0.6)%R). { apply Rmult_le_reg_r with (2 + F)%R; [lra|]. rewrite Rinv_l by lra. lra. }
  split; [rewrite Rmult_comm; apply Rmult_le_compat_r; [apply Rabs_pos|exact A]|].
  apply Rmult_le_reg_r with (2 + F)%R; [lra|]. rewrite Rmult_assoc, Rinv_l by lra. unfold Rabs. destruct (Rcase_abs F); lra.
Qed.
Lemma rA_ok F L : (-0.293 <= F <= 0.4144)%R -> (Rabs (rA F L + F - (ln (1 + F) + L)) <= Rabs (F / (2 + F)) * (5 * bpow radix2 (-60)))%R.
Proof.
  intros H. set (s := (F / (2 + F))%R). assert (S : (Rabs s <= 0.1717)%R).
  { unfold s, Rdiv. rewrite Rabs_mult, (Rabs_pos_eq (/ _)) by (left; apply Rinv_0_lt_compat; lra).
    apply Rmult_le_reg_r with (2 + F)%R; [lra|]. rewrite Rmult_assoc, Rinv_l by lra. unfold Rabs. destruct (Rcase_abs F); lra. }
  pose proof (log_R s S) as Q.
  replace ((1 + s) / (1 - s))%R with (1 + F)%R in Q by (unfold s; field; split; lra).
  replace (rA F L + F - (ln (1 + F) + L))%R with (2 * s + s * pev F64 (s * s) pR - ln (1 + F))%R; [exact Q|].
  unfold rA. rewrite value_two. cbv zeta. fold s. replace (2 * s)%R with (s * (F / 2 * F) - F / 2 * F + F)%R by (unfold s; field; lra). ring.
Qed.
Lemma ln_le' x y : (0 < x -> x <= y -> ln x <= ln y)%R.
Proof. intros A [B|B]; [left; apply ln_increasing; lra|subst; lra]. Qed.
Lemma ln_lower F : (0 <= F <= 1 -> F / 2 <= ln (1 + F))%R.
Proof.
  intros H. rewrite <- (ln_exp (F / 2)). apply ln_le'; [apply exp_pos|]. pose proof (exp_upper (F / 2) ltac:(lra)) as E.
  eapply Rle_trans; [exact E|]. apply Rmult_le_reg_r with (1 - F / 2)%R; [lra|]. rewrite Rinv_l by lra. nra.
Qed.
Lemma ln_upper F : (-1 < F -> ln (1 + F) <= F)%R.
Proof. intros H. rewrite <- (ln_exp F) at 2. apply ln_le'; [lra|]. apply exp_ineq1_le. Qed.

Section Core.
Context (o : fops) (Ho : ieee_ops F64 o).
Definition lprog (f hf l : Z) : list Z := fprog o [f; hf; l] log_prog.

Lemma half_bounds a b F : (fx LP a <= F <= fx LP b)%R -> (fx LP (a / 2) <= F / 2 <= fx LP (b / 2 + 1))%R.
Proof.
  intros H. assert (A : forall z, (2 * fx LP z)%R = fx LP (2 * z)) by (intros; apply (fx_mulz LP 2)).
  assert (fx LP (2 * (a / 2)) <= fx LP a)%R by (apply fx_le; apply Z.mul_div_le; lia).
  assert (fx LP b <= fx LP (2 * (b / 2 + 1)))%R by (apply fx_le; pose proof (Z.mul_succ_div_gt b 2 ltac:(lia)); lia).
  rewrite <- !A in *. lra.
Qed.
Lemma rel_log a b le f hf l (F := value F64 f) L e : good f -> good hf -> good l -> value F64 hf = (F / 2)%R -> (fx LP a <= F <= fx LP b)%R ->
  (Rabs (value F64 l) <= fx LP le)%R -> (Rabs (value F64 l - L) <= fx LP e)%R ->
  rel LP (env_log a b le e) [f; hf; l] [F; (F / 2)%R; L].
Proof.
  intros Gf Gh Gl Vh B Bl El. split; [reflexivity|split; [reflexivity|]]. intros i q. unfold env_log.
  destruct i as [|[|[|i]]]; cbn [nth_error nth]; intros Q; try (apply Some_inj in Q; subst q).
  - apply okv_var; [apply Gf..|exact B].
  - rewrite <- Vh. apply okv_var; [apply Gh..|]. rewrite Vh. apply half_bounds, B.
  - split; [apply Gl|]. split; [apply Gl|]. cbn [lo hi er]. rewrite fx_opp. split; [apply Rabs_le_inv, Bl|exact El].
  - destruct i; discriminate.
Qed.
Lemma log_er_ok i a b le e f hf l (F := value F64 f) L z : good f -> good hf -> good l -> value F64 hf = (F / 2)%R -> (fx LP a <= F <= fx LP b)%R ->
  (Rabs (value F64 l) <= fx LP le)%R -> (Rabs (value F64 l - L) <= fx LP e)%R -> log_er i (env_log a b le e) = Some z ->
  good (nth i (lprog f hf l) 0) /\ (Rabs (value F64 (nth i (lprog f hf l) 0%Z) - nth i (rprog [F; (F / 2)%R; L] log_prog) 0%R) <= fx LP z)%R.
Proof using Ho.
  intros Gf Gh Gl Vh B Bl El. unfold log_er. destruct (aprog _ _ _) as [out|] eqn:E; [|discriminate].
  destruct (nth_error out i) as [q|] eqn:N; [|discriminate]. intros Q. apply Some_inj in Q. subst z.
  pose proof (aprog_sound LP o ltac:(unfold LP; lia) Ho log_prog _ _ _ _ (rel_log a b le f hf l L e Gf Gh Gl Vh B Bl El) E) as R.
  destruct (rel_nth _ _ _ _ _ _ R N) as (F1 & F2 & _ & F3). split; [split; assumption|exact F3].
Qed.

Lemma log_coreT f hf l (F := value F64 f) L (T := nth 9 (lprog f hf l) 0) : good f -> good hf -> good l -> value F64 hf = (F / 2)%R ->
  (-0.293 <= F <= 0.4144)%R -> (Rabs (value F64 l) <= bpow radix2 (-22))%R -> (Rabs (value F64 l - L) <= bpow radix2 (-74))%R ->
  good T /\ (Rabs (value F64 T - (ln (1 + F) + L)) <= bpow radix2 (-54))%R.
Proof using Ho.
  intros Gf Gh Gl Vh B Bl El.
  destruct (scan_ok LP _ _ _ _ F scanT) as (a & b & C & AB); [discriminate| |].
  { replace ((- 20) * 2 ^ (LP + -6) + 2 ^ (LP + -4) * Z.of_nat 12) with (28 * 2 ^ (LP + -6)) by reflexivity. rewrite !fx_scale by (unfold LP; lia).
    change (bpow radix2 (-6)) with (/ 64)%R. lra. }
  unfold chkT in C. destruct (log_er 9 _) as [z|] eqn:EZ; [|discriminate]. apply Z.leb_le in C.
  assert (P22 : fx LP (2 ^ (LP - 22)) = bpow radix2 (-22)) by (rewrite fx_pow by (unfold LP; lia); reflexivity).
  assert (P74 : fx LP (2 ^ (LP - 74)) = bpow radix2 (-74)) by (rewrite fx_pow by (unfold LP; lia); reflexivity).
  destruct (log_er_ok 9 a b _ _ f hf l L z Gf Gh Gl Vh AB ltac:(rewrite P22; exact Bl) ltac:(rewrite P74; exact El) EZ) as [G E].
  fold F T in G, E. rewrite rprog_T in E. split; [exact G|].
  apply (fx_le LP) in C. rewrite fx_add, !fx_pow in C by (unfold LP; lia). replace (LP + -60 - LP) with (-60) in C by lia. replace (LP + -54 - LP) with (-54) in C by lia.
  pose proof (rA_ok F L B) as A. pose proof (s_bound F ltac:(lra)) as [_ S]. pose proof (bpow_gt_0 radix2 (-60)) as p.
  replace (value F64 T - (ln (1 + F) + L))%R with ((value F64 T - (rA F L + F)) + (rA F L + F - (ln (1 + F) + L)))%R by ring.
  eapply Rle_trans; [apply Rabs_triang|]. nra.
Qed.

Lemma log_core0 f hf l (F := value F64 f) (A := nth 8 (lprog f hf l) 0) : good f -> good hf -> good l -> value F64 hf = (F / 2)%R -> value F64 l = 0%R ->
  (-0.293 <= F <= 0.4144)%R -> (bpow radix2 (-53) <= Rabs F)%R ->
  good A /\ (Rabs (value F64 A + F - ln (1 + F)) <= ulp64 (ln (1 + F)))%R.
Proof using Ho.
  intros Gf Gh Gl Vh Vl B BF.
  destruct (mag radix2 F) as (m & M). specialize (M ltac:(intros Z0; rewrite Z0, Rabs_R0 in BF; pose proof (bpow_gt_0 radix2 (-53)); lra)).
  set (j := 1 - m).
  assert (Hj : 2 <= j <= 53).
  { unfold j. split.
    - assert (m - 1 < -1); [|lia]. apply (lt_bpow radix2). change (bpow radix2 (-1)) with (/ 2)%R. eapply Rle_lt_trans; [apply M|]. apply Rabs_lt. lra.
    - assert (-53 < m); [|lia]. apply (lt_bpow radix2). lra. }
  replace (m - 1) with (- j) in M by (unfold j; lia). replace m with (1 + - j) in M by (unfold j; lia). rewrite (bpow_plus _ 1) in M. change (bpow radix2 1) with 2%R in M.
  assert (C : exists j' a b, j <= j' <= 53 /\ chkA j' a b = true /\ (fx LP a <= F <= fx LP b)%R).
  { destruct (Z.eq_dec j 2) as [E2|N2].
    - exists 2. rewrite E2 in *. change (bpow radix2 (-(2))) with (/ 4)%R in M. pose proof scanA2 as SC. apply andb_prop in SC. destruct SC as [S1 S2].
      destruct (Rle_lt_dec 0 F) as [p|p].
      + rewrite Rabs_pos_eq in M by exact p. destruct (scan_ok LP _ _ _ _ F S1) as (a & b & Q); [discriminate| |exists a, b; split; [lia|exact Q]].
        replace (16 * 2 ^ (LP + -6) + 2 ^ (LP + -6) * Z.of_nat 11) with (27 * 2 ^ (LP + -6)) by reflexivity. rewrite !fx_scale by (unfold LP; lia).
        change (bpow radix2 (-6)) with (/ 64)%R. lra.
      + rewrite Rabs_left in M by exact p. destruct (scan_ok LP _ _ _ _ F S2) as (a & b & Q); [discriminate| |exists a, b; split; [lia|exact Q]].
        replace ((- 19) * 2 ^ (LP + -6) + 2 ^ (LP + -6) * Z.of_nat 3) with ((- 16) * 2 ^ (LP + -6)) by reflexivity. rewrite !fx_scale by (unfold LP; lia).
        change (bpow radix2 (-6)) with (/ 64)%R. lra.
    - pose proof scan_binades as SC. rewrite forallb_forall in SC. destruct (groups_ok j ltac:(lia)) as ([j0 j1] & In & H0 & H1). specialize (SC _ In). cbn [fst snd] in H0, H1.
      unfold chk_binades in SC. apply andb_prop in SC. destruct SC as [S1 S2].
      pose proof (bpow_le radix2 (- j) (- j0) ltac:(lia)) as L0. pose proof (bpow_le radix2 (- j1) (- j) ltac:(lia)) as L1.
      destruct (Rle_lt_dec 0 F) as [p|p].
      + rewrite Rabs_pos_eq in M by exact p. exists j1, (1 * 2 ^ (LP + - j1)), (2 * 2 ^ (LP + - j0)). split; [lia|]. split; [exact S1|]. rewrite !fx_scale by (unfold LP; lia). lra.
      + rewrite Rabs_left in M by exact p. exists j1, ((-2) * 2 ^ (LP + - j0)), ((-1) * 2 ^ (LP + - j1)). split; [lia|]. split; [exact S2|]. rewrite !fx_scale by (unfold LP; lia). lra. }
  destruct C as (j' & a & b & Hj' & C & AB). unfold chkA in C. destruct (log_er 8 _) as [z|] eqn:EZ; [|discriminate]. apply Z.leb_le in C.
  destruct (log_er_ok 8 a b _ _ f hf l 0%R z Gf Gh Gl Vh AB ltac:(rewrite Vl, Rabs_R0, fx_0; lra) ltac:(rewrite Vl, Rminus_0_r, Rabs_R0, fx_0; lra) EZ) as [G E].
  fold F A in G, E. rewrite rprog_A in E. split; [exact G|].
  apply (fx_le LP) in C. rewrite fx_add, fx_scale, fx_pow in C by (unfold LP; lia). replace (LP + (-53 - j') - LP) with (6 + (-59 - j')) in C by lia. rewrite bpow_plus in C. change (bpow radix2 6) with 64%R in C.
  pose proof (bpow_le radix2 (-59 - j') (-59 - j) ltac:(lia)) as CJ. assert (C2 : (fx LP z + 5 * bpow radix2 (-59 - j) <= bpow radix2 (-53 - j))%R).
  { replace (-53 - j) with (6 + (-59 - j)) by lia. rewrite (bpow_plus radix2 6). change (bpow radix2 6) with 64%R. lra. }
  clear C CJ.
  assert (U : (bpow radix2 (-53 - j) <= ulp64 (ln (1 + F)))%R).
  { replace (-53 - j) with (- j - 53) by lia. apply ulp64_ge. unfold Zminus at 1. rewrite bpow_plus. change (bpow radix2 (- (1))) with (/ 2)%R.
    destruct (Rle_lt_dec 0 F) as [p|p].
    - rewrite (Rabs_pos_eq F) in M by exact p. pose proof (ln_lower F ltac:(lra)). rewrite Rabs_pos_eq by lra. lra.
    - rewrite (Rabs_left F) in M by exact p. pose proof (ln_upper F ltac:(lra)). rewrite Rabs_left by lra. pose proof (bpow_gt_0 radix2 (-j)). lra. }
  pose proof (rA_ok F 0 B) as Q. rewrite Rplus_0_r in Q. pose proof (s_bound F ltac:(lra)) as [S _].
  assert (Q2 : (Rabs (F / (2 + F)) * (5 * bpow radix2 (-60)) <= 5 * bpow radix2 (-59 - j))%R).
  { apply Rle_trans with (bpow radix2 (- j) * 2 * (5 * bpow radix2 (-60)))%R.
    - apply Rmult_le_compat_r; [pose proof (bpow_ge_0 radix2 (-60)); lra|]. lra.
    - right. replace (-59 - j) with (- j + 1 + -60) by lia. rewrite !bpow_plus. change (bpow radix2 1) with 2%R. ring. }
  replace (value F64 A + F - ln (1 + F))%R with ((value F64 A - rA F 0) + (rA F 0 + F - ln (1 + F)))%R by ring.
  eapply Rle_trans; [apply Rabs_triang|]. lra.
Qed.
End Core.
