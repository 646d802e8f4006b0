(** Accuracy of log2 and log10: the primary range. *)
From Coq Require Import ZArith Reals Bool List Lia Lra Psatz.
From Flocq Require Import Core.
From Verif Require Import Base BaseLemmas FloatModel FloatSpec FloatProofs FloatConvSpec LibmModel LibmSpec Elem FloatErr PolyBound ElemModel ElemSpec F64Lib
  ExpProofs3 ExpProofs4 ExpProofs5 ExpProofs6 ExpProofs7 ExpProofs8 LogProofs LogProofs2 LogProofs3 LogProofs4 HypotProofs3 TrigRed AsinProofs2 TanModel TanProofs2 TanProofs3 Log1pProofs Log2Model Log2Proofs Log2Proofs2.
Import ListNotations.
Open Scope Z_scope.

Local Instance valid64 : Valid_exp (FLT_exp (emin F64) (prec F64)).
Proof. apply FLT_exp_valid. exact Hp64. Qed.

(** The real value of the last expression. *)
Definition rT (q : ex) (F HI L : R) : R := nth 11 (rprog [F; (F / 2)%R; (F - HI - F / 2 * F)%R; HI; L] (logb_prog q)) 0%R.
Lemma rT_2 F HI : (rT q2 F HI 0 = (rA F 0 + F) * (value F64 IVLN2HI + value F64 IVLN2LO) - HI * value F64 IVLN2HI)%R.
Proof. unfold rT. cbn [rprog logb_prog q2 app rval nth]. unfold rA. cbv zeta. cbn [pev pR pw]. ring. Qed.
Lemma rT_10 F HI L : (rT q10 F HI L = (rA F 0 + F) * (value F64 IVLN10HI + value F64 IVLN10LO) - HI * value F64 IVLN10HI + L)%R.
Proof. unfold rT. cbn [rprog logb_prog q10 app rval nth]. unfold rA. cbv zeta. cbn [pev pR pw]. ring. Qed.

Lemma ln_half F : (-0.293 <= F <= 0.4144 -> 0.707 * Rabs F <= Rabs (ln (1 + F)) <= 2 * Rabs F)%R.
Proof.
  intros H. pose proof (ln_upper F ltac:(lra)) as U.
  assert (E : (ln (/ (1 + F)) = - ln (1 + F))%R) by (apply ln_Rinv; lra).
  pose proof (ln_upper (- (F / (1 + F)))) as U2. replace (1 + - (F / (1 + F)))%R with (/ (1 + F))%R in U2 by (field; lra).
  assert (0 < / (1 + F))%R as P by (apply Rinv_0_lt_compat; lra). assert (F / (1 + F) = 1 - / (1 + F))%R as Q by (field; lra).
  assert (0.707 <= / (1 + F) <= 1.42)%R as B. { split; apply (Rmult_le_reg_r (1 + F)); try lra; rewrite Rinv_l by lra; lra. }
  specialize (U2 ltac:(lra)). rewrite E in U2. assert (F / (1 + F) = F * / (1 + F))%R as Q2 by reflexivity. rewrite Q2 in U2.
  destruct (Rle_lt_dec 0 F) as [p|p].
  - assert (0.707 * F <= F * / (1 + F))%R by nra. rewrite !Rabs_pos_eq by lra. lra.
  - assert (1.42 * F <= F * / (1 + F))%R by nra. rewrite !Rabs_left by lra. lra.
Qed.

Section Main.
Context (o : fops) (Ho : ieee_ops F64 o) (c : icast) (Hc : icast_ok c).

Definition logb_val (q : ex) (f l : Z) : Z := nth 11 (fprog o [f; o_mul o half f; log_m o f; log_hi o f; l] (logb_prog q)) 0.
Lemma log2_eq x k (f := o_sub o x one) : log2_primary o c x k = spadd o (c_ofi c k) (o_mul o (log_hi o f) IVLN2HI) (logb_val q2 f 0).
Proof. reflexivity. Qed.
Lemma log10_eq x k (f := o_sub o x one) : log10_primary o c x k = spadd o (o_mul o (c_ofi c k) LOG10_2HI) (o_mul o (log_hi o f) IVLN10HI) (logb_val q10 f (o_mul o (c_ofi c k) LOG10_2LO)).
Proof. reflexivity. Qed.

Definition prepared (f : Z) : Prop := good f /\ good (o_mul o half f) /\ value F64 (o_mul o half f) = (value F64 f / 2)%R /\ (-0.293 <= value F64 f <= 0.41422)%R /\
  (value F64 f = 0 \/ bpow radix2 (-53) <= Rabs (value F64 f))%R.
Lemma rel_logb a b le e f l (F := value F64 f) (HI := value F64 (log_hi o f)) L : prepared f -> good l -> (fx LP a <= F <= fx LP b)%R ->
  (Rabs (value F64 l) <= fx LP le)%R -> (Rabs (value F64 l - L) <= fx LP e)%R ->
  rel LP (env_logb a b le e) [f; o_mul o half f; log_m o f; log_hi o f; l] [F; (F / 2)%R; (F - HI - F / 2 * F)%R; HI; L].
Proof using Ho.
  intros (Gf & Gh & Vh & B & NZ) Gl AB Bl El. destruct (log_hilo o Ho f Gf Gh Vh B NZ) as (G1 & G2 & _ & _ & B1 & B2 & B3). fold F HI in B1, B2, B3.
  set (bb := bnd a b). assert (BF : (Rabs F <= fx LP bb)%R).
  { apply Rabs_le. split; [|eapply Rle_trans; [apply AB|apply fx_le; unfold bb, bnd; lia]]. eapply Rle_trans; [|apply AB]. rewrite <- fx_opp. apply fx_le. unfold bb, bnd. lia. }
  split; [reflexivity|split; [reflexivity|]]. intros i q. unfold env_logb. cbv zeta. fold bb.
  destruct i as [|[|[|[|[|i]]]]]; cbn [nth_error nth]; intros Q; try (apply Some_inj in Q; subst q).
  - apply okv_var; [apply Gf..|exact AB].
  - fold F in Vh. rewrite <- Vh. apply okv_var; [apply Gh..|]. rewrite Vh. apply half_bounds, AB.
  - split; [apply G2|]. split; [apply G2|]. cbn [lo hi er]. rewrite fx_opp. split.
    + apply Rabs_le_inv. eapply Rle_trans; [exact B2|]. eapply Rle_trans; [|apply fx_div; lia]. apply Rmult_le_compat_r; [apply bpow_ge_0|exact BF].
    + eapply Rle_trans; [exact B3|]. replace (bb * bb / 2 ^ (LP + 54) + bb / 2 ^ 71 + 2) with ((bb * bb / 2 ^ (LP + 54) + 1) + (bb / 2 ^ 71 + 1)) by ring. rewrite (fx_add LP (_ + 1)). apply Rplus_le_compat.
      * eapply Rle_trans; [|apply fx_div; unfold LP; lia]. replace (fx LP (bb * bb) * bpow radix2 (- (LP + 54)))%R with (fx LP bb * fx LP bb * bpow radix2 (-54))%R.
        -- apply Rmult_le_compat_r; [apply bpow_ge_0|]. eapply Rle_trans; [apply RRle_abs|]. apply prod_le; exact BF.
        -- rewrite fx_mul, Rmult_assoc, <- bpow_plus. f_equal.
      * eapply Rle_trans; [|apply fx_div; lia]. apply Rmult_le_compat_r; [apply bpow_ge_0|exact BF].
  - apply okv_var; [apply G1..|]. apply Rabs_le_inv in B1. rewrite fx_opp. rewrite <- (fx_mulz LP 2 bb). fold HI. lra.
  - split; [apply Gl|]. split; [apply Gl|]. cbn [lo hi er]. rewrite fx_opp. split; [apply Rabs_le_inv, Bl|exact El].
  - destruct i; discriminate.
Qed.
Lemma chkb_ok q le e t a b f l (F := value F64 f) (HI := value F64 (log_hi o f)) L : prepared f -> good l -> (fx LP a <= F <= fx LP b)%R ->
  (Rabs (value F64 l) <= fx LP le)%R -> (Rabs (value F64 l - L) <= fx LP e)%R -> chkb q le e t a b = true ->
  good (logb_val q f l) /\ (Rabs (value F64 (logb_val q f l)) <= 0.06)%R /\ (Rabs (value F64 (logb_val q f l) - rT q F HI L) <= fx LP t)%R.
Proof using Ho.
  intros PF Gl AB Bl El. unfold chkb, logb_er. destruct (aprog _ _ _) as [out|] eqn:E; [|discriminate].
  destruct (nth_error out 11) as [v|] eqn:N; [|discriminate]. intros Q. apply andb_prop in Q. destruct Q as [Q Q3]. apply andb_prop in Q. destruct Q as [Q1 Q2].
  apply Z.leb_le in Q1, Q2, Q3.
  pose proof (aprog_sound LP o ltac:(unfold LP; lia) Ho (logb_prog q) _ _ _ _ (rel_logb a b le e f l L PF Gl AB Bl El) E) as R.
  destruct (rel_nth _ _ _ _ _ _ R N) as (F1 & F2 & F3 & F4). split; [split; assumption|]. split.
  - assert (M : (fx LP (2 ^ LP / 20) <= 0.06)%R).
    { apply Rle_trans with (fx LP (2 ^ LP) / 20)%R.
      - apply Rmult_le_reg_r with 20%R; [lra|]. replace (fx LP (2 ^ LP / 20) * 20)%R with (fx LP (2 ^ LP / 20 * 20)) by (unfold fx; rewrite mult_IZR; ring). replace (fx LP (2 ^ LP) / 20 * 20)%R with (fx LP (2 ^ LP)) by field. apply fx_le. vm_compute. discriminate.
      - rewrite fx_pow by (unfold LP; lia). change (bpow radix2 (LP - LP)) with 1%R. lra. }
    apply (fx_le LP) in Q2, Q3. rewrite fx_opp in Q2. fold (logb_val q f l) in F3. apply Rabs_le. lra.
  - eapply Rle_trans; [exact F4|]. apply fx_le, Q1.
Qed.

Lemma fx_box n : fx LP (n * 2 ^ (LP - 6)) = (IZR n / 64)%R.
Proof. replace (LP - 6) with (LP + -6) by lia. rewrite fx_scale by (unfold LP; lia). reflexivity. Qed.
Lemma fx_t t : fx LP (t * 2 ^ (LP - 63)) = (IZR t * bpow radix2 (-63))%R.
Proof. replace (LP - 63) with (LP + -63) by lia. apply fx_scale. unfold LP. lia. Qed.
(** The two regimes: boxes of a fixed width, and binades. Errors are in units of 2^-63. *)
Lemma boxes_ok q le e t f l (F := value F64 f) (HI := value F64 (log_hi o f)) L : prepared f -> good l -> chk_boxes q le e t ->
  (Rabs (value F64 l) <= fx LP le)%R -> (Rabs (value F64 l - L) <= fx LP e)%R ->
  good (logb_val q f l) /\ (Rabs (value F64 (logb_val q f l)) <= 0.06)%R /\ (Rabs (value F64 (logb_val q f l) - rT q F HI L) <= IZR t * bpow radix2 (-63))%R.
Proof using Ho.
  intros PF Gl C Bl El. destruct C as [C1 C2].
  assert (BF : (-0.293 <= F <= 0.41422)%R) by apply PF.
  destruct (Rle_lt_dec F (/ 4)) as [p|p].
  - assert (AB : (fx LP ((-19) * 2 ^ (LP - 6)) <= F <= fx LP (16 * 2 ^ (LP - 6)))%R) by (rewrite !fx_box; lra).
    destruct (chkb_ok _ _ _ _ _ _ f l L PF Gl AB Bl El C1) as (A1 & A2 & A3). rewrite fx_t in A3. split; [exact A1|split; [exact A2|exact A3]].
  - assert (AB : (fx LP (16 * 2 ^ (LP - 6)) <= F <= fx LP (27 * 2 ^ (LP - 6)))%R) by (rewrite !fx_box; lra).
    destruct (chkb_ok _ _ _ _ _ _ f l L PF Gl AB Bl El C2) as (A1 & A2 & A3). rewrite fx_t in A3. split; [exact A1|split; [exact A2|exact A3]].
Qed.
Lemma group_ok q t f l (F := value F64 f) (HI := value F64 (log_hi o f)) j : prepared f -> good l -> value F64 l = 0%R -> 0 <= t -> forallb (chk_group q t) groupb = true ->
  3 <= j <= 53 -> (Rabs F <= bpow radix2 (1 - j))%R ->
  good (logb_val q f l) /\ (Rabs (value F64 (logb_val q f l)) <= 0.06)%R /\ (Rabs (value F64 (logb_val q f l) - rT q F HI 0) <= IZR t * bpow radix2 (-63 - j))%R.
Proof using Ho.
  intros PF Gl Vl Ht C Hj BF. rewrite forallb_forall in C. destruct (groupb_ok j Hj) as ([j0 j1] & In & H). cbn [fst snd] in H. specialize (C _ In). unfold chk_group in C. cbn [fst snd] in C.
  assert (J : 3 <= j0 /\ j1 <= 53). { clear - In. cbn in In. repeat destruct In as [In|In]; try (injection In as <- <-; lia). contradiction. }
  assert (AB : (fx LP (- 2 ^ (LP + 1 - j0)) <= F <= fx LP (2 ^ (LP + 1 - j0)))%R).
  { rewrite fx_opp, fx_pow by (unfold LP; lia). replace (LP + 1 - j0 - LP) with (1 - j0) by lia. apply Rabs_le_inv. eapply Rle_trans; [exact BF|apply bpow_le; lia]. }
  destruct (chkb_ok _ _ _ _ _ _ f l 0%R PF Gl AB ltac:(rewrite Vl, Rabs_R0, fx_0; lra) ltac:(rewrite Vl, Rminus_0_r, Rabs_R0, fx_0; lra) C) as (A1 & A2 & A3).
  split; [exact A1|split; [exact A2|]]. eapply Rle_trans; [exact A3|]. replace (LP - 63 - j1) with (LP + (-63 - j1)) by lia. rewrite fx_scale by (unfold LP; lia).
  apply Rmult_le_compat_l; [apply IZR_le; exact Ht|apply bpow_le; lia].
Qed.

(** The approximation error, for both bases. *)
Lemma approx B ivh ivl g F : (/ 2 <= ln B)%R -> (Rabs (/ ln B - (ivh + ivl)) <= bpow radix2 (-79))%R -> (-0.293 <= F <= 0.4144)%R -> (0 <= ivh + ivl)%R -> (3 * (ivh + ivl) + / 1000 <= g)%R ->
  (Rabs ((rA F 0 + F) * (ivh + ivl) - ln (1 + F) / ln B) <= g * (Rabs F * bpow radix2 (-60)))%R.
Proof.
  intros HB S HF S0 Hg. set (s := (ivh + ivl)%R) in *. pose proof (rA_ok F 0 HF) as A. rewrite Rplus_0_r in A. destruct (s_bound F ltac:(lra)) as [SB _]. destruct (ln_half F HF) as [_ LU].
  replace ((rA F 0 + F) * s - ln (1 + F) / ln B)%R with ((rA F 0 + F - ln (1 + F)) * s + - (ln (1 + F) * (/ ln B - s)))%R by (unfold Rdiv; ring).
  pose proof (bpow_gt_0 radix2 (-60)) as p. pose proof (Rabs_pos F) as f0.
  assert (E79 : bpow radix2 (-79) = (/ 524288 * bpow radix2 (-60))%R) by (change (-79) with (-19 + -60); rewrite bpow_plus; reflexivity).
  assert (T1 : (Rabs ((rA F 0 + F - ln (1 + F)) * s) <= 3 * s * (Rabs F * bpow radix2 (-60)))%R).
  { rewrite Rabs_mult, (Rabs_pos_eq s) by exact S0. replace (3 * s * (Rabs F * bpow radix2 (-60)))%R with (0.6 * Rabs F * (5 * bpow radix2 (-60)) * s)%R by (replace 0.6%R with (3 / 5)%R by lra; field). apply Rmult_le_compat_r; [exact S0|].
    eapply Rle_trans; [exact A|]. apply Rmult_le_compat_r; lra. }
  assert (T2 : (Rabs (- (ln (1 + F) * (/ ln B - s))) <= / 1000 * (Rabs F * bpow radix2 (-60)))%R).
  { rewrite Rabs_Ropp. eapply Rle_trans; [apply prod_le; [exact LU|exact S]|]. rewrite E79. assert (0 <= Rabs F * bpow radix2 (-60))%R by (apply Rmult_le_pos; lra). lra. }
  eapply Rle_trans; [apply sum_le; [exact T1|exact T2]|]. rewrite <- Rmult_plus_distr_r. apply Rmult_le_compat_r; [apply Rmult_le_pos; lra|exact Hg].
Qed.
(** The product of the high part with a constant of 32 bits is exact. *)
Lemma hi_mul f iv z e (HI := value F64 (log_hi o f)) : prepared f -> good iv -> value F64 iv = (IZR z * bpow radix2 e)%R -> 0 <= z < 2 ^ 32 -> -100 <= e -> (Rabs (value F64 iv) <= 1.45)%R ->
  good (o_mul o (log_hi o f) iv) /\ value F64 (o_mul o (log_hi o f) iv) = (HI * value F64 iv)%R /\ (Rabs HI <= 0.3361)%R.
Proof using Ho.
  intros (Gf & Gh & Vh & B & NZ) Gi Vi Hz He Bi. destruct (log_hilo o Ho f Gf Gh Vh B NZ) as (G1 & _ & (m & e' & Hm & He' & EH) & BH & _). fold HI in EH, BH.
  destruct (mul64 o Ho _ iv G1 Gi) as [G V]; [fold HI; apply small1; eapply Rle_trans; [apply prod_le; [exact BH|exact Bi]|lra]|]. fold HI in V.
  split; [exact G|]. split; [|exact BH]. rewrite V, EH, Vi. replace (IZR m * bpow radix2 e' * (IZR z * bpow radix2 e))%R with (IZR (m * z) * bpow radix2 (e' + e))%R by (rewrite mult_IZR, bpow_plus; ring).
  apply rne_exact64; [|lia]. rewrite Z.abs_mul. change (2 ^ 53) with (2 ^ 21 * 2 ^ 32). apply Z.mul_le_mono_nonneg; lia.
Qed.
Lemma prep x (X := value F64 x) (f := o_sub o x one) : 0x3fe6a09e00000000 <= x < 0x3ff6a09e00000000 -> prepared f /\ value F64 f = (X - 1)%R /\ (-0.293 <= X - 1 < 0.41422)%R /\ (X <> 1 -> bpow radix2 (-53) <= Rabs (X - 1))%R.
Proof using Ho.
  intros Hx. destruct (log_x_range x Hx) as [G B]. fold X in B. destruct (log_f o Ho x G B) as (Gf & Vf & Gh & Vh & NZ). fold X in Vf, Vh, NZ.
  fold f in Gf, Vf, Gh, Vh. split; [|split; [exact Vf|split; [lra|exact NZ]]]. unfold prepared. rewrite Vf. split; [exact Gf|]. split; [exact Gh|]. split; [exact Vh|]. split; [lra|].
  destruct (Req_dec X 1) as [E|N]; [left; lra|right; apply NZ, N].
Qed.
Lemma binade F : (-0.293 <= F <= 0.4144)%R -> (bpow radix2 (-53) <= Rabs F)%R -> exists j, 2 <= j <= 53 /\ (bpow radix2 (- j) <= Rabs F <= bpow radix2 (1 - j))%R.
Proof.
  intros B BF. destruct (mag radix2 F) as (m & M). specialize (M ltac:(intros Z0; rewrite Z0, Rabs_R0 in BF; pose proof (bpow_gt_0 radix2 (-53)); lra)).
  exists (1 - m). split.
  - split.
    + assert (m - 1 < -1); [|lia]. apply (lt_bpow radix2). change (bpow radix2 (-1)) with (/ 2)%R. eapply Rle_lt_trans; [apply M|]. apply Rabs_lt. lra.
    + assert (-53 < m); [|lia]. apply (lt_bpow radix2). lra.
  - replace (- (1 - m)) with (m - 1) by lia. replace (1 - (1 - m)) with m by lia. lra.
Qed.
End Main.
