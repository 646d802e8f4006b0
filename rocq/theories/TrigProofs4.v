(** The accuracy of k_sin and k_cos: the last rounding. *)
From Coq Require Import ZArith Reals Bool List Lia Lra Psatz.
From Flocq Require Import Core.
From Verif Require Import Base FloatModel FloatSpec LibmModel LibmSpec Elem FloatErr PolyBound ElemModel ElemSpec TrigModel F64Lib ExpProofs3 ExpProofs4 ExpProofs5 ExpProofs6 ExpProofs7 ExpProofs8 LogProofs TrigProofs TrigProofs2 TrigProofs3.
Import ListNotations.
Open Scope Z_scope.

(** The interval of the scan that contains x *)
Lemma sin_cell i X : i = 6%nat \/ i = 7%nat -> (Rabs X <= 0.7856)%R -> (bpow radix2 (-70) <= Rabs X)%R ->
  exists j d a b, (Rabs X <= 2 * bpow radix2 (- j))%R /\ chkS i j d a b = true /\ (fx LP a <= X <= fx LP b)%R /\ 1 <= j <= 70 /\
    (j = d /\ (bpow radix2 (- j) <= Rabs X)%R \/ d = 0 /\ j = 1 /\ (34 / 64 <= Rabs X)%R).
Proof.
  intros Hi B BF. destruct (mag radix2 X) as (m & M). specialize (M ltac:(intros Z0; rewrite Z0, Rabs_R0 in BF; pose proof (bpow_gt_0 radix2 (-70)); lra)).
  set (j := 1 - m).
  assert (Hj : 1 <= j <= 70).
  { unfold j. split.
    - assert (m - 1 < 0); [|lia]. apply (lt_bpow radix2). change (bpow radix2 0) with 1%R. lra.
    - assert (-70 < m); [|lia]. apply (lt_bpow radix2). lra. }
  replace (m - 1) with (- j) in M by (unfold j; lia). replace m with (1 + - j) in M by (unfold j; lia). rewrite (bpow_plus _ 1) in M. change (bpow radix2 1) with 2%R in M.
  exists j. pose proof scanS as SC. unfold chkS_all in SC. apply andb_prop in SC. destruct SC as [ST SB].
  assert (K : forall p w l n, scan (chkB j p) l (2 ^ (LP + w)) n = true -> (0 < n)%nat -> (fx LP l <= X <= fx LP (l + 2 ^ (LP + w) * Z.of_nat n))%R ->
    exists a b, chkS i j p a b = true /\ (fx LP a <= X <= fx LP b)%R).
  { intros p w l n S Hn HX. destruct (scan_ok LP _ _ _ _ X S) as (a & b & C & AB); [lia|exact HX|]. exists a, b. split; [apply chkB_S; assumption|exact AB]. }
  destruct (Z.eq_dec j 1) as [E1|N1].
  - rewrite E1 in *. change (bpow radix2 (- (1))) with (/ 2)%R in *. unfold chkS_top in ST. apply andb_prop in ST. destruct ST as [T1 T2]. apply andb_prop in T1, T2.
    destruct T1 as [T1 T1'], T2 as [T2 T2'].
    assert (F6 : forall z, fx LP (z * 2 ^ (LP + -6)) = (IZR z / 64)%R) by (intros z; rewrite fx_scale by (unfold LP; lia); reflexivity).
    destruct (Rle_lt_dec (34 / 64) (Rabs X)) as [G|L].
    + exists 0. destruct (Rle_lt_dec 0 X) as [p|p].
      * rewrite (Rabs_pos_eq X p) in *. destruct (K 0 (-4) _ _ T2 ltac:(lia)) as (a & b & C & AB).
        { replace (34 * 2 ^ (LP + -6) + 2 ^ (LP + -4) * Z.of_nat 5) with (54 * 2 ^ (LP + -6)) by reflexivity. rewrite !F6. lra. }
        exists a, b. split; [lra|split; [exact C|split; [exact AB|split; [lia|]]]]. right. split; [reflexivity|split; [reflexivity|exact G]].
      * rewrite (Rabs_left X p) in *. destruct (K 0 (-4) _ _ T2' ltac:(lia)) as (a & b & C & AB).
        { replace ((-54) * 2 ^ (LP + -6) + 2 ^ (LP + -4) * Z.of_nat 5) with ((-34) * 2 ^ (LP + -6)) by reflexivity. rewrite !F6. lra. }
        exists a, b. split; [lra|split; [exact C|split; [exact AB|split; [lia|]]]]. right. split; [reflexivity|split; [reflexivity|exact G]].
    + exists 1. destruct (Rle_lt_dec 0 X) as [p|p].
      * rewrite (Rabs_pos_eq X p) in *. destruct (K 1 (-6) _ _ T1 ltac:(lia)) as (a & b & C & AB).
        { replace (32 * 2 ^ (LP + -6) + 2 ^ (LP + -6) * Z.of_nat 2) with (34 * 2 ^ (LP + -6)) by reflexivity. rewrite !F6. lra. }
        exists a, b. split; [lra|split; [exact C|split; [exact AB|split; [lia|]]]]. left. split; [reflexivity|lra].
      * rewrite (Rabs_left X p) in *. destruct (K 1 (-6) _ _ T1' ltac:(lia)) as (a & b & C & AB).
        { replace ((-34) * 2 ^ (LP + -6) + 2 ^ (LP + -6) * Z.of_nat 2) with ((-32) * 2 ^ (LP + -6)) by reflexivity. rewrite !F6. lra. }
        exists a, b. split; [lra|split; [exact C|split; [exact AB|split; [lia|]]]]. left. split; [reflexivity|lra].
  - exists j. rewrite forallb_forall in SB. specialize (SB (Z.to_nat j)). rewrite Z2Nat.id in SB by lia. specialize (SB ltac:(apply in_seq; lia)).
    unfold chkS_binade in SB. apply andb_prop in SB. destruct SB as [B1 B2].
    assert (Q4 : 2 ^ (LP + - j) * Z.of_nat 1 = 1 * 2 ^ (LP + - j)) by (change (Z.of_nat 1) with 1; ring).
    assert (C : exists a b, chkS i j j a b = true /\ (fx LP a <= X <= fx LP b)%R).
    { destruct (Rle_lt_dec 0 X) as [p|p].
      - rewrite Rabs_pos_eq in M by exact p. apply (K j (- j) _ _ B1 ltac:(lia)). rewrite Q4. replace (1 * 2 ^ (LP + - j) + 1 * 2 ^ (LP + - j)) with (2 * 2 ^ (LP + - j)) by ring.
        rewrite !fx_scale by (unfold LP; lia). lra.
      - rewrite Rabs_left in M by exact p. apply (K j (- j) _ _ B2 ltac:(lia)). rewrite Q4. replace ((-2) * 2 ^ (LP + - j) + 1 * 2 ^ (LP + - j)) with ((-1) * 2 ^ (LP + - j)) by ring.
        rewrite !fx_scale by (unfold LP; lia). lra. }
    destruct C as (a & b & C & AB). exists a, b. split; [lra|split; [exact C|split; [exact AB|split; [lia|]]]]. left. split; [reflexivity|lra].
Qed.

Section Kernels.
Context (o : fops) (Ho : ieee_ops F64 o).
Local Notation U := U60.
Lemma value_half_c : value F64 half = (/ 2)%R. Proof. exact (ExpProofs7.value_half false). Qed.
Lemma good_half_c : good half. Proof. exact (ExpProofs7.good_half false). Qed.

Lemma rel_sin a b l x y : good x -> good y -> (fx LP a <= value F64 x <= fx LP b)%R -> (Rabs (value F64 y) <= fx LP l)%R ->
  rel LP [Ab a b 0; Ab (- l) l 0] [x; y] [value F64 x; value F64 y].
Proof.
  intros Gx Gy B Bl. split; [reflexivity|split; [reflexivity|]]. intros i q. 
  destruct i as [|[|i]]; cbn [nth_error nth]; intros Q; try (apply Some_inj in Q; subst q).
  - apply okv_var; [apply Gx..|exact B].
  - apply okv_var; [apply Gy..|]. rewrite fx_opp. apply Rabs_le_inv, Bl.
  - destruct i; discriminate.
Qed.
Lemma rprog_sin6 X Y : nth 6 (rprog [X; Y] sin_prog) 0%R = (X - (X * pev F64 (X * X) pSin + Y * (1 - X * X / 2)))%R.
Proof. cbn [rprog nth app sin_prog rval]. unfold pSin, pSr, TrigProofs.pw. cbn [pev]. rewrite value_half_c. field. Qed.
Lemma rprog_sin7 X Y : nth 7 (rprog [X; Y] sin_prog) 0%R = (X * pev F64 (X * X) pSin - X)%R.
Proof. cbn [rprog nth app sin_prog rval]. unfold pSin, pSr, TrigProofs.pw. cbn [pev]. field. Qed.

(** The last operation of both branches of k_sin *)
Lemma sin_last i x y T (X := value F64 x) (Y := value F64 y) (A := nth i (rprog [X; Y] sin_prog) 0%R) V : i = 6%nat \/ i = 7%nat ->
  good x -> good y -> (Rabs X <= 0.7856)%R -> (bpow radix2 (-70) <= Rabs X)%R -> (Rabs Y <= 49 * bpow radix2 (-58) * Rabs X)%R ->
  (V = X - A \/ V = X + A)%R -> (Rabs (V - sin T) <= Rabs X * (11 * U))%R -> (Rabs X * (1 - X * X / 6 - / 250) <= Rabs (sin T))%R ->
  let B := nth i (fprog o [x; y] sin_prog) 0 in good B /\
  forall W, (W = X - value F64 B /\ V = X - A \/ W = X + value F64 B /\ V = X + A)%R -> (Rabs (rne F64 W - sin T) <= 1 * ulp64 (sin T))%R /\ (Rabs W <= 4)%R.
Proof using Ho.
  intros Hi Gx Gy HX H70 HY _ HV HS B.
  destruct (sin_cell i X Hi HX H70) as (j & d & a & b & Xj & C & AB & Hj & D).
  unfold chkS in C. destruct (prog_er _ _ _) as [z|] eqn:EZ; [|discriminate]. apply Z.leb_le in C.
  assert (x0 := Rabs_pos X).
  assert (Yl : (Rabs Y <= fx LP (2 ^ (LP + (-51 - j))))%R).
  { rewrite fx_pow by (unfold LP; lia). replace (LP + (-51 - j) - LP) with (-52 + 1 + - j) by lia. rewrite !bpow_plus. change (bpow radix2 1) with 2%R.
    replace (-58) with (-52 + -6) in HY by lia. rewrite bpow_plus in HY. change (bpow radix2 (-6)) with (/ 64)%R in HY. pose proof (bpow_gt_0 radix2 (-52)). nra. }
  destruct (prog_er_ok o _ _ _ _ _ z Ho (rel_sin a b _ x y Gx Gy AB Yl) EZ) as [GB EB]. fold X Y in EB. fold A in EB. fold B in GB, EB. split; [exact GB|].
  apply (fx_le LP) in C. rewrite fx_add, fx_scale, fx_pow in C by (unfold LP; lia). replace (LP + (-54 - d) - LP) with (-54 - d) in C by lia.
  assert (A11 : (Rabs X * (11 * U) <= 11 * bpow radix2 (-59 - j))%R).
  { replace (-59 - j) with (- j + 1 + -60) by lia. rewrite !bpow_plus. change (bpow radix2 1) with 2%R. fold U60. pose proof U60_bounds. nra. }
  assert (XX : (0 <= X * X <= 0.6172)%R) by (apply Rabs_le_inv in HX; nra).
  assert (SU : (2 * bpow radix2 (-54 - d) <= ulp64 (sin T))%R).
  { destruct D as [[-> Db]|(-> & -> & Db)].
    - change 2%R with (bpow radix2 1). rewrite <- bpow_plus. replace (1 + (-54 - d)) with (- d - 53) by lia. apply ulp64_ge. unfold Zminus at 1. rewrite bpow_plus. change (bpow radix2 (- (1))) with (/ 2)%R. nra.
    - change 2%R with (bpow radix2 1). rewrite <- bpow_plus. change (1 + (-54 - 0)) with (0 - 53). apply ulp64_ge. change (bpow radix2 (0 - 1)) with (/ 2)%R.
      destruct (Rle_lt_dec 0.6 (Rabs X)) as [G6|L6]; [nra|]. assert (X * X <= 0.36)%R by (apply Rabs_lt_inv in L6; nra).
      assert (34 / 64 * (1 - X * X / 6 - / 250) <= Rabs X * (1 - X * X / 6 - / 250))%R by (apply Rmult_le_compat_r; lra).
      destruct (Rle_lt_dec 0.55 (Rabs X)) as [G5|L5]; [nra|]. assert (X * X <= 0.3025)%R by (apply Rabs_lt_inv in L5; nra). nra. }
  assert (S0 : (bpow radix2 (-1022) <= Rabs (sin T))%R).
  { apply Rle_trans with (bpow radix2 (-70) * bpow radix2 (-1))%R; [rewrite <- bpow_plus; apply bpow_le; lia|]. change (bpow radix2 (-1)) with (/ 2)%R.
    pose proof (bpow_gt_0 radix2 (-70)). nra. }
  intros W HW.
  assert (E : (Rabs (W - V) <= fx LP z)%R).
  { destruct HW as [[-> ->]|[-> ->]]; [replace (X - value F64 B - (X - A))%R with (- (value F64 B - A))%R by ring; rewrite Rabs_Ropp|replace (X + value F64 B - (X + A))%R with (value F64 B - A)%R by ring]; exact EB. }
  assert (EV : (Rabs (W - sin T) <= / 2 * ulp64 (sin T))%R).
  { replace (W - sin T)%R with ((W - V) + (V - sin T))%R by ring. eapply Rle_trans; [apply Rabs_triang|]. lra. }
  split.
  - replace 1%R with (/ 2 + / 2)%R by lra. apply final_round; [exact S0|exact EV|lra].
  - pose proof (SIN_bound T). assert (bpow radix2 (-54 - d) <= 1)%R by (change 1%R with (bpow radix2 0); apply bpow_le; destruct D as [[-> _]|[-> _]]; lia).
    apply Rabs_le. assert (E2 : (Rabs (W - sin T) <= 1)%R); [|apply Rabs_le_inv in E2; lra].
    replace (W - sin T)%R with ((W - V) + (V - sin T))%R by ring. eapply Rle_trans; [apply Rabs_triang|]. lra.
Qed.

Lemma big4 v : (Rabs v <= 4 -> Rabs v <= bpow radix2 100)%R.
Proof. intros H. apply Rle_trans with (bpow radix2 2); [exact H|]. apply bpow_le. lia. Qed.
Theorem k_sin_1 x y iy T (X := value F64 x) (Y := value F64 y) : iy <> 0 -> good x -> good y -> (Rabs X <= 0.7856)%R -> (bpow radix2 (-70) <= Rabs X)%R ->
  (Rabs Y <= 49 * bpow radix2 (-58) * Rabs X)%R -> (Rabs (T - (X + Y)) <= bpow radix2 (-62) * Rabs X)%R -> within 1 (k_sin o x y iy) (sin T).
Proof using Ho.
  intros Hi Gx Gy HX H70 HY HT. destruct (sin_shift X Y T HX HY HT) as [SA SB].
  destruct (sin_last 6 x y T (X - (X - (X * pev F64 (X * X) pSin + Y * (1 - X * X / 2)))) ltac:(lia) Gx Gy HX H70 HY) as [GB Q].
  { left. fold X Y. rewrite rprog_sin6. reflexivity. }
  { fold X Y. replace (X - (X - (X * pev F64 (X * X) pSin + Y * (1 - X * X / 2))))%R with (X * pev F64 (X * X) pSin + Y * (1 - X * X / 2))%R by ring. exact SA. }
  { exact SB. }
  set (B := nth 6 (fprog o [x; y] sin_prog) 0) in *. destruct (Q (X - value F64 B)%R) as [Q1 Q2].
  { left. split; [reflexivity|]. fold X Y. rewrite rprog_sin6. reflexivity. }
  replace (k_sin o x y iy) with (o_sub o x B). 2:{ unfold k_sin. replace (iy =? 0) with false by (symmetry; apply Z.eqb_neq; exact Hi). reflexivity. }
  destruct (sub64 o Ho x B Gx GB (big4 _ Q2)) as [G V]. split; [apply G|split; [apply G|]]. rewrite V. exact Q1.
Qed.
Theorem k_sin_0 x (X := value F64 x) : good x -> (Rabs X <= 0.7856)%R -> (bpow radix2 (-70) <= Rabs X)%R -> within 1 (k_sin o x 0 0) (sin X).
Proof using Ho.
  intros Gx HX H70. assert (G0 : good 0) by apply good_zero. assert (V0 : value F64 0 = 0%R) by apply value_zero.
  assert (x0 := Rabs_pos X).
  destruct (sin_shift X 0 X HX) as [SA SB]; [rewrite Rabs_R0; pose proof (bpow_gt_0 radix2 (-58)); nra|rewrite Rplus_0_r, Rminus_eq_0, Rabs_R0; pose proof (bpow_gt_0 radix2 (-62)); nra|].
  destruct (sin_last 7 x 0 X (X + (X * pev F64 (X * X) pSin - X)) ltac:(lia) Gx G0 HX H70) as [GB Q].
  { rewrite V0, Rabs_R0. pose proof (bpow_gt_0 radix2 (-58)); fold X; nra. }
  { right. fold X. rewrite rprog_sin7. reflexivity. }
  { fold X. replace (X + (X * pev F64 (X * X) pSin - X))%R with (X * pev F64 (X * X) pSin + 0 * (1 - X * X / 2))%R by ring. exact SA. }
  { exact SB. }
  set (B := nth 7 (fprog o [x; 0] sin_prog) 0) in *. destruct (Q (X + value F64 B)%R) as [Q1 Q2].
  { right. split; [reflexivity|]. fold X. rewrite rprog_sin7. reflexivity. }
  replace (k_sin o x 0 0) with (o_add o x B) by reflexivity.
  destruct (add64 o Ho x B Gx GB (big4 _ Q2)) as [G V]. split; [apply G|split; [apply G|]]. rewrite V. exact Q1.
Qed.

Lemma rprog_cos X Y t : nth 6 (rprog [X; Y; t] cos_prog) 0%R = (t + (pev F64 (X * X) pCos - (1 - X * X / 2)) - X * Y)%R.
Proof. cbn [rprog nth app cos_prog rval]. unfold pCos, pCr, TrigProofs.pw. cbn [pev]. field. Qed.
Lemma rel_cos a b l m e x y t tr : good x -> good y -> good t -> (fx LP a <= value F64 x <= fx LP b)%R -> (Rabs (value F64 y) <= fx LP l)%R ->
  (Rabs (value F64 t) <= fx LP m)%R -> (Rabs (value F64 t - tr) <= fx LP e)%R ->
  rel LP [Ab a b 0; Ab (- l) l 0; Ab (- m) m e] [x; y; t] [value F64 x; value F64 y; tr].
Proof.
  intros Gx Gy Gt B Bl Bm Be. split; [reflexivity|split; [reflexivity|]]. intros i q. 
  destruct i as [|[|[|i]]]; cbn [nth_error nth]; intros Q; try (apply Some_inj in Q; subst q).
  - apply okv_var; [apply Gx..|exact B].
  - apply okv_var; [apply Gy..|]. rewrite fx_opp. apply Rabs_le_inv, Bl.
  - split; [apply Gt|]. split; [apply Gt|]. cbn [lo hi er]. rewrite fx_opp. split; [apply Rabs_le_inv, Bm|exact Be].
  - destruct i; discriminate.
Qed.
Theorem k_cos_1 x y T (X := value F64 x) (Y := value F64 y) : good x -> good y -> (Rabs X <= 0.7856)%R ->
  (Rabs Y <= 49 * bpow radix2 (-58) * Rabs X)%R -> (Rabs (T - (X + Y)) <= bpow radix2 (-62) * Rabs X)%R -> within 1 (k_cos o x y) (cos T).
Proof using Ho.
  intros Gx Gy HX HY HT. destruct (cos_shift X Y T HX HY HT) as [SA SB]. assert (Xb := Rabs_le_inv _ _ HX).
  assert (XX : (0 <= X * X <= 0.6172)%R) by nra.
  pose proof (small64 (-54) ltac:(lia)) as q54. pose proof (bpow_gt_0 radix2 (-54)) as p54. pose proof (small64 (-55) ltac:(lia)) as q55. pose proof (bpow_gt_0 radix2 (-55)) as p55.
  (* z *)
  destruct (mul64 o Ho x x Gx Gx) as [Gz Vz]; [apply big4; fold X; apply Rabs_le; lra|]. fold X in Vz. set (z := o_mul o x x) in *.
  assert (Ez : (Rabs (value F64 z - X * X) <= bpow radix2 (-54))%R).
  { rewrite Vz. apply (rne_error64 0); [|lia]. apply Rabs_lt. change (bpow radix2 0) with 1%R. lra. }
  apply Rabs_le_inv in Ez.
  (* hz *)
  destruct (mul64 o Ho half z good_half_c Gz) as [Gh Vh]; [apply big4; rewrite value_half_c; apply Rabs_le; lra|]. rewrite value_half_c in Vh. set (hz := o_mul o half z) in *.
  assert (Eh : (Rabs (value F64 hz - / 2 * value F64 z) <= bpow radix2 (-100))%R).
  { rewrite Vh. destruct (Rle_lt_dec (bpow radix2 (-1000)) (Rabs (value F64 z))) as [G|L].
    - destruct (multiple64 z (-1000) Gz G) as (m & Hm). (* exact *)
      pose proof (rne_value hz ltac:(apply Gh) ltac:(apply Gh)). clear H.
      destruct (mag radix2 (value F64 z)) as (E & M). specialize (M ltac:(intros Z0; rewrite Z0, Rabs_R0 in G; pose proof (bpow_gt_0 radix2 (-1000)); lra)).
      destruct (multiple64 z (E - 1) Gz ltac:(apply M)) as (m' & Hm').
      assert (HE : -1000 < E) by (apply (lt_bpow radix2); lra).
      replace (/ 2 * value F64 z)%R with (IZR m' * bpow radix2 (E - 54))%R.
      2:{ rewrite Hm'. replace (E - 54) with (-1 + (E - 1 - 52)) by lia. rewrite bpow_plus. change (bpow radix2 (-1)) with (/ 2)%R. ring. }
      rewrite rne_exact64; [rewrite Rminus_eq_0, Rabs_R0; apply bpow_ge_0| |lia].
      assert (IZR (Z.abs m') < IZR (2 ^ 53))%R; [|apply Z.lt_le_incl, lt_IZR; exact H].
      rewrite abs_IZR. apply (Rmult_lt_reg_r (bpow radix2 (E - 1 - 52))); [apply bpow_gt_0|].
      rewrite <- (Rabs_pos_eq (bpow radix2 (E - 1 - 52))) at 1 by apply bpow_ge_0. rewrite <- Rabs_mult, <- Hm'.
      change (IZR (2 ^ 53)) with (bpow radix2 53). rewrite <- bpow_plus. replace (53 + (E - 1 - 52)) with E by lia. apply M.
    - apply Rle_trans with (bpow radix2 (-900 - 54)); [|apply bpow_le; lia]. apply rne_error64; [|lia].
      rewrite Rabs_mult, (Rabs_pos_eq (/ 2)) by lra. assert (bpow radix2 (-1000) <= bpow radix2 (-900))%R by (apply bpow_le; lia). pose proof (Rabs_pos (value F64 z)). lra. }
  pose proof (small64 (-100) ltac:(lia)) as q100. pose proof (bpow_gt_0 radix2 (-100)) as p100. apply Rabs_le_inv in Eh.
  assert (p1 : (bpow radix2 (-100) <= / 1000 * bpow radix2 (-54))%R).
  { change (-100) with (-46 + -54). rewrite bpow_plus. assert (bpow radix2 (-46) <= bpow radix2 (-10))%R by (apply bpow_le; lia). change (bpow radix2 (-10)) with (/ 1024)%R in H. nra. }
  (* w *)
  assert (Hh : (0 - / 1000 <= value F64 hz <= 0.31)%R) by lra.
  destruct (sub64 o Ho one hz good_one Gh) as [Gw Vw]; [apply big4; rewrite value_one; apply Rabs_le; lra|]. rewrite value_one in Vw. set (w := o_sub o one hz) in *.
  assert (Hh0 : (0 <= value F64 hz)%R).
  { rewrite Vh. rewrite <- (rne_0 F64). apply round_le; [apply FLT_exp_valid; exact Hp64|auto with typeclass_instances|].
    assert (0 <= value F64 z)%R; [|lra]. rewrite Vz, <- (rne_0 F64). apply round_le; [apply FLT_exp_valid; exact Hp64|auto with typeclass_instances|lra]. }
  assert (Ew : (Rabs (value F64 w - (1 - value F64 hz)) <= bpow radix2 (-54))%R).
  { destruct (Req_dec (value F64 hz) 0) as [E0|N0].
    - rewrite Vw, E0, Rminus_0_r. replace 1%R with (IZR 1 * bpow radix2 0)%R at 1 by (cbn; lra). rewrite rne_exact64 by lia. change (bpow radix2 0) with 1%R. rewrite Rmult_1_r, Rminus_eq_0, Rabs_R0. lra.
    - rewrite Vw. apply (rne_error64 0); [|lia]. apply Rabs_lt. change (bpow radix2 0) with 1%R. lra. }
  assert (Ew' := Rabs_le_inv _ _ Ew).
  (* 1 - w *)
  destruct (sub64 o Ho one w good_one Gw) as [G1 V1]; [apply big4; rewrite value_one; apply Rabs_le; lra|]. rewrite value_one in V1. set (u := o_sub o one w) in *.
  assert (Eu : value F64 u = (1 - value F64 w)%R).
  { rewrite V1. destruct (multiple64 w (-1) Gw) as (m & Hm); [change (bpow radix2 (-1)) with (/ 2)%R; rewrite Rabs_pos_eq; lra|]. change (-1 - 52) with (-53) in Hm. rewrite Hm.
    replace (1 - IZR m * bpow radix2 (-53))%R with (IZR (2 ^ 53 - m) * bpow radix2 (-53))%R.
    2:{ rewrite minus_IZR, Rmult_minus_distr_r. f_equal. change (IZR (2 ^ 53)) with (bpow radix2 53). rewrite <- bpow_plus. reflexivity. }
    apply rne_exact64; [|lia]. assert (A : (0 <= IZR m * bpow radix2 (-53) <= 2)%R) by (rewrite <- Hm; lra).
    assert (0 <= m). { apply le_IZR. pose proof (bpow_gt_0 radix2 (-53)). nra. }
    assert (m <= 2 ^ 54). { apply le_IZR. change (IZR (2 ^ 54)) with (bpow radix2 54). apply (Rmult_le_reg_r (bpow radix2 (-53))); [apply bpow_gt_0|]. rewrite <- bpow_plus. change (bpow radix2 (54 + -53)) with 2%R. apply A. }
    lia. }
  (* t *)
  assert (Bt : (Rabs (value F64 u - value F64 hz) <= bpow radix2 (-54))%R).
  { rewrite Eu, <- Rabs_Ropp. replace (- (1 - value F64 w - value F64 hz))%R with (value F64 w - (1 - value F64 hz))%R by ring. exact Ew. }
  destruct (sub64 o Ho u hz G1 Gh) as [Gt Vt]; [apply big4; lra|]. set (t := o_sub o u hz) in *.
  assert (Et : (Rabs (value F64 t - (1 - value F64 w - value F64 hz)) <= bpow radix2 (-100))%R).
  { rewrite Vt, Eu. rewrite Eu in Bt. apply Rle_trans with (bpow radix2 (-53 - 54)); [|apply bpow_le; lia]. apply rne_error64; [|lia].
    eapply Rle_lt_trans; [exact Bt|]. apply bpow_lt. lia. }
  assert (Bt' : (Rabs (value F64 t) <= bpow radix2 (-54))%R).
  { rewrite Vt. unfold rne. apply abs_round_le_generic; [apply FLT_exp_valid; exact Hp64|auto with typeclass_instances| |exact Bt].
    apply generic_format_bpow. unfold FLT_exp. change (emin F64) with (-1074). change (prec F64) with 53. lia. }
  (* the rest *)
  destruct (scan_ok LP _ _ _ _ X scanC) as (a & b & C & AB); [discriminate| |].
  { replace ((-52) * 2 ^ (LP + -6) + 2 ^ (LP + -4) * Z.of_nat 26) with (52 * 2 ^ (LP + -6)) by reflexivity. rewrite !fx_scale by (unfold LP; lia). change (bpow radix2 (-6)) with (/ 64)%R. lra. }
  unfold chkC in C. destruct (prog_er _ _ _) as [e|] eqn:EZ; [|discriminate]. apply Z.leb_le in C.
  assert (F : forall k, -160 <= k -> fx LP (2 ^ (LP + k)) = bpow radix2 k) by (intros k Hk; rewrite fx_pow by (unfold LP; lia); f_equal; lia).
  assert (Yl : (Rabs Y <= fx LP (2 ^ (LP + -52)))%R).
  { rewrite F by lia. eapply Rle_trans; [exact HY|]. change (-52) with (6 + -58). rewrite bpow_plus. change (bpow radix2 6) with 64%R. pose proof (bpow_gt_0 radix2 (-58)). nra. }
  pose proof (rel_cos a b (2 ^ (LP + -52)) (2 ^ (LP + -54)) (2 ^ (LP + -100)) x y t (1 - value F64 w - value F64 hz)%R Gx Gy Gt AB Yl) as RC.
  rewrite !F in RC by lia. specialize (RC Bt' Et).
  destruct (prog_er_ok o _ _ _ _ _ e Ho RC EZ) as [GQ EQ]. fold X Y in EQ. rewrite rprog_cos in EQ.
  apply (fx_le LP) in C. rewrite !fx_add, fx_scale, !F in C by (unfold LP; lia). change (bpow radix2 (-60)) with U60 in C.
  set (Q := nth 6 (fprog o [x; y; t] cos_prog) 0) in *. replace (k_cos o x y) with (o_add o w Q) by reflexivity.
  assert (D54 : bpow radix2 (-54) = (2 * bpow radix2 (-55))%R) by (change 2%R with (bpow radix2 1); rewrite <- bpow_plus; reflexivity).
  assert (D53 : (2 * bpow radix2 (-54) <= ulp64 (cos T))%R).
  { change 2%R with (bpow radix2 1). rewrite <- bpow_plus. change (1 + -54) with (0 - 53). apply ulp64_ge. change (bpow radix2 (0 - 1)) with (/ 2)%R. rewrite Rabs_pos_eq; lra. }
  assert (EV : (Rabs (value F64 w + value F64 Q - cos T) <= bpow radix2 (-54))%R).
  { apply Rabs_le. apply Rabs_le_inv in EQ, SA. lra. }
  destruct (add64 o Ho w Q Gw GQ) as [G V].
  { apply big4. pose proof (COS_bound T). apply Rabs_le_inv in EV. apply Rabs_le. lra. }
  split; [apply G|split; [apply G|]]. rewrite V. replace 1%R with (/ 2 + / 2)%R by lra. apply final_round; [|lra|lra].
  rewrite Rabs_pos_eq by lra. apply Rle_trans with (bpow radix2 (-1)); [apply bpow_le; lia|]. change (bpow radix2 (-1)) with (/ 2)%R. lra.
Qed.
End Kernels.
