(** Accuracy of atan: the rounding errors. *)
From Coq Require Import ZArith Reals Bool List Lia Lra Psatz.
From Flocq Require Import Core.
From Verif Require Import Base FloatModel FloatSpec LibmModel LibmSpec Elem FloatErr PolyBound ElemModel ElemSpec TrigModel F64Lib ExpProofs3 ExpProofs4 ExpProofs5 ExpProofs6 ExpProofs7 ExpProofs8 LogProofs LogProofs2 TrigProofs TrigRed TrigRed5 TrigLg8 TrigLg11 HypotProofs3 AtanModel AtanProofs.
Import ListNotations.
Open Scope Z_scope.

Definition AP : Z := 80.
Definition s1x (z w : nat) : ex := Mul (Vr z) (Add (K AT0) (Mul (Vr w) (Add (K AT2) (Mul (Vr w) (Add (K AT4) (Mul (Vr w) (Add (K AT6) (Mul (Vr w) (Add (K AT8) (Mul (Vr w) (K AT10))))))))))).
Definition s2x (w : nat) : ex := Mul (Vr w) (Add (K AT1) (Mul (Vr w) (Add (K AT3) (Mul (Vr w) (Add (K AT5) (Mul (Vr w) (Add (K AT7) (Mul (Vr w) (K AT9))))))))).
Definition pgQ : list ex := [Mul (Vr 0) (Vr 0); Add (s1x 0 1) (s2x 1)].
Definition pgT (lo : Z) (t : nat) : list ex :=
  [Mul (Vr t) (Vr t); Mul (Vr (S t)) (Vr (S t)); Sub (Sub (Mul (Vr t) (Add (s1x (S t) (S (S t))) (s2x (S (S t))))) (K lo)) (Vr t)].
Definition LO0 : Z := 0x3C7A2B7F222F65E2.
Definition LO1 : Z := 0x3C81A62633145C07.
Definition LO2 : Z := 0x3C7007887AF0CBBD.
Definition LO3 : Z := 0x3C91A62633145C07.
Definition HI0 : Z := 0x3FDDAC670561BB4F.
Definition HI1 : Z := 0x3FE921FB54442D18.
Definition HI2 : Z := 0x3FEF730BD281F69B.
Definition HI3 : Z := 0x3FF921FB54442D18.
(** Vr 0 = x, Vr 1 = the numerator *)
Definition pg0 : list ex := Div (Vr 1) (Add (K two) (Vr 0)) :: pgT LO0 2.
Definition pg1 : list ex := Div (Vr 1) (Add (Vr 0) (K one)) :: pgT LO1 2.
Definition pg2 : list ex := Div (Vr 1) (Add (K one) (Mul (K one_half3) (Vr 0))) :: pgT LO2 2.
Definition pg3 : list ex := pgT LO3 0.

(** The sum [hi - b] is accurate. *)
Definition chk_end (hi : Z) (b : ab) : bool :=
  match kbits AP F64 hi with
  | Some h =>
    let e := er b + 100 * 2 ^ 16 in
    let l := lo h - FloatErr.hi b - e in
    (2 ^ 78 <=? l) && (FloatErr.hi h - lo b <=? 2 ^ 90) && (2 * e <=? (if 2 ^ 80 <=? l then 2 ^ 28 else if 2 ^ 79 <=? l then 2 ^ 27 else 2 ^ 26))
  | None => false
  end.
Definition chk_pg (hi : Z) (pg : list ex) (env : list ab) : bool :=
  match aprog AP env pg with Some l => match nth_error l (length env + length pg - 1) with Some b => chk_end hi b | None => false end | None => false end.
Definition chk0 (a b : Z) : bool := chk_pg HI0 pg0 [Ab a b 0; Ab (2 * a - 2 ^ 80) (2 * b - 2 ^ 80) 0].
Definition chk1 (a b : Z) : bool := chk_pg HI1 pg1 [Ab a b 0; Ab (a - 2 ^ 80) (b - 2 ^ 80) 0].
Definition chk2 (a b : Z) : bool := chk_pg HI2 pg2 [Ab a b 0; Ab (a - 3 * 2 ^ 79) (b - 3 * 2 ^ 79) 0].
Definition chk3 : bool := chk_pg HI3 pg3 [Ab (- 27 * 2 ^ 74) 0 (2 ^ 25)].
Lemma scan0 : scan chk0 (14 * 2 ^ 75) (2 ^ 75) 8 = true. Proof. vm_compute. reflexivity. Qed.
Lemma scan1 : scan chk1 (22 * 2 ^ 75) (2 ^ 75) 16 = true. Proof. vm_compute. reflexivity. Qed.
Lemma scan2 : scan chk2 (19 * 2 ^ 76) (2 ^ 76) 20 = true. Proof. vm_compute. reflexivity. Qed.
Lemma scan3 : chk3 = true. Proof. vm_compute. reflexivity. Qed.
Definition chkQ : bool := match aprog AP [Ab 0 (1569 * 2 ^ 67) (2 ^ 24)] pgQ with Some l => match nth_error l 2 with Some b => (er b <=? 33000000) && (hi b <=? 5 * 2 ^ 74) && (- (5 * 2 ^ 74) <=? lo b) | None => false end | None => false end.
Lemma scanQ : chkQ = true. Proof. vm_compute. reflexivity. Qed.

(** * The constants *)
Definition AQ : Z := 119.
Fixpoint asum (d : Z) (n : nat) : Z := match n with O => 0 | S m => asum d m + sgn m * (2 ^ AQ / (Z.of_nat (2 * m + 1) * d ^ Z.of_nat (2 * m + 1))) end.
Lemma asum_ok d n : 0 < d -> (Rabs (fx AQ (asum d n) - atan_taylor n (/ IZR d)) <= INR n * fx AQ 1)%R.
Proof.
  intros Hd. induction n as [|n IH].
  - cbn [asum atan_taylor]. rewrite fx_0, Rminus_0_r, Rabs_R0. cbn. lra.
  - cbn [asum atan_taylor]. set (k := (2 * n + 1)%nat). set (D := Z.of_nat k * d ^ Z.of_nat k).
    assert (0 < D) as HD by (unfold D, k; apply Z.mul_pos_pos; [lia|apply Z.pow_pos_nonneg; lia]).
    assert (IZR D = INR k * IZR d ^ k)%R as ED by (unfold D; rewrite mult_IZR, <- INR_IZR_INZ, <- pow_IZR; reflexivity).
    assert (0 < IZR D)%R as HDR by (apply IZR_lt; exact HD).
    pose proof (Z.div_mod (2 ^ AQ) D ltac:(lia)) as E. pose proof (Z.mod_pos_bound (2 ^ AQ) D HD) as B. set (q := 2 ^ AQ / D) in *. set (m := 2 ^ AQ mod D) in *.
    assert (fx AQ (2 ^ AQ) = 1)%R as F1 by (rewrite fx_pow by (unfold AQ; lia); reflexivity).
    assert (Rabs (fx AQ q - / IZR D) <= fx AQ 1)%R as Q.
    { assert (fx AQ q * IZR D + fx AQ m = 1)%R as E1. { rewrite <- F1, E. unfold fx. rewrite plus_IZR, mult_IZR. ring. }
      assert (0 <= fx AQ m <= fx AQ 1 * IZR D)%R as E2. { split; [apply fx_nonneg; lia|]. unfold fx. rewrite Rmult_1_l, Rmult_comm. apply Rmult_le_compat_l; [apply bpow_ge_0|apply IZR_le; lia]. }
      replace (fx AQ q - / IZR D)%R with (- (fx AQ m / IZR D))%R by (replace (fx AQ m) with (1 - fx AQ q * IZR D)%R by lra; field; lra). rewrite Rabs_Ropp, Rabs_pos_eq; [|apply Rmult_le_pos; [apply E2|left; apply Rinv_0_lt_compat; exact HDR]].
      apply (Rmult_le_reg_r (IZR D)); [exact HDR|]. unfold Rdiv. rewrite Rmult_assoc, Rinv_l, Rmult_1_r by lra. apply E2. }
    rewrite S_INR. replace (fx AQ (asum d n + sgn n * q))%R with (fx AQ (asum d n) + (-1) ^ n * fx AQ q)%R by (unfold fx; rewrite plus_IZR, mult_IZR, sgn_ok; ring).
    replace (_ - _)%R with ((fx AQ (asum d n) - atan_taylor n (/ IZR d)) + (-1) ^ n * (fx AQ q - / IZR D))%R.
    2:{ rewrite ED. fold k. rewrite pow_inv. field. split; [apply pow_nonzero; apply not_0_IZR; lia|]. apply not_0_INR. unfold k. lia. }
    eapply Rle_trans; [apply Rabs_triang|]. rewrite Rabs_mult, pow_1_abs, Rmult_1_l. lra.
Qed.
Definition A3 : Z := Eval vm_compute in asum 3 27.
Definition A5 : Z := Eval vm_compute in asum 5 27.
Lemma A3_eq : asum 3 27 = A3. Proof. vm_compute. reflexivity. Qed.
Lemma A5_eq : asum 5 27 = A5. Proof. vm_compute. reflexivity. Qed.
Lemma at_num d : 3 <= d -> (Rabs (fx AQ (asum d 27) - atan (/ IZR d)) <= bpow radix2 (-85))%R.
Proof.
  intros Hd. pose proof (asum_ok d 27 ltac:(lia)) as A. pose proof (atan_taylor_ok 27 (/ IZR d)) as T. assert (3 <= IZR d)%R as D by (apply IZR_le; lia).
  assert (Rabs (/ IZR d) ^ (2 * 27 + 1) <= bpow radix2 (-86))%R as B.
  { rewrite Rabs_pos_eq by (left; apply Rinv_0_lt_compat; lra). apply Rle_trans with ((/ 3) ^ (2 * 27 + 1))%R; [apply pow_incr; split; [left; apply Rinv_0_lt_compat; lra|apply Rinv_le; lra]|].
    rewrite pow_inv. apply Rle_trans with (/ IZR (2 ^ 86))%R; [|apply Req_le; reflexivity]. apply Rinv_le; [apply IZR_lt; reflexivity|]. replace (3 ^ (2 * 27 + 1))%R with (IZR (3 ^ 55)) by (rewrite <- (Z2Nat.id 55) by lia; symmetry; apply (pow_IZR 3 55)). apply IZR_le. vm_compute. discriminate. }
  assert (INR 27 * fx AQ 1 <= bpow radix2 (-86))%R as C.
  { unfold fx, AQ. rewrite Rmult_1_l. replace (INR 27) with 27%R by (rewrite INR_IZR_INZ; reflexivity). replace (- (119)) with (-33 + -86) by reflexivity. rewrite bpow_plus. pose proof (bpow_gt_0 radix2 (-86)). change (bpow radix2 (-33)) with (/ 8589934592)%R. lra. }
  replace (-85) with (1 + -86) by reflexivity. rewrite bpow_plus. change (bpow radix2 1) with 2%R. rewrite Rabs_minus_sym in T.
  replace (_ - _)%R with ((fx AQ (asum d 27) - atan_taylor 27 (/ IZR d)) + (atan_taylor 27 (/ IZR d) - atan (/ IZR d)))%R by ring. rewrite Rabs_minus_sym in T. rewrite (Rabs_minus_sym (atan _)) in T. eapply Rle_trans; [apply Rabs_triang|]. lra.
Qed.
Lemma fx_num a b r e : (Rabs (fx AQ a - r) <= fx AQ e)%R -> Z.abs (a - b) + e <= 2 ^ 49 -> (Rabs (fx AQ b - r) <= bpow radix2 (-70))%R.
Proof.
  intros H L. replace (bpow radix2 (-70)) with (fx AQ (2 ^ 49)) by (rewrite fx_pow by (unfold AQ; lia); reflexivity).
  replace (fx AQ b - r)%R with (fx AQ (b - a) + (fx AQ a - r))%R by (rewrite fx_sub; ring). eapply Rle_trans; [apply Rabs_triang|].
  replace (Rabs (fx AQ (b - a))) with (fx AQ (Z.abs (a - b))). 2:{ unfold fx. rewrite abs_IZR, Rabs_mult, (Rabs_pos_eq (bpow _ _)) by apply bpow_ge_0. rewrite <- (Rabs_Ropp (IZR (b - a))), <- opp_IZR. do 3 f_equal. lia. }
  apply (fx_le AQ) in L. rewrite fx_add in L. exact (Rle_trans _ _ _ (Rplus_le_compat_l _ _ _ H) L).
Qed.
Lemma half_pi_num : (Rabs (fx AQ P5 - PI / 2) <= fx AQ (2 ^ 9))%R.
Proof. rewrite fx_pow by (unfold AQ; lia). rewrite Rabs_minus_sym. exact P5_ok. Qed.
Lemma quarter_num : (Rabs (fx AQ (P5 / 2) - atan 1) <= fx AQ (2 ^ 10))%R.
Proof.
  rewrite atan_1. pose proof half_pi_num as H. replace (fx AQ (P5 / 2) - PI / 4)%R with ((fx AQ (P5 / 2 + P5 / 2) - fx AQ P5 + (fx AQ P5 - PI / 2)) / 2)%R by (rewrite fx_add; field).
  rewrite <- fx_sub. replace (2 ^ 10) with (2 ^ 9 + 2 ^ 9) by reflexivity. rewrite fx_add. assert (-1 <= P5 / 2 + P5 / 2 - P5 <= 1) as B by (split; vm_compute; discriminate).
  assert (Rabs (fx AQ (P5 / 2 + P5 / 2 - P5)) <= fx AQ (2 ^ 9))%R as C by (apply Rabs_le; rewrite <- fx_opp; split; apply fx_le; lia).
  unfold Rdiv. rewrite Rabs_mult, (Rabs_pos_eq (/ 2)) by lra. pose proof (Rabs_triang (fx AQ (P5 / 2 + P5 / 2 - P5)) (fx AQ P5 - PI * / 2)) as T. unfold Rdiv in H. pose proof (Rabs_pos (fx AQ P5 - PI * / 2)). lra.
Qed.
Lemma at_num_fx d : 3 <= d -> (Rabs (fx AQ (asum d 27) - atan (/ IZR d)) <= fx AQ (2 ^ 34))%R.
Proof. intros H. rewrite fx_pow by (unfold AQ; lia). apply at_num, H. Qed.
Lemma at_half : (Rabs (fx AQ (P5 / 2 - A3) - atan (1 / 2)) <= fx AQ (2 ^ 35))%R.
Proof.
  pose proof (atan_diff (1 / 2) 1 ltac:(lra) ltac:(lra)) as D. replace ((1 - 1 / 2) / (1 + 1 / 2 * 1))%R with (/ 3)%R in D by field.
  pose proof quarter_num as Q. pose proof (at_num_fx 3 ltac:(lia)) as T. rewrite A3_eq in T. replace (2 ^ 35) with (2 ^ 34 + 2 ^ 34) by reflexivity. rewrite fx_add, fx_sub.
  assert (fx AQ (2 ^ 10) <= fx AQ (2 ^ 34))%R by (apply fx_le; lia). replace (_ - _)%R with ((fx AQ (P5 / 2) - atan 1) - (fx AQ A3 - atan (/ 3)))%R by lra.
  unfold Rminus at 1. eapply Rle_trans; [apply Rabs_triang|]. rewrite Rabs_Ropp. lra.
Qed.
Lemma at_three : (Rabs (fx AQ (P5 / 2 + A5) - atan (3 / 2)) <= fx AQ (2 ^ 35))%R.
Proof.
  pose proof (atan_diff 1 (3 / 2) ltac:(lra) ltac:(lra)) as D. replace ((3 / 2 - 1) / (1 + 1 * (3 / 2)))%R with (/ 5)%R in D by field.
  pose proof quarter_num as Q. pose proof (at_num_fx 5 ltac:(lia)) as T. rewrite A5_eq in T. replace (2 ^ 35) with (2 ^ 34 + 2 ^ 34) by reflexivity. rewrite !fx_add.
  assert (fx AQ (2 ^ 10) <= fx AQ (2 ^ 34))%R by (apply fx_le; lia). replace (_ - _)%R with ((fx AQ (P5 / 2) - atan 1) + (fx AQ A5 - atan (/ 5)))%R by lra.
  eapply Rle_trans; [apply Rabs_triang|]. lra.
Qed.
Ltac sum_num H L := erewrite (kb_val AQ H), (kb_val AQ L) by (vm_compute; reflexivity); rewrite <- fx_add.
Lemma sum0 : (Rabs (value F64 HI0 + value F64 LO0 - atan (1 / 2)) <= bpow radix2 (-70))%R.
Proof. sum_num HI0 LO0. apply (fx_num _ _ _ _ at_half). vm_compute. discriminate. Qed.
Lemma sum1 : (Rabs (value F64 HI1 + value F64 LO1 - atan 1) <= bpow radix2 (-70))%R.
Proof. sum_num HI1 LO1. apply (fx_num _ _ _ _ quarter_num). vm_compute. discriminate. Qed.
Lemma sum2 : (Rabs (value F64 HI2 + value F64 LO2 - atan (3 / 2)) <= bpow radix2 (-70))%R.
Proof. sum_num HI2 LO2. apply (fx_num _ _ _ _ at_three). vm_compute. discriminate. Qed.
Lemma sum3 : (Rabs (value F64 HI3 + value F64 LO3 - PI / 2) <= bpow radix2 (-70))%R.
Proof. sum_num HI3 LO3. apply (fx_num _ _ _ _ half_pi_num). vm_compute. discriminate. Qed.

(** * The end of the computation *)
Section End.
Context (o : fops) (Ho : ieee_ops F64 o).
Lemma end_ok hi b x r y : chk_end hi b = true -> okv AP F64 b x r -> (Rabs (value F64 hi - r - y) <= 100 * bpow radix2 (-64))%R ->
  within 1 (o_sub o hi x) y /\ (bpow radix2 (-2) <= y)%R.
Proof using Ho.
  intros C (Fx & Nx & Bx & Ex) Hy. unfold chk_end in C. destruct (kbits AP F64 hi) as [h|] eqn:K; [|discriminate].
  destruct (kbits_ok AP F64 hi h K) as (Fh & Nh & Bh & _). apply andb_prop in C. destruct C as [C C2]. apply andb_prop in C. destruct C as [C1 C3]. apply Z.leb_le in C1, C2, C3.
  set (e := er b + 100 * 2 ^ 16) in *. set (l := lo h - FloatErr.hi b - e) in *.
  assert (fx AP e = fx AP (er b) + 100 * bpow radix2 (-64))%R as Ee by (unfold e; rewrite fx_add; f_equal; apply (fx_scale AP (-64) 100); unfold AP; lia).
  assert (fx AP l = fx AP (lo h) - fx AP (FloatErr.hi b) - fx AP e)%R as El by (unfold l; rewrite !fx_sub; reflexivity).
  set (H := value F64 hi) in *. set (X := value F64 x) in *.
  assert (Rabs (H - X - y) <= fx AP e)%R as D.
  { replace (H - X - y)%R with ((H - r - y) - (X - r))%R by ring. unfold Rminus at 1. eapply Rle_trans; [apply Rabs_triang|]. rewrite Rabs_Ropp. lra. }
  pose proof (Rabs_le_inv _ _ D) as D'.
  assert (fx AP l <= y)%R as Ly by lra.
  assert (bpow radix2 (-2) <= y)%R as L2. { apply (fx_le AP) in C1. rewrite fx_pow in C1 by (unfold AP; lia). change (78 - AP) with (-2) in C1. lra. }
  assert (0 < y)%R as y0 by (pose proof (bpow_gt_0 radix2 (-2)); lra).
  assert (fx AP e <= / 2 * ulp64 y)%R as U.
  { assert (forall n, 2 * e <= 2 ^ n -> 0 <= n -> (bpow radix2 (n - 28) <= y)%R -> (fx AP e <= / 2 * ulp64 y)%R) as G.
    { intros n H1 H2 H3. apply (fx_le AP) in H1. rewrite fx_pow in H1 by exact H2. replace (2 * e) with (e + e) in H1 by lia. rewrite fx_add in H1.
      pose proof (ulp64_ge (n - 27) y) as UG. rewrite Rabs_pos_eq in UG by lra. replace (n - 27 - 1) with (n - 28) in UG by lia. specialize (UG H3). replace (n - 27 - 53) with (n - AP) in UG by (unfold AP; lia). lra. }
    destruct (Z.leb_spec (2 ^ 80) l) as [Q|Q]; [|destruct (Z.leb_spec (2 ^ 79) l) as [Q'|Q']].
    - apply (G 28); [exact C2|lia|]. apply (fx_le AP) in Q. rewrite fx_pow in Q by (unfold AP; lia). change (80 - AP) with (28 - 28) in Q. lra.
    - apply (G 27); [exact C2|lia|]. apply (fx_le AP) in Q'. rewrite fx_pow in Q' by (unfold AP; lia). change (79 - AP) with (27 - 28) in Q'. lra.
    - apply (G 26); [exact C2|lia|]. change (26 - 28) with (-2). exact L2. }
  split; [|exact L2].
  assert (Rabs (H - X) <= bpow radix2 100)%R as BB.
  { apply (fx_le AP) in C3. rewrite fx_sub, fx_pow in C3 by (unfold AP; lia). pose proof (bpow_le radix2 (90 - AP) 100 ltac:(unfold AP; lia)). apply Rabs_le. apply (fx_le AP) in C1. rewrite El, fx_pow in C1 by (unfold AP; lia). change (78 - AP) with (-2) in C1. pose proof (bpow_gt_0 radix2 100). pose proof (Rabs_pos (H - X - y)). pose proof (bpow_gt_0 radix2 (-2)). lra. }
  destruct (sub64 o Ho hi x (conj Fh Nh) (conj Fx Nx) BB) as [[G1 G2] V]. split; [exact G1|]. split; [exact G2|]. rewrite V. fold H X.
  replace 1%R with (/ 2 + / 2)%R by lra. apply final_round; [rewrite Rabs_pos_eq by lra; apply Rle_trans with (bpow radix2 (-2)); [apply bpow_le; lia|exact L2]|lra|lra].
Qed.
Lemma pg_ok hi pg aenv env renv y (k := (length aenv + length pg - 1)%nat) : rel AP aenv env renv -> chk_pg hi pg aenv = true ->
  (Rabs (value F64 hi - nth k (rprog renv pg) 0 - y) <= 100 * bpow radix2 (-64))%R ->
  within 1 (o_sub o hi (nth k (fprog o env pg) 0)) y /\ (bpow radix2 (-2) <= y)%R.
Proof using Ho.
  intros RL C Hy. unfold chk_pg in C. destruct (aprog AP aenv pg) as [l|] eqn:E; [|discriminate]. fold k in C. destruct (nth_error l k) as [b|] eqn:Eb; [|discriminate].
  pose proof (aprog_sound AP o ltac:(unfold AP; lia) Ho pg aenv env renv l RL E) as S. apply (end_ok hi b _ _ y C (rel_nth _ _ _ _ _ _ S Eb) Hy).
Qed.
Lemma rp0 X N : nth 5 (rprog [X; N] pg0) 0%R = (let t := N / (2 + X) in t * pev F64 (t * t) pAt - value F64 LO0 - t)%R.
Proof using. clear. cbn [rprog pg0 pgT nth app rval s1x s2x]. unfold pAt. cbn [pev]. rewrite value_two. reflexivity. Qed.
Lemma rp1 X N : nth 5 (rprog [X; N] pg1) 0%R = (let t := N / (X + 1) in t * pev F64 (t * t) pAt - value F64 LO1 - t)%R.
Proof using. clear. cbn [rprog pg1 pgT nth app rval s1x s2x]. unfold pAt. cbn [pev]. rewrite value_one. reflexivity. Qed.
Lemma value_half3 : value F64 one_half3 = (3 / 2)%R.
Proof using. clear. rewrite (kb_val 1 one_half3 3) by (vm_compute; reflexivity). unfold fx. change (bpow radix2 (- (1))) with (/ 2)%R. lra. Qed.
Lemma rp2 X N : nth 5 (rprog [X; N] pg2) 0%R = (let t := N / (1 + 3 / 2 * X) in t * pev F64 (t * t) pAt - value F64 LO2 - t)%R.
Proof using. clear. cbn [rprog pg2 pgT nth app rval s1x s2x]. unfold pAt. cbn [pev]. rewrite value_one, value_half3. reflexivity. Qed.
Lemma rp3 T : nth 3 (rprog [T] pg3) 0%R = (T * pev F64 (T * T) pAt - value F64 LO3 - T)%R.
Proof using. clear. cbn [rprog pg3 pgT nth app rval s1x s2x]. unfold pAt. cbn [pev]. reflexivity. Qed.
Lemma approx H L A T : (Rabs (H + L - A) <= bpow radix2 (-70))%R -> (Rabs T <= 0.4376)%R ->
  (Rabs (H - (T * pev F64 (T * T) pAt - L - T) - (A + atan T)) <= 100 * bpow radix2 (-64))%R.
Proof using.
  clear. intros S B. pose proof (atan_R T B) as R. replace (_ - _)%R with ((H + L - A) + (T - T * pev F64 (T * T) pAt - atan T))%R by ring. eapply Rle_trans; [apply Rabs_triang|].
  assert (bpow radix2 (-59) = 32 * bpow radix2 (-64))%R as E by (change (-59) with (5 + -64); rewrite bpow_plus; reflexivity).
  assert (bpow radix2 (-70) = / 64 * bpow radix2 (-64))%R as E2 by (change (-70) with (-6 + -64); rewrite bpow_plus; reflexivity).
  rewrite E in R. rewrite E2 in S. pose proof (bpow_gt_0 radix2 (-64)) as p. pose proof (Rabs_pos T). nra.
Qed.
Lemma div_box n d B : (0 < d)%R -> (- B * d <= n <= B * d)%R -> (Rabs (n / d) <= B)%R.
Proof using.
  clear. intros D H. apply Rabs_le. split; apply (Rmult_le_reg_r d); try exact D; unfold Rdiv; rewrite (Rmult_assoc n), Rinv_l, Rmult_1_r by lra; lra.
Qed.
Lemma rel2 a b a' b' x n : good x -> good n -> (fx AP a <= value F64 x <= fx AP b)%R -> (fx AP a' <= value F64 n <= fx AP b')%R ->
  rel AP [Ab a b 0; Ab a' b' 0] [x; n] [value F64 x; value F64 n].
Proof using.
  clear. intros Gx Gy B Bl. split; [reflexivity|split; [reflexivity|]]. intros i q. destruct i as [|[|i]]; cbn [nth_error nth]; intros Q; try (apply Some_inj in Q; subst q).
  - apply okv_var; [apply Gx..|exact B].
  - apply okv_var; [apply Gy..|exact Bl].
  - destruct i; discriminate.
Qed.
Lemma small_ok v k : k <= 100 -> (Rabs v <= bpow radix2 k)%R -> (Rabs v <= bpow radix2 100)%R.
Proof using. clear. intros Hk H. eapply Rle_trans; [exact H|apply bpow_le, Hk]. Qed.
(** The argument of the kernel has the form of the programs *)
Lemma fp0 x n : nth 5 (fprog o [x; n] pg0) 0 = (let t := o_div o n (o_add o two x) in o_sub o (o_sub o (o_mul o t (atan_poly o t)) LO0) t).
Proof using. clear. reflexivity. Qed.
Lemma fp1 x n : nth 5 (fprog o [x; n] pg1) 0 = (let t := o_div o n (o_add o x one) in o_sub o (o_sub o (o_mul o t (atan_poly o t)) LO1) t).
Proof using. clear. reflexivity. Qed.
Lemma fp2 x n : nth 5 (fprog o [x; n] pg2) 0 = (let t := o_div o n (o_add o one (o_mul o one_half3 x)) in o_sub o (o_sub o (o_mul o t (atan_poly o t)) LO2) t).
Proof using. clear. reflexivity. Qed.
Lemma fp3 t : nth 3 (fprog o [t] pg3) 0 = o_sub o (o_sub o (o_mul o t (atan_poly o t)) LO3) t.
Proof using. clear. reflexivity. Qed.
Definition fin (h l t : Z) : Z := o_sub o h (o_sub o (o_sub o (o_mul o t (atan_poly o t)) l) t).

Lemma case0 x (X := value F64 x) : good x -> (7 / 16 <= X <= 11 / 16)%R ->
  within 1 (fin HI0 LO0 (o_div o (o_sub o (o_mul o two x) one) (o_add o two x))) (atan X).
Proof using Ho.
  intros G B. assert (good two) as G2 by (apply (good_const 0 two (Ab 2 2 0)); vm_compute; reflexivity). assert (good one) as G1 by apply good_one.
  assert (rne F64 (2 * X) = 2 * X)%R as E2.
  { destruct (Rle_lt_dec (/ 2) X) as [L|L].
    - apply (grid_exact (-52)); [lia| |rewrite Rabs_pos_eq by lra; change (bpow radix2 (-52 + 53)) with 2%R; lra]. destruct (grid64 x (-1) G) as (m & E); [fold X; rewrite Rabs_pos_eq by lra; exact L|]. exists m. fold X in E. rewrite E. change (-52) with (1 + (-1 - 52)). rewrite (bpow_plus radix2 1). change (bpow radix2 1) with 2%R. ring.
    - apply (grid_exact (-53)); [lia| |rewrite Rabs_pos_eq by lra; change (bpow radix2 (-53 + 53)) with 1%R; lra]. destruct (grid64 x (-2) G) as (m & E); [fold X; rewrite Rabs_pos_eq by lra; change (bpow radix2 (-2)) with (/ 4)%R; lra|]. exists m. fold X in E. rewrite E. change (-53) with (1 + (-2 - 52)). rewrite (bpow_plus radix2 1). change (bpow radix2 1) with 2%R. ring. }
  destruct (mul64 o Ho two x G2 G) as [Gm Vm]; [fold X; rewrite value_two; apply (small_ok _ 1); [lia|rewrite Rabs_pos_eq by lra; change (bpow radix2 1) with 2%R; lra]|]. fold X in Vm. rewrite value_two, E2 in Vm.
  set (n := o_sub o (o_mul o two x) one). destruct (sub64 o Ho (o_mul o two x) one Gm G1) as [Gn Vn]; [rewrite Vm, value_one; apply (small_ok _ 1); [lia|apply Rabs_le; change (bpow radix2 1) with 2%R; lra]|]. fold n in Gn, Vn. rewrite Vm, value_one in Vn.
  assert (rne F64 (2 * X - 1) = 2 * X - 1)%R as E3.
  { apply (grid_exact (-54)); [lia| |change (bpow radix2 (-54 + 53)) with (/ 2)%R; apply Rabs_le; lra]. destruct (grid64 x (-2) G) as (m & E); [fold X; rewrite Rabs_pos_eq by lra; change (bpow radix2 (-2)) with (/ 4)%R; lra|]. exists (2 * m - 2 ^ 54). fold X in E. rewrite E, minus_IZR, mult_IZR. change (-2 - 52) with (-54). replace (IZR (2 ^ 54)) with (bpow radix2 54) by reflexivity. rewrite Rmult_minus_distr_r, <- bpow_plus. change (bpow radix2 (54 + -54)) with 1%R. ring. }
  rewrite E3 in Vn. destruct (scan_ok AP _ _ _ _ X scan0) as (a & b & C & AB); [discriminate| |].
  { replace (14 * 2 ^ 75 + 2 ^ 75 * Z.of_nat 8) with (22 * 2 ^ (AP + -5)) by reflexivity. replace (14 * 2 ^ 75) with (14 * 2 ^ (AP + -5)) by reflexivity. rewrite !fx_scale by (unfold AP; lia). change (bpow radix2 (-5)) with (/ 32)%R. lra. }
  unfold chk0 in C. assert (fx AP (2 ^ 80) = 1)%R as F1 by (rewrite fx_pow by (unfold AP; lia); reflexivity).
  assert (rel AP [Ab a b 0; Ab (2 * a - 2 ^ 80) (2 * b - 2 ^ 80) 0] [x; n] [X; (2 * X - 1)%R]) as RL.
  { rewrite <- Vn. apply rel2; [exact G|exact Gn|exact AB|]. rewrite Vn. replace (2 * a) with (a + a) by lia. replace (2 * b) with (b + b) by lia. rewrite !fx_sub, !fx_add, F1. lra. }
  assert (Rabs ((2 * X - 1) / (2 + X)) <= 0.4376)%R as TB by (apply div_box; lra).
  pose proof (pg_ok HI0 pg0 _ _ _ (atan X) RL C) as Q. change (length _ + length pg0 - 1)%nat with 5%nat in Q. rewrite rp0, fp0 in Q. cbv zeta in Q. apply Q.
  rewrite (atan_diff (1 / 2) X) by lra. replace ((X - 1 / 2) / (1 + 1 / 2 * X))%R with ((2 * X - 1) / (2 + X))%R by (field; lra). apply approx; [apply sum0|exact TB].
Qed.

Lemma case1 x (X := value F64 x) : good x -> (11 / 16 <= X <= 19 / 16)%R ->
  within 1 (fin HI1 LO1 (o_div o (o_sub o x one) (o_add o x one))) (atan X).
Proof using Ho.
  intros G B. assert (good one) as G1 by apply good_one.
  set (n := o_sub o x one). destruct (sub64 o Ho x one G G1) as [Gn Vn]; [fold X; rewrite value_one; apply (small_ok _ 1); [lia|apply Rabs_le; change (bpow radix2 1) with 2%R; lra]|]. fold n X in Gn, Vn. rewrite value_one in Vn.
  assert (rne F64 (X - 1) = X - 1)%R as E3.
  { apply (grid_exact (-53)); [lia| |change (bpow radix2 (-53 + 53)) with 1%R; apply Rabs_le; lra]. destruct (grid64 x (-1) G) as (m & E); [fold X; rewrite Rabs_pos_eq by lra; change (bpow radix2 (-1)) with (/ 2)%R; lra|]. exists (m - 2 ^ 53). fold X in E. rewrite E, minus_IZR. change (-1 - 52) with (-53). replace (IZR (2 ^ 53)) with (bpow radix2 53) by reflexivity. rewrite Rmult_minus_distr_r, <- bpow_plus. change (bpow radix2 (53 + -53)) with 1%R. ring. }
  rewrite E3 in Vn. destruct (scan_ok AP _ _ _ _ X scan1) as (a & b & C & AB); [discriminate| |].
  { replace (22 * 2 ^ 75 + 2 ^ 75 * Z.of_nat 16) with (38 * 2 ^ (AP + -5)) by reflexivity. replace (22 * 2 ^ 75) with (22 * 2 ^ (AP + -5)) by reflexivity. rewrite !fx_scale by (unfold AP; lia). change (bpow radix2 (-5)) with (/ 32)%R. lra. }
  unfold chk1 in C. assert (fx AP (2 ^ 80) = 1)%R as F1 by (rewrite fx_pow by (unfold AP; lia); reflexivity).
  assert (rel AP [Ab a b 0; Ab (a - 2 ^ 80) (b - 2 ^ 80) 0] [x; n] [X; (X - 1)%R]) as RL.
  { rewrite <- Vn. apply rel2; [exact G|exact Gn|exact AB|]. rewrite Vn. rewrite !fx_sub, F1. lra. }
  assert (Rabs ((X - 1) / (X + 1)) <= 0.4376)%R as TB by (apply div_box; lra).
  pose proof (pg_ok HI1 pg1 _ _ _ (atan X) RL C) as Q. change (length _ + length pg1 - 1)%nat with 5%nat in Q. rewrite rp1, fp1 in Q. cbv zeta in Q. apply Q.
  rewrite (atan_diff 1 X) by lra. replace ((X - 1) / (1 + 1 * X))%R with ((X - 1) / (X + 1))%R by (field; lra). apply approx; [apply sum1|exact TB].
Qed.
Lemma case2 x (X := value F64 x) : good x -> (19 / 16 <= X <= 39 / 16)%R ->
  within 1 (fin HI2 LO2 (o_div o (o_sub o x one_half3) (o_add o one (o_mul o one_half3 x)))) (atan X).
Proof using Ho.
  intros G B. assert (good one_half3) as G1 by (apply (good_const 1 one_half3 (Ab 3 3 0)); vm_compute; reflexivity).
  set (n := o_sub o x one_half3). destruct (sub64 o Ho x one_half3 G G1) as [Gn Vn]; [fold X; rewrite value_half3; apply (small_ok _ 1); [lia|apply Rabs_le; change (bpow radix2 1) with 2%R; lra]|]. fold n X in Gn, Vn. rewrite value_half3 in Vn.
  assert (rne F64 (X - 3 / 2) = X - 3 / 2)%R as E3.
  { apply (grid_exact (-52)); [lia| |change (bpow radix2 (-52 + 53)) with 2%R; apply Rabs_le; lra]. destruct (grid64 x 0 G) as (m & E); [fold X; rewrite Rabs_pos_eq by lra; change (bpow radix2 0) with 1%R; lra|]. exists (m - 3 * 2 ^ 51). fold X in E. rewrite E, minus_IZR, mult_IZR. change (0 - 52) with (-52). replace (IZR (2 ^ 51)) with (bpow radix2 51) by reflexivity. rewrite Rmult_minus_distr_r, Rmult_assoc, <- bpow_plus. change (bpow radix2 (51 + -52)) with (/ 2)%R. lra. }
  rewrite E3 in Vn. destruct (scan_ok AP _ _ _ _ X scan2) as (a & b & C & AB); [discriminate| |].
  { replace (19 * 2 ^ 76 + 2 ^ 76 * Z.of_nat 20) with (39 * 2 ^ (AP + -4)) by reflexivity. replace (19 * 2 ^ 76) with (19 * 2 ^ (AP + -4)) by reflexivity. rewrite !fx_scale by (unfold AP; lia). change (bpow radix2 (-4)) with (/ 16)%R. lra. }
  unfold chk2 in C. assert (fx AP (3 * 2 ^ 79) = 3 / 2)%R as F1 by (replace (3 * 2 ^ 79) with (3 * 2 ^ (AP + -1)) by reflexivity; rewrite fx_scale by (unfold AP; lia); change (bpow radix2 (-1)) with (/ 2)%R; lra).
  assert (rel AP [Ab a b 0; Ab (a - 3 * 2 ^ 79) (b - 3 * 2 ^ 79) 0] [x; n] [X; (X - 3 / 2)%R]) as RL.
  { rewrite <- Vn. apply rel2; [exact G|exact Gn|exact AB|]. rewrite Vn. rewrite !fx_sub, F1. lra. }
  assert (Rabs ((X - 3 / 2) / (1 + 3 / 2 * X)) <= 0.4376)%R as TB by (apply div_box; lra).
  pose proof (pg_ok HI2 pg2 _ _ _ (atan X) RL C) as Q. change (length _ + length pg2 - 1)%nat with 5%nat in Q. rewrite rp2, fp2 in Q. cbv zeta in Q. apply Q.
  rewrite (atan_diff (3 / 2) X) by lra. apply approx; [apply sum2|exact TB].
Qed.
Lemma value_m1 : value F64 minus_one = (-1)%R.
Proof using. clear. rewrite (kb_val 0 minus_one (-1)) by (vm_compute; reflexivity). unfold fx. cbn. lra. Qed.
Lemma case3 x (X := value F64 x) : good x -> (39 / 16 <= X)%R ->
  within 1 (fin HI3 LO3 (o_div o minus_one x)) (atan X).
Proof using Ho.
  intros G B. assert (good minus_one) as G1 by (apply (good_const 0 minus_one (Ab (-1) (-1) 0)); vm_compute; reflexivity).
  assert (0 < / X <= 16 / 39)%R as IV. { split; [apply Rinv_0_lt_compat; lra|]. replace (16 / 39)%R with (/ (39 / 16))%R by field. apply Rinv_le; lra. }
  set (t := o_div o minus_one x). destruct (div64 o Ho minus_one x G1 G) as [Gt Vt]; [fold X; lra|fold X; rewrite value_m1; apply (small_ok _ 0); [lia|]; unfold Rdiv; apply Rabs_le; change (bpow radix2 0) with 1%R; lra|]. fold t X in Gt, Vt. rewrite value_m1 in Vt. unfold Rdiv in Vt.
  assert (Rabs (value F64 t - (-1 * / X)) <= bpow radix2 (-55))%R as Et. { rewrite Vt. apply (rne_error64 (-1)); [|lia]. change (bpow radix2 (-1)) with (/ 2)%R. apply Rabs_lt. lra. }
  assert (value F64 t <= 0)%R as T0. { rewrite Vt. rewrite <- (FloatErr.rne_0 F64). assert (VE := valid_e). unfold rne. apply round_le; [exact VE|auto with typeclass_instances|lra]. }
  assert (rel AP [Ab (- 27 * 2 ^ 74) 0 (2 ^ 25)] [t] [(-1 * / X)%R]) as RL.
  { split; [reflexivity|split; [reflexivity|]]. intros i q. destruct i as [|i]; cbn [nth_error nth]; intros Q; [|destruct i; discriminate]. apply Some_inj in Q. subst q. split; [apply Gt|split; [apply Gt|]]. cbn [lo hi er]. rewrite fx_pow by (unfold AP; lia). change (25 - AP) with (-55). split; [|exact Et].
    replace (- 27 * 2 ^ 74) with (- 27 * 2 ^ (AP + -6)) by reflexivity. rewrite fx_scale, fx_0 by (unfold AP; lia). change (bpow radix2 (-6)) with (/ 64)%R. apply Rabs_le_inv in Et. pose proof (bpow_le radix2 (-55) (-10) ltac:(lia)) as L. change (bpow radix2 (-10)) with (/ 1024)%R in L. lra. }
  assert (Rabs (-1 * / X) <= 0.4376)%R as TB by (apply Rabs_le; lra).
  pose proof (pg_ok HI3 pg3 _ _ _ (atan X) RL scan3) as Q. change (length _ + length pg3 - 1)%nat with 3%nat in Q. rewrite rp3, fp3 in Q. apply Q.
  replace (atan X) with (PI / 2 + atan (-1 * / X))%R; [apply approx; [apply sum3|exact TB]|]. replace (-1 * / X)%R with (- / X)%R by ring. rewrite atan_opp, atan_inv by lra. lra.
Qed.

(** Small arguments *)
Lemma caseQ x (X := value F64 x) : good x -> (bpow radix2 (-27) <= Rabs X <= 7 / 16)%R ->
  within 1 (o_sub o x (o_mul o x (atan_poly o x))) (atan X).
Proof using Ho.
  intros G B. assert (0 < bpow radix2 (-27))%R as p27 by apply bpow_gt_0.
  assert (0 <= X * X <= 49 / 256)%R as Z. { replace (X * X)%R with (Rabs X * Rabs X)%R by (rewrite <- Rabs_mult; apply Rabs_pos_eq; nra). nra. }
  destruct (mul64 o Ho x x G G) as [Gz Vz]; [fold X; apply (small_ok _ 0); [lia|rewrite Rabs_pos_eq by lra; change (bpow radix2 0) with 1%R; lra]|]. fold X in Vz. set (z := o_mul o x x) in *.
  assert (Rabs (value F64 z - X * X) <= bpow radix2 (-56))%R as Ez. { rewrite Vz. apply (rne_error64 (-2)); [|lia]. change (bpow radix2 (-2)) with (/ 4)%R. rewrite Rabs_pos_eq; lra. }
  assert (0 <= value F64 z)%R as z0. { rewrite Vz. rewrite <- (FloatErr.rne_0 F64). assert (VE := valid_e). unfold rne. apply round_le; [exact VE|auto with typeclass_instances|lra]. }
  assert (rel AP [Ab 0 (1569 * 2 ^ 67) (2 ^ 24)] [z] [(X * X)%R]) as RL.
  { split; [reflexivity|split; [reflexivity|]]. intros i q. destruct i as [|i]; cbn [nth_error nth]; intros Q; [|destruct i; discriminate]. apply Some_inj in Q. subst q. split; [apply Gz|split; [apply Gz|]]. cbn [lo hi er]. rewrite fx_pow by (unfold AP; lia). change (24 - AP) with (-56). split; [|exact Ez].
    replace (1569 * 2 ^ 67) with (1569 * 2 ^ (AP + -13)) by reflexivity. rewrite fx_scale, fx_0 by (unfold AP; lia). change (bpow radix2 (-13)) with (/ 8192)%R. apply Rabs_le_inv in Ez. pose proof (bpow_le radix2 (-56) (-20) ltac:(lia)) as L. change (bpow radix2 (-20)) with (/ 1048576)%R in L. lra. }
  pose proof scanQ as C. unfold chkQ in C. destruct (aprog AP _ pgQ) as [l|] eqn:E; [|discriminate]. destruct (nth_error l 2) as [b|] eqn:Eb; [|discriminate].
  pose proof (aprog_sound AP o ltac:(unfold AP; lia) Ho pgQ _ _ _ l RL E) as S. pose proof (rel_nth _ _ _ _ _ _ S Eb) as (FQ & NQ & BQ & EQ).
  change (nth 2 (fprog o [z] pgQ) 0) with (atan_poly o x) in *. change (nth 2 (rprog [(X * X)%R] pgQ) 0%R) with (pev F64 (X * X) pAt) in *. set (q := atan_poly o x) in *. set (Q := value F64 q) in *.
  apply andb_prop in C. destruct C as [C C3]. apply andb_prop in C. destruct C as [C1 C2]. apply Z.leb_le in C1, C2, C3.
  apply (fx_le AP) in C1, C2, C3. rewrite fx_opp in C3. replace (5 * 2 ^ 74) with (5 * 2 ^ (AP + -6)) in C2, C3 by reflexivity. rewrite fx_scale in C2, C3 by (unfold AP; lia). change (bpow radix2 (-6)) with (/ 64)%R in *.
  set (u := bpow radix2 (-53)). assert (fx AP 33000000 <= 0.25 * u)%R as C1'. { unfold fx, u. change (- AP) with (-27 + -53). rewrite bpow_plus. change (bpow radix2 (-27)) with (/ 134217728)%R. pose proof (bpow_gt_0 radix2 (-53)). lra. }
  assert (0 < u <= / 1000000000000000)%R as u0 by (split; [apply bpow_gt_0|apply small64; lia]).
  pose proof (atan_R X ltac:(lra)) as AR. assert (bpow radix2 (-59) = / 64 * u)%R as E59 by (unfold u; change (-59) with (-6 + -53); rewrite bpow_plus; reflexivity). rewrite E59 in AR.
  assert (Rabs Q <= 5 / 64)%R as QB by (apply Rabs_le; lra).
  assert (Rabs (X * Q) <= Rabs X * (5 / 64))%R as XQ by (rewrite Rabs_mult; apply Rmult_le_compat_l; [apply Rabs_pos|exact QB]).
  destruct (mul64 o Ho x q G (conj FQ NQ)) as [Gm Vm]; [fold X Q; apply (small_ok _ 0); [lia|change (bpow radix2 0) with 1%R; lra]|]. fold X Q in Vm. set (m := o_mul o x q) in *.
  assert (Rabs (value F64 m - X * Q) <= Rabs X * (0.08 * u))%R as Em.
  { rewrite Vm. eapply Rle_trans; [apply rne_abs|]. fold u. assert (bpow radix2 (-1075) <= Rabs X * (0.001 * u))%R as T.
    { apply Rle_trans with (bpow radix2 (-27) * (bpow radix2 (-10) * bpow radix2 (-53)))%R; [rewrite <- !bpow_plus; apply bpow_le; lia|]. change (bpow radix2 (-10)) with (/ 1024)%R. fold u. apply Rmult_le_compat; [lra|nra|apply B|lra]. }
    nra. }
  assert (Rabs (X - value F64 m - atan X) <= Rabs X * (0.441 * u))%R as D.
  { replace (_ - _)%R with (- (value F64 m - X * Q) - X * (Q - pev F64 (X * X) pAt) + (X - X * pev F64 (X * X) pAt - atan X))%R by ring.
    eapply Rle_trans; [apply Rabs_triang|]. unfold Rminus at 1. pose proof (Rabs_triang (- (value F64 m - X * Q)) (- (X * (Q - pev F64 (X * X) pAt)))) as T. rewrite !Rabs_Ropp, (Rabs_mult X) in T.
    assert (Rabs X * Rabs (Q - pev F64 (X * X) pAt) <= Rabs X * (0.25 * u))%R by (apply Rmult_le_compat_l; [apply Rabs_pos|lra]). nra. }
  assert (0.92 * Rabs X <= Rabs (atan X))%R as LB.
  { set (e := (X - X * pev F64 (X * X) pAt - atan X)%R) in *. assert (Rabs (pev F64 (X * X) pAt) <= 0.079)%R as PB. { apply Rabs_le. apply Rabs_le_inv in QB, EQ. lra. }
    pose proof (Rabs_triang (X * pev F64 (X * X) pAt + e) (atan X)) as T. replace (X * pev F64 (X * X) pAt + e + atan X)%R with X in T by (unfold e; ring).
    pose proof (Rabs_triang (X * pev F64 (X * X) pAt) e) as T2. rewrite Rabs_mult in T2. assert (Rabs X * Rabs (pev F64 (X * X) pAt) <= Rabs X * 0.079)%R by (apply Rmult_le_compat_l; lra). nra. }
  destruct (sub64 o Ho x m G Gm) as [[G1 G2] V].
  { fold X. apply (small_ok _ 1); [lia|]. change (bpow radix2 1) with 2%R. unfold Rminus. eapply Rle_trans; [apply Rabs_triang|]. rewrite Rabs_Ropp. pose proof (Rabs_triang (value F64 m - X * Q) (X * Q)) as T. replace (value F64 m - X * Q + X * Q)%R with (value F64 m) in T by ring. nra. }
  split; [exact G1|]. split; [exact G2|]. rewrite V. fold X. replace 1%R with (/ 2 + / 2)%R by lra. apply final_round; [|pose proof (ulp64_rel (atan X)) as U; fold u in U; nra|lra].
  apply Rle_trans with (bpow radix2 (-1 + -27)); [apply bpow_le; lia|]. rewrite bpow_plus. change (bpow radix2 (-1)) with (/ 2)%R. lra.
Qed.
(** Tiny arguments *)
Lemma case_tiny x (X := value F64 x) : good x -> (Rabs X <= bpow radix2 (-27))%R -> within 1 x (atan X).
Proof using.
  clear. intros [F N] B. split; [exact F|]. split; [exact N|]. rewrite Rmult_1_l. fold X. pose proof (atan_taylor_ok 1 X) as T. cbn [atan_taylor] in T.
  replace (atan X - (0 + (-1) ^ 0 * X ^ (2 * 0 + 1) / INR (2 * 0 + 1)))%R with (- (X - atan X))%R in T by (cbn; field). rewrite Rabs_Ropp in T. cbn [Nat.mul Nat.add pow] in T.
  assert (0 <= Rabs X)%R as p by apply Rabs_pos. assert (Rabs X * Rabs X <= bpow radix2 (-54))%R as S by (change (-54) with (-27 + -27); rewrite bpow_plus; apply Rmult_le_compat; lra).
  assert (bpow radix2 (-53) = 2 * bpow radix2 (-54))%R as E by (change (-53) with (1 + -54); rewrite bpow_plus; reflexivity). pose proof (bpow_gt_0 radix2 (-54)) as q.
  assert (bpow radix2 (-54) <= / 1000)%R as q2 by (apply Rle_trans with (bpow radix2 (-10)); [apply bpow_le; lia|change (bpow radix2 (-10)) with (/ 1024)%R; lra]).
  assert (Rabs (X - atan X) <= Rabs X * bpow radix2 (-54))%R as D. { eapply Rle_trans; [exact T|]. replace (Rabs X * (Rabs X * (Rabs X * 1)))%R with (Rabs X * (Rabs X * Rabs X))%R by ring. apply Rmult_le_compat_l; assumption. }
  eapply Rle_trans; [exact D|]. eapply Rle_trans; [|apply ulp64_rel]. rewrite E. pose proof (Rabs_triang (X - atan X) (atan X)) as T2. replace (X - atan X + atan X)%R with X in T2 by ring. assert (Rabs X * bpow radix2 (-54) <= Rabs X * / 1000)%R by (apply Rmult_le_compat_l; lra). assert (Rabs X <= 2 * Rabs (atan X))%R as X2 by lra. replace (Rabs (atan X) * (2 * bpow radix2 (-54)))%R with (2 * Rabs (atan X) * bpow radix2 (-54))%R by ring. apply Rmult_le_compat_r; lra.
Qed.
End End.
