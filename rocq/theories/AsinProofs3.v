(** Accuracy of asin and acos: the cases. *)
From Coq Require Import ZArith Reals Bool List Lia Lra Psatz.
From Flocq Require Import Core.
From Verif Require Import Base FloatModel FloatSpec FloatProofs FloatLib LibmModel LibmSpec Elem FloatErr PolyBound ElemModel ElemSpec TrigModel F64Lib ExpProofs3 ExpProofs4 ExpProofs5 ExpProofs6 ExpProofs7 ExpProofs8 LogProofs LogProofs2 TrigProofs TrigRed TrigRed5 TrigLg8 TrigLg11 HypotModel HypotProofs3 AtanModel AtanProofs AtanProofs2 AtanProofs3 Atan2Model Atan2Proofs Atan2Proofs2 Atan2Proofs3 AsinModel AsinProofs AsinProofs2.
Import ListNotations.
Open Scope Z_scope.

Definition HH : Z := 0x3FE921FB54442D18.
(** Vr 0 = z, Vr 1 = s, Vr 2 = f, Vr 3 = c, Vr 4 = pi/4 - 2f *)
Definition pgM : list ex := [rx 0; Sub (Sub (Mul (Mul (K two) (Vr 1)) (Vr 5)) (Sub (K PIO2_LO) (Mul (K two) (Vr 3)))) (Vr 4)].
Definition pgB : list ex := [rx 0; Sub (Mul (K two) (Add (Vr 1) (Mul (Vr 1) (Vr 2)))) (K PIO2_LO)].
Definition pgN : list ex := [rx 0; Add (Vr 1) (Sub (Mul (Vr 2) (Vr 1)) (K PIO2_LO))].
Definition pgC : list ex := [rx 0; Sub (Vr 1) (Sub (K PIO2_LO) (Mul (Vr 1) (Vr 2)))].
Definition sq (a : Z) : Z := Z.sqrt (a * 2 ^ 80).
Definition env2 (a b : Z) : list ab := [Ab a b 0; Ab (sq a - 2 ^ 30) (sq b + 2 ^ 30) (2 ^ 25)].
Definition envM (a b : Z) : list ab :=
  let l := sq a in let h := sq b in
  env2 a b ++ [Ab (l - 2 ^ 61) (h + 2 ^ 30) 0; Ab (- 2 ^ 61) (2 ^ 61) (2 ^ 10); Ab (1608 * 2 ^ 69 - 2 * h - 2 ^ 32) (1609 * 2 ^ 69 - 2 * l + 2 ^ 62) 0].
Definition chk_er (e l h : Z) (pg : list ex) (env : list ab) : bool :=
  match aprog AP env pg with Some r => match nth_error r (length env + length pg - 1) with Some b => (er b <=? e) && (l <=? lo b) && (hi b <=? h) | None => false end | None => false end.
(** Errors in units of 2^-80: 0.655, 1.2 and 1.2 times 2^-53 *)
Definition chkM (a b : Z) : bool := (0 <=? a) && chk_er 87900000 (- 2 ^ 80) (2 ^ 80) pgM (envM a b).
Definition chkN (a b : Z) : bool := (0 <=? a) && chk_er 161000000 (- 2 ^ 80) (2 ^ 80) pgN (env2 a b).
Lemma scanM1 : scan chkM (3 * 2 ^ 72) (2 ^ 74) 14 = true. Proof. vm_compute. reflexivity. Qed.
Lemma scanM2 : scan chkM (59 * 2 ^ 72) (2 ^ 72) 5 = true. Proof. vm_compute. reflexivity. Qed.
Lemma scanN : scan chkN 0 (2 ^ 76) 4 = true. Proof. vm_compute. reflexivity. Qed.
Definition envB : list ab := [Ab 0 (2 ^ 74) 0; Ab 0 (2 ^ 77) (2 ^ 23)].
Definition envC : list ab := [Ab 0 (2 ^ 78) (2 ^ 24); Ab (- 2 ^ 79) (2 ^ 79) 0].
Lemma scanB : chk_er 161000000 (- 2 ^ 80) (2 ^ 80) pgB envB = true. Proof. vm_compute. reflexivity. Qed.
Lemma scanC : chk_er 161000000 (- 2 ^ 80) (2 ^ 80) pgC envC = true. Proof. vm_compute. reflexivity. Qed.

Lemma rel_nil : rel AP [] [] []. Proof. split; [reflexivity|split; [reflexivity|]]. intros i a. destruct i; discriminate. Qed.
Lemma okv_of l h e x r : good x -> (fx AP l <= value F64 x <= fx AP h)%R -> (Rabs (value F64 x - r) <= fx AP e)%R -> okv AP F64 (Ab l h e) x r.
Proof. intros [A B] C D. split; [exact A|split; [exact B|split; [exact C|exact D]]]. Qed.
Lemma okv_exact l h x : good x -> (fx AP l <= value F64 x <= fx AP h)%R -> okv AP F64 (Ab l h 0) x (value F64 x).
Proof. intros A B. apply okv_of; [exact A|exact B|]. rewrite Rminus_eq_0, Rabs_R0, fx_0. lra. Qed.
Lemma fx_u e c : (0 <= c)%R -> (IZR e <= c * 134217728)%R -> (fx AP e <= c * u53)%R.
Proof. intros C H. unfold fx, u53. change (- AP) with (-27 + -53). rewrite bpow_plus, <- Rmult_assoc. apply Rmult_le_compat_r; [apply bpow_ge_0|]. change (bpow radix2 (-27)) with (/ 134217728)%R. lra. Qed.
Lemma fx_80 k : 0 <= k -> fx AP (2 ^ k) = bpow radix2 (k - 80). Proof. apply fx_pow. Qed.
(** The integer square root bounds the real one *)
Lemma sq_ok a b Z0 : 0 <= a -> (fx AP a <= Z0 <= fx AP b)%R -> (fx AP (sq a) <= sqrt Z0 <= fx AP (sq b + 1))%R.
Proof.
  intros Ha H. assert (0 <= b) as Hb. { apply Z.le_ngt. intros c. apply (fx_lt AP) in c. pose proof (fx_nonneg AP a Ha). rewrite fx_0 in c. lra. }
  assert (forall v, (fx AP v * fx AP v = IZR (v * v) * bpow radix2 (-160))%R) as SQ. { intros v. unfold fx. change (-160) with (- AP + - AP). rewrite bpow_plus, mult_IZR. ring. }
  assert (forall v, fx AP v = IZR (v * 2 ^ 80) * bpow radix2 (-160))%R as SC. { intros v. unfold fx. rewrite mult_IZR, Rmult_assoc. f_equal. change (IZR (2 ^ 80)) with (bpow radix2 80). rewrite <- bpow_plus. reflexivity. }
  pose proof (Z.sqrt_spec (a * 2 ^ 80) ltac:(lia)) as A. pose proof (Z.sqrt_spec (b * 2 ^ 80) ltac:(lia)) as B. fold (sq a) in A. fold (sq b) in B. pose proof (Z.sqrt_nonneg (a * 2 ^ 80)) as A0. pose proof (Z.sqrt_nonneg (b * 2 ^ 80)) as B0. fold (sq a) in A0. fold (sq b) in B0. cbv zeta in A, B.
  assert (0 <= Z0)%R as Z1 by (pose proof (fx_nonneg AP a Ha); lra). pose proof (bpow_ge_0 radix2 (-160)) as P. split.
  - rewrite <- (sqrt_square (fx AP (sq a))) by (apply fx_nonneg; lia). apply sqrt_le_1; [rewrite SQ; apply Rmult_le_pos; [apply IZR_le; nia|exact P]|exact Z1|]. eapply Rle_trans; [|apply H]. rewrite SQ, SC. apply Rmult_le_compat_r; [exact P|apply IZR_le; lia].
  - rewrite <- (sqrt_square (fx AP (sq b + 1))) by (apply fx_nonneg; lia). apply sqrt_le_1; [exact Z1|rewrite SQ; apply Rmult_le_pos; [apply IZR_le; nia|exact P]|]. eapply Rle_trans; [apply H|]. rewrite SQ, SC. apply Rmult_le_compat_r; [exact P|apply IZR_le; lia].
Qed.

Section Cases.
Context (o : fops) (Ho : ieee_ops F64 o).
Lemma chk_ok e l h pg aenv env renv : chk_er e l h pg aenv = true -> rel AP aenv env renv -> let k := (length aenv + length pg - 1)%nat in
  let x := nth k (fprog o env pg) 0 in good x /\ (fx AP l <= value F64 x <= fx AP h)%R /\ (Rabs (value F64 x - nth k (rprog renv pg) 0%R) <= fx AP e)%R.
Proof using Ho.
  intros C RL k x. unfold chk_er in C. destruct (aprog AP aenv pg) as [r|] eqn:Ea; [|discriminate]. fold k in C. destruct (nth_error r k) as [q|] eqn:Eb; [|discriminate].
  pose proof (aprog_sound AP o ltac:(unfold AP; lia) Ho _ _ _ _ r RL Ea) as S. pose proof (rel_nth _ _ _ _ _ _ S Eb) as (FQ & NQ & BQ & EQ).
  apply andb_prop in C. destruct C as [C C3]. apply andb_prop in C. destruct C as [C1 C2]. apply Z.leb_le in C1, C2, C3. apply (fx_le AP) in C1, C2, C3. fold x in FQ, NQ, BQ, EQ. split; [split; assumption|]. split; lra.
Qed.
(** The argument of the root *)
Lemma reduced v X : good v -> good X -> (/ 2 <= value F64 X < 1)%R -> value F64 v = rne F64 (1 - value F64 X) ->
  let z := o_mul o v half in let Z0 := ((1 - value F64 X) / 2)%R in good z /\ value F64 z = Z0 /\ (bpow radix2 (-54) <= Z0 <= / 4)%R.
Proof using Ho.
  intros Gv GX B Ev z Z0. set (x := value F64 X) in *.
  assert (grid (-53) (1 - x)) as GR. { destruct (grid64 X (-1) GX) as (m & Em); [fold x; rewrite Rabs_pos_eq by lra; change (bpow radix2 (-1)) with (/ 2)%R; lra|]. fold x in Em. change (-1 - 52) with (-53) in Em. exists (2 ^ 53 - m). rewrite minus_IZR, Em. change (IZR (2 ^ 53)) with (bpow radix2 53). rewrite Rmult_minus_distr_r, <- bpow_plus. reflexivity. }
  assert (bpow radix2 (-53) <= 1 - x)%R as LB. { destruct GR as (m & Em). pose proof (bpow_gt_0 radix2 (-53)) as P. assert (0 < m) as M. { apply lt_IZR. apply (Rmult_lt_reg_r (bpow radix2 (-53))); [exact P|]. rewrite Rmult_0_l, <- Em. lra. } assert (1 <= IZR m)%R by (apply IZR_le; lia). rewrite Em. nra. }
  rewrite (grid_exact (-53)) in Ev; [|lia|exact GR|rewrite Rabs_pos_eq by lra; change (bpow radix2 (-53 + 53)) with 1%R; lra].
  destruct (mul64 o Ho v half Gv good_half) as [Gz Vz]; [change half with 0x3fe0000000000000; rewrite val_half, Ev; apply (small_ok _ 0); [lia|change (bpow radix2 0) with 1%R; rewrite Rabs_pos_eq; lra]|]. change half with 0x3fe0000000000000 in Vz at 2. rewrite val_half, Ev in Vz. split; [exact Gz|]. split.
  - unfold z. rewrite Vz. change ((1 - x) * / 2)%R with Z0. apply (grid_exact (-54)); [lia| |unfold Z0; rewrite Rabs_pos_eq by lra; change (bpow radix2 (-54 + 53)) with (/ 2)%R; lra].
    destruct GR as (m & Em). exists m. unfold Z0. rewrite Em. change (-53) with (1 + -54). rewrite bpow_plus. change (bpow radix2 1) with 2%R. field.
  - unfold Z0. change (-54) with (-1 + -53). rewrite bpow_plus. change (bpow radix2 (-1)) with (/ 2)%R. lra.
Qed.
(** The root and its truncation *)
Lemma root_ok z (Z0 := value F64 z) : good z -> (bpow radix2 (-54) <= Z0 <= / 4)%R -> exists s, hsqrt o z = Ok s /\ good s /\ value F64 s = rne F64 (sqrt Z0) /\
  good (Z.land s 0xffffffff00000000) /\ (exists m e, 0 <= m < 2 ^ 21 /\ -500 <= e /\ value F64 (Z.land s 0xffffffff00000000) = (IZR m * bpow radix2 e)%R) /\
  (value F64 s * (1 - bpow radix2 (-20)) <= value F64 (Z.land s 0xffffffff00000000) <= value F64 s)%R.
Proof using Ho.
  intros G B. pose proof (bpow_gt_0 radix2 (-54)) as P54. destruct (hsqrt_ok o Ho z G ltac:(fold Z0; lra)) as (s & Es & Gs & Vs). fold Z0 in Vs. exists s. split; [exact Es|]. split; [exact Gs|]. split; [exact Vs|].
  destruct (sqrt_bounds Z0 ltac:(lra)) as [[T0 T1] TT].
  assert (bpow radix2 (-27) <= sqrt Z0)%R as T2. { replace (bpow radix2 (-27)) with (sqrt (bpow radix2 (-54))); [apply sqrt_le_1; lra|]. change (-54) with (-27 + -27). rewrite bpow_plus. apply sqrt_square. apply bpow_ge_0. }
  assert (VE := valid_e). assert (bpow radix2 (-27) <= value F64 s)%R as LS. { rewrite Vs. assert (rne F64 (bpow radix2 (-27)) = bpow radix2 (-27))%R as E by (rewrite <- (Rmult_1_l (bpow radix2 (-27))); apply (rne_exact64 1); lia). rewrite <- E at 1. unfold rne. apply round_le; auto with typeclass_instances. }
  pose proof (bpow_gt_0 radix2 (-27)) as P27. destruct (good_pos s Gs ltac:(lra)) as (_ & _ & Rs & Ms).
  assert (2 ^ 52 <= s < INF) as HS. { split; [|apply Rs]. apply Z.le_ngt. intros L. pose proof (mag_lt64 s (2 ^ 52) ltac:(lia)) as Q. rewrite <- Ms in Q. assert (mag64 (2 ^ 52) <= bpow radix2 (-27))%R; [|lra]. unfold mag64. change (V F64 (2 ^ 52)) with (2 ^ 52). change (IZR (2 ^ 52)) with (bpow radix2 52). rewrite <- bpow_plus. apply bpow_le. change (emin F64) with (-1074). lia. }
  destruct (cleared s HS) as (Rf & m & e & Hm & He & Mf & Bf). set (f := Z.land s 0xffffffff00000000) in *. assert (value F64 f = mag64 f) as Vf by (symmetry; apply mag_value; lia). rewrite Vf, Ms. split; [apply (good_mk false f), Rf|]. split; [|exact Bf].
  exists m, e. split; [exact Hm|]. split; [|exact Mf]. apply Z.le_ngt. intros L. rewrite Ms in LS. change (bpow radix2 (-20)) with (/ 1048576)%R in Bf. assert (bpow radix2 (-28) <= mag64 f)%R as Q. { change (-28) with (-1 + -27). rewrite bpow_plus. change (bpow radix2 (-1)) with (/ 2)%R. lra. }
  rewrite Mf in Q. assert (IZR m * bpow radix2 e <= bpow radix2 21 * bpow radix2 (-500))%R as Q2. { apply Rmult_le_compat; [apply IZR_le; lia|apply bpow_ge_0|change (bpow radix2 21) with (IZR (2 ^ 21)); apply IZR_le; lia|apply bpow_le; lia]. }
  rewrite <- bpow_plus in Q2. assert (bpow radix2 (21 + -500) < bpow radix2 (-28))%R by (apply bpow_lt; lia). lra.
Qed.
Lemma hh_val : (value F64 PIO2_HI = 2 * value F64 HH)%R /\ (1608 / 2048 <= value F64 HH <= 1609 / 2048)%R /\ (0 <= value F64 PIO2_LO <= u53)%R.
Proof using.
  clear. split; [|split].
  - rewrite (kb_val 60 PIO2_HI (0x1921FB54442D18 * 2 ^ 8)) by (vm_compute; reflexivity). rewrite (kb_val 60 HH (0x1921FB54442D18 * 2 ^ 7)) by (vm_compute; reflexivity). unfold fx. rewrite !mult_IZR. change (IZR (2 ^ 8)) with 256%R. change (IZR (2 ^ 7)) with 128%R. ring.
  - rewrite (kb_val 53 HH 0x1921FB54442D18) by (vm_compute; reflexivity). unfold fx. change (bpow radix2 (- (53))) with (/ 9007199254740992)%R. lra.
  - rewrite (kb_val 106 PIO2_LO 0x11A62633145C07) by (vm_compute; reflexivity). unfold fx, u53. change (- (106)) with (-53 + -53). rewrite bpow_plus. change (bpow radix2 (-53)) with (/ 9007199254740992)%R. lra.
Qed.
Lemma pi_parts : (Rabs (value F64 PIO2_HI + value F64 PIO2_LO - PI / 2) <= / 100000 * u53)%R.
Proof using.
  clear. eapply Rle_trans; [exact sum3|]. unfold u53. change (-70) with (-17 + -53). rewrite bpow_plus. apply Rmult_le_compat_r; [apply bpow_ge_0|]. change (bpow radix2 (-17)) with (/ 131072)%R. lra.
Qed.
Lemma good_HH : good HH. Proof using. clear. apply (good_mk false HH). unfold HH. lia. Qed.
Lemma good_HI : good PIO2_HI. Proof using. clear. apply (good_mk false PIO2_HI). unfold PIO2_HI. lia. Qed.
Lemma half_HI : o_mul o half PIO2_HI = HH.
Proof using Ho. rewrite (mul_soft o Ho) by first [exact good_half|exact good_HI]. vm_compute. reflexivity. Qed.
Lemma root_env a b z s : 0 <= a -> good z -> good s -> (0 < value F64 z <= / 4)%R -> (fx AP a <= value F64 z <= fx AP b)%R -> value F64 s = rne F64 (sqrt (value F64 z)) ->
  rel AP (env2 a b) [z; s] [value F64 z; sqrt (value F64 z)] /\ (fx AP (sq a) - bpow radix2 (-55) <= value F64 s <= fx AP (sq b) + bpow radix2 (-54))%R.
Proof using.
  clear. intros Ha Gz Gs Bz Hz Vs. destruct (sqrt_bounds _ Bz) as [T _]. destruct (root_half _ T) as [E _]. rewrite <- Vs in E. pose proof (sq_ok a b _ Ha Hz) as Q. rewrite fx_add in Q.
  assert (fx AP 1 <= bpow radix2 (-55))%R as F1 by (unfold fx; rewrite Rmult_1_l; apply bpow_le; unfold AP; lia). assert (E' := Rabs_le_inv _ _ E).
  assert (bpow radix2 (-54) = 2 * bpow radix2 (-55))%R as E54 by (change (-54) with (1 + -55); rewrite bpow_plus; reflexivity). assert (bpow radix2 (-54) <= bpow radix2 (-50))%R as L54 by (apply bpow_le; lia). pose proof (bpow_gt_0 radix2 (-55)).
  split; [|lra]. apply (rel_app AP [Ab a b 0] [z] [value F64 z]); [apply (rel_app AP [] [] []); [apply rel_nil|apply okv_exact; assumption]|].
  apply okv_of; [exact Gs| |rewrite fx_80 by lia; exact E]. rewrite fx_sub, fx_add, fx_80 by lia. change (30 - 80) with (-50). lra.
Qed.
Lemma asin_mid z (Z0 := value F64 z) : good z -> (3 / 256 <= Z0 <= / 4)%R -> exists s, hsqrt o z = Ok s /\
  let r := comp_r o z in let f := clear_low s in let c := o_div o (o_sub o z (o_mul o f f)) (o_add o s f) in
  within (5 / 4) (o_sub o (o_mul o half PIO2_HI) (o_sub o (o_sub o (o_mul o (o_mul o two s) r) (o_sub o PIO2_LO (o_mul o two c))) (o_sub o (o_mul o half PIO2_HI) (o_mul o two f)))) (PI / 2 - 2 * asin (sqrt Z0)).
Proof using Ho.
  intros G B. pose proof u53_small as US. assert (bpow radix2 (-54) <= / 1000)%R as P54 by (apply Rle_trans with (bpow radix2 (-10)); [apply bpow_le; lia|change (bpow radix2 (-10)) with (/ 1024)%R; lra]).
  destruct (root_ok z G ltac:(fold Z0; lra)) as (s & Es & Gs & Vs & Gf & MF & Bf). fold Z0 in Vs. exists s. split; [exact Es|]. cbv zeta. unfold clear_low. rewrite Z.lor_0_r. rewrite half_HI. set (f := Z.land s 0xffffffff00000000) in *.
  assert (bpow radix2 (-60) <= Z0)%R as Z60 by (pose proof (bpow_le radix2 (-60) (-54) ltac:(lia)); lra).
  destruct (correction o Ho z s f G Gs Gf ltac:(fold Z0; lra) Vs MF Bf) as (Gc & Ec & Bc). fold Z0 in Ec, Bc. set (c := o_div o (o_sub o z (o_mul o f f)) (o_add o s f)) in *.
  destruct (sqrt_bounds Z0 ltac:(lra)) as [T TT]. destruct (root_half _ T) as [ES BS]. rewrite <- Vs in ES, BS. set (S := value F64 s) in *. set (F := value F64 f) in *. set (t := sqrt Z0) in *.
  destruct hh_val as (EH & BH & BL). 
  assert (0.1 <= t)%R as T1 by nra.
  assert (0.09 <= S)%R as S1. { apply Rabs_le_inv in ES. pose proof (bpow_le radix2 (-55) (-54) ltac:(lia)). lra. } assert (0.08 <= F <= / 2)%R as F1. { change (bpow radix2 (-20)) with (/ 1048576)%R in Bf. lra. }
  (* twice f, and the distance of pi / 4 *)
  destruct (mul64 o Ho two f) as [G2 V2]; [apply (good_mk false two); unfold two; lia|exact Gf|rewrite value_two; fold F; apply (small_ok _ 1); [lia|change (bpow radix2 1) with 2%R; rewrite Rabs_pos_eq; lra]|]. rewrite value_two in V2. fold F in V2.
  assert (grid (-56) F) as GF. { apply (grid64 f (-4) Gf). fold F. rewrite Rabs_pos_eq by lra. change (bpow radix2 (-4)) with (/ 16)%R. lra. }
  assert (grid (-53) F) as GF3. { destruct MF as (m & e & Hm & He & Em). fold F in Em. apply (grid_le e); [|exists m; exact Em]. apply Z.le_ngt. intros L. assert (IZR m * bpow radix2 e <= bpow radix2 21 * bpow radix2 (-54))%R as Q. { apply Rmult_le_compat; [apply IZR_le; lia|apply bpow_ge_0|change (bpow radix2 21) with (IZR (2 ^ 21)); apply IZR_le; lia|apply bpow_le; lia]. } rewrite <- bpow_plus in Q. assert (bpow radix2 (21 + -54) <= / 1024)%R by (change (/ 1024)%R with (bpow radix2 (-10)); apply bpow_le; lia). rewrite <- Em in Q. lra. }
  assert (grid (-53) (2 * F)) as G2F. { destruct GF3 as (m & Em). exists (2 * m). rewrite mult_IZR, Em. ring. }
  rewrite (grid_exact (-53)) in V2; [|lia|exact G2F|change (bpow radix2 (-53 + 53)) with 1%R; rewrite Rabs_pos_eq; lra].
  destruct (sub64 o Ho HH (o_mul o two f) good_HH G2) as [GB VB]; [rewrite V2; apply (small_ok _ 1); [lia|change (bpow radix2 1) with 2%R; apply Rabs_le; lra]|]. rewrite V2 in VB.
  assert (grid (-53) (value F64 HH)) as GH. { apply (grid64 HH (-1) good_HH). rewrite Rabs_pos_eq by lra. change (bpow radix2 (-1)) with (/ 2)%R. lra. }
  rewrite (grid_exact (-53)) in VB; [|lia|apply grid_sub; assumption|change (bpow radix2 (-53 + 53)) with 1%R; apply Rabs_le; lra].
  set (B4 := o_sub o HH (o_mul o two f)) in *.
  assert (exists a b, chkM a b = true /\ (fx AP a <= Z0 <= fx AP b)%R) as (a & b & CM' & Hab).
  { assert (forall k, fx AP (k * 2 ^ 72) = IZR k * / 256)%R as KS by (intros k; apply (fx_scale AP (-8)); unfold AP; lia).
    destruct (Rle_lt_dec Z0 (59 / 256)) as [L|L].
    - apply (scan_ok AP chkM _ _ _ Z0 scanM1); [discriminate|]. change (3 * 2 ^ 72 + 2 ^ 74 * Z.of_nat 14) with (59 * 2 ^ 72). rewrite !KS. lra.
    - apply (scan_ok AP chkM _ _ _ Z0 scanM2); [discriminate|]. change (59 * 2 ^ 72 + 2 ^ 72 * Z.of_nat 5) with (64 * 2 ^ 72). rewrite !KS. lra. }
  apply andb_prop in CM'. destruct CM' as [Ha CM]. apply Z.leb_le in Ha.
  destruct (root_env a b z s Ha G Gs ltac:(fold Z0; lra) Hab Vs) as [R2 RB]. fold S in RB.
  assert (rel AP (envM a b) [z; s; f; c; B4] [Z0; t; F; (t - F)%R; value F64 B4]) as RL.
  { assert (bpow radix2 (-54) = 2 * bpow radix2 (-55))%R as E54 by (change (-54) with (1 + -55); rewrite bpow_plus; reflexivity). assert (bpow radix2 (-50) = 32 * bpow radix2 (-55))%R as E50 by (change (-50) with (5 + -55); rewrite bpow_plus; reflexivity).
    pose proof (bpow_gt_0 radix2 (-55)) as P55. assert (bpow radix2 (-55) <= / 1000000000)%R as Q55 by (apply Rle_trans with (bpow radix2 (-30)); [apply bpow_le; lia|change (bpow radix2 (-30)) with (/ 1073741824)%R; lra]).
    change (bpow radix2 (-20)) with (/ 1048576)%R in Bf. change (bpow radix2 (-19)) with (/ 524288)%R in Bc. assert (bpow radix2 (-69) = 2 * bpow radix2 (-70))%R as E69 by (change (-69) with (1 + -70); rewrite bpow_plus; reflexivity). pose proof (bpow_gt_0 radix2 (-70)) as P70. assert (bpow radix2 (-70) <= bpow radix2 (-55))%R as L70 by (apply bpow_le; lia).
    assert (bpow radix2 (-69) * t <= bpow radix2 (-70))%R as Ec2 by (rewrite E69; nra).
    apply (rel_app AP (env2 a b ++ [_; _]) [z; s; f; c] [Z0; t; F; (t - F)%R]); [apply (rel_app AP (env2 a b ++ [_]) [z; s; f] [Z0; t; F]); [apply (rel_app AP (env2 a b) [z; s] [Z0; t] _ _ _ R2)|]|].
    - apply okv_exact; [exact Gf|]. fold F. rewrite fx_sub, fx_add, !fx_80 by lia. change (bpow radix2 (61 - 80)) with (/ 524288)%R. change (30 - 80) with (-50). lra.
    - apply okv_of; [exact Gc| |rewrite fx_80 by lia; change (10 - 80) with (-70); lra]. rewrite fx_opp, fx_80 by lia. change (bpow radix2 (61 - 80)) with (/ 524288)%R. apply Rabs_le_inv in Ec, Bc. lra.
    - apply okv_exact; [exact GB|]. rewrite VB. rewrite fx_add, !fx_sub, !fx_80 by lia. replace (fx AP (1608 * 2 ^ 69)) with (1608 / 2048)%R by (symmetry; apply (fx_scale AP (-11)); unfold AP; lia). replace (fx AP (1609 * 2 ^ 69)) with (1609 / 2048)%R by (symmetry; apply (fx_scale AP (-11)); unfold AP; lia).
      replace (fx AP (2 * sq a)) with (2 * fx AP (sq a))%R by (unfold fx; rewrite mult_IZR; ring). replace (fx AP (2 * sq b)) with (2 * fx AP (sq b))%R by (unfold fx; rewrite mult_IZR; ring). change (bpow radix2 (62 - 80)) with (/ 262144)%R. assert (bpow radix2 (32 - 80) = 128 * bpow radix2 (-55))%R as -> by (change (32 - 80) with (7 + -55); rewrite bpow_plus; reflexivity). lra. }
  pose proof (chk_ok _ _ _ pgM _ _ _ CM RL) as Q. cbv zeta in Q. change (length (envM a b) + length pgM - 1)%nat with 6%nat in Q.
  change (nth 6 (fprog o [z; s; f; c; B4] pgM) 0) with (o_sub o (o_sub o (o_mul o (o_mul o two s) (comp_r o z)) (o_sub o PIO2_LO (o_mul o two c))) B4) in Q.
  change (nth 6 (rprog [Z0; t; F; (t - F)%R; value F64 B4] pgM) 0%R) with (value F64 two * t * Rr Z0 - (value F64 PIO2_LO - value F64 two * (t - F)) - value F64 B4)%R in Q. rewrite value_two, VB in Q.
  set (A := o_sub o (o_sub o _ _) B4) in *. destruct Q as (GA & BA & EA). rewrite fx_opp, fx_80 in BA by lia. change (bpow radix2 (80 - 80)) with 1%R in BA.
  pose proof (asin_root Z0 ltac:(lra)) as AR. fold t in AR. pose proof pi_parts as PP. set (y := (PI / 2 - 2 * asin t)%R).
  assert (fx AP 87900000 <= 0.655 * u53)%R as E5 by (apply fx_u; lra).
  assert (Rabs (value F64 HH - value F64 A - y) <= 0.75 * u53)%R as E.
  { assert (t * (0.094 * u53) <= / 2 * (0.094 * u53))%R by (apply Rmult_le_compat_r; lra). apply Rabs_le. apply Rabs_le_inv in EA, AR, PP. rewrite EH in PP. unfold y. lra. }
  assert (/ 2 <= y)%R as Hy.
  { destruct (comp_ok o Ho z Z0 G ltac:(fold Z0; lra)) as (_ & Er & Br); [fold Z0; rewrite Rminus_eq_0, Rabs_R0; apply bpow_ge_0|]. apply Rabs_le_inv in Er, AR, PP. assert (t * Rr Z0 <= t * 0.056)%R by (apply Rmult_le_compat_l; lra). assert (t * (0.094 * u53) <= / 2 * (0.094 * u53))%R by (apply Rmult_le_compat_r; lra). unfold y. lra. }
  destruct (sub64 o Ho HH A good_HH GA) as [[G1 G2'] V]; [apply (small_ok _ 1); [lia|change (bpow radix2 1) with 2%R; apply Rabs_le; lra]|]. split; [exact G1|]. split; [exact G2'|]. rewrite V. replace (5 / 4)%R with (3 / 4 + / 2)%R by lra. apply final_round.
  - rewrite Rabs_pos_eq by lra. apply Rle_trans with (bpow radix2 (-1)); [apply bpow_le; lia|exact Hy].
  - pose proof (ulp64_ge 0 y) as U. change (0 - 53) with (-53) in U. fold u53 in U. rewrite Rabs_pos_eq in U by lra. specialize (U Hy). lra.
  - lra.
Qed.
End Cases.
