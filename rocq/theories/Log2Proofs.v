(** Accuracy of log2 and log10: the checked computations. *)
From Coq Require Import ZArith Reals Bool List Lia Lra Psatz.
From Flocq Require Import Core Sterbenz Plus_error.
From Verif Require Import Base BaseLemmas FloatModel FloatSpec FloatProofs FloatConvSpec LibmModel LibmSpec Elem FloatErr PolyBound ElemModel ElemSpec F64Lib
  ExpProofs3 ExpProofs4 ExpProofs5 ExpProofs6 ExpProofs7 ExpProofs8 LogProofs LogProofs2 LogProofs3 LogProofs4 HypotProofs3 TrigRed TanModel TanProofs2 TanProofs3 Log2Model.
Import ListNotations.
Open Scope Z_scope.

(** Vr 0 = f, Vr 1 = f / 2, Vr 2 = f - hi - hfsq, Vr 3 = hi, Vr 4 = k log10_2lo *)
Definition logb_prog (q : ex) : list ex := [
  Div (Vr 0) (Add (K two) (Vr 0)) (* 5: s *);
  Mul (Vr 1) (Vr 0) (* 6: hfsq *);
  Mul (Vr 5) (Vr 5) (* 7: z *);
  Mul (Vr 7) (Vr 7) (* 8: w *);
  Add (Mul (Vr 7) (Add (K LG1) (Mul (Vr 8) (Add (K LG3) (Mul (Vr 8) (Add (K LG5) (Mul (Vr 8) (K LG7))))))))
      (Mul (Vr 8) (Add (K LG2) (Mul (Vr 8) (Add (K LG4) (Mul (Vr 8) (K LG6)))))) (* 9: r *);
  Add (Vr 2) (Mul (Vr 5) (Add (Vr 6) (Vr 9))) (* 10: lo *);
  q (* 11 *)].
Definition q2 : ex := Add (Mul (Add (Vr 10) (Vr 3)) (K IVLN2LO)) (Mul (Vr 10) (K IVLN2HI)).
Definition q10 : ex := Add (Add (Vr 4) (Mul (Add (Vr 10) (Vr 3)) (K IVLN10LO))) (Mul (Vr 10) (K IVLN10HI)).
Definition bnd (a b : Z) : Z := Z.max (Z.abs a) (Z.abs b).
Definition env_logb (a b l e : Z) : list ab := let B := bnd a b in
  [Ab a b 0; Ab (a / 2) (b / 2 + 1) 0; Ab (- (B / 2 ^ 19 + 1)) (B / 2 ^ 19 + 1) (B * B / 2 ^ (LP + 54) + B / 2 ^ 71 + 2); Ab (- (2 * B)) (2 * B) 0; Ab (- l) l e].
Definition logb_er (q : ex) (env : list ab) : option ab :=
  match aprog LP env (logb_prog q) with
  | Some r => nth_error r 11
  | None => None
  end.
(** The largest error t, with a result of magnitude at most 1/20. *)
Definition chkb (q : ex) (l e : Z) (t : Z) (a b : Z) : bool :=
  match logb_er q (env_logb a b l e) with
  | Some v => (er v <=? t) && (- (2 ^ LP / 20) <=? lo v) && (hi v <=? 2 ^ LP / 20)
  | None => false
  end.
Definition groupb : list (Z * Z) := [(3, 3); (4, 4); (5, 6); (7, 10); (11, 18); (19, 28); (29, 38); (39, 48); (49, 53)].
Definition chk_group (q : ex) (t : Z) (g : Z * Z) : bool := chkb q 0 0 (t * 2 ^ (LP - 63 - snd g)) (- 2 ^ (LP + 1 - fst g)) (2 ^ (LP + 1 - fst g)).
Definition chk_boxes (q : ex) (l e t : Z) : Prop :=
  chkb q l e (t * 2 ^ (LP - 63)) ((-19) * 2 ^ (LP - 6)) (16 * 2 ^ (LP - 6)) = true /\ chkb q l e (t * 2 ^ (LP - 63)) (16 * 2 ^ (LP - 6)) (27 * 2 ^ (LP - 6)) = true.
Lemma box2 : chk_boxes q2 0 0 340. Proof. split; vm_compute; reflexivity. Qed.
Lemma group2 : forallb (chk_group q2 1010) groupb = true. Proof. vm_compute. reflexivity. Qed.
Lemma box10 : chk_boxes q10 (2 ^ (LP - 31)) (2 ^ (LP - 75)) 108. Proof. split; vm_compute; reflexivity. Qed.
Lemma group10 : forallb (chk_group q10 300) groupb = true. Proof. vm_compute. reflexivity. Qed.
Lemma groupb_ok j : 3 <= j <= 53 -> exists g, In g groupb /\ fst g <= j <= snd g.
Proof.
  intros H. destruct (Z_le_gt_dec j 3); [exists (3, 3)|destruct (Z_le_gt_dec j 4); [exists (4, 4)|destruct (Z_le_gt_dec j 6); [exists (5, 6)|destruct (Z_le_gt_dec j 10); [exists (7, 10)|
    destruct (Z_le_gt_dec j 18); [exists (11, 18)|destruct (Z_le_gt_dec j 28); [exists (19, 28)|destruct (Z_le_gt_dec j 38); [exists (29, 38)|destruct (Z_le_gt_dec j 48); [exists (39, 48)|exists (49, 53)]]]]]]]];
  (split; [cbn; tauto|cbn [fst snd]; lia]).
Qed.

(** * The constants *)
Definition l54n : Z := 326124665605549911722016163881172465381768817268.
Lemma ln54_bounds : (fx 160 (l54n - 2 ^ 32) <= ln (5 / 4) <= fx 160 (l54n + 2 ^ 32))%R.
Proof.
  assert (A : ln (5 / 4) = ln ((1 + / 9) / (1 - / 9))) by (f_equal; field).
  pose proof (atanh_taylor_ok 21 (/ 9) (/ 9) ltac:(rewrite Rabs_pos_eq; lra) ltac:(lra)) as T. rewrite <- A in T. rewrite (Rabs_pos_eq (/ 9)) in T by lra.
  assert (H1 : (fx 160 (l54n - 2 ^ 31) <= atanh_taylor 21 (/ 9) <= fx 160 (l54n + 2 ^ 31))%R).
  { replace (/ 9)%R with (pev F64 0 (PQ 1 9)) by (cbn; field). rewrite <- (pev_atanh F64 0 (PQ 1 9) 20). apply pconst; [lia|]. vm_compute. reflexivity. }
  assert (H2 : (2 * (/ 9) ^ (2 * 21 + 1) / INR (2 * 21 + 1) / (1 - / 9 * / 9) <= fx 160 (2 ^ 31))%R).
  { replace (2 * (/ 9) ^ (2 * 21 + 1) / INR (2 * 21 + 1) / (1 - / 9 * / 9))%R with (pev F64 0 (PMul (PQ 162 (80 * 43)) (ppow (PQ 1 9) 43))).
    - assert (C : (fx 160 0 <= pev F64 0 (PMul (PQ 162 (80 * 43)) (ppow (PQ 1 9) 43)) <= fx 160 (2 ^ 31))%R) by (apply pconst; [lia|]; vm_compute; reflexivity). apply C.
    - cbn [pev]. rewrite pev_pow. cbn [pev]. rewrite INR_IZR_INZ. change (2 * 21 + 1)%nat with 43%nat. change (Z.of_nat 43) with 43.
      replace (1 / 9)%R with (/ 9)%R by field. change (80 * 43) with 3440. field. }
  rewrite fx_add, fx_sub in *. replace (fx 160 (2 ^ 32)) with (fx 160 (2 ^ 31) + fx 160 (2 ^ 31))%R by (rewrite <- fx_add; reflexivity).
  apply Rabs_le_inv in T. lra.
Qed.
Definition ln10n : Z := 3 * ln2n + l54n.
Lemma ln10_bounds : (fx 160 (ln10n - 2 ^ 33) <= ln 10 <= fx 160 (ln10n + 2 ^ 33))%R.
Proof.
  assert (E : (ln 10 = 3 * ln 2 + ln (5 / 4))%R).
  { replace 10%R with (2 * (2 * (2 * (5 / 4))))%R by field. rewrite !ln_mult by lra. ring. }
  pose proof ln2_bounds as A. pose proof ln54_bounds as B. rewrite E.
  assert (P : forall z, (3 * fx 160 z)%R = fx 160 (3 * z)) by (intros; apply (fx_mulz 160 3)).
  assert (C1 : (fx 160 (ln10n - 2 ^ 33) <= 3 * fx 160 (ln2n - 2 ^ 20) + fx 160 (l54n - 2 ^ 32))%R) by (rewrite P, <- fx_add; apply fx_le; unfold ln10n; lia).
  assert (C2 : (3 * fx 160 (ln2n + 2 ^ 20) + fx 160 (l54n + 2 ^ 32) <= fx 160 (ln10n + 2 ^ 33))%R) by (rewrite P, <- fx_add; apply fx_le; unfold ln10n; lia).
  lra.
Qed.
(** A quotient of two such numbers by a scaled integer. *)
Lemma quot_bound n e u v zu du zv dv t : 0 <= n -> 0 <= e -> (fx 160 (zu - du) <= u <= fx 160 (zu + du))%R -> (fx 160 (zv - dv) <= v <= fx 160 (zv + dv))%R -> (/ 2 <= v)%R ->
  Z.abs (zu * 2 ^ e - n * zv) + du * 2 ^ e + n * dv <= 2 ^ (160 + e - t) -> 0 <= 160 + e - t -> (Rabs (u / v - IZR n * bpow radix2 (- e)) <= bpow radix2 (1 - t))%R.
Proof.
  intros Hn He U V V2 C Ht.
  assert (A : (Rabs (u * bpow radix2 e - IZR n * v) <= bpow radix2 (e - t))%R).
  { apply (fx_le 160) in C. rewrite !fx_add, fx_pow in C by lia. replace (160 + e - t - 160) with (e - t) in C by lia.
    assert (M : forall z k, fx 160 (k * z) = (IZR k * fx 160 z)%R) by (intros; unfold fx; rewrite mult_IZR; ring).
    assert (W : bpow radix2 e = IZR (2 ^ e)) by (rewrite <- (IZR_Zpower radix2) by exact He; reflexivity).
    assert (AB : (- fx 160 (Z.abs (zu * 2 ^ e - n * zv)) <= fx 160 (zu * 2 ^ e - n * zv) <= fx 160 (Z.abs (zu * 2 ^ e - n * zv)))%R) by (rewrite <- fx_opp; split; apply fx_le; lia).
    rewrite (fx_sub _ (zu * 2 ^ e)) in AB. rewrite (Z.mul_comm zu), (Z.mul_comm du) in *. rewrite !M in *. rewrite W in *.
    rewrite fx_sub, fx_add in U, V. assert (0 <= IZR n)%R by (apply IZR_le; exact Hn). assert (0 <= IZR (2 ^ e))%R by (rewrite <- W; apply bpow_ge_0).
    set (N := IZR n) in *. set (E := IZR (2 ^ e)) in *.
    assert (Rabs (u - fx 160 zu) <= fx 160 du)%R as Q1 by (apply Rabs_le; lra). assert (Rabs (v - fx 160 zv) <= fx 160 dv)%R as Q2 by (apply Rabs_le; lra).
    assert (Rabs (E * (u - fx 160 zu)) <= E * fx 160 du)%R as Q3 by (rewrite Rabs_mult, (Rabs_pos_eq E) by assumption; apply Rmult_le_compat_l; assumption).
    assert (Rabs (N * (v - fx 160 zv)) <= N * fx 160 dv)%R as Q4 by (rewrite Rabs_mult, (Rabs_pos_eq N) by assumption; apply Rmult_le_compat_l; assumption).
    apply Rabs_le_inv in Q3, Q4. apply Rabs_le. lra. }
  replace (u / v - IZR n * bpow radix2 (- e))%R with ((u * bpow radix2 e - IZR n * v) * (bpow radix2 (- e) * / v))%R.
  2:{ assert (X : (bpow radix2 e * bpow radix2 (- e) = 1)%R) by (rewrite <- bpow_plus; replace (e + - e) with 0 by lia; reflexivity).
      replace ((u * bpow radix2 e - IZR n * v) * (bpow radix2 (- e) * / v))%R with (u * / v * (bpow radix2 e * bpow radix2 (- e)) - IZR n * bpow radix2 (- e) * (v * / v))%R by ring.
      rewrite X, Rinv_r by lra. unfold Rdiv. ring. }
  rewrite Rabs_mult, (Rabs_pos_eq (bpow radix2 (- e) * / v)).
  2:{ apply Rmult_le_pos; [apply bpow_ge_0|left; apply Rinv_0_lt_compat; lra]. }
  apply Rle_trans with (bpow radix2 (e - t) * (bpow radix2 (- e) * 2))%R.
  - apply Rmult_le_compat; [apply Rabs_pos|apply Rmult_le_pos; [apply bpow_ge_0|left; apply Rinv_0_lt_compat; lra]|exact A|].
    apply Rmult_le_compat_l; [apply bpow_ge_0|]. replace 2%R with (/ / 2)%R by field. apply Rinv_le_contravar; lra.
  - right. change 2%R with (bpow radix2 1). rewrite <- !bpow_plus. f_equal. lia.
Qed.
Lemma one_bounds : (fx 160 (2 ^ 160 - 0) <= 1 <= fx 160 (2 ^ 160 + 0))%R.
Proof. rewrite Z.sub_0_r, Z.add_0_r, fx_pow by lia. change (bpow radix2 (160 - 160)) with 1%R. lra. Qed.
Lemma ln10_half : (/ 2 <= ln 10)%R.
Proof.
  pose proof ln2_num. assert (ln 2 <= ln 10)%R; [|lra]. apply ln_le'; lra.
Qed.
Lemma split_sum a na ea b nb eb : 0 <= ea <= eb -> value F64 a = fx ea na -> value F64 b = fx eb nb -> (value F64 a + value F64 b = IZR (na * 2 ^ (eb - ea) + nb) * bpow radix2 (- eb))%R.
Proof.
  intros H A B. rewrite A, B. unfold fx. rewrite plus_IZR, mult_IZR, (IZR_Zpower radix2) by lia. rewrite Rmult_plus_distr_r, Rmult_assoc, <- bpow_plus. do 3 f_equal. lia.
Qed.
Lemma ivln2 : (Rabs (/ ln 2 - (value F64 IVLN2HI + value F64 IVLN2LO)) <= bpow radix2 (-79))%R.
Proof.
  rewrite (split_sum IVLN2HI 3098164009 31 IVLN2LO 12657236604881 76); [|lia|apply kb_val; vm_compute; reflexivity..].
  replace (/ ln 2)%R with (1 / ln 2)%R by (unfold Rdiv; ring). apply (quot_bound _ 76 1 (ln 2) (2 ^ 160) 0 ln2n (2 ^ 20) 80); try lia; [exact one_bounds|exact ln2_bounds|pose proof ln2_num; lra|]. vm_compute. discriminate.
Qed.
Lemma ivln10 : (Rabs (/ ln 10 - (value F64 IVLN10HI + value F64 IVLN10LO)) <= bpow radix2 (-79))%R.
Proof.
  rewrite (split_sum IVLN10HI 3730561193 33 IVLN10LO 7762796009401813 88); [|lia|apply kb_val; vm_compute; reflexivity..].
  replace (/ ln 10)%R with (1 / ln 10)%R by (unfold Rdiv; ring). apply (quot_bound _ 88 1 (ln 10) (2 ^ 160) 0 ln10n (2 ^ 33) 80); try lia; [exact one_bounds|exact ln10_bounds|exact ln10_half|]. vm_compute. discriminate.
Qed.
Lemma log10_2 : (Rabs (ln 2 / ln 10 - (value F64 LOG10_2HI + value F64 LOG10_2LO)) <= bpow radix2 (-90))%R.
Proof.
  rewrite (split_sum LOG10_2HI 661971961083 41 LOG10_2LO 3658597174646171 93); [|lia|apply kb_val; vm_compute; reflexivity..].
  apply (quot_bound _ 93 (ln 2) (ln 10) ln2n (2 ^ 20) ln10n (2 ^ 33) 91); try lia; [exact ln2_bounds|exact ln10_bounds|exact ln10_half|]. vm_compute. discriminate.
Qed.
