(** hypot: the two-double approximation. *)
From Coq Require Import ZArith Reals Bool Lia Lra Psatz.
From Flocq Require Import Core.
From Verif Require Import Base BaseLemmas FloatModel FloatSpec FloatProofs FloatLib LibmModel LibmSpec LibmProofs RemModel FmaModel FmaSpec FmaProofs6 FmaProps SqrtModel SqrtSpec SqrtProps F64Lib FloatErr ExpProofs3 ExpProofs4 TrigRed HypotModel HypotProofs.
Open Scope Z_scope.

(** * The error of the approximation, over the reals *)
Section Error.
Local Open Scope R_scope.
Notation p := (bpow radix2 (-52)).
Notation fl := (rne F64).
Lemma p_small : 0 < p <= / 4000000000000000.
Proof. split; [apply bpow_gt_0|]. cbn. lra. Qed.
Lemma pw (k : Z) (c : R) : bpow radix2 (k + 52) = c -> bpow radix2 k = c * p.
Proof. intros <-. rewrite <- bpow_plus. f_equal. lia. Qed.
Lemma pw2 (k : Z) (c : R) : bpow radix2 (k + 104) = c -> bpow radix2 k = c * (p * p).
Proof. intros <-. rewrite <- !bpow_plus. f_equal. lia. Qed.

(** Rounding errors in units of p and of p^2. *)
Lemma er1 (E : Z) (c b : R) v : bpow radix2 E = b -> bpow radix2 (E - 2) = c -> Rabs v < b -> (-1021 <= E)%Z -> Rabs (fl v - v) <= c * p.
Proof. intros <- <- H HE. replace (bpow radix2 (E - 2) * p) with (bpow radix2 (E - 54)) by (rewrite <- bpow_plus; f_equal; lia). apply rne_error64; assumption. Qed.
Lemma er2 (E : Z) (c b : R) v : bpow radix2 (E + 52) = b -> bpow radix2 (E + 50) = c -> Rabs v < b * p -> (-1021 <= E)%Z -> Rabs (fl v - v) <= c * (p * p).
Proof.
  intros <- <- H HE. replace (bpow radix2 (E + 50) * (p * p)) with (bpow radix2 (E - 54)) by (rewrite <- !bpow_plus; f_equal; lia). apply rne_error64; [|assumption].
  replace (bpow radix2 E) with (bpow radix2 (E + 52) * p) by (rewrite <- bpow_plus; f_equal; lia). exact H.
Qed.
Lemma fl_bp k : (-1074 <= k)%Z -> fl (bpow radix2 k) = bpow radix2 k.
Proof. intros H. replace (bpow radix2 k) with (IZR 1 * bpow radix2 k) by ring. apply rne_exact64; [reflexivity || lia|exact H]. Qed.
Lemma fl_ge k v : (-1074 <= k)%Z -> bpow radix2 k <= v -> bpow radix2 k <= fl v.
Proof. intros H L. rewrite <- (fl_bp k H). apply (rne_mono F64 W64), L. Qed.
Lemma fl_le k v : (-1074 <= k)%Z -> v <= bpow radix2 k -> fl v <= bpow radix2 k.
Proof. intros H L. rewrite <- (fl_bp k H). apply (rne_mono F64 W64), L. Qed.
Lemma fl_fl v : fl (fl v) = fl v. Proof. apply (FmaProofs.rne_idem F64 W64). Qed.
Lemma mulb a b m n : - m <= a <= m -> - n <= b <= n -> - (m * n) <= a * b <= m * n.
Proof. intros H1 H2. apply Rabs_le_inv. rewrite Rabs_mult. apply Rmult_le_compat; try apply Rabs_pos; apply Rabs_le; assumption. Qed.
Lemma mulp a b m n : 0 < a <= m -> 0 < b <= n -> 0 < a * b <= m * n.
Proof. intros H1 H2. split; [apply Rmult_lt_0_compat; lra|apply Rmult_le_compat; lra]. Qed.
Lemma b1 : bpow radix2 1 = 2. Proof. reflexivity. Qed.
Lemma b0 : bpow radix2 0 = 1. Proof. reflexivity. Qed.
Lemma b2 : bpow radix2 2 = 4. Proof. reflexivity. Qed.
Lemma b3 : bpow radix2 3 = 8. Proof. reflexivity. Qed.
Lemma b4 : bpow radix2 4 = 16. Proof. reflexivity. Qed.
Lemma bm1 : bpow radix2 (-1) = / 2. Proof. reflexivity. Qed.
Lemma bm2 : bpow radix2 (-2) = / 4. Proof. reflexivity. Qed.

Context (X Y : R) (HX : 1 <= X < 2) (HY : bpow radix2 (-28) <= Y <= X).
Let A := fl (X * X).
Let B := fl (Y * Y).
Let r := fl (A + B).
Let T := fl (sqrt r).
Let S := X * X + Y * Y.
Let h := sqrt S.

Lemma Y_pos : 0 < Y. Proof. pose proof (bpow_gt_0 radix2 (-28)). lra. Qed.
Lemma S_rng : 1 < S < 8. Proof. pose proof Y_pos. unfold S. nra. Qed.
Lemma A_rng : 1 <= A <= 4 /\ - p <= A - X * X <= p.
Proof.
  split.
  - unfold A. rewrite <- b0 at 1. rewrite <- b2. split; [apply fl_ge; [lia|]; rewrite b0; nra|apply fl_le; [lia|]; rewrite b2; nra].
  - assert (X * X < 4) by nra. assert (0 <= X * X) by nra. apply Rabs_le_inv. unfold A. replace p with (1 * p) by ring. apply (er1 2 1 4); try reflexivity || lia. rewrite Rabs_pos_eq; lra.
Qed.
Lemma B_rng : 0 < B <= A /\ - p <= B - Y * Y <= p /\ B <= 2 * (Y * Y).
Proof.
  pose proof Y_pos. assert (Y * Y <= X * X) by nra. assert (X * X < 4) by nra. assert (0 < Y * Y) by nra.
  assert (bpow radix2 (-56) <= Y * Y) as L. { replace (-56)%Z with (-28 + -28)%Z by lia. rewrite bpow_plus. pose proof (bpow_gt_0 radix2 (-28)). apply Rmult_le_compat; lra. }
  repeat split.
  - apply Rlt_le_trans with (bpow radix2 (-56)); [apply bpow_gt_0|]. unfold B. apply fl_ge; [lia|exact L].
  - unfold A, B. apply (rne_mono F64 W64). lra.
  - assert (Rabs (B - Y * Y) <= 1 * p) as E; [|apply Rabs_le_inv in E; lra]. unfold B. apply (er1 2 1 4); try reflexivity || lia. rewrite Rabs_pos_eq; lra.
  - assert (Rabs (B - Y * Y) <= 1 * p) as E; [|apply Rabs_le_inv in E; lra]. unfold B. apply (er1 2 1 4); try reflexivity || lia. rewrite Rabs_pos_eq; lra.
  - pose proof (rne_rel (Y * Y)) as E. assert (Rabs (Y * Y) = Y * Y) as Ea by (apply Rabs_pos_eq; lra). rewrite Ea in E. assert (bpow radix2 (-1022) <= bpow radix2 (-56)) by (apply bpow_le; lia). specialize (E ltac:(lra)). fold B in E. apply Rabs_le_inv in E.
    assert (bpow radix2 (-53) <= 1) by (rewrite <- b0; apply bpow_le; lia). nra.
Qed.
Lemma r_rng : 1 <= r <= 8 /\ - (4 * p) <= r - S <= 4 * p /\ (r < 4 -> - (3 * p) <= r - S <= 3 * p).
Proof.
  pose proof A_rng as ((A1 & A2) & (A3 & A4)). pose proof B_rng as ((B1 & B2) & (B3 & B4) & _).
  repeat split.
  - unfold r. rewrite <- b0 at 1. apply fl_ge; [lia|]. rewrite b0. lra.
  - unfold r. rewrite <- b3. apply fl_le; [lia|]. rewrite b3. lra.
  - assert (Rabs (r - (A + B)) <= 2 * p) as E; [|apply Rabs_le_inv in E; unfold S; lra].
    destruct (Rle_lt_or_eq_dec (A + B) 8 ltac:(lra)) as [L|L]. + unfold r. apply (er1 3 2 8); try reflexivity || lia. rewrite Rabs_pos_eq; lra.
    + unfold r. rewrite L, <- b3, fl_bp by lia. rewrite Rminus_eq_0, Rabs_R0. pose proof p_small. lra.
  - assert (Rabs (r - (A + B)) <= 2 * p) as E; [|apply Rabs_le_inv in E; unfold S; lra].
    destruct (Rle_lt_or_eq_dec (A + B) 8 ltac:(lra)) as [L|L]. + unfold r. apply (er1 3 2 8); try reflexivity || lia. rewrite Rabs_pos_eq; lra.
    + unfold r. rewrite L, <- b3, fl_bp by lia. rewrite Rminus_eq_0, Rabs_R0. pose proof p_small. lra.
  - assert (A + B < 4) as L. { destruct (Rlt_le_dec (A + B) 4) as [L|L]; [exact L|]. exfalso. rewrite <- b2 in L. apply (fl_ge 2) in L; [|lia]. fold r in L. rewrite b2 in L. lra. }
    assert (Rabs (r - (A + B)) <= 1 * p) as E; [|apply Rabs_le_inv in E; unfold S; lra]. unfold r. apply (er1 2 1 4); try reflexivity || lia. rewrite Rabs_pos_eq; lra.
  - assert (A + B < 4) as L. { destruct (Rlt_le_dec (A + B) 4) as [L|L]; [exact L|]. exfalso. rewrite <- b2 in L. apply (fl_ge 2) in L; [|lia]. fold r in L. rewrite b2 in L. lra. }
    assert (Rabs (r - (A + B)) <= 1 * p) as E; [|apply Rabs_le_inv in E; unfold S; lra]. unfold r. apply (er1 2 1 4); try reflexivity || lia. rewrite Rabs_pos_eq; lra.
Qed.
Lemma h_rng : 1 < h < 3 /\ h * h = S.
Proof.
  pose proof S_rng. assert (h * h = S) as E by (apply sqrt_sqrt; lra). assert (0 <= h) by apply sqrt_pos. split; [|exact E]. split; nra.
Qed.
(** The square root of the rounded sum. *)
Lemma T_rng : 1 <= T < 3 /\ - (6 * p) <= T * T - r <= 6 * p /\ - (5 * p / 2) <= T - h <= 5 * p / 2.
Proof.
  pose proof r_rng as ((r1 & r2) & (r3 & r4) & r5). pose proof h_rng as ((h1 & h2) & h3). set (q := sqrt r) in *.
  assert (q * q = r) as q3 by (apply sqrt_sqrt; lra). assert (0 <= q) by apply sqrt_pos. assert (1 <= q) as q1 by nra. assert (q < 2.83) as q2 by nra. pose proof p_small as [P1 P2].
  assert (Rabs (T - q) <= 1 * p) as E by (unfold T; fold q; apply (er1 2 1 4); try reflexivity || lia; rewrite Rabs_pos_eq; lra). apply Rabs_le_inv in E.
  assert (1 <= T) by (unfold T; fold q; rewrite <- b0; apply fl_ge; [lia|]; rewrite b0; lra).
  assert ((q - h) * (q + h) = r - S) as D by (rewrite <- h3, <- q3; ring).
  split; [lra|]. split.
  - replace (T * T - r) with ((T - q) * (T + q)) by (rewrite <- q3; ring). nra.
  - destruct (Rlt_le_dec r 4) as [L|L].
    + specialize (r5 L). assert (q < 2) by nra. assert (Rabs (T - q) <= / 2 * p) as E2 by (unfold T; fold q; apply (er1 1 (/2) 2); try reflexivity || lia; rewrite Rabs_pos_eq; lra). apply Rabs_le_inv in E2.
      assert (- (3 * p / 2) <= q - h <= 3 * p / 2) by nra. lra.
    + assert (2 <= q) by nra. assert (1.9 < h) by nra. assert (- (1.1 * p) <= q - h <= 1.1 * p) by nra. lra.
Qed.

(** The correction. *)
Lemma fast_error : let dx := fl (X * X - A) in let dy := fl (Y * Y - B) in let d := fl (fl (fl (A - r) + B) + fl (dx + dy)) in
  let t := fl (T * T - r) in let dz := fl (d - t) in let i := fl (/ 2 / r) in let rs := fl (T * i) in let tl := fl (rs * dz) in
  Rabs dx <= 1 /\ Rabs dy <= 1 /\ Rabs (fl (A - r)) <= 10 /\ Rabs (fl (fl (A - r) + B)) <= 1 /\ Rabs (fl (dx + dy)) <= 1 /\ Rabs d <= 1 /\ Rabs t <= 1 /\ Rabs dz <= 1 /\
  0 < i <= 1 /\ 0 < rs <= 1 /\ Rabs tl <= 32 * p /\ Rabs (T + tl - h) <= 128 * (p * p).
Proof.
  intros dx dy d t dz i rs tl. pose proof p_small as [P1 P2].
  pose proof A_rng as ((A1 & A2) & (A3 & A4)). pose proof B_rng as ((B1 & B2) & (B3 & B4) & _). pose proof r_rng as ((r1 & r2) & (r3 & r4) & _).
  pose proof T_rng as ((T1 & T2) & (T3 & T4) & (T5 & T6)). pose proof h_rng as ((h1 & h2) & h3).
  assert (pp : 0 < p * p) by (apply Rmult_lt_0_compat; lra). assert (pp2 : p * p <= / 1000000000000 * p) by (apply Rmult_le_compat_r; lra).
  assert (Rabs (dx - (X * X - A)) <= / 2 * (p * p)) as E1 by (apply (er2 (-51) (/ 2) 2); try reflexivity || lia; apply Rabs_def1; lra). apply Rabs_le_inv in E1.
  assert (Rabs (dy - (Y * Y - B)) <= / 2 * (p * p)) as E2 by (apply (er2 (-51) (/ 2) 2); try reflexivity || lia; apply Rabs_def1; lra). apply Rabs_le_inv in E2.
  assert (Rabs (fl (dx + dy) - (dx + dy)) <= 1 * (p * p)) as E3 by (apply (er2 (-50) 1 4); try reflexivity || lia; apply Rabs_def1; lra). apply Rabs_le_inv in E3.
  assert (fl (fl (A - r) + B) = A + B - r) as E4.
  { pose proof (fts A B (fl_fl _) (fl_fl _)) as Q. fold r in Q. rewrite (Rplus_comm (fl (A - r))). assert (r + fl (B + fl (A - r)) = A + B); [|lra]. apply Q. rewrite !Rabs_pos_eq; lra. }
  assert (- (2 * p) <= A + B - r <= 2 * p) as E5.
  { assert (Rabs (r - (A + B)) <= 2 * p) as E; [|apply Rabs_le_inv in E; lra]. destruct (Rle_lt_or_eq_dec (A + B) 8 ltac:(lra)) as [L|L].
    - unfold r. apply (er1 3 2 8); try reflexivity || lia. rewrite Rabs_pos_eq; lra.
    - unfold r. rewrite L, <- b3, fl_bp by lia. rewrite Rminus_eq_0, Rabs_R0. lra. }
  assert (Rabs (d - (A + B - r + fl (dx + dy))) <= 2 * (p * p)) as E6 by (unfold d; rewrite E4; apply (er2 (-49) 2 8); try reflexivity || lia; apply Rabs_def1; lra). apply Rabs_le_inv in E6.
  assert (Rabs (t - (T * T - r)) <= 2 * (p * p)) as E7 by (apply (er2 (-49) 2 8); try reflexivity || lia; apply Rabs_def1; lra). apply Rabs_le_inv in E7.
  assert (Rabs (dz - (d - t)) <= 4 * (p * p)) as E8 by (apply (er2 (-48) 4 16); try reflexivity || lia; apply Rabs_def1; lra). apply Rabs_le_inv in E8.
  set (dl := S - T * T). assert (- (11 * (p * p)) <= dz - dl <= 11 * (p * p)) as E9 by (unfold dl, S; lra).
  assert (- (11 * p) <= dl <= 11 * p) as E10 by (unfold dl; lra).
  assert (- (12 * p) <= dz <= 12 * p) as E11 by lra.
  assert (/ 8 <= / r <= 1) as ir. { split; [apply Rinv_le; lra|]. rewrite <- Rinv_1. apply Rinv_le; lra. }
  assert (Rabs (i - / 2 / r) <= / 4 * p) as E12 by (apply (er1 0 (/ 4) 1); try reflexivity || lia; apply Rabs_def1; lra). apply Rabs_le_inv in E12.
  assert (/ 20 <= i <= 0.51) as i1 by lra.
  assert (0 < T * i < 2) as Ti by (pose proof (mulp T i 3 0.51 ltac:(lra) ltac:(lra)); lra).
  assert (Rabs (rs - T * i) <= / 2 * p) as E13 by (apply (er1 1 (/ 2) 2); try reflexivity || lia; apply Rabs_def1; lra). apply Rabs_le_inv in E13.
  assert (/ 3 < / T <= 1) as iT. { split; [apply Rinv_lt_contravar; [apply Rmult_lt_0_compat; lra|lra]|]. rewrite <- Rinv_1. apply Rinv_le; lra. }
  assert (Rabs (T * (/ 2 / r) - / 2 * / T) <= 3 * p) as E14.
  { replace (T * (/ 2 / r) - / 2 * / T) with ((T * T - r) * (/ r * / T) * / 2) by (field; lra). pose proof (mulp (/ r) (/ T) 1 1 ltac:(lra) ltac:(lra)) as M1. pose proof (mulb (T * T - r) (/ r * / T) (6 * p) 1 ltac:(lra) ltac:(lra)) as M2. apply Rabs_le. lra. } apply Rabs_le_inv in E14.
  assert (- (3 / 4 * p) <= T * i - T * (/ 2 / r) <= 3 / 4 * p) as E15. { rewrite <- Rmult_minus_distr_l. pose proof (mulb T (i - / 2 / r) 3 (/ 4 * p) ltac:(lra) ltac:(lra)). lra. }
  assert (- (5 * p) <= rs - / 2 * / T <= 5 * p) as E16 by lra.
  assert (Rabs (rs * dz) < 16 * p) as E17.
  { assert (0 < rs < 0.6) by lra. pose proof (mulb rs dz 0.6 (12 * p) ltac:(lra) ltac:(lra)). apply Rabs_def1; lra. }
  assert (Rabs (tl - rs * dz) <= 4 * (p * p)) as E18 by (apply (er2 (-48) 4 16); try reflexivity || lia; exact E17). apply Rabs_le_inv in E18.
  assert (- (60 * (p * p)) <= rs * dz - / 2 * / T * dz <= 60 * (p * p)) as E19.
  { rewrite <- Rmult_minus_distr_r. pose proof (mulb (rs - / 2 * / T) dz (5 * p) (12 * p) ltac:(lra) ltac:(lra)). lra. }
  assert (- (6 * (p * p)) <= / 2 * / T * dz - / 2 * / T * dl <= 6 * (p * p)) as E20. { rewrite <- Rmult_minus_distr_l. pose proof (mulb (/ 2 * / T) (dz - dl) (/ 2) (11 * (p * p)) ltac:(lra) ltac:(lra)). lra. }
  assert (- (30 * (p * p)) <= h - T - / 2 * / T * dl <= 30 * (p * p)) as E21.
  { assert (dl = (h - T) * (h + T)) as Ed by (unfold dl; rewrite <- h3; ring). assert (h - T - / 2 * / T * dl = - ((h - T) * (h - T)) * (/ 2 * / T)) as -> by (rewrite Ed; field; lra).
    pose proof (mulb (h - T) (h - T) (5 * p / 2) (5 * p / 2) ltac:(lra) ltac:(lra)). pose proof (mulb (- ((h - T) * (h - T))) (/ 2 * / T) (25 / 4 * (p * p)) 1 ltac:(lra) ltac:(lra)). lra. }
  assert (Rabs tl <= 32 * p) as Btl. { apply Rabs_le. apply Rabs_lt_inv in E17. lra. }
  assert (Rabs (fl (A - r)) <= 10) as BA. { apply Rle_trans with (bpow radix2 3); [apply rne_le; [lia|]; apply Rabs_le; rewrite b3; lra|rewrite b3; lra]. }
  rewrite E4. repeat split; try (apply Rabs_le; lra); try lra; assumption.
Qed.
End Error.
