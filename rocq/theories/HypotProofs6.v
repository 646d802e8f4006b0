(** hypot: the exact path as a whole, and the scaling around both paths. *)
From Coq Require Import ZArith Reals Bool Lia Lra Psatz.
From Flocq Require Import Core.
From Verif Require Import Base BaseLemmas FloatModel FloatSpec FloatConvSpec FloatProofs FloatProofs2 FloatLib LibmModel LibmSpec LibmProofs RemModel FmaModel FmaSpec FmaProofs FmaProofs2 FmaProofs6 FmaProps SqrtModel SqrtSpec SqrtProps F64Lib FloatErr ExpProofs3 ExpProofs4 ExpProofs8 TrigRed HypotModel HypotProofs HypotProofs2 HypotProofs3 HypotProofs4 HypotProofs5.
Open Scope Z_scope.
Notation p := (bpow radix2 (-52)).

Lemma climb_mono c m2 k r : forall fuel fuel' rm, (fuel <= fuel')%nat -> climb c fuel m2 k rm = Ok r -> climb c fuel' m2 k rm = Ok r.
Proof.
  induction fuel as [|fuel IH]; intros fuel' rm L H; [discriminate|]. destruct fuel' as [|fuel']; [lia|]. cbn [climb] in *.
  destruct (cadd _ _ _) as [rm'|]; [cbn [bind] in *|discriminate]. destruct (cshl _ _ _) as [tm|]; [cbn [bind] in *|discriminate]. destruct (sub_i64 _ _ _) as [d|]; [cbn [bind] in *|discriminate].
  destruct (d <=? 0); [exact H|]. apply IH; [lia|exact H].
Qed.
Lemma mant_bits n : Z.lor (Z.land n (2 ^ 52 - 1)) (2 ^ 52) = 2 ^ 52 + n mod 2 ^ 52.
Proof. rewrite land_ones_mod by lia. replace (2 ^ 52) with (1 * 2 ^ 52) at 2 by lia. rewrite lor_add_low by (try apply Z.mod_pos_bound; lia). lia. Qed.
Lemma step_down_ok rm re : 2 ^ 52 <= rm < 2 ^ 53 -> -100 <= re <= 100 ->
  exists rm' re', step_down (rm, re) = Ok (rm', re') /\ 2 ^ 52 <= rm' < 2 ^ 53 /\ idx re' rm' = idx re rm - 1 /\ re - 1 <= re' <= re.
Proof.
  intros H1 H2. unfold step_down. destruct (Z.eqb_spec rm (2 ^ 52)) as [E|E].
  - replace (csub (SI 32) re 1) with (Ok (re - 1)) by (symmetry; apply chk_ok, fits_s; lia). cbn [bind]. exists (2 ^ 53 - 1), (re - 1). split; [reflexivity|]. split; [lia|]. split; [|lia].
    unfold idx. destruct (Z.ltb_spec (2 ^ 53 - 1) (2 ^ 53)); [|lia]. destruct (Z.ltb_spec rm (2 ^ 53)); lia.
  - rewrite csub_u by lia. cbn [bind]. exists (rm - 1), re. split; [reflexivity|]. split; [lia|]. split; [|lia]. unfold idx. destruct (Z.ltb_spec (rm - 1) (2 ^ 53)); [|lia]. destruct (Z.ltb_spec rm (2 ^ 53)); lia.
Qed.

Lemma xval_one : xval (1023 * 2 ^ 52) = 1%R.
Proof. rewrite <- (Z.add_0_l (1023 * 2 ^ 52)), xval_shift. unfold xval. rewrite Z.mod_0_l, Z.div_0_l by lia. change (2 ^ 52 + 0) with (2 ^ 52). change (IZR (2 ^ 52)) with (bpow radix2 52). rewrite <- !bpow_plus. reflexivity. Qed.
Lemma xval_four : xval (1025 * 2 ^ 52) = 4%R.
Proof. replace (1025 * 2 ^ 52) with (1023 * 2 ^ 52 + 2 * 2 ^ 52) by lia. rewrite xval_shift, xval_one. cbn. lra. Qed.
(** The distance to the third neighbour. *)
Lemma three n : 1023 * 2 ^ 52 <= n <= 1025 * 2 ^ 52 - 4 ->
  (xval n + 3 * p <= xval (n + 3) <= xval n + 6 * p)%R /\ (xval n - 6 * p <= xval (n - 3))%R /\ (1023 * 2 ^ 52 <= n - 3 -> (xval (n - 3) <= xval n - 3 * p)%R).
Proof.
  intros H. assert (forall m, 1022 * 2 ^ 52 <= m < 1025 * 2 ^ 52 -> (bpow radix2 (m / 2 ^ 52 - 1075) <= 2 * p)%R) as U.
  { intros m Hm. change 2%R with (bpow radix2 1). rewrite <- bpow_plus. apply bpow_le. assert (m / 2 ^ 52 < 1025) by (apply Z.div_lt_upper_bound; lia). lia. }
  assert (forall m, 1023 * 2 ^ 52 <= m -> (p <= bpow radix2 (m / 2 ^ 52 - 1075))%R) as L.
  { intros m Hm. apply bpow_le. assert (1023 <= m / 2 ^ 52) by (apply Z.div_le_lower_bound; lia). lia. }
  pose proof (xval_succ n) as S1. pose proof (xval_succ (n + 1)) as S2. pose proof (xval_succ (n + 2)) as S3. replace (n + 1 + 1) with (n + 2) in S2 by lia. replace (n + 2 + 1) with (n + 3) in S3 by lia.
  pose proof (xval_succ (n - 1)) as S4. pose proof (xval_succ (n - 2)) as S5. pose proof (xval_succ (n - 3)) as S6. replace (n - 1 + 1) with n in S4 by lia. replace (n - 2 + 1) with (n - 1) in S5 by lia. replace (n - 3 + 1) with (n - 2) in S6 by lia.
  pose proof (U n ltac:(lia)). pose proof (U (n + 1) ltac:(lia)). pose proof (U (n + 2) ltac:(lia)). pose proof (L n ltac:(lia)). pose proof (L (n + 1) ltac:(lia)). pose proof (L (n + 2) ltac:(lia)).
  pose proof (U (n - 1) ltac:(lia)). pose proof (U (n - 2) ltac:(lia)). pose proof (U (n - 3) ltac:(lia)). repeat split; try lra.
  intros Hn. pose proof (L (n - 1) ltac:(lia)). pose proof (L (n - 2) ltac:(lia)). pose proof (L (n - 3) ltac:(lia)). lra.
Qed.

Section Hard.
Context (o : fops) (Ho : ieee_ops F64 o).

Lemma hard_ok fuel fx fy de T : (6 <= fuel)%nat -> 0 <= fx < 2 ^ 52 -> 0 <= fy < 2 ^ 52 -> 0 <= de <= 27 ->
  let x := 1023 * 2 ^ 52 + fx in let y := (1023 - de) * 2 ^ 52 + fy in let h := sqrt (xval x * xval x + xval y * xval y) in
  (1 < h < 3)%R -> hsqrt o (o_add o (o_mul o x x) (o_mul o y y)) = Ok T -> good T -> (1 <= value F64 T < 3)%R -> (Rabs (value F64 T - h) <= 5 / 2 * p)%R ->
  exists n v, hypot_hard o false fuel x y = Ok n /\ rne F64 v = xval n /\ (Rabs (v - h) <= 128 * (p * p))%R /\ 1023 * 2 ^ 52 <= n < 1025 * 2 ^ 52.
Proof using Ho.
  intros Hfuel Hfx Hfy Hde x y h Hh ET GT HT HTh. pose proof p_small as [P1 P2].
  destruct (good_pos T GT ltac:(lra)) as (_ & _ & RT & VT).
  assert (1023 * 2 ^ 52 <= T) as T1. { destruct (Z_lt_le_dec T (1023 * 2 ^ 52)) as [L|L]; [|exact L]. pose proof (mag_lt64 T (1023 * 2 ^ 52) ltac:(lia)) as M. rewrite (xval_mag (1023 * 2 ^ 52)), xval_one in M by lia. lra. }
  rewrite xval_mag in VT by lia. assert (T <= 1025 * 2 ^ 52 - 4) as T2.
  { destruct (Z_lt_le_dec (1025 * 2 ^ 52 - 4) T) as [L|L]; [|exact L]. pose proof (xval_le (1024 * 2 ^ 52 + 2 ^ 51) T ltac:(lia)) as M. assert (xval (1024 * 2 ^ 52 + 2 ^ 51) = 3)%R as E; [|lra].
    rewrite Z.add_comm, xval_shift. unfold xval. change (2 ^ 51 mod 2 ^ 52) with (2 ^ 51). change (2 ^ 51 / 2 ^ 52) with 0. rewrite Rmult_assoc, <- bpow_plus. change (2 ^ 52 + 2 ^ 51) with (3 * 2 ^ 51). rewrite mult_IZR. change (IZR (2 ^ 51)) with (bpow radix2 51). rewrite Rmult_assoc, <- bpow_plus. cbn. lra. }
  destruct (three T ltac:(lia)) as ((N1 & N2) & N3 & N4). apply Rabs_le_inv in HTh.
  unfold hypot_hard. rewrite !mant_bits.
  assert (x / 2 ^ 52 = 1023 /\ x mod 2 ^ 52 = fx) as [Ex Mx] by (apply div_mod_unique; unfold x; lia). assert (y / 2 ^ 52 = 1023 - de /\ y mod 2 ^ 52 = fy) as [Ey My] by (apply div_mod_unique; unfold y; lia).
  rewrite !cshr_ok by (change (bits (UI 64)) with 64; lia). cbn [bind]. rewrite Ex, Mx, Ey, My. rewrite (norm_id (SI 32) eq_refl 1023) by (apply fits_s; lia). rewrite (norm_id (SI 32) eq_refl (1023 - de)) by (apply fits_s; lia). rewrite ET. cbn [bind].
  pose proof (Z.div_mod T (2 ^ 52) ltac:(lia)) as DT. pose proof (Z.mod_pos_bound T (2 ^ 52) ltac:(lia)) as MT. assert (1023 <= T / 2 ^ 52 <= 1024) as QT by (split; [apply Z.div_le_lower_bound; lia|]; assert (T / 2 ^ 52 < 1025) by (apply Z.div_lt_upper_bound; lia); lia).
  rewrite cshr_ok by (change (bits (UI 64)) with 64; lia). cbn [bind]. rewrite (norm_id (SI 32) eq_refl (T / 2 ^ 52)) by (apply fits_s; lia). replace (csub (SI 32) (T / 2 ^ 52) 0x3ff) with (Ok (T / 2 ^ 52 - 1023)) by (symmetry; apply chk_ok, fits_s; lia). cbn [bind]. rewrite mant_bits.
  set (rm0 := 2 ^ 52 + T mod 2 ^ 52). set (re0 := T / 2 ^ 52 - 1023). assert (idx re0 rm0 = T) as I0 by (unfold idx, rm0, re0; destruct (Z.ltb_spec (2 ^ 52 + T mod 2 ^ 52) (2 ^ 53)); lia).
  destruct (step_down_ok rm0 re0) as (rm1 & re1 & -> & R1 & I1 & E1); [unfold rm0; lia|unfold re0; lia|]. cbn [bind].
  destruct (step_down_ok rm1 re1) as (rm2 & re2 & -> & R2 & I2 & E2); [lia|unfold re0 in *; lia|]. cbn [bind].
  destruct (step_down_ok rm2 re2) as (rm3 & re3 & -> & R3 & I3 & E3); [lia|unfold re0 in *; lia|]. cbn [bind].
  assert (idx re3 rm3 = T - 3) as Ix by lia. assert (-1 <= re3 <= 1) as Hre. { unfold idx in Ix. destruct (Z.ltb_spec rm3 (2 ^ 53)); lia. }
  destruct (square_sum_ok (2 ^ 52 + fx) (2 ^ 52 + fy) de) as (Q & EQ & HQ); [lia|lia|lia|]. rewrite EQ. cbn [bind].
  replace (cadd (SI 32) 2 re3) with (Ok (re3 + 2)) by (symmetry; rewrite (Z.add_comm re3); apply chk_ok, fits_s; lia). cbn [bind].
  assert (h * h = xval x * xval x + xval y * xval y)%R as HH by (apply sqrt_sqrt; pose proof (xval_pos x); pose proof (xval_pos y); apply Rplus_le_le_0_compat; apply Rmult_le_pos; lra).
  assert (stands_for Q (h * h * bpow radix2 108)) as HQ'.
  { rewrite HH. replace ((xval x * xval x + xval y * xval y) * bpow radix2 108)%R with (IZR (4 * (2 ^ 52 + fx) * (4 * (2 ^ 52 + fx))) + IZR ((2 ^ 52 + fy) * (2 ^ 52 + fy)) * bpow radix2 (4 - 2 * de))%R; [exact HQ|].
    unfold xval. rewrite Ex, Mx, Ey, My, !mult_IZR. set (a := IZR (2 ^ 52 + fx)). set (b := IZR (2 ^ 52 + fy)). change (1023 - 1075) with (-52).
    replace (4 - 2 * de) with (1023 - de - 1075 + (1023 - de - 1075) + 108) by lia. rewrite !bpow_plus. replace (bpow radix2 108)%R with (4 * bpow radix2 52 * (4 * bpow radix2 52))%R by (change 4%R with (bpow radix2 2); rewrite <- !bpow_plus; reflexivity).
    assert (p * bpow radix2 52 = 1)%R as B by (rewrite <- bpow_plus; reflexivity). set (b52 := bpow radix2 52) in *. set (q := bpow radix2 (1023 - de - 1075)).
    transitivity (4 * a * (4 * a) * ((p * b52) * (p * b52)) + b * b * (q * q * (4 * b52 * (4 * b52))))%R; [rewrite B|]; ring. }
  assert (xval (T - 3) < h)%R as Hlow. { destruct (Z_lt_le_dec (T - 3) (1023 * 2 ^ 52)) as [L|L]; [pose proof (xval_lt _ _ L) as M; rewrite xval_one in M; lra|specialize (N4 L); lra]. }
  destruct (climb_ok h Q Hh HQ' re3 Hre 6 rm3) as (rm & EC & Iv & C1 & C2 & C3 & C4 & C5); [split; lia|lia|rewrite Ix; exact Hlow| | | |].
  { rewrite Ix. replace (T - 3 + Z.of_nat 6) with (T + 3) by lia.
    lra. }
  { rewrite Ix. lra. } { rewrite Ix. replace (T - 3 + Z.of_nat 6) with (T + 3) by lia. lra. }
  rewrite (climb_mono _ _ _ _ 6 fuel rm3 Hfuel EC). cbn [bind].
  destruct (choose_ok o Ho h Q Hh HQ' re3 rm Hre Iv C1 C2 C3 C4 C5) as (rf & EF & RF & CF). rewrite EF. cbn [bind].
  assert (forall n, n = idx re3 rf -> (if 2 ^ 53 <=? rf then let* rm := cshr (UI 64) rf 1 in let* re := cadd (SI 32) re3 1 in Ok (rm, re) else Ok (rf, re3)) = Ok (if 2 ^ 53 <=? rf then (rf / 2, re3 + 1) else (rf, re3))) as HE.
  { intros _ _. destruct (Z.leb_spec (2 ^ 53) rf); [|reflexivity]. rewrite cshr_ok by (change (bits (UI 64)) with 64; lia). cbn [bind]. change (2 ^ 1) with 2. replace (cadd (SI 32) re3 1) with (Ok (re3 + 1)) by (symmetry; apply chk_ok, fits_s; lia). reflexivity. }
  rewrite (HE _ eq_refl). cbn [bind]. clear HE.
  assert ((let '(rm, re) := if 2 ^ 53 <=? rf then (rf / 2, re3 + 1) else (rf, re3) in
           let* e := csub (SI 32) 1023 1 in let* e := cadd (SI 32) e re in let* e := cshl (UI 64) (norm (UI 64) e) 52 in cadd (UI 64) e rm) = Ok (idx re3 rf)) as ->.
  { replace (csub (SI 32) 1023 1) with (Ok 1022) by reflexivity. destruct (Z.leb_spec (2 ^ 53) rf) as [L|L].
    - cbn [bind]. replace (cadd (SI 32) 1022 (re3 + 1)) with (Ok (1023 + re3)) by (symmetry; replace (1023 + re3) with (1022 + (re3 + 1)) by lia; apply chk_ok, fits_s; lia). cbn [bind]. rewrite norm_id by (reflexivity || (apply fits_u; lia)). rewrite cshl_u_exact by lia. cbn [bind].
      assert (0 <= rf / 2 < 2 ^ 53) by (split; [apply Z.div_pos; lia|apply Z.div_lt_upper_bound; lia]). rewrite cadd_u by lia. f_equal. unfold idx. destruct (Z.ltb_spec rf (2 ^ 53)); lia.
    - cbn [bind]. replace (cadd (SI 32) 1022 re3) with (Ok (1022 + re3)) by (symmetry; apply chk_ok, fits_s; lia). cbn [bind]. rewrite norm_id by (reflexivity || (apply fits_u; lia)). rewrite cshl_u_exact by lia. cbn [bind].
      rewrite cadd_u by lia. f_equal. unfold idx. destruct (Z.ltb_spec rf (2 ^ 53)); lia. }
  set (N := idx re3 rm) in *.
  assert (1023 * 2 ^ 52 < N) as LN. { apply xval_lt_inv. rewrite xval_one. lra. } assert (N < 1025 * 2 ^ 52) as UN. { apply xval_lt_inv. rewrite xval_four. lra. }
  assert (p <= xval N - xval (N - 1))%R as GN.
  { pose proof (xval_succ (N - 1)) as SN. replace (N - 1 + 1) with N in SN by lia. rewrite SN. assert (p <= bpow radix2 ((N - 1) / 2 ^ 52 - 1075))%R; [|lra]. apply bpow_le. assert (1023 <= (N - 1) / 2 ^ 52) by (apply Z.div_le_lower_bound; lia). lia. }
  assert (0 < p * p)%R by (apply Rmult_lt_0_compat; lra). assert (p * p <= / 100000 * p)%R by (apply Rmult_le_compat_r; lra).
  exists (idx re3 rf). destruct CF as [[EN M]|[EN M]]; rewrite EN.
  - exists (if Rle_lt_dec h ((xval (N - 1) + xval N) / 2) then h + 64 * (p * p) else h)%R. split; [reflexivity|].
    assert (forall v, (xval (N - 1) + xval N) / 2 < v -> v <= xval N -> rne F64 v = xval N)%R as K. { intros v K1 K2. pose proof (rne_up (N - 1) v) as U. replace (N - 1 + 1) with N in U by lia. apply U; assumption || lia. }
    destruct (Rle_lt_dec h ((xval (N - 1) + xval N) / 2)) as [L|L].
    + split; [apply K; lra|]. split; [|lia]. apply Rabs_le. lra.
    + split; [apply K; lra|]. split; [|lia]. apply Rabs_le. lra.
  - exists (if Rle_lt_dec ((xval (N - 1) + xval N) / 2) h then h - 64 * (p * p) else h)%R. split; [reflexivity|].
    assert (forall v, xval (N - 1) <= v -> v < (xval (N - 1) + xval N) / 2 -> rne F64 v = xval (N - 1))%R as K. { intros v K1 K2. pose proof (rne_down (N - 1) v) as U. replace (N - 1 + 1) with N in U by lia. apply U; assumption || lia. }
    destruct (Rle_lt_dec ((xval (N - 1) + xval N) / 2) h) as [L|L].
    + split; [apply K; lra|]. split; [|lia]. apply Rabs_le. lra.
    + split; [apply K; lra|]. split; [|lia]. apply Rabs_le. lra.
Qed.
End Hard.
