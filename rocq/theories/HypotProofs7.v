(** hypot: the operands with a normal larger one. *)
From Coq Require Import ZArith Reals Bool Lia Lra Psatz.
From Flocq Require Import Core.
From Verif Require Import Base BaseLemmas FloatModel FloatSpec FloatConvSpec FloatProofs FloatProofs2 FloatLib LibmModel LibmSpec LibmProofs RemModel FmaModel FmaSpec FmaProofs FmaProofs2 FmaProofs6 FmaProps SqrtModel SqrtSpec SqrtProps F64Lib FloatErr ExpProofs3 ExpProofs4 ExpProofs8 TrigRed HypotModel HypotProofs HypotProofs2 HypotProofs3 HypotProofs4 HypotProofs5 HypotProofs6.
Open Scope Z_scope.
Notation p := (bpow radix2 (-52)).

Lemma below_one v : (1 - bpow radix2 (-54) < v)%R -> (v <= 1)%R -> rne F64 v = 1%R.
Proof.
  intros H1 H2. pose proof (rne_up (1023 * 2 ^ 52 - 1) v) as U. pose proof (xval_succ (1023 * 2 ^ 52 - 1)) as S. replace (1023 * 2 ^ 52 - 1 + 1) with (1023 * 2 ^ 52) in * by lia. rewrite xval_one in *.
  replace ((1023 * 2 ^ 52 - 1) / 2 ^ 52) with 1022 in S by (apply Z.div_unique with (2 ^ 52 - 1); lia). change (1022 - 1075) with (1 + -54) in S. rewrite bpow_plus in S. change (bpow radix2 1) with 2%R in S. apply U; [lia|lra|lra|reflexivity].
Qed.
(** The bits of a positive double from its value. *)
Lemma good_ge n x : good x -> 2 ^ 52 <= n < INF -> (xval n <= value F64 x)%R -> n <= x < INF /\ value F64 x = xval x.
Proof.
  intros G Hn H. pose proof (xval_pos n). destruct (good_pos x G ltac:(lra)) as (_ & _ & R & V). assert (n <= x). { destruct (Z_lt_le_dec x n) as [L|L]; [|exact L]. pose proof (mag_lt64 x n ltac:(lia)) as M. rewrite (xval_mag n) in M by lia. lra. }
  split; [lia|]. rewrite V. apply xval_mag. lia.
Qed.
Lemma good_lit n : 0 <= n < INF -> good n.
Proof. intros H. exact (good_mk false n H). Qed.
Lemma val_lit n : 2 ^ 52 <= n < INF -> value F64 n = xval n.
Proof. intros H. rewrite <- (xval_mag n) by lia. symmetry. apply mag_value. lia. Qed.

Section Main.
Context (o : fops) (Ho : ieee_ops F64 o) (conv : Z -> Z) (Hc : int_conv F64 conv).

Lemma core_ok fuel fx y : (6 <= fuel)%nat -> 0 <= fx < 2 ^ 52 -> let x := 1023 * 2 ^ 52 + fx in x - 27 * 2 ^ 52 <= y <= x ->
  let h := sqrt (xval x * xval x + xval y * xval y) in
  exists s e n v, hypot_fast o conv x y = Ok (s, e) /\ (if near_tie s e then hypot_hard o false fuel x y else Ok s) = Ok n /\ rne F64 v = xval n /\ (1 <= v < 4)%R /\ (1 < h < 3)%R /\
    (Rabs (v - h) <= 128 * (p * p))%R /\ 1023 * 2 ^ 52 <= n <= 1025 * 2 ^ 52.
Proof using Ho Hc.
  intros Hf Hfx x Hy h. pose proof p_small as [P1 P2]. assert (good x) as Gx by (apply good_lit; unfold x; lia). assert (good y) as Gy by (apply good_lit; unfold x in *; lia).
  assert (value F64 x = xval x) as Vx by (apply val_lit; unfold x; lia). assert (value F64 y = xval y) as Vy by (apply val_lit; unfold x in *; lia).
  assert (1 <= xval x < 2)%R as HX. { split; [rewrite <- xval_one; apply xval_le; unfold x; lia|]. pose proof (xval_lt x (1023 * 2 ^ 52 + 1 * 2 ^ 52) ltac:(unfold x; lia)) as M. rewrite xval_shift, xval_one in M. change (bpow radix2 1) with 2%R in M. lra. }
  assert (bpow radix2 (-28) <= xval y <= xval x)%R as HY. { split; [|apply xval_le; lia]. pose proof (xval_le (1023 * 2 ^ 52 + -28 * 2 ^ 52) y ltac:(unfold x in Hy; lia)) as M. rewrite xval_shift, xval_one, Rmult_1_l in M. exact M. }
  destruct (fast_ok o Ho conv Hc x y Gx Gy) as (s & e & T & v & EF & Gs & Vs & Hv & ET & GT & HT & HTh); [rewrite Vx; exact HX|rewrite Vx, Vy; exact HY|]. rewrite Vx, Vy in Hv, HTh. fold h in Hv, HTh.
  destruct (h_rng (xval x) (xval y) HX HY) as [Hh _]. fold h in Hh.
  assert (0 < p * p)%R as PP0 by (apply Rmult_lt_0_compat; lra). assert (p * p <= / 100000 * p)%R as PP1 by (apply Rmult_le_compat_r; lra).
  assert (bpow radix2 (-54) = / 4 * p)%R as B54 by (change (/ 4)%R with (bpow radix2 (-2)); rewrite <- bpow_plus; reflexivity).
  assert (forall n v, rne F64 v = xval n -> (Rabs (v - h) <= 128 * (p * p))%R -> exists v', rne F64 v' = xval n /\ (1 <= v' < 4)%R /\ (Rabs (v' - h) <= 128 * (p * p))%R) as W.
  { intros n w E B. apply Rabs_le_inv in B. destruct (Rlt_le_dec w 1) as [L|L].
    - exists 1%R. split; [|split; [lra|apply Rabs_le; lra]]. rewrite <- E, !below_one by lra. reflexivity.
    - exists w. split; [exact E|]. split; [lra|apply Rabs_le; lra]. }
  exists s, e. destruct (near_tie s e).
  - destruct (hard_ok o Ho fuel fx (y mod 2 ^ 52) (1023 - y / 2 ^ 52) T Hf Hfx) as (n & w & EH & Rw & Bw & Rn).
    + apply Z.mod_pos_bound. lia.
    + assert (996 <= y / 2 ^ 52) by (apply Z.div_le_lower_bound; unfold x in Hy; lia). assert (y / 2 ^ 52 < 1024) by (apply Z.div_lt_upper_bound; unfold x in Hy; lia). lia.
    + replace ((1023 - (1023 - y / 2 ^ 52)) * 2 ^ 52 + y mod 2 ^ 52) with y by (pose proof (Z.div_mod y (2 ^ 52) ltac:(lia)); lia). exact Hh.
    + replace ((1023 - (1023 - y / 2 ^ 52)) * 2 ^ 52 + y mod 2 ^ 52) with y by (pose proof (Z.div_mod y (2 ^ 52) ltac:(lia)); lia). exact ET.
    + exact GT.
    + exact HT.
    + replace ((1023 - (1023 - y / 2 ^ 52)) * 2 ^ 52 + y mod 2 ^ 52) with y by (pose proof (Z.div_mod y (2 ^ 52) ltac:(lia)); lia). exact HTh.
    + replace ((1023 - (1023 - y / 2 ^ 52)) * 2 ^ 52 + y mod 2 ^ 52) with y in * by (pose proof (Z.div_mod y (2 ^ 52) ltac:(lia)); lia). fold x in EH, Bw. fold h in Bw. destruct (W n w Rw Bw) as (v' & A1 & A2 & A3). exists n, v'. repeat split; try assumption; lra || lia.
  - pose proof Hv as Hv'. apply Rabs_le_inv in Hv'.
    assert (1 <= value F64 s)%R as S1. { rewrite Vs. destruct (Rlt_le_dec v 1) as [L|L]; [rewrite below_one by lra; lra|]. rewrite <- b0. apply fl_ge; [lia|]. rewrite b0. exact L. }
    assert (value F64 s <= 4)%R as S2. { rewrite Vs, <- b2. apply fl_le; [lia|]. rewrite b2. lra. }
    destruct (good_ge (1023 * 2 ^ 52) s Gs) as [R1 V1]; [lia|rewrite xval_one; exact S1|]. rewrite V1 in Vs, S2.
    destruct (W s v (eq_sym Vs) Hv) as (v' & A1 & A2 & A3). exists s, v'. split; [exact EF|]. split; [reflexivity|]. repeat split; try assumption; try lra; try lia.
    destruct (Z_lt_le_dec (1025 * 2 ^ 52) s) as [L|L]; [|exact L]. apply xval_lt in L. rewrite xval_four in L. lra.
Qed.

(** * Scaling *)
Lemma max_sum : exists r, o_add o 0x7fefffffffffffff 0x7fefffffffffffff = r /\ is_float F64 r /\ is_inf F64 r /\ sign_of F64 r = false.
Proof using Ho.
  eexists. split; [reflexivity|]. destruct (good_lit 0x7fefffffffffffff) as [F N]; [split; reflexivity || discriminate|].
  destruct (ops_add F64 o Ho _ _ F F) as [Fr (_ & _ & _ & _ & R)]. destruct (R N N) as (F' & S & V). rewrite (val_lit 0x7fefffffffffffff) in S, V by (split; reflexivity || discriminate).
  change 0x7fefffffffffffff with (2 ^ 52 - 1 + 2046 * 2 ^ 52) in S, V. rewrite xval_shift in S, V. unfold xval in S, V. change ((2 ^ 52 - 1) mod 2 ^ 52) with (2 ^ 52 - 1) in S, V. change ((2 ^ 52 - 1) / 2 ^ 52) with 0 in S, V. rewrite Rmult_assoc, <- bpow_plus in S, V. change (0 - 1075 + 2046) with 971 in S, V. change (2 ^ 52 + (2 ^ 52 - 1)) with (2 ^ 53 - 1) in S, V.
  replace (IZR (2 ^ 53 - 1) * bpow radix2 971 + IZR (2 ^ 53 - 1) * bpow radix2 971)%R with (IZR (2 ^ 53 - 1) * bpow radix2 972)%R in S, V by (change 972 with (971 + 1); rewrite (bpow_plus radix2 971 1); change (bpow radix2 1) with 2%R; ring).
  assert (0 < IZR (2 ^ 53 - 1) * bpow radix2 972)%R as P by (apply Rmult_lt_0_compat; [apply IZR_lt; lia|apply bpow_gt_0]). rewrite Rcompare_Gt in S by exact P.
  rewrite Rlt_bool_false in V; [tauto|]. rewrite (rne_exact64 (2 ^ 53 - 1) 972) by lia. rewrite Rabs_pos_eq by lra. change (emax F64) with 1024. change 1024 with (52 + 972). rewrite bpow_plus. apply Rmult_le_compat_r; [apply bpow_ge_0|]. change (bpow radix2 52) with (IZR (2 ^ 52)). apply IZR_le. lia.
Qed.

Lemma scale_ok E n v : 1 <= E <= 2046 -> 1023 * 2 ^ 52 <= n <= 1025 * 2 ^ 52 -> rne F64 v = xval n -> (1 <= v < 4)%R ->
  exists r, (if 0x7ff * 2 ^ 52 <=? wrapping_sub (UI 64) n (norm (UI 64) ((1023 - E) * 2 ^ 52)) then Ok (o_add o 0x7fefffffffffffff 0x7fefffffffffffff) else Ok (wrapping_sub (UI 64) n (norm (UI 64) ((1023 - E) * 2 ^ 52)))) = Ok r /\
    rounds_to F64 false (v * bpow radix2 (E - 1023)) r.
Proof using Ho.
  intros HE Hn Rv Hv.
  assert (wrapping_sub (UI 64) n (norm (UI 64) ((1023 - E) * 2 ^ 52)) = n + (E - 1023) * 2 ^ 52) as ->. { unfold wrapping_sub. rewrite norm_sub_r by reflexivity. rewrite norm_u, Z.mod_small by lia. lia. }
  set (m := n + (E - 1023) * 2 ^ 52). assert (rne F64 (v * bpow radix2 (E - 1023)) = xval m) as RM.
  { unfold m. rewrite xval_shift, <- Rv. destruct (Rlt_le_dec v 2) as [L|L].
    - apply (rne_shift F64 1); [change (bpow radix2 (1 - 1)) with 1%R; change (bpow radix2 1) with 2%R; lra|discriminate|change (emin F64) with (-1074); change (prec F64) with 53; lia].
    - apply (rne_shift F64 2); [change (bpow radix2 (2 - 1)) with 2%R; change (bpow radix2 2) with 4%R; lra|discriminate|change (emin F64) with (-1074); change (prec F64) with 53; lia]. }
  assert (0 < v * bpow radix2 (E - 1023))%R as VP by (apply Rmult_lt_0_compat; [lra|apply bpow_gt_0]).
  assert (xval (0x7ff * 2 ^ 52) = bpow radix2 1024) as XI. { change (0x7ff * 2 ^ 52) with (1023 * 2 ^ 52 + 1024 * 2 ^ 52). rewrite xval_shift, xval_one. ring. }
  unfold rounds_to. rewrite (Rcompare_Gt _ _ VP), RM, (Rabs_pos_eq (xval m)) by (pose proof (xval_pos m); lra). change (emax F64) with 1024. rewrite <- XI.
  destruct (Z.leb_spec (0x7ff * 2 ^ 52) m) as [L|L].
  - destruct max_sum as (r & -> & F & I' & S). exists r. rewrite Rlt_bool_false by (apply xval_le; exact L). tauto.
  - exists m. rewrite Rlt_bool_true by (apply xval_lt; exact L). assert (2 ^ 52 <= m < INF) as Rm by (unfold m in *; lia). destruct (good_lit m ltac:(lia)) as [F N]. split; [reflexivity|]. split; [exact F|]. split; [|split; [exact N|apply val_lit; exact Rm]].
    change m with (mk64 false m). apply sign64. lia.
Qed.

Lemma sqrt_scale a b k : (0 <= a)%R -> (0 <= b)%R -> sqrt ((a * bpow radix2 k) * (a * bpow radix2 k) + (b * bpow radix2 k) * (b * bpow radix2 k)) = (sqrt (a * a + b * b) * bpow radix2 k)%R.
Proof using.
  intros A B. replace ((a * bpow radix2 k) * (a * bpow radix2 k) + (b * bpow radix2 k) * (b * bpow radix2 k))%R with ((a * a + b * b) * (bpow radix2 k * bpow radix2 k))%R by ring.
  rewrite sqrt_mult_alt by (apply Rplus_le_le_0_compat; apply Rmult_le_pos; assumption). rewrite sqrt_square by apply bpow_ge_0. reflexivity.
Qed.

Lemma close_ok fuel u y : (6 <= fuel)%nat -> 2 ^ 52 <= u < INF -> u - 27 * 2 ^ 52 <= y <= u ->
  let H := sqrt (xval u * xval u + xval y * xval y) in
  exists r w, (let* off := csub (SI 64) (0x3ff * 2 ^ 52) (norm (SI 64) (Z.land u (0x7ff * 2 ^ 52))) in
    let x := wrapping_add (UI 64) u (norm (UI 64) off) in
    let y := wrapping_add (UI 64) (y mod 2 ^ 64) (norm (UI 64) off) in
    let* p := hypot_fast o conv x y in
    let '(th, tl) := p in
    let* thd := (if near_tie th tl then hypot_hard o false fuel x y else Ok th) in
    let thd := wrapping_sub (UI 64) thd (norm (UI 64) off) in
    if 0x7ff * 2 ^ 52 <=? thd then Ok (o_add o 0x7fefffffffffffff 0x7fefffffffffffff) else Ok thd) = Ok r /\
    rounds_to F64 false w r /\ (Rabs (w - H) <= H * bpow radix2 (-97))%R.
Proof using Ho Hc.
  intros Hf Hu Hy H. pose proof (Z.div_mod u (2 ^ 52) ltac:(lia)) as D. pose proof (Z.mod_pos_bound u (2 ^ 52) ltac:(lia)) as M. set (E := u / 2 ^ 52) in *. set (fu := u mod 2 ^ 52) in *.
  assert (1 <= E <= 2046) as HE by (lia).
  assert (Z.land u (0x7ff * 2 ^ 52) = E * 2 ^ 52) as ->.
  { rewrite D. rewrite (Z.mul_comm (2 ^ 52) E). rewrite (Z.add_comm _ fu), <- lor_add_low by lia. rewrite Z.land_lor_distr_l.
    replace (Z.land (E * 2 ^ 52) (2047 * 2 ^ 52)) with (E * 2 ^ 52). 2: { rewrite <- !Z.shiftl_mul_pow2 by lia. rewrite <- Z.shiftl_land. f_equal. change 2047 with (2 ^ 11 - 1). rewrite land_ones_mod by lia. symmetry. apply Z.mod_small. lia. }
    replace (Z.land fu (2047 * 2 ^ 52)) with 0; [apply Z.lor_0_l|]. symmetry. apply Z.bits_inj'. intros i Hi. rewrite Z.land_spec, Z.bits_0. destruct (Z_lt_le_dec i 52) as [L|L]; [rewrite Z.mul_pow2_bits_low by lia; apply andb_false_r|].
    replace (Z.testbit fu i) with false; [reflexivity|]. symmetry. destruct (Z.eq_dec fu 0) as [-> | N]; [apply Z.bits_0|]. apply Z.bits_above_log2; [lia|]. apply Z.log2_lt_pow2; [lia|]. apply Z.lt_le_trans with (2 ^ 52); [lia|]. apply Z.pow_le_mono_r; lia. }
  rewrite (norm_id (SI 64) eq_refl) by (apply fits_s; lia). replace (csub (SI 64) (0x3ff * 2 ^ 52) (E * 2 ^ 52)) with (Ok ((1023 - E) * 2 ^ 52)) by (symmetry; replace ((1023 - E) * 2 ^ 52) with (0x3ff * 2 ^ 52 - E * 2 ^ 52) by lia; apply chk_ok, fits_s; lia).
  cbn [bind]. cbv zeta.
  assert (wrapping_add (UI 64) u (norm (UI 64) ((1023 - E) * 2 ^ 52)) = 1023 * 2 ^ 52 + fu) as ->. { unfold wrapping_add. rewrite norm_add_r by reflexivity. rewrite norm_u, Z.mod_small by lia. lia. }
  assert (wrapping_add (UI 64) (y mod 2 ^ 64) (norm (UI 64) ((1023 - E) * 2 ^ 52)) = y + (1023 - E) * 2 ^ 52) as ->.
  { rewrite <- (norm_u 64 y). unfold wrapping_add. rewrite norm_add_r, norm_add_l by reflexivity. rewrite norm_u, Z.mod_small by lia. reflexivity. }
  destruct (core_ok fuel fu (y + (1023 - E) * 2 ^ 52) Hf M ltac:(lia)) as (s & e & n & v & -> & EN & Rv & V4 & Hh & Bv & Rn). cbn [bind]. rewrite EN. cbn [bind].
  destruct (scale_ok E n v HE Rn Rv V4) as (r & Er & Rr). exists r, (v * bpow radix2 (E - 1023))%R. split; [exact Er|]. split; [exact Rr|].
  set (x' := 1023 * 2 ^ 52 + fu) in *. set (y' := y + (1023 - E) * 2 ^ 52) in *. set (h := sqrt (xval x' * xval x' + xval y' * xval y')) in *.
  assert (H = h * bpow radix2 (E - 1023))%R as EH.
  { unfold H, h. replace u with (x' + (E - 1023) * 2 ^ 52) at 1 2 by (unfold x'; lia). replace y with (y' + (E - 1023) * 2 ^ 52) at 1 2 by (unfold y'; lia). rewrite !xval_shift. apply sqrt_scale; pose proof (xval_pos x'); pose proof (xval_pos y'); lra. }
  rewrite EH, <- Rmult_minus_distr_r, Rabs_mult, (Rabs_pos_eq (bpow radix2 (E - 1023))) by apply bpow_ge_0. rewrite (Rmult_comm h), Rmult_assoc, Rmult_comm. apply Rmult_le_compat_l; [apply bpow_ge_0|].
  eapply Rle_trans; [exact Bv|]. replace (128 * (p * p))%R with (bpow radix2 (-97)) by (change 128%R with (bpow radix2 7); rewrite <- !bpow_plus; reflexivity). pose proof (bpow_gt_0 radix2 (-97)) as B. rewrite <- (Rmult_1_l (bpow radix2 (-97))) at 1. apply Rmult_le_compat_r; lra.
Qed.
End Main.
