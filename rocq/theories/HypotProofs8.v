(** hypot: a smaller operand that is far below the larger one, and both cases together. *)
From Coq Require Import ZArith Reals Bool Lia Lra Psatz.
From Flocq Require Import Core.
From Verif Require Import Base BaseLemmas FloatModel FloatSpec FloatConvSpec FloatProofs FloatProofs2 FloatLib LibmModel LibmSpec LibmProofs RemModel FmaModel FmaSpec FmaProofs FmaProofs2 FmaProofs6 FmaProps SqrtModel SqrtSpec SqrtProps F64Lib FloatErr ExpProofs3 ExpProofs4 ExpProofs8 TrigRed HypotModel HypotProofs HypotProofs2 HypotProofs3 HypotProofs4 HypotProofs5 HypotProofs6 HypotProofs7.
Open Scope Z_scope.

(** A value that rounds to the normal double [u]. *)
Lemma rne_here u w : 2 ^ 52 <= u < INF -> let U := bpow radix2 (u / 2 ^ 52 - 1075) in
  (xval u - U / 4 < w < xval u + U / 2)%R -> (u = 2 ^ 52 -> (xval u <= w)%R) -> rne F64 w = xval u.
Proof.
  intros Hu U [H1 H2] H3. destruct (Rle_lt_dec (xval u) w) as [L|L].
  - apply rne_down; [lia|exact L|]. rewrite xval_succ. fold U. lra.
  - assert (u <> 2 ^ 52) as N by (intros E; specialize (H3 E); lra). pose proof (rne_up (u - 1) w) as R. pose proof (xval_succ (u - 1)) as S. replace (u - 1 + 1) with u in * by lia. apply R; [lia| |lra|lia].
    rewrite S in *. assert (U / 2 <= bpow radix2 ((u - 1) / 2 ^ 52 - 1075))%R; [|lra]. unfold U. replace (bpow radix2 (u / 2 ^ 52 - 1075) / 2)%R with (bpow radix2 (u / 2 ^ 52 - 1075 + -1)) by (rewrite bpow_plus; change (bpow radix2 (-1)) with (/ 2)%R; reflexivity).
    apply bpow_le. assert (u / 2 ^ 52 - 1 <= (u - 1) / 2 ^ 52); [|lia]. apply Z.div_le_lower_bound; [lia|]. pose proof (Z.mul_div_le u (2 ^ 52) ltac:(lia)). lia.
Qed.

Section Main.
Context (o : fops) (Ho : ieee_ops F64 o) (conv : Z -> Z) (Hc : int_conv F64 conv).

Lemma far_ok u v y : 2 ^ 52 <= u < INF -> good v -> value F64 v = xval y -> -51 * 2 ^ 52 <= y < u - 27 * 2 ^ 52 ->
  exists r, hfma o conv 0x3e40000000000000 v u = Ok r /\ rounds_to F64 false (sqrt (xval u * xval u + xval y * xval y)) r.
Proof using Ho Hc.
  intros Hu Gv Vv Hy. destruct (good_lit u ltac:(lia)) as [Fu Nu]. destruct (good_lit 0x3e40000000000000) as [Fc Nc]; [split; reflexivity || discriminate|]. destruct (good_pos v Gv) as (Sv & _); [rewrite Vv; apply xval_pos|]. destruct Gv as [Fv Nv].
  destruct (C42_fma_near F64 o conv 0x3e40000000000000 v u ltac:(tauto) Ho Hc Fc Fv Fu Nc Nv Nu) as (r & w & E & R & B). exists r. split; [exact E|].
  assert (value F64 0x3e40000000000000 = bpow radix2 (-27)) as V27. { rewrite val_lit by (split; reflexivity || discriminate). change 0x3e40000000000000 with (1023 * 2 ^ 52 + -27 * 2 ^ 52). rewrite xval_shift, xval_one. ring. }
  rewrite V27, Vv, (val_lit u) in B by lia. change (- (fb F64 + fs F64 + 1)) with (-117) in B. pose proof (xval_pos u) as Xp. pose proof (xval_pos y) as Yp. rewrite (Rabs_pos_eq (xval u)) in B by lra.
  pose proof (xval_lt y (u + -27 * 2 ^ 52) ltac:(lia)) as L. rewrite xval_shift in L.
  set (U := bpow radix2 (u / 2 ^ 52 - 1075)). assert (0 < U)%R as Up by apply bpow_gt_0. assert (4503599627370496 * U <= xval u <= 9007199254740991 * U)%R as XU.
  { unfold xval. fold U. pose proof (Z.mod_pos_bound u (2 ^ 52) ltac:(lia)). split; (apply Rmult_le_compat_r; [lra|]; apply IZR_le; lia). }
  assert (u = 2 ^ 52 -> (bpow radix2 (-52) * xval u <= xval y)%R) as Hmin. { intros ->. replace (bpow radix2 (-52) * xval (2 ^ 52))%R with (xval (2 ^ 52 + -52 * 2 ^ 52)) by (rewrite xval_shift; ring). apply xval_le. lia. }
  set (c := bpow radix2 (-27)) in *. set (d := bpow radix2 (-117)) in *. assert (0 < c)%R by apply bpow_gt_0. assert (0 < d)%R by apply bpow_gt_0.
  assert (c * c = / 18014398509481984)%R as CC by (unfold c; rewrite <- bpow_plus; reflexivity). assert (d <= / 166153499473114484112975882535043072)%R as D1 by (right; reflexivity).
  assert (d * 166153499473114484112975882535043072 = 1)%R as D2. { unfold d. change 166153499473114484112975882535043072%R with (bpow radix2 117). rewrite <- bpow_plus. reflexivity. }
  assert (c * bpow radix2 (-52) = 274877906944 * d)%R as D3. { unfold c, d. change 274877906944%R with (bpow radix2 38). rewrite <- !bpow_plus. reflexivity. }
  assert (d * xval u < U / 1152921504606846976)%R as DU. { apply Rle_lt_trans with (d * (9007199254740991 * U))%R; [apply Rmult_le_compat_l; lra|]. rewrite <- Rmult_assoc. unfold Rdiv. rewrite (Rmult_comm U). apply Rmult_lt_compat_r; [lra|]. lra. }
  assert (0 < c * xval y)%R as CYp by (apply Rmult_lt_0_compat; lra).
  assert (c * xval y <= / 18014398509481984 * xval u)%R as CY. { rewrite <- CC, Rmult_assoc. apply Rmult_le_compat_l; lra. }
  assert (0 < d * xval u)%R as DXp by (apply Rmult_lt_0_compat; lra). apply Rabs_le_inv in B.
  assert (rne F64 w = xval u) as RW.
  { apply rne_here; [lia| |]; fold U; [split; lra|]. intros Eu. specialize (Hmin Eu). assert (274877906944 * d * xval u <= c * xval y)%R as M by (rewrite <- D3, Rmult_assoc; apply Rmult_le_compat_l; lra). lra. }
  set (S := (xval u * xval u + xval y * xval y)%R). assert (0 <= xval y * xval y)%R as YY by (apply Rmult_le_pos; lra). assert (0 <= xval u * xval u)%R as XX by (apply Rmult_le_pos; lra).
  assert (xval u <= sqrt S)%R as H1. { rewrite <- (sqrt_square (xval u)) at 1 by lra. apply sqrt_le_1_alt. unfold S. lra. }
  assert (sqrt S < xval u + U / 2)%R as H2.
  { rewrite <- (sqrt_square (xval u + U / 2)) by lra. apply sqrt_lt_1_alt. split; [unfold S; lra|]. unfold S.
    assert (xval y * xval y <= xval u * c * (xval u * c))%R as M1 by (apply Rmult_le_compat; lra). replace (xval u * c * (xval u * c))%R with (xval u * (c * c * xval u))%R in M1 by ring. rewrite CC in M1.
    assert (xval u * (/ 18014398509481984 * xval u) <= xval u * (U / 2))%R as M2 by (apply Rmult_le_compat_l; lra). assert (0 < U * U)%R by (apply Rmult_lt_0_compat; lra). assert (0 < xval u * U)%R by (apply Rmult_lt_0_compat; lra). lra. }
  assert (rne F64 (sqrt S) = xval u) as RS by (apply rne_here; [lia| |]; fold U; [split; lra|intros _; exact H1]).
  destruct R as (Fr & Sr & Vr). unfold rounds_to. rewrite RS. rewrite RW in Vr. split; [exact Fr|]. split; [|exact Vr]. rewrite Sr. rewrite !Rcompare_Gt by lra. reflexivity.
Qed.

Lemma main_ok fuel u v y : (6 <= fuel)%nat -> 2 ^ 52 <= u < INF -> good v -> value F64 v = xval y -> -51 * 2 ^ 52 <= y <= u ->
  let H := sqrt (xval u * xval u + xval y * xval y) in
  exists r w, hypot_main o conv false fuel u v u (y mod 2 ^ 64) = Ok r /\ rounds_to F64 false w r /\ (Rabs (w - H) <= H * bpow radix2 (-97))%R.
Proof using Ho Hc.
  intros Hf Hu Gv Vv Hy H. unfold hypot_main.
  replace (wrapping_sub (UI 64) u (y mod 2 ^ 64)) with (u - y). 2: { rewrite <- (norm_u 64 y). unfold wrapping_sub. rewrite norm_sub_r by reflexivity. rewrite norm_u, Z.mod_small by lia. reflexivity. }
  destruct (Z.ltb_spec (27 * 2 ^ 52) (u - y)) as [L|L].
  - destruct (far_ok u v y Hu Gv Vv ltac:(lia)) as (r & E & R). exists r, H. split; [exact E|]. split; [exact R|]. unfold Rminus. rewrite Rplus_opp_r, Rabs_R0. apply Rmult_le_pos; [apply sqrt_pos|apply bpow_ge_0].
  - apply close_ok; assumption || lia.
Qed.
End Main.
