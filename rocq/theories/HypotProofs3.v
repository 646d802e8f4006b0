(** hypot: the operations of the fast path. *)
From Coq Require Import ZArith Reals Bool Lia Lra Psatz.
From Flocq Require Import Core.
From Verif Require Import Base BaseLemmas FloatModel FloatSpec FloatProofs FloatProofs5 FloatLib LibmModel LibmSpec LibmProofs RemModel FmaModel FmaSpec FmaProofs6 FmaProps SqrtModel SqrtSpec SqrtProps F64Lib FloatErr ExpProofs3 ExpProofs4 TrigRed HypotModel HypotProofs HypotProofs2.
Open Scope Z_scope.

Lemma good_split x : good x -> exists s n, x = mk64 s n /\ 0 <= n < INF.
Proof. intros [F N]. destruct (split64 x F) as (s & n & -> & Hn). exists s, n. split; [reflexivity|]. apply finite64 in N; [lia|exact Hn]. Qed.
Lemma good_mk s n : 0 <= n < INF -> good (mk64 s n).
Proof. intros H. split; [apply float64; lia|apply finite64; lia]. Qed.
Lemma good_pos x : good x -> (0 < value F64 x)%R -> sign_of F64 x = false /\ ~ is_zero F64 x /\ 0 < x < INF /\ value F64 x = mag64 x.
Proof.
  intros G H. destruct (good_split x G) as (s & n & -> & Hn). rewrite value64 in H by lia. pose proof (mag_nonneg64 n ltac:(lia)). destruct s; [lra|].
  assert (n <> 0) by (intros ->; rewrite mag0_64 in H; lra). rewrite sign64, zero64, value64 by lia. unfold mk64. cbn [b2z]. rewrite Z.mul_0_l, Z.add_0_l. repeat split; lia.
Qed.

Lemma good_half : good 0x3fe0000000000000. Proof. const_good. Qed.
Lemma val_half : value F64 0x3fe0000000000000 = (/ 2)%R.
Proof. rewrite (kb_val 1 0x3fe0000000000000 1) by (vm_compute; reflexivity). unfold fx. cbn. lra. Qed.

Section Ops.
Context (o : fops) (Ho : ieee_ops F64 o) (conv : Z -> Z) (Hc : int_conv F64 conv).

Lemma hneg_ok x : good x -> good (hneg x) /\ value F64 (hneg x) = (- value F64 x)%R.
Proof.
  intros G. destruct (good_split x G) as (s & n & -> & Hn). assert (hneg (mk64 s n) = mk64 (negb s) n) as ->.
  { unfold hneg, mk64. apply lxor_mk_top; lia. }
  split; [apply good_mk; exact Hn|]. rewrite !value64 by lia. destruct s; cbn; lra.
Qed.
Lemma hfma_ok a b c : good a -> good b -> good c -> (Rabs (value F64 c) <= 1024 * Rabs (value F64 a * value F64 b))%R ->
  (Rabs (value F64 a * value F64 b + value F64 c) <= bpow radix2 100)%R ->
  exists r, hfma o conv a b c = Ok r /\ good r /\ value F64 r = rne F64 (value F64 a * value F64 b + value F64 c).
Proof using Ho Hc.
  intros [Fa Na] [Fb Nb] [Fc Nc] L M. destruct (C42_fma_balanced_partial F64 o conv a b c ltac:(tauto) Ho Hc Fa Fb Fc) as (r & E & _ & _ & _ & _ & _ & R).
  { change (bpow radix2 (eb F64 - 1)) with 1024%R. exact L. }
  specialize (R Na Nb Nc). exists r. split; [exact E|]. destruct (rounds_val F64 Hp64 He64 Hm64 _ _ _ R) as (F & N & V); [pose proof big64; lra|]. split; [split; assumption|exact V].
Qed.
Lemma hsqrt_ok a : good a -> (0 < value F64 a <= 16)%R -> exists r, hsqrt o a = Ok r /\ good r /\ value F64 r = rne F64 (sqrt (value F64 a)).
Proof using Ho.
  intros G H. destruct (good_pos a G ltac:(lra)) as (S & Z & _). destruct G as [F N].
  destruct (C41_sqrt F64 o 64 a ltac:(unfold std; tauto) Ho ltac:(tauto) F) as (r & E & Fr & _ & _ & _ & _ & R). specialize (R N Z S). exists r. split; [exact E|].
  destruct (rounds_val F64 Hp64 He64 Hm64 _ _ _ R) as (F' & N' & V); [|split; [split; assumption|exact V]].
  rewrite Rabs_pos_eq by apply sqrt_pos. apply Rle_trans with (bpow radix2 100); [|apply big64]. assert (sqrt (value F64 a) <= 4)%R.
  { replace 4%R with (sqrt (4 * 4)) by (apply sqrt_square; lra). apply sqrt_le_1_alt. lra. }
  change (bpow radix2 100) with (IZR (2 ^ 100)). lra.
Qed.
Lemma div64 a b : good a -> good b -> (value F64 b <> 0)%R -> (Rabs (value F64 a / value F64 b) <= bpow radix2 100)%R ->
  good (o_div o a b) /\ value F64 (o_div o a b) = rne F64 (value F64 a / value F64 b).
Proof using Ho.
  intros [Fa Na] [Fb Nb] Nz H. destruct (div_val F64 o Ho Hp64 He64 Hm64 a b) as (F & N & E); try assumption; [|pose proof big64; lra|split; [split; assumption|exact E]].
  intros Z. destruct (split64 b Fb) as (s & n & -> & Hn). apply zero64 in Z; [|exact Hn]. subst n. rewrite value64, mag0_64 in Nz by lia. destruct s; lra.
Qed.

Notation val := (value F64).
Notation fl := (rne F64).
Lemma sm v c : (c <= 1000)%R -> (Rabs v <= c)%R -> (Rabs v <= bpow radix2 100)%R.
Proof. intros. change (bpow radix2 100) with (IZR (2 ^ 100)). lra. Qed.

Lemma fast_ok x y : good x -> good y -> (1 <= val x < 2)%R -> (bpow radix2 (-28) <= val y <= val x)%R ->
  let h := sqrt (val x * val x + val y * val y) in
  exists s e T v, hypot_fast o conv x y = Ok (s, e) /\ good s /\ val s = fl v /\ (Rabs (v - h) <= 128 * (bpow radix2 (-52) * bpow radix2 (-52)))%R /\
    hsqrt o (o_add o (o_mul o x x) (o_mul o y y)) = Ok T /\ good T /\ (1 <= val T < 3)%R /\ (Rabs (val T - h) <= 5 / 2 * bpow radix2 (-52))%R.
Proof using Ho Hc.
  intros Gx Gy HX HY h. assert (1 <= val x * val x <= 4)%R as XX by (clear - HX; nra). assert (0 < val y * val y <= 4)%R as YY by (pose proof (Y_pos _ _ HY); clear - HX HY H; nra). pose proof (A_rng (val x) HX) as ((A1 & A2) & (A3 & A4)). pose proof (B_rng _ _ HX HY) as ((B1 & B2) & (B3 & B4) & B5).
  pose proof (r_rng _ _ HX HY) as ((r1 & r2) & (r3 & r4) & _). pose proof (T_rng _ _ HX HY) as ((T1 & T2) & (T3 & T4) & (T5 & T6)).
  pose proof (fast_error _ _ HX HY) as FE. cbv zeta in FE. destruct FE as (F1 & F2 & F3 & F4 & F5 & F6 & F7 & F8 & F9 & F10 & F11 & F12). pose proof p_small as [P1 P2]. pose proof (Y_pos _ _ HY) as Yp.
  fold h in T5, T6. 
  destruct (mul64 o Ho x x Gx Gx) as [G1 V1]. { apply (sm _ 4); [lra|]. rewrite Rabs_pos_eq; lra. }
  destruct (mul64 o Ho y y Gy Gy) as [G2 V2]. { apply (sm _ 4); [lra|]. rewrite Rabs_pos_eq; lra. }
  set (A := fl (val x * val x)) in *. set (B := fl (val y * val y)) in *.
  destruct (hneg_ok _ G1) as [G3 V3]. destruct (hneg_ok _ G2) as [G4 V4]. rewrite V1 in V3. rewrite V2 in V4.
  destruct (hfma_ok x x _ Gx Gx G3) as (dx & Edx & G5 & V5). { rewrite V3, Rabs_Ropp. rewrite (Rabs_pos_eq A), (Rabs_pos_eq (_ * _)) by lra. lra. } { rewrite V3. apply (sm _ 1); [lra|]. apply Rabs_le; lra. }
  destruct (hfma_ok y y _ Gy Gy G4) as (dy & Edy & G6 & V6). { rewrite V4, Rabs_Ropp. rewrite (Rabs_pos_eq B), (Rabs_pos_eq (_ * _)) by lra. lra. } { rewrite V4. apply (sm _ 1); [lra|]. apply Rabs_le; lra. }
  rewrite V3 in V5. rewrite V4 in V6. change (val x * val x + - A)%R with (val x * val x - A)%R in V5. change (val y * val y + - B)%R with (val y * val y - B)%R in V6.
  destruct (add64 o Ho _ _ G1 G2) as [G7 V7]. { rewrite V1, V2. apply (sm _ 8); [lra|]. apply Rabs_le; lra. } rewrite V1, V2 in V7.
  set (r := fl (A + B)) in *.
  pose proof good_half as Gh. pose proof val_half as Vh.
  assert (0 < / r <= 1)%R as ir. { split; [apply Rinv_0_lt_compat; lra|]. rewrite <- Rinv_1. apply Rinv_le; lra. }
  destruct (div64 _ _ Gh G7) as [G8 V8]; [rewrite V7; lra|rewrite V7, Vh; apply (sm _ 1); [lra|]; apply Rabs_le; unfold Rdiv; lra|]. rewrite V7, Vh in V8.
  destruct (sub64 o Ho _ _ G1 G7) as [G9 V9]. { rewrite V1, V7. apply (sm _ 8); [lra|]. apply Rabs_le; lra. } rewrite V1, V7 in V9.
  destruct (add64 o Ho _ _ G9 G2) as [G10 V10]. { rewrite V9, V2. apply (sm _ 20); [lra|]. apply Rabs_le_inv in F3. apply Rabs_le; lra. } rewrite V9, V2 in V10.
  destruct (add64 o Ho _ _ G5 G6) as [G11 V11]. { rewrite V5, V6. apply (sm _ 20); [lra|]. apply Rabs_le_inv in F1, F2. apply Rabs_le; lra. } rewrite V5, V6 in V11.
  destruct (add64 o Ho _ _ G10 G11) as [G12 V12]. { rewrite V10, V11. apply (sm _ 20); [lra|]. apply Rabs_le_inv in F4, F5. apply Rabs_le; lra. } rewrite V10, V11 in V12.
  destruct (hsqrt_ok _ G7) as (T & ET & G13 & V13); [rewrite V7; lra|]. rewrite V7 in V13. set (TT := fl (sqrt r)) in *.
  destruct (mul64 o Ho _ _ G13 G8) as [G14 V14]. { rewrite V13, V8. apply (sm _ 3); [lra|]. rewrite Rabs_mult, (Rabs_pos_eq TT), (Rabs_pos_eq (fl _)) by lra. pose proof (mulp TT (fl (/ 2 / r)) 3 1 ltac:(lra) ltac:(lra)). lra. } rewrite V13, V8 in V14.
  destruct (hneg_ok _ G7) as [G15 V15]. rewrite V7 in V15.
  destruct (hfma_ok T T _ G13 G13 G15) as (t & Et & G16 & V16). { rewrite V13, V15, Rabs_Ropp, Rabs_mult, (Rabs_pos_eq r), (Rabs_pos_eq TT) by lra. lra. } { rewrite V13, V15. apply (sm _ 1); [lra|]. apply Rabs_le; lra. }
  rewrite V13, V15 in V16. change (TT * TT + - r)%R with (TT * TT - r)%R in V16.
  destruct (sub64 o Ho _ _ G12 G16) as [G17 V17]. { rewrite V12, V16. apply (sm _ 2); [lra|]. apply Rabs_le_inv in F6, F7. apply Rabs_le; lra. } rewrite V12, V16 in V17.
  destruct (mul64 o Ho _ _ G14 G17) as [G18 V18]. { rewrite V14, V17. apply (sm _ 2); [lra|]. rewrite Rabs_mult, (Rabs_pos_eq (fl (TT * _))) by lra. match goal with |- (?a * Rabs ?b <= _)%R => assert (a * Rabs b <= 1 * 1)%R by (apply Rmult_le_compat; try apply Rabs_pos; lra) end. lra. } rewrite V14, V17 in V18.
  set (tl := fl (_ * _)) in F11, F12, V18.
  destruct (add64 o Ho _ _ G13 G18) as [G19 V19]. { rewrite V13, V18. apply (sm _ 5); [lra|]. apply Rabs_le_inv in F11. apply Rabs_le; lra. } rewrite V13, V18 in V19.
  unfold hypot_fast. rewrite Edx. cbn [bind]. rewrite Edy. cbn [bind]. rewrite ET. cbn [bind]. rewrite Et. cbn [bind].
  eexists _, _, T, (TT + tl)%R. split; [reflexivity|]. split; [exact G19|]. split; [exact V19|]. split; [exact F12|]. split; [reflexivity|]. split; [exact G13|]. rewrite V13. split; [lra|]. apply Rabs_le. lra.
Qed.
End Ops.
