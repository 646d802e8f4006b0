(** Accuracy of exp: the multiple of ln 2 and the final result. *)
From Coq Require Import ZArith Reals Bool List Lia Lra Psatz.
From Flocq Require Import Core.
From Verif Require Import Base BaseLemmas FloatModel FloatSpec FloatProofs FloatConvSpec LibmModel LibmSpec LibmProps Elem FloatErr PolyBound ElemModel ElemSpec F64Lib ExpProofs ExpProofs2 ExpProofs3 ExpProofs4 ExpProofs5 ExpProofs6.
Import ListNotations.
Open Scope Z_scope.

Lemma Rabs64 s n : 0 <= n < 2 ^ 63 -> Rabs (value F64 (mk64 s n)) = mag64 n.
Proof.
  intros H. rewrite value64 by exact H. pose proof (mag_nonneg64 n ltac:(lia)).
  destruct s; [rewrite Rabs_Ropp|]; apply Rabs_pos_eq; assumption.
Qed.
Lemma good64 s n : 0 <= n < INF -> good (mk64 s n).
Proof. intros H. split; [apply float64; lia|apply finite64; lia]. Qed.
Lemma good_split x : good x -> exists s n, x = mk64 s n /\ 0 <= n < INF.
Proof. intros [F N]. destruct (split64 x F) as (s & n & -> & H). apply finite64 in N; [|exact H]. exists s, n. split; [reflexivity|lia]. Qed.
Lemma mag_ge c z P n : kbits P F64 c = Some (Ab z z 0) -> 0 <= c < 2 ^ 63 -> c <= n -> (fx P z <= mag64 n)%R.
Proof. intros K Hc H. rewrite <- (kb_val P c z K), <- mag_value by exact Hc. apply mag_le64. lia. Qed.
Lemma mag_lt c z P n : kbits P F64 c = Some (Ab z z 0) -> 0 <= c < 2 ^ 63 -> 0 <= n < c -> (mag64 n < fx P z)%R.
Proof. intros K Hc H. rewrite <- (kb_val P c z K), <- mag_value by exact Hc. apply mag_lt64. lia. Qed.

Lemma INVLN2_num : (1.442695040888963 < value F64 INVLN2 < 1.442695040888964)%R.
Proof.
  rewrite (kb_val 52 INVLN2 0x171547652b82fe) by (vm_compute; reflexivity). unfold fx. change (bpow radix2 (- (52))) with (/ 4503599627370496)%R. lra.
Qed.
Lemma value_half s : value F64 (if s : bool then 0xbfe0000000000000 else 0x3fe0000000000000) = (if s then - / 2 else / 2)%R.
Proof.
  destruct s; [rewrite (kb_val 1 _ (-1)) by (vm_compute; reflexivity)|rewrite (kb_val 1 _ 1) by (vm_compute; reflexivity)]; unfold fx; cbn; lra.
Qed.

Lemma good_INVLN2 : good INVLN2. Proof. const_good. Qed.
Lemma good_half s : good (if s : bool then 0xbfe0000000000000 else 0x3fe0000000000000). Proof. destruct s; const_good. Qed.

Section Final.
Context (o : fops) (Ho : ieee_ops F64 o) (c : icast) (Hc : icast_ok c).

Lemma exp_k_ok s n (x := mk64 s n) (X := value F64 x) : 0 <= n < INF -> 0x3ff0a2b200000000 <= n -> (-746 <= X <= 746)%R ->
  exists k, c_toi c (o_add o (o_mul o INVLN2 x) (if s then 0xbfe0000000000000 else 0x3fe0000000000000)) = k /\ (Rabs (X - IZR k * ln 2) <= 0.3466)%R.
Proof using Ho Hc.
  intros Hn H1 HX. eexists. split; [reflexivity|]. pose proof INVLN2_num as IN. pose proof ln2_num as L2.
  assert (Gx : good x) by (apply good64; exact Hn). pose proof good_INVLN2 as GI.
  assert (GH : good (if s then 0xbfe0000000000000 else 0x3fe0000000000000)) by apply good_half.
  set (hb := if s then 0xbfe0000000000000 else 0x3fe0000000000000) in *.
  assert (VH : value F64 hb = (if s then - / 2 else / 2)%R) by apply value_half.
  assert (MG : (1 <= mag64 n)%R).
  { apply Rle_trans with (fx 0 1); [unfold fx; cbn; lra|]. apply (mag_ge one 1 0); [vm_compute; reflexivity|unfold one; lia|unfold one; lia]. }
  assert (XS : (if s then X <= -1 else 1 <= X)%R).
  { unfold X, x. rewrite value64 by lia. destruct s; lra. }
  set (q := (X / ln 2)%R). assert (Eq : X = (q * ln 2)%R) by (unfold q; field; lra).
  assert (Bq : (-1100 <= q <= 1100)%R).
  { split; apply Rmult_le_reg_r with (ln 2); try lra; rewrite <- Eq; lra. }
  assert (QS : (if s then q <= -1 else 1 <= q)%R) by (clear - XS Eq L2; destruct s; nra).
  set (i := value F64 INVLN2) in *.
  assert (EI : (-0.0000000001 <= i * X - q <= 0.0000000001)%R).
  { rewrite Eq. replace (i * (q * ln 2) - q)%R with (q * (i * ln 2 - 1))%R by ring.
    assert (-0.00000000000004 <= i * ln 2 - 1 <= 0.00000000000004)%R.
    { split.
      - assert (1.442695040888963 * 0.69314718055994 <= i * ln 2)%R by (apply Rmult_le_compat; lra). lra.
      - assert (i * ln 2 <= 1.442695040888964 * 0.69314718055996)%R by (apply Rmult_le_compat; lra). lra. }
    assert (Rabs (q * (i * ln 2 - 1)) <= 1100 * 0.00000000000004)%R.
    { rewrite Rabs_mult. apply Rmult_le_compat; try apply Rabs_pos; apply Rabs_le; lra. }
    apply Rabs_le_inv in H0. lra. }
  assert (B1 : (Rabs (i * X) < bpow radix2 11)%R) by (apply Rabs_lt; change (bpow radix2 11) with 2048%R; lra).
  destruct (mul64 o Ho INVLN2 x GI Gx) as [G1 V1].
  { fold i X. apply Rle_trans with (bpow radix2 11); [lra|apply bpow_le; lia]. }
  fold i X in V1. pose proof (rne_error64 11 _ B1 ltac:(lia)) as R1. rewrite <- V1 in R1. change (bpow radix2 (11 - 54)) with (/ 8796093022208)%R in R1. apply Rabs_le_inv in R1.
  set (w := o_mul o INVLN2 x) in *.
  assert (B2 : (Rabs (value F64 w + value F64 hb) < bpow radix2 11)%R).
  { rewrite VH. apply Rabs_lt; change (bpow radix2 11) with 2048%R. destruct s; lra. }
  destruct (add64 o Ho w hb G1 GH) as [G2 V2].
  { apply Rle_trans with (bpow radix2 11); [lra|apply bpow_le; lia]. }
  pose proof (rne_error64 11 _ B2 ltac:(lia)) as R2. rewrite <- V2 in R2. change (bpow radix2 (11 - 54)) with (/ 8796093022208)%R in R2. apply Rabs_le_inv in R2.
  set (t := o_add o w hb) in *. rewrite VH in R2.
  destruct (cast_toi c Hc t (proj1 G2)) as (_ & _ & K). specialize (K (proj2 G2)). set (v := value F64 t) in *. rewrite K. clear K.
  assert (BV : (-1200 <= v <= 1200)%R) by (destruct s; lra).
  assert (KZ : -1201 <= Ztrunc v <= 1201).
  { split.
    - replace (-1201) with (Ztrunc (IZR (-1201))) by apply Ztrunc_IZR. apply Ztrunc_le. lra.
    - replace 1201 with (Ztrunc (IZR 1201)) by apply Ztrunc_IZR. apply Ztrunc_le. lra. }
  replace (clamp (SI 32) (Ztrunc v)) with (Ztrunc v) by (unfold clamp; cbn; lia). set (k := Ztrunc v) in *.
  assert (D : (- 0.50000001 <= q - IZR k <= 0.50000001)%R).
  { destruct s.
    - assert (E : k = Zceil v) by (apply Ztrunc_ceil; lra). pose proof (Zceil_ub v). pose proof (Zceil_lb v). rewrite <- E in *. lra.
    - assert (E : k = Zfloor v) by (apply Ztrunc_floor; lra). pose proof (Zfloor_ub v). pose proof (Zfloor_lb v). rewrite <- E in *. lra. }
  rewrite Eq, <- Rmult_minus_distr_r, Rabs_mult, (Rabs_pos_eq (ln 2)) by lra.
  apply Rle_trans with (0.50000001 * 0.69314718055996)%R; [|lra]. apply Rmult_le_compat; [apply Rabs_pos|lra|apply Rabs_le; lra|lra].
Qed.
End Final.
