(** sin, cos and sincos: tiny arguments, special arguments, and the assembly. *)
From Coq Require Import ZArith Reals Bool List Lia Lra Psatz.
From Flocq Require Import Core.
From Verif Require Import Base BaseLemmas FloatModel FloatSpec FloatProofs5 LibmModel LibmSpec LibmProps FloatConvSpec FloatErr PolyBound Elem ElemModel ElemSpec TrigModel F64Lib ExpProofs3 ExpProofs4 ExpProofs5 ExpProofs7 ExpProofs8 LogProofs LogProofs2 LogProofs4 TrigProofs TrigProofs2 TrigProofs3 TrigProofs4 TrigPi TrigDist TrigRed TrigRed2 TrigRed3 TrigRed4 TrigRed5 TrigLg TrigLg2 TrigLg10.
Import ListNotations.
Open Scope Z_scope.

Lemma ulp64_rel y : (Rabs y * bpow radix2 (-53) <= ulp64 y)%R.
Proof. left. unfold ulp64. assert (P : Prec_gt_0 (prec F64)) by exact Hp64. exact (ulp_FLT_gt radix2 (emin F64) (prec F64) y). Qed.
Lemma sin_tiny_pos x : (0 <= x <= bpow radix2 (-26) -> Rabs (x - sin x) <= ulp64 (sin x))%R.
Proof.
  intros [x0 x1]. assert (q : bpow radix2 (-26) = (/ 67108864)%R) by reflexivity. rewrite q in x1. pose proof pi_num as PN.
  destruct (sin_bound x 0 ltac:(lra) ltac:(lra)) as [L H]. unfold sin_approx, sin_term in L, H. cbn in L, H.
  assert (L' : (x - x * (x * x) / 6 <= sin x)%R) by lra. clear L.
  assert (XX : (x * x <= / 67108864 * / 67108864)%R) by (apply Rmult_le_compat; lra).
  assert (X3 : (0 <= x * (x * x) <= x * (/ 67108864 * / 67108864))%R) by (split; [apply Rmult_le_pos; [lra|apply Rmult_le_pos; lra]|apply Rmult_le_compat_l; lra]).
  assert (S1 : (sin x <= x)%R). { destruct (Req_dec x 0) as [->|N]; [rewrite sin_0; lra|]. left. apply sin_lt_x. lra. }
  assert (S0 : (0 <= sin x)%R) by lra.
  eapply Rle_trans; [|apply ulp64_rel]. rewrite Rabs_pos_eq by lra. rewrite (Rabs_pos_eq (sin x)) by lra. replace (bpow radix2 (-53)) with (/ 67108864 * / 67108864 * / 2)%R; [lra|]. rewrite <- q. change (/ 2)%R with (bpow radix2 (-1)). rewrite <- !bpow_plus. reflexivity.
Qed.
Lemma sin_tiny x : (Rabs x <= bpow radix2 (-26) -> Rabs (x - sin x) <= ulp64 (sin x))%R.
Proof.
  intros H. destruct (Rle_lt_dec 0 x) as [P|N]; [rewrite Rabs_pos_eq in H by exact P; apply sin_tiny_pos; lra|]. rewrite Rabs_left in H by exact N.
  pose proof (sin_tiny_pos (- x) ltac:(lra)) as Q. rewrite sin_neg, ulp64_opp in Q. replace (- x - - sin x)%R with (- (x - sin x))%R in Q by ring. rewrite Rabs_Ropp in Q. exact Q.
Qed.
Lemma cos_tiny x : (Rabs x <= bpow radix2 (-26) -> Rabs (1 - cos x) <= ulp64 (cos x))%R.
Proof.
  intros H. assert (q : bpow radix2 (-26) = (/ 67108864)%R) by reflexivity. rewrite q in H. apply Rabs_le_inv in H. pose proof pi_num as PN.
  destruct (cos_bound x 0 ltac:(lra) ltac:(lra)) as [L _]. unfold cos_approx, cos_term in L. cbn in L. pose proof (COS_bound x) as [_ U].
  assert (XX : (x * x <= / 67108864 * / 67108864)%R) by nra.
  assert (q53 : bpow radix2 (-53) = (/ 67108864 * / 67108864 * / 2)%R). { rewrite <- q. change (/ 2)%R with (bpow radix2 (-1)). rewrite <- !bpow_plus. reflexivity. }
  rewrite Rabs_pos_eq by lra. apply Rle_trans with (bpow radix2 (0 - 53)); [change (0 - 53) with (-53); rewrite q53; lra|]. apply ulp64_ge. change (bpow radix2 (0 - 1)) with (/ 2)%R. rewrite Rabs_pos_eq; lra.
Qed.
Ltac no := let Q := fresh in intros Q; exfalso; match goal with FI : is_finite _ _ <-> _, ZE : is_zero _ _ <-> _ |- _ => (rewrite FI in Q || rewrite ZE in Q); lia end.
Section Trig.
Context (o : fops) (Ho : ieee_ops F64 o) (c : icast) (Hc : icast_ok c) (tbl : list Z) (Ht : forall j, 0 <= j < 66 -> tab tbl j = Ok (tt j)).
Lemma ix_lt n a : 0 <= n -> (n / 2 ^ 32 <? a) = (n <? a * 2 ^ 32).
Proof using. clear. intros _. rewrite !Z.ltb_antisym, hx_div. reflexivity. Qed.
Lemma trig_direct x s n : x = mk64 s n -> 0x3e46a09e00000000 <= n < 0x3fe921fc00000000 -> within 1 (k_sin o x 0 0) (sin (value F64 x)) /\ within 1 (k_cos o x 0) (cos (value F64 x)).
Proof using Ho.
  intros E Hn. assert (G : good x) by (rewrite E; apply good64; lia). assert (AX : Rabs (value F64 x) = mag64 n) by (rewrite E; apply Rabs64; lia).
  assert (H : (mag64 n <= 0.7856)%R). { left. apply Rlt_le_trans with (fx 20 823550). apply (mag_lt 0x3fe921fc00000000); [vm_compute; reflexivity|lia|lia]. unfold fx. change (bpow radix2 (- (20))) with (/ 1048576)%R. lra. }
  assert (L : (bpow radix2 (-70) <= mag64 n)%R). { apply Rle_trans with (fx 70 1); [unfold fx; rewrite Rmult_1_l; apply Rle_refl|]. apply (mag_ge 0x3b90000000000000); [vm_compute; reflexivity|lia|lia]. }
  rewrite <- AX in H, L. split; [apply k_sin_0; assumption|]. assert (V0 : value F64 0 = 0%R) by apply value_zero. assert (x0 := Rabs_pos (value F64 x)).
  apply k_cos_1; [exact Ho|exact G|apply good_zero|exact H| |]; rewrite V0; [rewrite Rabs_R0; pose proof (bpow_gt_0 radix2 (-58)); nra|]. rewrite Rplus_0_r, Rminus_eq_0, Rabs_R0. pose proof (bpow_gt_0 radix2 (-62)). nra.
Qed.
Lemma trig_small x s n : x = mk64 s n -> 0 <= n < 0x3e50000000000000 -> within 1 x (sin (value F64 x)) /\ within 1 one (cos (value F64 x)).
Proof using.
  clear. intros E Hn. assert (G : good x) by (rewrite E; apply good64; lia). assert (AX : Rabs (value F64 x) = mag64 n) by (rewrite E; apply Rabs64; lia).
  assert (H : (mag64 n <= bpow radix2 (-26))%R). { left. apply Rlt_le_trans with (fx 26 1). apply (mag_lt 0x3e50000000000000); [vm_compute; reflexivity|lia|lia]. unfold fx. rewrite Rmult_1_l. apply Rle_refl. }
  rewrite <- AX in H. destruct G as (F & N). split; (split; [|split]); try assumption; try apply good_one; rewrite Rmult_1_l; [apply sin_tiny; exact H|]. rewrite value_one. apply cos_tiny. exact H.
Qed.
Lemma rem_trig fuel x s n : (4 <= fuel)%nat -> x = mk64 s n -> 0x3fe921fc00000000 <= n < INF -> exists k y0 y1, rem_pio2 o c tbl fuel x = Ok (k, y0, y1) /\
  (let q := Z.land k 3 in let s := k_sin o y0 y1 1 in let cc := k_cos o y0 y1 in
  within 1 (if q =? 0 then s else if q =? 1 then cc else if q =? 2 then fneg s else fneg cc) (sin (value F64 x)) /\
  within 1 (if q =? 0 then cc else if q =? 1 then fneg s else if q =? 2 then fneg cc else s) (cos (value F64 x))).
Proof using Ho Hc Ht.
  intros Hf -> Hn. destruct (rem_pio2_ok o Ho c Hc tbl Ht fuel s n Hf Hn) as (k & y0 & y1 & j & E & R). exists k, y0, y1. split; [exact E|]. cbv zeta. pose proof (trig_of o Ho _ k y0 y1 R) as T.
  pose proof (periodZ (value F64 (mk64 s n)) (- j)) as [P1 P2]. rewrite opp_IZR in P1, P2. replace (value F64 (mk64 s n) + 2 * - IZR j * PI)%R with (value F64 (mk64 s n) - 2 * IZR j * PI)%R in P1, P2 by ring. rewrite P1, P2 in T. exact T.
Qed.
Lemma trig_all fuel x : (4 <= fuel)%nat -> is_float F64 x -> exists r q, libm_sin o c tbl fuel x = Ok r /\ libm_cos o c tbl fuel x = Ok q /\ is_float F64 r /\ is_float F64 q /\
  (~ is_finite F64 x -> is_nan F64 r /\ is_nan F64 q) /\ (is_finite F64 x -> within 1 r (sin (value F64 x)) /\ within 1 q (cos (value F64 x))) /\ ((is_zero F64 x -> r = x /\ q = one)) /\
  exists r' q', libm_sincos o c tbl fuel x = Ok (r', q') /\ is_float F64 r' /\ is_float F64 q' /\
  (~ is_finite F64 x -> is_nan F64 r' /\ is_nan F64 q') /\ (is_finite F64 x -> within 1 r' (sin (value F64 x)) /\ within 1 q' (cos (value F64 x))) /\ (is_zero F64 x -> r' = x /\ q' = one).
Proof using Ho Hc Ht.
  intros Hf F. destruct (split64 x F) as (s & n & E & Hn). unfold libm_sin, libm_cos, libm_sincos.
  replace (Z.land (high_word x) 0x7fffffff) with (n / 2 ^ 32) by (rewrite E, high_abs by lia; reflexivity). rewrite hx_div', hx_div, !ix_lt by lia.
  assert (FI : is_finite F64 x <-> n < INF) by (rewrite E; apply finite64; exact Hn). assert (ZE : is_zero F64 x <-> n = 0) by (rewrite E; apply zero64; exact Hn).
  destruct (Z.ltb_spec n ((0x3fe921fb + 1) * 2 ^ 32)) as [L|L].
  - assert (C0 : n < 0x3e46a09e00000000 -> c_toi c x = 0).
    { intros H. assert (G : good x) by (rewrite E; apply good64; lia). destruct G as (Gf & Gn). destruct (cast_toi c Hc x Gf) as (_ & _ & K). specialize (K Gn). rewrite K.
      assert (AX : Rabs (value F64 x) = mag64 n) by (rewrite E; apply Rabs64; lia). assert (HB : (mag64 n < 1)%R). { apply Rlt_le_trans with (fx 0 1). apply (mag_lt 0x3ff0000000000000); [vm_compute; reflexivity|lia|lia]. unfold fx. cbn. lra. }
      rewrite <- AX in HB. apply Rabs_def2 in HB. assert (T0 : Ztrunc (value F64 x) = 0). { unfold Ztrunc. destruct (Rlt_bool_spec (value F64 x) 0) as [N|N]; [apply Zceil_imp; cbn; lra|apply Zfloor_imp; cbn; lra]. } rewrite T0. reflexivity. }
    assert (A : exists r, (if n <? 0x3e500000 * 2 ^ 32 then Ok x else Ok (k_sin o x 0 0)) = Ok r /\ within 1 r (sin (value F64 x)) /\ (n = 0 -> r = x)).
    { destruct (Z.ltb_spec n (0x3e500000 * 2 ^ 32)) as [L2|L2]; eexists; (split; [reflexivity|]); [|split; [|lia]; apply (trig_direct x s n E); lia]. split; [|reflexivity]. apply (trig_small x s n E). lia. }
    assert (B : exists r, (if (n <? 0x3e46a09e * 2 ^ 32) && (c_toi c x =? 0) then Ok one else Ok (k_cos o x 0)) = Ok r /\ within 1 r (cos (value F64 x)) /\ (n = 0 -> r = one)).
    { destruct (Z.ltb_spec n (0x3e46a09e * 2 ^ 32)) as [L2|L2]; cbn [andb].
      - rewrite C0 by lia. eexists. split; [reflexivity|]. split; [|reflexivity]. apply (trig_small x s n E). lia.
      - eexists. split; [reflexivity|]. split; [|lia]. apply (trig_direct x s n E). lia. }
    assert (C : exists r q, (if n <? 0x3e46a09e * 2 ^ 32 then Ok (x, one) else Ok (k_sin o x 0 0, k_cos o x 0)) = Ok (r, q) /\ within 1 r (sin (value F64 x)) /\ within 1 q (cos (value F64 x)) /\ (n = 0 -> r = x /\ q = one)).
    { destruct (Z.ltb_spec n (0x3e46a09e * 2 ^ 32)) as [L2|L2]; do 2 eexists; (split; [reflexivity|]).
      - destruct (trig_small x s n E ltac:(lia)) as [T1 T2]. auto.
      - destruct (trig_direct x s n E ltac:(lia)) as [T1 T2]. split; [exact T1|]. split; [exact T2|]. lia. }
    destruct A as (r & ER & WR & ZR). destruct B as (q & EQ & WQ & ZQ). destruct C as (r' & q' & EC & WR' & WQ' & ZZ). exists r, q. split; [exact ER|]. split; [exact EQ|].
    split; [apply WR|]. split; [apply WQ|]. split; [no|]. split; [auto|]. split; [rewrite ZE; auto|]. exists r', q'. split; [exact EC|]. split; [apply WR'|]. split; [apply WQ'|]. split; [no|]. split; [auto|]. rewrite ZE. exact ZZ.
  - destruct (Z.leb_spec (0x7ff00000 * 2 ^ 32) n) as [G|G].
    + destruct (ops_sub F64 o Ho x x F F) as (Fs & _). assert (NN : is_nan F64 (o_sub o x x)) by (destruct (sub_self o Ho x F) as [[Q _]|[_ Q]]; [exact Q|apply FI in Q; lia]).
      do 2 eexists. split; [reflexivity|]. split; [reflexivity|]. split; [exact Fs|]. split; [exact Fs|]. split; [auto|]. split; [no|]. split; [no|]. do 2 eexists. split; [reflexivity|]. split; [exact Fs|]. split; [exact Fs|]. split; [auto|]. split; [no|]. no.
    + destruct (rem_trig fuel x s n Hf E ltac:(lia)) as (k & y0 & y1 & -> & W). cbn [bind]. cbv zeta in W. destruct W as [W1 W2]. do 2 eexists. split; [reflexivity|]. split; [reflexivity|].
      split; [apply W1|]. split; [apply W2|]. split; [no|]. split; [auto|]. split; [no|].
      set (q := Z.land k 3) in *. clearbody q. destruct (q =? 0); [|destruct (q =? 1); [|destruct (q =? 2)]]; do 2 eexists; (split; [reflexivity|]); (split; [apply W1|]); (split; [apply W2|]); (split; [no|]); (split; [auto|]); no.
Qed.
End Trig.
