(** Argument reduction below 2^20 pi / 2, and sin and cos from a reduced argument. *)
From Coq Require Import ZArith Reals Bool List Lia Lra Psatz.
From Flocq Require Import Core.
From Verif Require Import Base BaseLemmas FloatModel FloatSpec FloatProofs5 LibmModel LibmSpec FloatConvSpec FloatErr PolyBound Elem ElemModel ElemSpec TrigModel F64Lib ExpProofs3 ExpProofs4 ExpProofs7 ExpProofs8 LogProofs2 TrigPi TrigDist TrigProofs TrigProofs2 TrigProofs4 TrigRed TrigRed2 TrigRed3 TrigRed4.
Import ListNotations.
Open Scope Z_scope.

(** * Signs *)
Lemma fneg_mk s n : 0 <= n < 2 ^ 63 -> fneg (mk64 s n) = mk64 (negb s) n.
Proof. intros H. apply (lxor_mk_top 63); lia. Qed.
Lemma fneg_val y : good y -> good (fneg y) /\ value F64 (fneg y) = (- value F64 y)%R.
Proof.
  intros G. destruct (good_bits y G) as (s & n & -> & Hn). rewrite fneg_mk by lia. split; [apply good64; exact Hn|]. rewrite !value64 by lia. destruct s; cbn [negb]; ring.
Qed.
Lemma within_neg k r y : within k r y -> within k (fneg r) (- y)%R.
Proof.
  intros (F & N & B). destruct (fneg_val r (conj F N)) as [[F' N'] V]. split; [exact F'|]. split; [exact N'|]. rewrite V.
  replace (- value F64 r - - y)%R with (- (value F64 r - y))%R by ring. rewrite Rabs_Ropp. unfold ulp64. rewrite ulp_opp. exact B.
Qed.

(** * Periods *)
Lemma periodZ T q : sin (T + 2 * IZR q * PI) = sin T /\ cos (T + 2 * IZR q * PI) = cos T.
Proof.
  destruct (Z_le_gt_dec 0 q) as [P|N].
  - replace (IZR q) with (INR (Z.to_nat q)) by (rewrite INR_IZR_INZ, Z2Nat.id by exact P; reflexivity). split; [apply sin_period|apply cos_period].
  - set (S := (T + 2 * IZR q * PI)%R). replace T with (S + 2 * INR (Z.to_nat (- q)) * PI)%R; [split; symmetry; [apply sin_period|apply cos_period]|].
    rewrite INR_IZR_INZ, Z2Nat.id by lia. rewrite opp_IZR. unfold S. ring.
Qed.
Lemma trig_shift T n : let k := Z.land n 3 in let X := (T + IZR n * (PI / 2))%R in
  sin X = (if k =? 0 then sin T else if k =? 1 then cos T else if k =? 2 then - sin T else - cos T)%R /\
  cos X = (if k =? 0 then cos T else if k =? 1 then - sin T else if k =? 2 then - cos T else sin T)%R.
Proof.
  cbv zeta. change 3 with (Z.ones 2). rewrite Z.land_ones by lia. change (2 ^ 2) with 4. pose proof (Z.mod_pos_bound n 4 ltac:(lia)) as B. pose proof (Z_div_mod_eq_full n 4) as D.
  set (k := n mod 4) in *. set (q := n / 4) in *.
  assert (E : (T + IZR n * (PI / 2))%R = (T + IZR k * (PI / 2) + 2 * IZR q * PI)%R) by (rewrite D, plus_IZR, mult_IZR; field). rewrite E.
  destruct (periodZ (T + IZR k * (PI / 2)) q) as [-> ->].
  assert (Ck : k = 0 \/ k = 1 \/ k = 2 \/ k = 3) by lia. destruct Ck as [->|[->|[->| ->]]]; cbn [Z.eqb Pos.eqb].
  - rewrite Rmult_0_l, Rplus_0_r. split; reflexivity.
  - rewrite Rmult_1_l. rewrite sin_plus, cos_plus, sin_PI2, cos_PI2. split; ring.
  - replace (2 * (PI / 2))%R with PI by field. rewrite neg_sin, neg_cos. split; reflexivity.
  - replace (3 * (PI / 2))%R with (PI + PI / 2)%R by field. rewrite <- Rplus_assoc. rewrite (sin_plus (T + PI)), (cos_plus (T + PI)), sin_PI2, cos_PI2, neg_sin, neg_cos. split; ring.
Qed.

Section Trig.
Context (o : fops) (Ho : ieee_ops F64 o) (c : icast) (Hc : icast_ok c).

Lemma kernels X n y0 y1 : reduced X n y0 y1 -> within 1 (k_sin o y0 y1 1) (sin (X - IZR n * (PI / 2))) /\ within 1 (k_cos o y0 y1) (cos (X - IZR n * (PI / 2))).
Proof using Ho.
  intros (_ & G0 & G1 & B & L & Y & E). split; [apply (k_sin_1 o Ho); try assumption; lia|apply (k_cos_1 o Ho); assumption].
Qed.
Lemma trig_of X n y0 y1 (k := Z.land n 3) (s := k_sin o y0 y1 1) (cc := k_cos o y0 y1) : reduced X n y0 y1 ->
  within 1 (if k =? 0 then s else if k =? 1 then cc else if k =? 2 then fneg s else fneg cc) (sin X) /\
  within 1 (if k =? 0 then cc else if k =? 1 then fneg s else if k =? 2 then fneg cc else s) (cos X).
Proof using Ho.
  intros H. destruct (kernels X n y0 y1 H) as [KS KC]. fold s in KS. fold cc in KC. set (T := (X - IZR n * (PI / 2))%R) in *.
  pose proof (trig_shift T n) as S. cbv zeta in S. fold k in S. replace (T + IZR n * (PI / 2))%R with X in S by (unfold T; ring). destruct S as [-> ->].
  destruct (k =? 0); [split; assumption|]. destruct (k =? 1); [split; [assumption|apply within_neg; assumption]|]. destruct (k =? 2); split; try apply within_neg; assumption.
Qed.

(** * The constants of the rounds *)
Lemma const_mul a z q (m := 0x6487ed51) : value F64 a = IZR z -> good a -> 1 <= z <= 4 -> q = o_mul o a PIO2_1 -> good q /\ value F64 q = (IZR z * value F64 PIO2_1)%R.
Proof using Ho.
  intros Va Ga Hz ->. destruct (exact_mul o Ho a z PIO2_1 (-30) m Ga Va ltac:(lia) good_P1 value_P1 ltac:(unfold m; lia) ltac:(lia)) as (G & V & _). tauto.
Qed.
Lemma const_mulT a z q e : value F64 a = IZR z -> good a -> 1 <= z <= 4 -> q = o_mul o a PIO2_1T -> (if z =? 3 then e = 5 else e = z) ->
  good q /\ (Rabs (value F64 q - IZR z * (PI / 2 - value F64 PIO2_1)) <= bpow radix2 (-87) * IZR e)%R.
Proof using Ho.
  intros Va Ga Hz -> He. pose proof pi_split1 as PS. pose proof P1T_num as PN. assert (Z14 : (1 <= IZR z <= 4)%R) by (split; apply IZR_le; lia).
  assert (B : (0 <= IZR z * value F64 PIO2_1T <= 4 * 6.0772e-11)%R) by nra.
  destruct (mul64 o Ho a PIO2_1T Ga good_P1T) as [G V]; [rewrite Va; apply (big_le _ 0); [lia|]; change (bpow radix2 0) with 1%R; rewrite Rabs_pos_eq; lra|]. rewrite Va in V. split; [exact G|].
  replace (value F64 (o_mul o a PIO2_1T) - IZR z * (PI / 2 - value F64 PIO2_1))%R with ((value F64 (o_mul o a PIO2_1T) - IZR z * value F64 PIO2_1T) - IZR z * (PI / 2 - (value F64 PIO2_1 + value F64 PIO2_1T)))%R by ring.
  unfold Rminus at 1. eapply Rle_trans; [apply Rabs_triang|]. rewrite Rabs_Ropp, (Rabs_mult (IZR z)), (Rabs_pos_eq (IZR z)) by lra.
  assert (P : (IZR z * Rabs (PI / 2 - (value F64 PIO2_1 + value F64 PIO2_1T)) <= bpow radix2 (-87) * IZR z)%R) by (rewrite Rmult_comm; apply Rmult_le_compat_r; lra).
  rewrite V. destruct (Z.eqb_spec z 3) as [->|N3].
  - subst e. assert (Q : (Rabs (rne F64 (3 * value F64 PIO2_1T) - 3 * value F64 PIO2_1T) <= bpow radix2 (-32 - 54))%R).
    { apply rne_error64; [|lia]. change (bpow radix2 (-32)) with (/ 4294967296)%R. rewrite Rabs_pos_eq; lra. }
    change (-32 - 54) with (1 + -87) in Q. rewrite bpow_plus in Q. change (bpow radix2 1) with 2%R in Q. lra.
  - subst e. assert (EX : rne F64 (IZR z * value F64 PIO2_1T) = (IZR z * value F64 PIO2_1T)%R).
    { rewrite value_P1T. assert (Cz : z = 1 \/ z = 2 \/ z = 4) by lia. destruct Cz as [->|[->| ->]].
      - rewrite Rmult_1_l. apply rne_exact64; lia.
      - replace (2 * (IZR 0x10b4611a626331 * bpow radix2 (-86)))%R with (IZR 0x10b4611a626331 * bpow radix2 (-85))%R by (change (-85) with (1 + -86); rewrite bpow_plus; change (bpow radix2 1) with 2%R; ring). apply rne_exact64; lia.
      - replace (4 * (IZR 0x10b4611a626331 * bpow radix2 (-86)))%R with (IZR 0x10b4611a626331 * bpow radix2 (-84))%R by (change (-84) with (2 + -86); rewrite bpow_plus; change (bpow radix2 2) with 4%R; ring). apply rne_exact64; lia. }
    rewrite EX, Rminus_eq_0, Rabs_R0. lra.
Qed.

(** * The reduction below 2^20 pi / 2 *)
Variable tbl : list Z.
Lemma sign_mk s n : 0 <= n < 2 ^ 63 -> norm (SI 32) (Z.shiftr (mk64 s n) 63) = b2z s.
Proof using.
  clear. intros H. rewrite Z.shiftr_div_pow2 by lia. unfold mk64. rewrite Z.add_comm, Z.div_add, Z.div_small by lia. destruct s; reflexivity.
Qed.
Lemma round_ok s n k a p t e (x := mk64 s n) lo hi zl zh : lo <= n < hi -> 0x3fe921fc00000000 <= lo < 2 ^ 63 -> 0 <= hi < 2 ^ 63 -> kbits 20 F64 lo = Some (Ab zl zl 0) -> kbits 20 F64 hi = Some (Ab zh zh 0) ->
  hi < INF -> 1 <= k <= 4 -> value F64 a = IZR k -> good a ->
  (k = 1 /\ p = PIO2_1 /\ t = PIO2_1T \/ p = o_mul o a PIO2_1 /\ t = o_mul o a PIO2_1T) -> (if k =? 3 then e = 5 else e = k) ->
  (IZR k * (PI / 2) - 0.7855 <= IZR zl * / 1048576)%R -> (IZR zh * / 1048576 <= IZR k * (PI / 2) + 0.7855)%R ->
  (IZR zh * / 1048576 <= IZR k * (PI / 2) - / 4194304 * IZR e \/ IZR k * (PI / 2) + / 4194304 * IZR e <= IZR zl * / 1048576)%R ->
  exists k' y0 y1, rp_round o x (b2z s) k p t = Ok (k', y0, y1) /\ reduced (value F64 x) k' y0 y1.
Proof using Ho.
  intros Hn Hlo Hhi Kl Kh HI Hk Va Ga Hpt He B1 B2 B3.
  assert (ML : (fx 20 zl <= mag64 n)%R) by (apply (mag_ge lo); [exact Kl|lia|lia]). assert (MH : (mag64 n < fx 20 zh)%R) by (apply (mag_lt hi); [exact Kh|lia|lia]).
  unfold fx in ML, MH. change (bpow radix2 (- (20))) with (/ 1048576)%R in ML, MH.
  assert (M0 : (/ 2 <= mag64 n)%R). { apply Rle_trans with (fx 19 0x6487f); [unfold fx; change (bpow radix2 (- (19))) with (/ 524288)%R; lra|]. apply (mag_ge 0x3fe921fc00000000); [vm_compute; reflexivity|lia|lia]. }
  assert (e15 : 1 <= e <= 5) by (destruct (k =? 3); lia). assert (E1 : (1 <= IZR e)%R) by (apply IZR_le; lia).
  assert (PT : good p /\ value F64 p = (IZR k * value F64 PIO2_1)%R /\ good t /\ (Rabs (value F64 t - IZR k * (PI / 2 - value F64 PIO2_1)) <= bpow radix2 (-87) * IZR e)%R).
  { destruct Hpt as [(-> & -> & ->)|(Ep & Et)].
    - cbn in He. subst e. split; [apply good_P1|]. split; [ring|]. split; [apply good_P1T|]. pose proof pi_split1 as PS. rewrite <- Rabs_Ropp in PS. replace (value F64 PIO2_1T - 1 * (PI / 2 - value F64 PIO2_1))%R with (- (PI / 2 - (value F64 PIO2_1 + value F64 PIO2_1T)))%R by ring. lra.
    - destruct (const_mul a k p Va Ga Hk Ep) as [Gp Vp]. destruct (const_mulT a k t e Va Ga Hk Et He) as [Gt Vt]. tauto. }
  destruct PT as (Gp & Vp & Gt & Vt).
  apply (rp_round_ok o Ho s n k p t (/ 4194304 * IZR e)); try assumption; try lia.
  - replace (bpow radix2 (-65) * (/ 4194304 * IZR e))%R with (bpow radix2 (-87) * IZR e)%R; [exact Vt|]. change (/ 4194304)%R with (bpow radix2 (-22)). rewrite <- Rmult_assoc, <- bpow_plus. reflexivity.
  - change (bpow radix2 (-23)) with (/ 8388608)%R. lra.
  - split; [|apply Rabs_le; lra]. destruct B3 as [B3|B3]; [rewrite Rabs_left1; lra|rewrite Rabs_pos_eq; lra].
Qed.
Lemma hx_div n a : (a <=? n / 2 ^ 32) = (a * 2 ^ 32 <=? n).
Proof using. clear. apply eq_true_iff_eq. rewrite !Z.leb_le. split; intros H; [pose proof (Z.mul_div_le n (2 ^ 32) ltac:(lia)); lia|apply Z.div_le_lower_bound; lia]. Qed.
Lemma hx_div' n a : (n / 2 ^ 32 <=? a) = (n <? (a + 1) * 2 ^ 32).
Proof using. clear. apply eq_true_iff_eq. rewrite Z.leb_le, Z.ltb_lt. pose proof (Z_div_mod_eq_full n (2 ^ 32)). pose proof (Z.mod_pos_bound n (2 ^ 32) ltac:(lia)). split; intros; [lia|apply Z.lt_succ_r, Z.div_lt_upper_bound; lia]. Qed.
Lemma hx_eq n a : (n / 2 ^ 32 =? a) = (a * 2 ^ 32 <=? n) && (n <? (a + 1) * 2 ^ 32).
Proof using. clear. rewrite <- hx_div, <- hx_div'. apply eq_true_iff_eq. rewrite andb_true_iff, Z.eqb_eq, !Z.leb_le. lia. Qed.
Lemma land_921fb n : 0x3fe921fc <= n <= 0x400f6a7a -> (Z.land n 0xfffff =? 0x921fb) = (n =? 0x3ff921fb) || (n =? 0x400921fb).
Proof using.
  clear. intros H. change 0xfffff with (Z.ones 20). rewrite Z.land_ones by lia. pose proof (Z_div_mod_eq_full n (2 ^ 20)). pose proof (Z.mod_pos_bound n (2 ^ 20) ltac:(lia)).
  apply eq_true_iff_eq. rewrite orb_true_iff, !Z.eqb_eq. assert (0x3fe <= n / 2 ^ 20 <= 0x400) by (split; [apply Z.div_le_lower_bound; lia|apply Z.lt_succ_r, Z.div_lt_upper_bound; lia]).
  change (2 ^ 20) with 1048576 in *. lia.
Qed.
Ltac num := let P := fresh in pose proof pi_num as P; lra.
Lemma rem_pio2_small fuel s n (x := mk64 s n) : 0x3fe921fc00000000 <= n < 0x413921fb00000000 ->
  exists k y0 y1, rem_pio2 o c tbl fuel x = Ok (k, y0, y1) /\ reduced (value F64 x) k y0 y1.
Proof using Ho Hc.
  intros Hn. unfold rem_pio2, x. rewrite sign_mk, high_abs by lia. rewrite !hx_div', hx_eq, hx_eq. replace (n / 2 ^ 32 <? 0x413921fb) with true by (symmetry; apply Z.ltb_lt, Z.div_lt_upper_bound; lia).
  assert (G1 : good one) by (unfold one; const_good). assert (G2 : good two) by (unfold two; const_good). assert (G3 : good three) by (unfold three; const_good). assert (G4 : good four) by (unfold four; const_good).
  assert (V1 : value F64 one = 1%R) by (rewrite (kb_val 0 one 1 eq_refl); unfold fx; cbn [bpow Z.opp]; ring). assert (V2 : value F64 two = 2%R) by (rewrite (kb_val 0 two 2 eq_refl); unfold fx; cbn [bpow Z.opp]; ring).
  assert (V3 : value F64 three = 3%R) by (rewrite (kb_val 0 three 3 eq_refl); unfold fx; cbn [bpow Z.opp]; ring). assert (V4 : value F64 four = 4%R) by (rewrite (kb_val 0 four 4 eq_refl); unfold fx; cbn [bpow Z.opp]; ring).
  destruct (Z.ltb_spec n ((0x400f6a7a + 1) * 2 ^ 32)) as [L1|L1].
  - rewrite land_921fb by (split; [apply Z.div_le_lower_bound; lia|apply Z.lt_succ_r, Z.div_lt_upper_bound; lia]). rewrite !hx_eq.
    destruct (((0x3ff921fb * 2 ^ 32 <=? n) && (n <? (0x3ff921fb + 1) * 2 ^ 32)) || ((0x400921fb * 2 ^ 32 <=? n) && (n <? (0x400921fb + 1) * 2 ^ 32))) eqn:E; [apply (rp_medium_ok o Ho c Hc s n); lia|].
    destruct (Z.ltb_spec n ((0x4002d97c + 1) * 2 ^ 32)) as [L2|L2].
    + destruct (Z_lt_ge_dec n 0x3ff921fb00000000) as [L3|L3].
      * apply (round_ok s n 1 one PIO2_1 PIO2_1T 1 0x3fe921fc00000000 0x3ff921fb00000000 823550 1647099); try lia; try reflexivity; try assumption; [num|num|left; num].
      * apply (round_ok s n 1 one PIO2_1 PIO2_1T 1 0x3ff921fc00000000 0x4002d97d00000000 1647100 2470650); try lia; try reflexivity; try assumption; [num|num|right; num].
    + destruct (Z_lt_ge_dec n 0x400921fb00000000) as [L3|L3].
      * apply (round_ok s n 2 two _ _ 2 0x4002d97d00000000 0x400921fb00000000 2470650 3294198); try lia; try reflexivity; try assumption; [num|num|left; num].
      * apply (round_ok s n 2 two _ _ 2 0x400921fc00000000 0x400f6a7b00000000 3294200 4117750); try lia; try reflexivity; try assumption; [num|num|right; num].
  - destruct (Z.ltb_spec n ((0x401c463b + 1) * 2 ^ 32)) as [L2|L2]; [|apply (rp_medium_ok o Ho c Hc s n); lia].
    destruct (Z.ltb_spec n ((0x4015fdbc + 1) * 2 ^ 32)) as [L3|L3].
    + destruct ((0x4012d97c * 2 ^ 32 <=? n) && (n <? (0x4012d97c + 1) * 2 ^ 32)) eqn:E; [apply (rp_medium_ok o Ho c Hc s n); lia|].
      destruct (Z_lt_ge_dec n 0x4012d97c00000000) as [L4|L4].
      * apply (round_ok s n 3 three _ _ 5 0x400f6a7b00000000 0x4012d97c00000000 4117750 4941296); try lia; try reflexivity; try assumption; [num|num|left; num].
      * apply (round_ok s n 3 three _ _ 5 0x4012d97d00000000 0x4015fdbd00000000 4941300 5764852); try lia; try reflexivity; try assumption; [num|num|right; num].
    + destruct ((0x401921fb * 2 ^ 32 <=? n) && (n <? (0x401921fb + 1) * 2 ^ 32)) eqn:E; [apply (rp_medium_ok o Ho c Hc s n); lia|].
      destruct (Z_lt_ge_dec n 0x401921fb00000000) as [L4|L4].
      * apply (round_ok s n 4 four _ _ 4 0x4015fdbd00000000 0x401921fb00000000 5764852 6588396); try lia; try reflexivity; try assumption; [num|num|left; num].
      * apply (round_ok s n 4 four _ _ 4 0x401921fc00000000 0x401c463c00000000 6588400 7411952); try lia; try reflexivity; try assumption; [num|num|right; num].
Qed.
End Trig.
