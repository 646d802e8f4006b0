(** rem_pio2 for large arguments, and the three functions. *)
From Coq Require Import ZArith Reals Bool List Lia Lra Psatz.
From Flocq Require Import Core.
From Verif Require Import Base BaseLemmas FloatModel FloatSpec FloatProofs5 LibmModel LibmSpec LibmProps FloatConvSpec FloatErr PolyBound Elem ElemModel ElemSpec TrigModel F64Lib ExpProofs3 ExpProofs4 ExpProofs7 LogProofs2 LogProofs4 TrigProofs4 TrigPi TrigDist TrigRed TrigRed2 TrigRed3 TrigRed4 TrigRed5 TrigLg TrigLg2 TrigLg3 TrigLg4 TrigLg5 TrigLg6 TrigLg7 TrigLg8 TrigLg9.
Import ListNotations.
Open Scope Z_scope.

Lemma mag_norm n : 2 ^ 52 <= n < INF -> mag64 n = (IZR (2 ^ 52 + n mod 2 ^ 52) * bpow radix2 (n / 2 ^ 52 - 1075))%R.
Proof.
  intros Hn. set (E := n / 2 ^ 52). set (q := 2 ^ 52 + n mod 2 ^ 52).
  assert (HE : 1 <= E <= 2046) by (unfold E; split; [apply Z.div_le_lower_bound; lia|assert (n / 2 ^ 52 < 2047) by (apply Z.div_lt_upper_bound; lia); lia]).
  pose proof (Z.mod_pos_bound n (2 ^ 52) ltac:(lia)) as MB. pose proof (Z_div_mod_eq_full n (2 ^ 52)) as D. fold E in D.
  assert (EN : n = FloatProofs.enc F64 E q) by (unfold FloatProofs.enc, q; change (fs F64) with 52; lia).
  pose proof (LibmProofs.mag_enc F64 W64 E q ltac:(lia)) as Q. change (fs F64) with 52 in Q. specialize (Q ltac:(unfold q; lia) ltac:(right; unfold q; lia)). rewrite <- EN in Q.
  unfold mag64. change (bias F64) with 1023 in Q. replace (E - 1075) with (E - 1023 - 52) by lia. exact Q.
Qed.
Lemma reduced_neg X n y0 y1 : reduced X n y0 y1 -> reduced (- X) (- n) (fneg y0) (fneg y1).
Proof.
  unfold reduced. intros (H1 & G0 & G1 & H2 & H3 & H4 & H5). destruct (fneg_val y0 G0) as (G0' & ->). destruct (fneg_val y1 G1) as (G1' & ->). rewrite !Rabs_Ropp, opp_IZR.
  split; [lia|]. split; [exact G0'|]. split; [exact G1'|]. split; [exact H2|]. split; [exact H3|]. split; [exact H4|].
  replace (- X - - IZR n * (PI / 2) - (- value F64 y0 + - value F64 y1))%R with (- (X - IZR n * (PI / 2) - (value F64 y0 + value F64 y1)))%R by ring. rewrite Rabs_Ropp. exact H5.
Qed.
Lemma el3 (a b d : Z) j : 0 <= j -> el [a; b; d] j = if j =? 0 then a else if j =? 1 then b else if j =? 2 then d else 0.
Proof.
  intros H. destruct (Z.eqb_spec j 0) as [->|N0]; [reflexivity|]. destruct (Z.eqb_spec j 1) as [->|N1]; [reflexivity|]. destruct (Z.eqb_spec j 2) as [->|N2]; [reflexivity|].
  unfold el. apply nth_overflow. cbn [length]. lia.
Qed.
Section Trig.
Context (o : fops) (Ho : ieee_ops F64 o) (c : icast) (Hc : icast_ok c) (tbl : list Z) (Ht : forall j, 0 <= j < 66 -> tab tbl j = Ok (tt j)).
Lemma rp_large_ok fuel s n : (4 <= fuel)%nat -> 0x413921fb00000000 <= n < INF ->
  exists k y0 y1 j, rp_large o c tbl fuel (mk64 s n) (n / 2 ^ 32) (b2z s) = Ok (k, y0, y1) /\ reduced (value F64 (mk64 s n) - 2 * IZR j * PI) k y0 y1.
Proof using Ho Hc Ht.
  intros Hfu Hn. unfold rp_large.
  pose proof (Z.mod_pos_bound n (2 ^ 52) ltac:(lia)) as MB. pose proof (Z_div_mod_eq_full n (2 ^ 52)) as D. set (E := n / 2 ^ 52) in *. set (mant := n mod 2 ^ 52) in *.
  assert (HE : 1043 <= E <= 2046) by (unfold E; split; [apply Z.div_le_lower_bound; lia|assert (n / 2 ^ 52 < 2047) by (apply Z.div_lt_upper_bound; lia); lia]).
  assert (UI : Z.land (mk64 s n) (Z.shiftr (inot (UI 64) 1) 12) = mant).
  { change (Z.shiftr (inot (UI 64) 1) 12) with (Z.ones 52). rewrite Z.land_ones by lia. unfold mk64, mant. change (2 ^ 63) with (2 ^ 11 * 2 ^ 52). rewrite Z.mul_assoc, Z.add_comm, Z.mod_add by lia. reflexivity. }
  rewrite UI. set (M := 2 ^ 52 + mant).
  assert (ZE : Z.lor mant (Z.shiftl (0x3ff + 23) 52) = mk64 false (1046 * 2 ^ 52 + mant)).
  { change (0x3ff + 23) with 1046. rewrite Z.shiftl_mul_pow2 by lia. unfold mk64. cbn [b2z]. rewrite Z.mul_0_l, Z.add_0_l, lor_add_low by lia. lia. }
  rewrite ZE. set (z := mk64 false (1046 * 2 ^ 52 + mant)).
  assert (Sz : sc z M (-29)).
  { split; [apply good64; lia|]. unfold z. rewrite value64 by lia. rewrite mag_norm by lia. rewrite (Z.add_comm (1046 * 2 ^ 52)), Z.div_add, Z.mod_add, Z.div_small, Z.mod_small by lia. reflexivity. }
  set (x0 := M / 2 ^ 29). set (r0 := M mod 2 ^ 29). set (x1 := r0 / 2 ^ 5). set (r1 := r0 mod 2 ^ 5).
  pose proof (Z_div_mod_eq_full M (2 ^ 29)) as D0. fold x0 r0 in D0. pose proof (Z.mod_pos_bound M (2 ^ 29) ltac:(lia)) as B0. fold r0 in B0.
  pose proof (Z_div_mod_eq_full r0 (2 ^ 5)) as D1. fold x1 r1 in D1. pose proof (Z.mod_pos_bound r0 (2 ^ 5) ltac:(lia)) as B1. fold r1 in B1.
  assert (X0 : 2 ^ 23 <= x0 < 2 ^ 24) by (unfold M in D0; lia). assert (X1 : 0 <= x1 < 2 ^ 24) by lia.
  rewrite (sc_toi c Hc z M 29 ltac:(lia) Sz) by (fold x0; unfold M; lia). fold x0. set (t0 := c_ofi c x0).
  pose proof (sc_ofi c Hc x0 ltac:(lia)) as S0. fold t0 in S0.
  assert (Sz1 : sc (o_mul o (o_sub o z t0) x1p24) r0 (-5)).
  { pose proof (sc_shift _ _ _ 29 ltac:(lia) S0) as S0'. pose proof (sc_sub o Ho _ _ _ _ _ Sz S0' ltac:(unfold M in *; lia) ltac:(lia)) as Q. replace (M - x0 * 2 ^ 29) with r0 in Q by lia.
    pose proof (sc_mul o Ho _ _ _ _ _ _ Q sc_x1p24 ltac:(lia) ltac:(lia)) as Q2. rewrite Z.mul_1_r in Q2. exact Q2. }
  set (z1 := o_mul o (o_sub o z t0) x1p24) in *.
  rewrite (sc_toi c Hc z1 r0 5 ltac:(lia) Sz1) by (fold x1; lia). fold x1. set (t1 := c_ofi c x1).
  pose proof (sc_ofi c Hc x1 ltac:(lia)) as S1. fold t1 in S1.
  assert (S2 : sc (o_mul o (o_sub o z1 t1) x1p24) (r1 * 2 ^ 19) 0).
  { pose proof (sc_shift _ _ _ 5 ltac:(lia) S1) as S1'. pose proof (sc_sub o Ho _ _ _ _ _ Sz1 S1' ltac:(lia) ltac:(lia)) as Q. replace (r0 - x1 * 2 ^ 5) with r1 in Q by lia.
    pose proof (sc_mul o Ho _ _ _ _ _ _ Q sc_x1p24 ltac:(lia) ltac:(lia)) as Q2. rewrite Z.mul_1_r in Q2. apply (sc_shift _ _ _ 19) in Q2; [|lia]. exact Q2. }
  set (t2 := o_mul o (o_sub o z1 t1) x1p24) in *. set (x2 := r1 * 2 ^ 19) in *. assert (X2 : 0 <= x2 < 2 ^ 24) by (unfold x2; lia).
  rewrite (sc_eq0 o Ho t2 x2 0 S2), (sc_eq0 o Ho t1 x1 0 S1).
  assert (SH : Z.shiftr (n / 2 ^ 32) 20 = E) by (rewrite Z.shiftr_div_pow2, Z.div_div by lia; reflexivity). rewrite SH.
  replace (csub (SI 32) E (0x3ff + 23)) with (Ok (E - 1046)) by (symmetry; apply chk_ok, fits_s; lia). cbn [bind].
  set (tx := if negb (x2 =? 0) then [t0; t1; t2] else if negb (x1 =? 0) then [t0; t1] else [t0]).
  set (xv := fun j => if j =? 0 then x0 else if j =? 1 then x1 else if j =? 2 then x2 else 0).
  assert (TX : exists jx, 0 <= jx <= 2 /\ len tx = jx + 1 /\ (forall j, 0 <= j <= jx -> sc (el tx j) (xv j) 0) /\ (forall j, jx < j -> xv j = 0)).
  { unfold tx, xv. destruct (Z.eqb_spec x2 0) as [Z2|Z2]; cbn [negb]; [destruct (Z.eqb_spec x1 0) as [Z1|Z1]; cbn [negb]|].
    - exists 0. split; [lia|]. split; [reflexivity|]. split; [intros j Hj; replace j with 0 by lia; exact S0|]. intros j Hj. replace (j =? 0) with false by lia. rewrite Z1, Z2. destruct (j =? 1), (j =? 2); reflexivity.
    - exists 1. split; [lia|]. split; [reflexivity|]. split; [intros j Hj; assert (J : j = 0 \/ j = 1) by lia; destruct J as [->| ->]; [exact S0|exact S1]|]. intros j Hj. replace (j =? 0) with false by lia. replace (j =? 1) with false by lia. rewrite Z2. destruct (j =? 2); reflexivity.
    - exists 2. split; [lia|]. split; [reflexivity|]. split; [intros j Hj; assert (J : j = 0 \/ j = 1 \/ j = 2) by lia; destruct J as [->|[->| ->]]; [exact S0|exact S1|exact S2]|]. intros j Hj. replace (j =? 0) with false by lia. replace (j =? 1) with false by lia. replace (j =? 2) with false by lia. reflexivity. }
  destruct TX as (jx & Hjx & Hlen & Hx & Hx0).
  assert (Hxr : forall j, 0 <= xv j < 2 ^ 24) by (intros j; unfold xv; destruct (j =? 0); [lia|]; destruct (j =? 1); [lia|]; destruct (j =? 2); lia).
  assert (EV : ((IZR (xv 0%Z) + IZR (xv 1%Z) * bpow radix2 (-24) + IZR (xv 2%Z) * bpow radix2 (-48)) * bpow radix2 (E - 1046))%R = mag64 n).
  { rewrite mag_norm by lia. fold E mant. fold M. change (xv 0) with x0. change (xv 1) with x1. change (xv 2) with x2. replace (E - 1075) with (-29 + (E - 1046)) by lia. rewrite bpow_plus, <- Rmult_assoc. f_equal.
    assert (EM : M = x0 * 2 ^ 29 + x1 * 2 ^ 5 + r1) by lia. rewrite EM. unfold x2. rewrite !plus_IZR, !mult_IZR. change (IZR (2 ^ 29)) with 536870912%R. change (IZR (2 ^ 5)) with 32%R. change (IZR (2 ^ 19)) with 524288%R.
    change (bpow radix2 (-24)) with (/ 16777216)%R. change (bpow radix2 (-48)) with (/ 281474976710656)%R. change (bpow radix2 (-29)) with (/ 536870912)%R. field. }
  destruct (large_ok o Ho c Hc tbl Ht tx jx xv Hjx Hlen Hx Hxr Hx0 (E - 1046) ltac:(lia)) with (fuel := fuel) as (k & y0 & y1 & j & -> & Hk & R); [|exact Hfu|].
  { intros m. rewrite EV, mag_norm by lia. fold E mant. fold M. apply dist_ok; unfold M; lia. }
  rewrite EV in R. cbn [bind fst snd]. change (tab [y0; y1; 0] 0) with (Ok y0 : res Z). change (tab [y0; y1; 0] 1) with (Ok y1 : res Z). cbn [bind]. rewrite value64 by lia.
  destruct s; cbn [b2z Z.eqb negb].
  - change (1 =? 0) with false. cbn [negb]. replace (cneg (SI 32) k) with (Ok (- k)) by (symmetry; apply chk_ok, fits_s; lia). cbn [bind]. exists (- k), (fneg y0), (fneg y1), (- j). split; [reflexivity|].
    apply reduced_neg in R. replace (- mag64 n - 2 * IZR (- j) * PI)%R with (- (mag64 n - 2 * IZR j * PI))%R by (rewrite opp_IZR; ring). exact R.
  - change (0 =? 0) with true. cbn [negb]. exists k, y0, y1, j. split; [reflexivity|exact R].
Qed.
Lemma rem_pio2_ok fuel s n (x := mk64 s n) : (4 <= fuel)%nat -> 0x3fe921fc00000000 <= n < INF ->
  exists k y0 y1 j, rem_pio2 o c tbl fuel x = Ok (k, y0, y1) /\ reduced (value F64 x - 2 * IZR j * PI) k y0 y1.
Proof using Ho Hc Ht.
  intros Hfu Hn. destruct (Z_lt_ge_dec n 0x413921fb00000000) as [L|L].
  - destruct (rem_pio2_small o Ho c Hc tbl fuel s n ltac:(lia)) as (k & y0 & y1 & E & R). exists k, y0, y1, 0. split; [exact E|]. replace (value F64 x - 2 * 0 * PI)%R with (value F64 x) by ring. exact R.
  - unfold rem_pio2, x. rewrite sign_mk, high_abs by lia. rewrite !hx_div', hx_div. replace (n <? (0x400f6a7a + 1) * 2 ^ 32) with false by lia. replace (n <? (0x401c463b + 1) * 2 ^ 32) with false by lia.
    replace (n / 2 ^ 32 <? 0x413921fb) with false by (symmetry; apply Z.ltb_ge, Z.div_le_lower_bound; lia). replace (0x7ff00000 * 2 ^ 32 <=? n) with false by lia. apply rp_large_ok; [exact Hfu|lia].
Qed.
End Trig.
