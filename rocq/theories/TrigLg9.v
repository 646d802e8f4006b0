(** rem_pio2_large: the whole function, for the precision that rem_pio2 asks for. *)
From Coq Require Import ZArith Reals Bool List Lia Lra Psatz.
From Flocq Require Import Core.
From Verif Require Import Base BaseLemmas FloatModel FloatSpec FloatProofs5 LibmModel LibmSpec LibmProps FloatConvSpec FloatErr PolyBound Elem ElemModel ElemSpec TrigModel F64Lib ExpProofs3 ExpProofs4 ExpProofs7 TrigPi TrigDist TrigRed TrigRed2 TrigRed3 TrigRed4 TrigRed5 TrigLg TrigLg2 TrigLg3 TrigLg4 TrigLg5 TrigLg6 TrigLg7 TrigLg8.
Import ListNotations.
Open Scope Z_scope.

(** the two parts are a reduced argument, up to the sign *)
Lemma reduced_parts X n (neg : bool) (g : R) y0 y1 : 0 <= n <= 8 -> good y0 -> good y1 -> (bpow radix2 (-63) <= g <= / 2)%R ->
  (Rabs (value F64 y0 - PI / 2 * g) <= 1.504 * e53 * (PI / 2 * g))%R -> (Rabs (value F64 y0 + value F64 y1 - PI / 2 * g) <= 0.0004 * e53 * g)%R ->
  (Rabs (X - IZR n * (PI / 2) - (if neg then - (PI / 2 * g) else PI / 2 * g)) <= bpow radix2 (-69) * g)%R ->
  reduced X n (if neg then fneg y0 else y0) (if neg then fneg y1 else y1).
Proof.
  intros Hn G0 G1 Hg R0 R1 RX. pose proof pi_num as PN. pose proof e53_bounds as [u0 u1]. pose proof (bpow_gt_0 radix2 (-63)) as p63.
  assert (u69 : bpow radix2 (-69) = (/ 65536 * e53)%R). { change (-69) with (-16 + -53). rewrite bpow_plus. reflexivity. }
  assert (u62 : bpow radix2 (-62) = (/ 512 * e53)%R). { change (-62) with (-9 + -53). rewrite bpow_plus. reflexivity. }
  assert (u58 : bpow radix2 (-58) = (/ 32 * e53)%R). { change (-58) with (-5 + -53). rewrite bpow_plus. reflexivity. }
  assert (u70 : bpow radix2 (-70) = (/ 128 * bpow radix2 (-63))%R). { change (-70) with (-7 + -63). rewrite bpow_plus. reflexivity. }
  set (T := (PI / 2 * g)%R) in *. assert (TB : (1.57079 * g <= T <= 1.5708 * g)%R) by (unfold T; split; apply Rmult_le_compat_r; lra).
  assert (ug : (0 <= e53 * g <= 1e-9 * g)%R) by (split; [apply Rmult_le_pos; lra|apply Rmult_le_compat_r; lra]).
  assert (uT : (e53 * T <= e53 * (1.5708 * g))%R) by (apply Rmult_le_compat_l; lra).
  apply Rabs_le_inv in R0, R1, RX. set (Y0 := value F64 y0) in *. set (Y1 := value F64 y1) in *.
  assert (YB : (1.57 * g <= Y0 <= 0.7856)%R) by lra.
  assert (uY : (e53 * (1.57 * g) <= e53 * Y0)%R) by (apply Rmult_le_compat_l; lra).
  assert (uY' : (e53 * (T - 0.001 * g) <= e53 * Y0)%R) by (apply Rmult_le_compat_l; lra).
  assert (Rabs Y1 <= 49 * bpow radix2 (-58) * Y0)%R by (rewrite u58; apply Rabs_le; lra).
  rewrite u69 in RX.
  unfold reduced. destruct neg.
  - destruct (fneg_val y0 G0) as (G0' & ->). destruct (fneg_val y1 G1) as (G1' & ->). fold Y0 Y1. rewrite !Rabs_Ropp, (Rabs_pos_eq Y0) by lra.
    split; [lia|]. split; [exact G0'|]. split; [exact G1'|]. split; [lra|]. split; [rewrite u70; lra|]. split; [exact H|]. rewrite u62. apply Rabs_le. lra.
  - fold Y0 Y1. rewrite (Rabs_pos_eq Y0) by lra. split; [lia|]. split; [exact G0|]. split; [exact G1|]. split; [lra|]. split; [rewrite u70; lra|]. split; [exact H|]. rewrite u62. apply Rabs_le. lra.
Qed.

Section Trig.
Context (o : fops) (Ho : ieee_ops F64 o) (c : icast) (Hc : icast_ok c) (tbl : list Z) (Ht : forall j, 0 <= j < 66 -> tab tbl j = Ok (tt j)).
Context (x : list Z) (jx : Z) (xv : Z -> Z) (Hjx : 0 <= jx <= 2) (Hlen : len x = jx + 1)
  (Hx : forall j, 0 <= j <= jx -> sc (el x j) (xv j) 0) (Hxr : forall j, 0 <= xv j < 2 ^ 24) (Hx0 : forall j, jx < j -> xv j = 0).
Context (e0 : Z) (He0 : -3 <= e0 <= 1000).
Let V : R := ((IZR (xv 0%Z) + IZR (xv 1%Z) * bpow radix2 (-24) + IZR (xv 2%Z) * bpow radix2 (-48)) * bpow radix2 e0)%R.
Context (HA : forall n, (bpow radix2 (-62) <= Rabs (V * tau - IZR n))%R).
Lemma large_ok fuel : (4 <= fuel)%nat -> exists k y0 y1 j, rem_pio2_large o c tbl fuel x [0; 0; 0] e0 1 = Ok (k, [y0; y1; 0]) /\ 0 <= k <= 7 /\ reduced (V - 2 * IZR j * PI) k y0 y1.
Proof using Ho Hc Ht Hjx Hlen Hx Hxr Hx0 He0 HA.
  intros Hfu. unfold rem_pio2_large. replace (e0 <=? 16360) with true by lia. change (tab INIT_JK 1) with (Ok 4 : res Z). cbn [assert bind]. change (Z.of_nat (length x)) with (len x). rewrite Hlen. rewrite usub_ok by lia. cbn [bind]. replace (jx + 1 - 1) with jx by lia.
  replace (csub (SI 32) e0 3) with (Ok (e0 - 3)) by (symmetry; apply chk_ok, fits_s; lia). cbn [bind]. set (jv := if Z.quot (e0 - 3) 24 <? 0 then 0 else Z.quot (e0 - 3) 24).
  assert (J : 0 <= jv <= 41 /\ -27 <= e0 - 24 * (jv + 1) <= 2 /\ (1 <= jv -> -21 <= e0 - 24 * (jv + 1))).
  { unfold jv. destruct (Z_le_gt_dec 3 e0) as [L|L].
    - rewrite Z.quot_div_nonneg by lia. pose proof (Z.div_mod (e0 - 3) 24 ltac:(lia)). pose proof (Z.mod_pos_bound (e0 - 3) 24 ltac:(lia)). destruct (Z.ltb_spec ((e0 - 3) / 24) 0); lia.
    - assert (E : e0 = -3 \/ e0 = -2 \/ e0 = -1 \/ e0 = 0 \/ e0 = 1 \/ e0 = 2) by lia. destruct E as [E|[E|[E|[E|[E|E]]]]]; rewrite E; cbn; lia. }
  destruct J as (J1 & J2 & J3). clearbody jv.
  replace (cadd (SI 32) jv 1) with (Ok (jv + 1)) by (symmetry; apply chk_ok, fits_s; lia). cbn [bind].
  replace (cmul (SI 32) 24 (jv + 1)) with (Ok (24 * (jv + 1))) by (symmetry; apply chk_ok, fits_s; lia). cbn [bind].
  replace (csub (SI 32) e0 (24 * (jv + 1))) with (Ok (e0 - 24 * (jv + 1))) by (symmetry; apply chk_ok, fits_s; lia). cbn [bind].
  rewrite !norm_id by first [reflexivity|apply fits_s; lia]. replace (csub (SI 32) jv jx) with (Ok (jv - jx)) by (symmetry; apply chk_ok, fits_s; lia). cbn [bind].
  set (q0 := e0 - 24 * (jv + 1)) in *.
  destruct (fill_ok c Hc tbl Ht (S (Z.to_nat (jx + 4))) 0 (jv - jx) zeros20) as (f & -> & Lf & Ef); try lia; [change (len zeros20) with 20; lia|]. cbn [bind].
  assert (Fk : fok jx jv f (jx + 4)). { split; [rewrite Lf; reflexivity|]. intros d Hd. specialize (Ef d ltac:(lia)). replace ((0 <=? d) && (d <? 0 + Z.of_nat (S (Z.to_nat (jx + 4))))) with true in Ef by lia. replace (jv - jx + d - 0) with (jv - jx + d) in Ef by lia. exact Ef. }
  change (S (Z.to_nat 4)) with 5%nat.
  destruct (q_ok o Ho x jx jv xv Hjx Hlen Hx Hxr Hx0 f 5 0 zeros20) as (q & -> & Qk); try lia.
  { replace (jx + 0 + Z.of_nat 5 - 1) with (jx + 4) by lia. exact Fk. }
  { split; [reflexivity|]. intros i Hi. lia. }
  cbn [bind]. change (0 + Z.of_nat 5 - 1) with 4 in Qk.
  destruct (loop_ok o Ho c Hc tbl Ht x jx jv xv Hjx J1 Hlen Hx Hxr Hx0 q0 e0 J2 eq_refl J3 HA fuel 4 f q zeros20 ltac:(lia) ltac:(lia) Fk Qk eq_refl) as (jz & z & n & ih & q' & iq & Zf & -> & Lq & St & G96). cbn [bind].
  unfold state in St. cbv zeta in St. fold V in St. destruct St as (Hjz & Li & Dg & Sz & HZ & GB & N & eps & Heps & Hn & Hmod & HN).
  destruct (top_ok o Ho c Hc jz q0 z Zf iq Hjz J2 Li Dg Sz HZ G96) as (j & iq' & -> & Hj & Li' & Dg' & Tn & EG). cbn [bind].
  set (G := digz jz iq + Zf * 2 ^ (24 * jz)) in *. set (B := 24 * jz - q0) in *. assert (EQ : q0 - 24 * (jz - j) = 24 * j - B) by (unfold B; lia). rewrite EQ.
  assert (HB : 90 <= B <= 200) by (unfold B; lia).
  assert (JB : 24 * j <= B - 1). { apply (Z.pow_le_mono_r_iff 2); [lia|unfold B; lia|]. rewrite digz_S in EG by lia. pose proof (digz_range iq' j ltac:(lia) ltac:(intros i Hi; apply Dg'; lia)). pose proof (Dg' j ltac:(lia)). nia. }
  destruct (sc_scale o Ho one 1 0 (24 * j - B) sc_one ltac:(lia) ltac:(lia) ltac:(lia)) as (fw & -> & Sw). cbn [bind]. rewrite Z.add_0_l in Sw.
  destruct (chunks_ok o Ho c Hc B iq' (S (Z.to_nat j)) fw q') as (q2 & -> & Lq2 & Eq2); try lia.
  { replace (Z.of_nat (S (Z.to_nat j))) with (j + 1) by lia. exact Dg'. }
  { replace (Z.of_nat (S (Z.to_nat j)) - 1) with j by lia. exact Sw. }
  cbn [bind].
  assert (Hq2 : forall k, 0 <= k <= j -> sc (el q2 k) (el iq' k) (24 * k - B)). { intros k Hk. specialize (Eq2 k ltac:(lia)). replace (k <? Z.of_nat (S (Z.to_nat j))) with true in Eq2 by lia. exact Eq2. }
  destruct (tail_ok o Ho B j iq' q2 HB Hj Lq2 Dg' Hq2 Tn ltac:(lia)) as (fq & y0 & y1 & -> & E0 & ET & E1 & Gy0 & Gy1 & R0 & R1). cbn [bind]. rewrite EG in R0, R1.
  set (g := (IZR G * bpow radix2 (- B))%R) in *.
  unfold lg_compress. rewrite E0. cbn [bind]. rewrite ET. cbn [bind]. rewrite E1. cbn [bind].
  set (neg := negb (ih =? 0)). 
  exists (Z.land n 7), (if neg then fneg y0 else y0), (if neg then fneg y1 else y1), (2 * ((N - Z.land n 7) / 8)).
  assert (LN : Z.land n 7 = n mod 8) by (change 7 with (Z.ones 3); rewrite Z.land_ones by lia; reflexivity). rewrite LN.
  split. { unfold neg. destruct (ih =? 0); reflexivity. }
  pose proof (Z.mod_pos_bound n 8 ltac:(lia)) as MB. split; [lia|].
  assert (NE : N = n mod 8 + 8 * ((N - n mod 8) / 8)).
  { assert ((N - n mod 8) mod 8 = 0). { rewrite Zminus_mod_idemp_r. apply Z.mod_divide in Hmod; [|lia]. destruct Hmod as (w & Hw). replace (N - n) with ((- w) * 8) by lia. apply Z.mod_mul. lia. } pose proof (Z.div_mod (N - n mod 8) 8 ltac:(lia)). lia. }
  set (w := (N - n mod 8) / 8) in *. set (k := n mod 8) in *. clearbody w k. subst N.
  destruct GB as [GB1 GB2].
  assert (Gg : (bpow radix2 (-63) <= g <= / 2)%R).
  { unfold g. apply IZR_le in GB1, GB2. rewrite IZRp in GB1, GB2 by lia. pose proof (bpow_gt_0 radix2 (- B)) as pB. split.
    - replace (-63) with (B - 63 + - B) by lia. rewrite bpow_plus. apply Rmult_le_compat_r; lra.
    - change (/ 2)%R with (bpow radix2 (-1)). replace (-1) with (B - 1 + - B) by lia. rewrite bpow_plus. apply Rmult_le_compat_r; lra. }
  apply (reduced_parts (V - 2 * IZR (2 * w) * PI) k neg g); [lia|exact Gy0|exact Gy1|exact Gg|exact R0|exact R1|].
  assert (EV : (V = V * tau * (PI / 2))%R) by (rewrite Rmult_assoc, tau_pi; ring).
  set (ep := (eps * bpow radix2 (- B))%R).
  assert (EPB : (0 <= ep <= bpow radix2 (-70) * g)%R).
  { unfold ep. split; [apply Rmult_le_pos; [lra|apply bpow_ge_0]|]. unfold g. rewrite <- Rmult_assoc. apply Rmult_le_compat_r; [apply bpow_ge_0|]. apply Rle_trans with (bpow radix2 26); [change 26 with (2 + 24); rewrite bpow_plus; change (bpow radix2 2) with 4%R; pose proof (bpow_gt_0 radix2 24); lra|].
    apply IZR_le in G96. rewrite IZRp in G96 by lia. change 26 with (-70 + 96). rewrite bpow_plus. apply Rmult_le_compat_l; [apply bpow_ge_0|exact G96]. }
  assert (EA : (V * tau - IZR (k + 8 * w))%R = if neg then (- (g - ep))%R else (g + ep)%R).
  { assert (EB : (bpow radix2 B * bpow radix2 (- B) = 1)%R) by (rewrite <- bpow_plus, Z.add_opp_diag_r; reflexivity).
    replace (V * tau)%R with (V * tau * bpow radix2 B * bpow radix2 (- B))%R by (rewrite Rmult_assoc, EB; ring). rewrite HN. unfold neg, g, ep. destruct (ih =? 0); cbn [negb].
    - rewrite Rmult_plus_distr_r, Rmult_assoc, EB. ring.
    - rewrite Rmult_minus_distr_r, Rmult_assoc, EB. ring. }
  rewrite plus_IZR, mult_IZR in EA. pose proof pi_num as PN. rewrite mult_IZR.
  assert (u69 : bpow radix2 (-69) = (2 * bpow radix2 (-70))%R) by (change (-69) with (1 + -70); rewrite bpow_plus; reflexivity).
  assert (EPP : (0 <= ep * (PI / 2) <= bpow radix2 (-70) * g * 2)%R) by (split; [apply Rmult_le_pos; lra|apply Rmult_le_compat; lra]).
  replace (V - 2 * (2 * IZR w) * PI - IZR k * (PI / 2) - (if neg then - (PI / 2 * g) else PI / 2 * g))%R with ((V * tau - (IZR k + 8 * IZR w)) * (PI / 2) - (if neg then - (PI / 2 * g) else PI / 2 * g))%R by (rewrite EV at 2; destruct neg; field).
  rewrite EA, u69. destruct neg; apply Rabs_le; lra.
Qed.
End Trig.
