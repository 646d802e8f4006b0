(** rem_pio2_large: the reduced argument. *)
From Coq Require Import ZArith Reals Bool List Lia Lra Psatz.
From Flocq Require Import Core.
From Verif Require Import Base BaseLemmas FloatModel FloatSpec FloatProofs5 LibmModel LibmSpec LibmProps FloatConvSpec FloatErr PolyBound Elem ElemModel ElemSpec TrigModel F64Lib ExpProofs3 ExpProofs4 ExpProofs7 TrigPi TrigDist TrigRed TrigRed2 TrigRed3 TrigRed4 TrigRed5 TrigLg TrigLg2 TrigLg3 TrigLg4 TrigLg5 TrigLg6 TrigLg7.
Import ListNotations.
Open Scope Z_scope.

Definition P5 : Z := Eval vm_compute in pz 0 * 2 ^ 96 + pz 1 * 2 ^ 72 + pz 2 * 2 ^ 48 + pz 3 * 2 ^ 24 + pz 4.
Lemma P5_eq : P5 = pz 0 * 2 ^ 96 + pz 1 * 2 ^ 72 + pz 2 * 2 ^ 48 + pz 3 * 2 ^ 24 + pz 4.
Proof. vm_compute. reflexivity. Qed.
Lemma P5_ok : (Rabs (PI / 2 - IZR P5 * bpow radix2 (-119)) <= bpow radix2 (-110))%R.
Proof.
  rewrite fxs, fxb by lia.
  assert (H : (fx PP (2 * (qpi - qpi_err)) <= PI / 2 <= fx PP (2 * (qpi + qpi_err)))%R) by (apply pi_between; lia).
  set (a := P5 * 2 ^ (PP + -119)). set (e := 1 * 2 ^ (PP + -110)).
  assert (A : (fx PP (a - e) <= fx PP (2 * (qpi - qpi_err)))%R) by (apply fx_le; vm_compute; discriminate).
  assert (B : (fx PP (2 * (qpi + qpi_err)) <= fx PP (a + e))%R) by (apply fx_le; vm_compute; discriminate).
  rewrite fx_sub in A. rewrite fx_add in B. apply Rabs_le. lra.
Qed.
Lemma zsn_ok jz iq : 4 <= jz <= 8 -> digs_ok iq (jz + 1) -> exists e, 0 <= e <= 2 ^ 122 /\ 2 ^ 96 * zsn jz iq (S (Z.to_nat jz)) = P5 * digz (jz + 1) iq - e.
Proof.
  intros Hj Di. rewrite zs_eq. replace (Z.of_nat (S (Z.to_nat jz))) with (jz + 1 + 0) by lia. replace (jz + 1 + 0 + 1) with (jz + 1 + 1) by lia. replace (jz + 1 + 0 + 2) with (jz + 1 + 2) by lia. replace (jz + 1 + 0 + 3) with (jz + 1 + 3) by lia. replace (jz + 1 + 0 + 4) with (jz + 1 + 4) by lia.
  rewrite !dg_high by lia. rewrite !dg_low by lia.
  assert (D : forall k, 0 <= k <= 4 -> 0 <= digz k iq < 2 ^ (24 * k)). { intros k Hk. apply digz_range; [lia|]. intros i Hi. apply Di. lia. }
  pose proof (D 1 ltac:(lia)) as D1. pose proof (D 2 ltac:(lia)) as D2. pose proof (D 3 ltac:(lia)) as D3. pose proof (D 4 ltac:(lia)) as D4. change (digz 0 iq) with 0.
  exists (pz 1 * 2 ^ 72 * digz 1 iq + pz 2 * 2 ^ 48 * digz 2 iq + pz 3 * 2 ^ 24 * digz 3 iq + pz 4 * digz 4 iq). split.
  - pose proof (pz_range 1 ltac:(lia)). pose proof (pz_range 2 ltac:(lia)). pose proof (pz_range 3 ltac:(lia)). pose proof (pz_range 4 ltac:(lia)).
    change (2 ^ (24 * 1)) with (2 ^ 24) in D1. change (2 ^ (24 * 2)) with (2 ^ 48) in D2. change (2 ^ (24 * 3)) with (2 ^ 72) in D3. change (2 ^ (24 * 4)) with (2 ^ 96) in D4.
    assert (forall p v a b, 0 <= p < 2 ^ 24 -> 0 <= v < 2 ^ b -> 0 <= a -> 0 <= b -> a + b = 96 -> 0 <= p * 2 ^ a * v <= 2 ^ 120) as Q.
    { intros p v a b Hp Hv Ha Hb Hab. assert (0 <= p * 2 ^ a <= 2 ^ 24 * 2 ^ a) by nia. assert (0 < 2 ^ a) by lia. split; [nia|]. apply Z.le_trans with (2 ^ 24 * 2 ^ a * 2 ^ b); [nia|]. rewrite <- !Z.pow_add_r by lia. replace (24 + a + b) with 120 by lia. lia. }
    pose proof (Q (pz 1) (digz 1 iq) 72 24 ltac:(lia) D1 ltac:(lia) ltac:(lia) ltac:(lia)). pose proof (Q (pz 2) (digz 2 iq) 48 48 ltac:(lia) D2 ltac:(lia) ltac:(lia) ltac:(lia)).
    pose proof (Q (pz 3) (digz 3 iq) 24 72 ltac:(lia) D3 ltac:(lia) ltac:(lia) ltac:(lia)). pose proof (Q (pz 4) (digz 4 iq) 0 96 ltac:(lia) D4 ltac:(lia) ltac:(lia) ltac:(lia)). change (2 ^ 0) with 1 in *. lia.
  - rewrite P5_eq. ring.
Qed.
Lemma WW_range jz iq i : digs_ok iq (jz + 1) -> 0 <= i -> 0 <= WW jz iq i <= 5 * 2 ^ 48.
Proof.
  intros Di Hi. unfold WW. cbn [sumz]. change (0 + 1) with 1. change (1 + 1) with 2. change (2 + 1) with 3. change (3 + 1) with 4.
  assert (Q : forall t, 0 <= t <= 4 -> 0 <= pz t * dd jz iq (i + t) <= 2 ^ 48). { intros t Ht. pose proof (pz_range t ltac:(lia)). pose proof (dd_range jz iq Di (i + t) ltac:(lia)). pose proof (prod_range (pz t) (dd jz iq (i + t)) ltac:(lia) ltac:(lia)). lia. }
  pose proof (Q 0 ltac:(lia)). pose proof (Q 1 ltac:(lia)). pose proof (Q 2 ltac:(lia)). pose proof (Q 3 ltac:(lia)). pose proof (Q 4 ltac:(lia)). lia.
Qed.
Section Trig.
Context (o : fops) (Ho : ieee_ops F64 o).
Lemma tail_ok B jz iq q : 90 <= B <= 200 -> 4 <= jz <= 8 -> len q = 20 -> digs_ok iq (jz + 1) -> (forall k, 0 <= k <= jz -> sc (el q k) (el iq k) (24 * k - B)) -> el iq jz <> 0 ->
  2 ^ 96 <= digz (jz + 1) iq <= 2 ^ (B - 1) ->
  exists fq y0 y1, lg_fq o (S (Z.to_nat jz)) 4 jz q zeros20 = Ok fq /\ lg_sum o (S (Z.to_nat jz)) fq 0 = Ok y0 /\ tab fq 0 = Ok (el fq 0) /\ lg_up o (Z.to_nat jz) 1 fq (o_sub o (el fq 0) y0) = Ok y1 /\ good y0 /\ good y1 /\
  (Rabs (value F64 y0 - PI / 2 * (IZR (digz (jz + 1) iq) * bpow radix2 (- B))) <= 1.504 * e53 * (PI / 2 * (IZR (digz (jz + 1) iq) * bpow radix2 (- B))))%R /\
  (Rabs (value F64 y0 + value F64 y1 - PI / 2 * (IZR (digz (jz + 1) iq) * bpow radix2 (- B))) <= 0.0004 * e53 * (IZR (digz (jz + 1) iq) * bpow radix2 (- B)))%R.
Proof using Ho.
  intros HB Hj Lq Di Hq Ht [G0 G1]. set (G := digz (jz + 1) iq) in *.
  assert (DS : G = digz jz iq + el iq jz * 2 ^ (24 * jz)) by (unfold G; apply digz_S; lia).
  assert (DJ : 0 <= digz jz iq < 2 ^ (24 * jz)) by (apply digz_range; [lia|]; intros i Hi; apply Di; lia).
  pose proof (Di jz ltac:(lia)) as DT.
  assert (B24 : 24 * jz <= B - 1) by (apply (Z.pow_le_mono_r_iff 2); nia).
  destruct (fq_ok o Ho B jz iq q ltac:(lia) ltac:(lia) Hj Lq Di Hq (S (Z.to_nat jz)) zeros20 ltac:(lia) ltac:(reflexivity)) as (fq & Ef & Lf & Hf).
  set (h := 24 * jz - 23 - B).
  set (a := fun d => if (0 <=? d) && (d <=? jz) then (IZR (WW jz iq (jz - d)) * bpow radix2 (24 * (jz - d) - 23 - B))%R else 0%R).
  assert (Ea : forall d, 0 <= d <= jz -> a d = (IZR (WW jz iq (jz - d)) * bpow radix2 (24 * (jz - d) - 23 - B))%R) by (intros d Hd; unfold a; replace ((0 <=? d) && (d <=? jz)) with true by lia; reflexivity).
  assert (W0 : WW jz iq jz = pz 0 * el iq jz).
  { unfold WW. cbn [sumz]. change (0 + 1) with 1. change (1 + 1) with 2. change (2 + 1) with 3. change (3 + 1) with 4. unfold dd. replace (jz + 0 <=? jz) with true by lia. replace (jz + 1 <=? jz) with false by lia. replace (jz + 2 <=? jz) with false by lia. replace (jz + 3 <=? jz) with false by lia. replace (jz + 4 <=? jz) with false by lia. replace (jz + 0) with jz by lia. ring. }
  assert (W1 : WW jz iq (jz - 1) = pz 0 * el iq (jz - 1) + pz 1 * el iq jz).
  { unfold WW. cbn [sumz]. change (0 + 1) with 1. change (1 + 1) with 2. change (2 + 1) with 3. change (3 + 1) with 4. unfold dd. replace (jz - 1 + 0 <=? jz) with true by lia. replace (jz - 1 + 1 <=? jz) with true by lia. replace (jz - 1 + 2 <=? jz) with false by lia. replace (jz - 1 + 3 <=? jz) with false by lia. replace (jz - 1 + 4 <=? jz) with false by lia. replace (jz - 1 + 0) with (jz - 1) by lia. replace (jz - 1 + 1) with jz by lia. ring. }
  pose proof (Di (jz - 1) ltac:(lia)) as DT1.
  set (H := bpow radix2 h). assert (PH : (0 < H)%R) by apply bpow_gt_0.
  assert (A0 : a 0 = (13176794 * IZR (el iq jz) * H)%R). { rewrite Ea by lia. rewrite Z.sub_0_r, W0, mult_IZR. fold h H. reflexivity. }
  assert (D1 : (1 <= IZR (el iq jz))%R) by (apply IZR_le; lia). 
  assert (D2 : (IZR (el iq jz) <= 16777216)%R) by (apply IZR_le; lia).
  assert (DH : (H <= IZR (el iq jz) * H)%R) by nra.
  assert (GB : (IZR (el iq jz) * H <= bpow radix2 (-24))%R).
  { assert (E : el iq jz * 2 ^ (24 * jz) <= 2 ^ (B - 1)) by lia. apply IZR_le in E. rewrite mult_IZR, !(IZRp) in E by lia. 
    apply (Rmult_le_compat_r (bpow radix2 (- 23 - B))) in E; [|apply bpow_ge_0]. rewrite Rmult_assoc, <- !bpow_plus in E. replace (24 * jz + (- 23 - B)) with h in E by (unfold h; lia). replace (B - 1 + (- 23 - B)) with (-24) in E by lia. exact E. }
  change (bpow radix2 (-24)) with (/ 16777216)%R in GB.
  destruct (compress_ok o Ho jz (- 23 - B) h fq a) as (y0 & y1 & E0 & E1 & Gy0 & Gy1 & R0 & R1); try lia; try assumption.
  - intros d Hd. specialize (Hf d ltac:(lia)). replace ((jz - Z.of_nat (S (Z.to_nat jz)) <? d) && (d <=? jz)) with true in Hf by lia. rewrite Ea by exact Hd. exact Hf.
  - intros d Hd. rewrite Ea by exact Hd. apply (grid_le (24 * (jz - d) - 23 - B)); [lia|]. exists (WW jz iq (jz - d)). reflexivity.
  - intros d. unfold a. destruct ((0 <=? d) && (d <=? jz)) eqn:E; [|lra]. apply Rmult_le_pos; [apply IZR_le, (WW_range jz iq (jz - d)); [exact Di|lia]|apply bpow_ge_0].
  - intros d Hd. unfold a. replace ((0 <=? d) && (d <=? jz)) with false by lia. reflexivity.
  - rewrite A0. lra.
  - rewrite Ea, W1 by lia. replace (24 * (jz - 1) - 23 - B) with (-24 + h) by (unfold h; lia). rewrite bpow_plus. fold H. change (bpow radix2 (-24)) with (/ 16777216)%R. rewrite A0, plus_IZR, !mult_IZR. change (IZR (pz 0)) with 13176794%R. change (IZR (pz 1)) with 10625384%R.
    assert (IZR (el iq (jz - 1)) <= 16777215)%R by (apply IZR_le; lia). assert (IZR (el iq (jz - 1)) * H <= 16777215 * H)%R by (apply Rmult_le_compat_r; lra). lra.
  - intros d Hd. rewrite A0. destruct (Z_le_gt_dec d jz) as [L|L]; [|unfold a; replace ((0 <=? d) && (d <=? jz)) with false by lia; lra]. rewrite Ea by lia.
    pose proof (WW_range jz iq (jz - d) Di ltac:(lia)) as [w0 w1]. apply IZR_le in w0, w1.
    apply Rle_trans with (IZR (5 * 2 ^ 48) * bpow radix2 (-48 + h))%R; [apply Rmult_le_compat; [exact w0|apply bpow_ge_0|exact w1|apply bpow_le; unfold h; lia]|].
    rewrite bpow_plus. fold H. change (bpow radix2 (-48)) with (/ 281474976710656)%R. change (IZR (5 * 2 ^ 48)) with (1407374883553280)%R. lra.
  - exists (WW jz iq jz). rewrite Ea by lia. rewrite Z.sub_0_r. reflexivity.
  - rewrite A0. replace (h + 48) with (48 + h) by lia. rewrite bpow_plus. fold H. change (bpow radix2 48) with 281474976710656%R. assert (IZR (el iq jz) * H <= 16777216 * H)%R by (apply Rmult_le_compat_r; lra). lra.
  - exists fq, y0, y1. split; [exact Ef|]. split; [exact E0|]. split; [apply tab_el; lia|]. split; [exact E1|]. split; [exact Gy0|]. split; [exact Gy1|].
    assert (SE : forall n, Z.of_nat n <= jz + 1 -> sumr a n = (IZR (zsn jz iq (S (Z.to_nat jz)) - zsn jz iq (S (Z.to_nat jz) - n)) * bpow radix2 (- 23 - B))%R).
    { set (ZZ := zsn jz iq (S (Z.to_nat jz))) in *. induction n as [|n IH]; intros Hn; [cbn [sumr]; rewrite Nat.sub_0_r; fold ZZ; rewrite Z.sub_diag; ring|]. cbn [sumr]. rewrite IH, Ea by lia. set (m := (S (Z.to_nat jz) - S n)%nat). replace (S (Z.to_nat jz) - n)%nat with (S m) by (unfold m; lia). cbn [zsn].
      replace (Z.of_nat m) with (jz - Z.of_nat n) by (unfold m; lia). set (i := jz - Z.of_nat n). replace (24 * i - 23 - B) with (24 * i + (- 23 - B)) by lia. rewrite bpow_plus, <- (IZRp (24 * i)) by lia. rewrite !minus_IZR, plus_IZR, mult_IZR. ring. }
    specialize (SE (S (Z.to_nat jz)) ltac:(lia)). rewrite Nat.sub_diag in SE. change (zsn jz iq 0) with 0 in SE. rewrite Z.sub_0_r in SE. set (S0 := sumr a (S (Z.to_nat jz))) in *.
    destruct (zsn_ok jz iq Hj Di) as (e & He & Ez). fold G in Ez. set (Zs := zsn jz iq (S (Z.to_nat jz))) in *.
    set (g := (IZR G * bpow radix2 (- B))%R).
    assert (S5 : S0 = (IZR P5 * bpow radix2 (-119) * g - IZR e * bpow radix2 (-119 - B))%R).
    { rewrite SE. apply (Rmult_eq_reg_l (IZR (2 ^ 96))); [|apply IZR_neq; lia]. rewrite <- Rmult_assoc, <- mult_IZR, Ez, minus_IZR, mult_IZR. unfold g. rewrite (IZRp 96) by lia. replace (- 23 - B) with (96 + (-119) + (- B)) by lia. replace (-119 - B) with (-119 + - B) by lia. rewrite !bpow_plus. generalize (bpow radix2 96), (bpow radix2 (-119)), (bpow radix2 (- B)), (IZR P5), (IZR G), (IZR e). intros. ring. }
    assert (g0 : (bpow radix2 (96 - B) <= g)%R). { unfold g. replace (96 - B) with (96 + - B) by lia. rewrite bpow_plus. apply Rmult_le_compat_r; [apply bpow_ge_0|]. rewrite <- IZRp by lia. apply IZR_le. exact G0. }
    assert (gp : (0 < g)%R) by (pose proof (bpow_gt_0 radix2 (96 - B)); lra).
    assert (eB : (0 <= IZR e * bpow radix2 (-119 - B) <= bpow radix2 (-93) * g)%R).
    { split; [apply Rmult_le_pos; [apply IZR_le; lia|apply bpow_ge_0]|]. apply Rle_trans with (IZR (2 ^ 122) * bpow radix2 (-119 - B))%R; [apply Rmult_le_compat_r; [apply bpow_ge_0|apply IZR_le; lia]|].
      rewrite IZRp, <- bpow_plus by lia. apply Rle_trans with (bpow radix2 (-93) * bpow radix2 (96 - B))%R; [|apply Rmult_le_compat_l; [apply bpow_ge_0|exact g0]]. rewrite <- bpow_plus. apply bpow_le. lia. }
    assert (pB : (Rabs (PI / 2 * g - IZR P5 * bpow radix2 (-119) * g) <= bpow radix2 (-93) * g)%R).
    { rewrite <- Rmult_minus_distr_r, Rabs_mult, (Rabs_pos_eq g) by lra. apply Rmult_le_compat_r; [lra|]. eapply Rle_trans; [exact P5_ok|]. apply bpow_le. lia. }
    assert (u93 : (bpow radix2 (-93) <= 1e-9 * e53)%R). { replace (-93) with (-40 + -53) by lia. rewrite bpow_plus. fold e53. change (bpow radix2 (-40)) with (/ 1099511627776)%R. apply Rmult_le_compat_r; [left; apply e53_bounds|lra]. }
    assert (u93' : (bpow radix2 (-93) * g <= 1e-9 * e53 * g)%R) by (apply Rmult_le_compat_r; lra).
    assert (SP : (Rabs (S0 - PI / 2 * g) <= 2e-9 * e53 * g)%R). { apply Rabs_le_inv in pB. apply Rabs_le. lra. }
    pose proof pi_num as PN. pose proof e53_bounds as [u0 u1]. set (T := (PI / 2 * g)%R) in *. assert (TB : (1.57 * g <= T <= 1.571 * g)%R) by (unfold T; split; apply Rmult_le_compat_r; lra).
    assert (ug : (0 <= e53 * g <= 1e-9 * g)%R) by (split; [apply Rmult_le_pos; lra|apply Rmult_le_compat_r; lra]).
    assert (uT : (e53 * (1.57 * g) <= e53 * T)%R) by (apply Rmult_le_compat_l; lra).
    assert (uS : (e53 * S0 <= e53 * T + 1e-9 * (e53 * g))%R). { replace (e53 * T + 1e-9 * (e53 * g))%R with (e53 * (T + 1e-9 * g))%R by ring. apply Rmult_le_compat_l; [lra|]. apply Rabs_le_inv in SP. lra. }
    apply Rabs_le_inv in SP, R0, R1. split.
    + apply Rabs_le. lra.
    + assert (aS : (e53 * a 0%Z <= e53 * (1.58 * g))%R).
      { apply Rmult_le_compat_l; [lra|]. rewrite A0. assert (E : el iq jz * 2 ^ (24 * jz) <= G) by lia. apply IZR_le in E. rewrite mult_IZR, IZRp in E by lia. apply (Rmult_le_compat_r (bpow radix2 (- B))) in E; [|apply bpow_ge_0]. fold g in E.
        rewrite Rmult_assoc, <- bpow_plus in E. replace (24 * jz + - B) with (23 + h) in E by (unfold h; lia). rewrite bpow_plus in E. fold H in E. change (bpow radix2 23) with 8388608%R in E. lra. }
      apply Rabs_le. lra.
Qed.
End Trig.
