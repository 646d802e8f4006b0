(** rem_pio2_large: what the digits mean, and the loop. *)
From Coq Require Import ZArith Reals Bool List Lia Lra Psatz.
From Flocq Require Import Core.
From Verif Require Import Base BaseLemmas FloatModel FloatSpec FloatProofs5 LibmModel LibmSpec LibmProps FloatConvSpec FloatErr PolyBound Elem ElemModel ElemSpec TrigModel F64Lib ExpProofs3 ExpProofs4 ExpProofs7 TrigDist TrigRed TrigRed4 TrigLg TrigLg2 TrigLg3 TrigLg4.
Import ListNotations.
Open Scope Z_scope.

(** The first J + 1 digits of 2 / pi, as an integer *)
Definition TP (J : Z) : Z := if J <? 0 then 0 else digits (firstn (Z.to_nat (J + 1)) IPIO2_32).
Lemma digits_app l d : digits (l ++ [d]) = digits l * 2 ^ 24 + d.
Proof. unfold digits. rewrite fold_left_app. reflexivity. Qed.
Lemma firstn_S (l : list Z) n : (n < length l)%nat -> firstn (S n) l = firstn n l ++ [nth n l 0].
Proof. revert n. induction l as [|a l IH]; intros n H; [cbn in H; lia|]. destruct n; [reflexivity|]. cbn [firstn nth app]. f_equal. apply IH. cbn in H. lia. Qed.
Lemma len_tbl : length IPIO2_32 = 66%nat. Proof. reflexivity. Qed.
Lemma TP_S J : J < 66 -> TP J = TP (J - 1) * 2 ^ 24 + tt J.
Proof.
  intros H. unfold TP, tt. destruct (Z.ltb_spec J 0) as [L|L]; [replace (J - 1 <? 0) with true by lia; reflexivity|].
  destruct (Z.ltb_spec (J - 1) 0) as [M|M]; [assert (J = 0) by lia; subst J; vm_compute; reflexivity|].
  replace (Z.to_nat (J + 1)) with (S (Z.to_nat J)) by lia. rewrite firstn_S by (rewrite len_tbl; lia). rewrite digits_app. replace (J - 1 + 1) with J by lia. reflexivity.
Qed.
Lemma TP_all J : 0 <= J <= 65 -> (IZR (TP J) <= tau * bpow radix2 (24 * (J + 1)) <= IZR (TP J) + 1)%R.
Proof.
  intros HJ. assert (E : forall d, 0 <= d <= 65 -> let J := 65 - d in TP J = TWO_PI / 2 ^ (24 * d)).
  { intros d Hd. cbv zeta. destruct Hd as [Hd Hd']. revert d Hd Hd'. apply (nat_ind_Z (fun d => d <= 65 -> TP (65 - d) = TWO_PI / 2 ^ (24 * d))).
    - intros _. vm_compute. reflexivity.
    - intros d Hd IH Hd'. specialize (IH ltac:(lia)). rewrite TP_S in IH by lia. replace (65 - d - 1) with (65 - (d + 1)) in IH by lia. pose proof (tt_range (65 - d)).
      rewrite pow_S by lia. rewrite Z.mul_comm, <- Z.div_div by lia. rewrite <- IH. rewrite Z.div_add_l, Z.div_small by lia. lia. }
  specialize (E (65 - J) ltac:(lia)). cbv zeta in E. replace (65 - (65 - J)) with J in E by lia. rewrite E. set (s := 24 * (65 - J)). assert (Hs : 0 <= s) by (unfold s; lia).
  pose proof table_ok as [T1 T2]. revert T1 T2. generalize TWO_PI. intros TW T1 T2. unfold fx in T1, T2. assert (SP : 0 < 2 ^ s) by lia. pose proof (Z_div_mod_eq_full TW (2 ^ s)) as D. pose proof (Z.mod_pos_bound TW (2 ^ s) SP) as MB.
  set (B := TW / 2 ^ s) in *. assert (I1 : B * 2 ^ s <= TW) by lia. assert (I2 : TW + 1 <= (B + 1) * 2 ^ s) by lia. apply IZR_le in I1, I2. rewrite mult_IZR, (IZR_Zpower radix2) in I1, I2 by exact Hs.
  replace (bpow radix2 (24 * (J + 1))) with (bpow radix2 1584 * bpow radix2 (- s))%R by (rewrite <- bpow_plus; f_equal; unfold s; lia). rewrite <- Rmult_assoc.
  assert (P1 : (0 < bpow radix2 1584)%R) by apply bpow_gt_0. assert (P2 : (0 < bpow radix2 (- s))%R) by apply bpow_gt_0.
  assert (Q1 : (bpow radix2 (- (1584)) * bpow radix2 1584 = 1)%R) by (rewrite <- bpow_plus; reflexivity). assert (Q2 : (bpow radix2 s * bpow radix2 (- s) = 1)%R) by (rewrite <- bpow_plus, Z.add_opp_diag_r; reflexivity).
  assert (T3 : (IZR TW <= tau * bpow radix2 1584)%R) by (apply Rle_trans with (IZR TW * bpow radix2 (- (1584)) * bpow radix2 1584)%R; [rewrite Rmult_assoc, Q1; lra|apply Rmult_le_compat_r; lra]).
  assert (T4 : (tau * bpow radix2 1584 <= IZR (TW + 1))%R) by (apply Rle_trans with (IZR (TW + 1) * bpow radix2 (- (1584)) * bpow radix2 1584)%R; [apply Rmult_le_compat_r; lra|rewrite Rmult_assoc, Q1; lra]).
  rewrite !plus_IZR in I2. rewrite plus_IZR in T4. split.
  - apply Rle_trans with (IZR B * bpow radix2 s * bpow radix2 (- s))%R; [rewrite Rmult_assoc, Q2; lra|apply Rmult_le_compat_r; lra].
  - apply Rle_trans with ((IZR B + 1) * bpow radix2 s * bpow radix2 (- s))%R; [apply Rmult_le_compat_r; lra|rewrite Rmult_assoc, Q2; lra].
Qed.

Section Trig.
Context (o : fops) (Ho : ieee_ops F64 o) (c : icast) (Hc : icast_ok c) (tbl : list Z) (Ht : forall j, 0 <= j < 66 -> tab tbl j = Ok (tt j)).
Context (x : list Z) (jx jv : Z) (xv : Z -> Z) (Hjx : 0 <= jx <= 2) (Hjv : 0 <= jv <= 41) (Hlen : len x = jx + 1)
  (Hx : forall j, 0 <= j <= jx -> sc (el x j) (xv j) 0) (Hxr : forall j, 0 <= xv j < 2 ^ 24) (Hx0 : forall j, jx < j -> xv j = 0).
Context (q0 e0 : Z) (Hq0 : -27 <= q0 <= 2) (He0 : q0 = e0 - 24 * (jv + 1)) (Hq1 : 1 <= jv -> -21 <= q0).
Let A : R := ((IZR (xv 0) + IZR (xv 1) * bpow radix2 (-24) + IZR (xv 2) * bpow radix2 (-48)) * bpow radix2 e0 * tau)%R.
Context (HA : forall n, (bpow radix2 (-62) <= Rabs (A - IZR n))%R).

Definition HH (J : Z) : Z := xv 0 * TP J + xv 1 * TP (J - 1) + xv 2 * TP (J - 2).
Lemma HH_S J : J < 66 -> HH J = HH (J - 1) * 2 ^ 24 + CC xv J.
Proof using. intros H. unfold HH, CC. rewrite (TP_S J), (TP_S (J - 1)), (TP_S (J - 2)) by lia. replace (J - 2 - 1) with (J - 1 - 2) by lia. replace (J - 1 - 1) with (J - 2) by lia. ring. Qed.
Lemma HH_neg J : J < 0 -> HH J = 0.
Proof using. intros H. unfold HH, TP. replace (J <? 0) with true by lia. replace (J - 1 <? 0) with true by lia. replace (J - 2 <? 0) with true by lia. ring. Qed.
Lemma hor_HH jz m : 0 <= m -> jv + jz < 66 -> HH (jv + jz) = hor (fun i => CC xv (jv + i)) jz m + HH (jv + jz - m - 1) * 2 ^ (24 * (m + 1)).
Proof using.
  intros Hm Hj. revert m Hm. apply (nat_ind_Z (fun m => HH (jv + jz) = hor (fun i => CC xv (jv + i)) jz m + HH (jv + jz - m - 1) * 2 ^ (24 * (m + 1)))).
  - unfold hor. cbn [Z.to_nat horn]. rewrite HH_S by exact Hj. replace (jv + jz - 0 - 1) with (jv + jz - 1) by lia. change (24 * (0 + 1)) with 24. ring.
  - intros m Hm IH. rewrite hor_S by exact Hm. rewrite IH, HH_S by lia. replace (jv + jz - (m + 1) - 1) with (jv + jz - m - 1 - 1) by lia. replace (jv + (jz - (m + 1))) with (jv + jz - m - 1) by lia.
    rewrite (pow_S (m + 1)) by lia. ring.
Qed.
Lemma meaning jz (B := 24 * jz - q0) (Q := hor (fun i => CC xv (jv + i)) jz jz) : 4 <= jz <= 7 -> exists m eps, (0 <= eps <= 3 * bpow radix2 24)%R /\ (A * bpow radix2 B = IZR (Q + m * 8 * 2 ^ B) + eps)%R.
Proof using Hxr He0 Hq0 Hq1 Hjv.
  intros Hj. set (J := jv + jz).
  assert (M : exists m, HH J = Q + m * 8 * 2 ^ B).
  { pose proof (hor_HH jz jz ltac:(lia) ltac:(lia)) as E. fold J Q in E. replace (J - jz - 1) with (jv - 1) in E by (unfold J; lia). destruct (Z.eq_dec jv 0) as [Z0|Z0].
    - exists 0. rewrite E, HH_neg by lia. ring.
    - exists (HH (jv - 1) * 2 ^ (21 + q0)). rewrite E. f_equal. change 8 with (2 ^ 3). rewrite <- !Z.mul_assoc. f_equal. rewrite <- !Z.pow_add_r by (unfold B; lia). f_equal. unfold B. lia. }
  destruct M as (m & M). exists m.
  assert (TT : forall k, 0 <= k <= 2 -> exists th, (0 <= th <= 1)%R /\ (tau * bpow radix2 (24 * (J + 1 - k)) = IZR (TP (J - k)) + th)%R).
  { intros k Hk. pose proof (TP_all (J - k) ltac:(unfold J; lia)) as T. replace (J - k + 1) with (J + 1 - k) in T by lia. exists (tau * bpow radix2 (24 * (J + 1 - k)) - IZR (TP (J - k)))%R. split; [lra|ring]. }
  destruct (TT 0 ltac:(lia)) as (t0 & T0 & E0). destruct (TT 1 ltac:(lia)) as (t1 & T1 & E1). destruct (TT 2 ltac:(lia)) as (t2 & T2 & E2).
  exists (IZR (xv 0) * t0 + IZR (xv 1) * t1 + IZR (xv 2) * t2)%R. 
  assert (XR : forall k t, (0 <= t <= 1)%R -> (0 <= IZR (xv k) * t <= bpow radix2 24)%R).
  { intros k t Htt. pose proof (Hxr k) as (X0 & X1). assert (0 <= IZR (xv k))%R by (apply IZR_le; exact X0). assert (IZR (xv k) <= bpow radix2 24)%R by (change (bpow radix2 24) with (IZR (2 ^ 24)); apply IZR_le; lia). split; [apply Rmult_le_pos; lra|].
    apply Rle_trans with (IZR (xv k) * 1)%R; [apply Rmult_le_compat_l; lra|lra]. }
  split; [pose proof (XR 0 t0 T0); pose proof (XR 1 t1 T1); pose proof (XR 2 t2 T2); lra|]. rewrite <- M. unfold HH. rewrite !plus_IZR, !mult_IZR.
  transitivity (IZR (xv 0) * (tau * bpow radix2 (24 * (J + 1 - 0))) + IZR (xv 1) * (tau * bpow radix2 (24 * (J + 1 - 1))) + IZR (xv 2) * (tau * bpow radix2 (24 * (J + 1 - 2))))%R.
  2:{ rewrite E0, E1, E2. rewrite Z.sub_0_r. ring. }
  assert (EB : e0 + B = 24 * (J + 1)) by (unfold B, J; lia).
  replace (24 * (J + 1 - 0)) with (e0 + B) by lia. replace (24 * (J + 1 - 1)) with (-24 + (e0 + B)) by lia. replace (24 * (J + 1 - 2)) with (-48 + (e0 + B)) by lia. unfold A. rewrite !bpow_plus. ring.
Qed.

Lemma IZRp k : 0 <= k -> IZR (2 ^ k) = bpow radix2 k. Proof using. intros H. apply (IZR_Zpower radix2), H. Qed.
(** The distance of the argument from the multiples of pi / 2 bounds the fraction from below. *)
Lemma frac_low jz m eps (B := 24 * jz - q0) Q (F := Q mod 2 ^ B) : 4 <= jz <= 7 -> (0 <= eps <= 3 * bpow radix2 24)%R -> (A * bpow radix2 B = IZR (Q + m * 8 * 2 ^ B) + eps)%R ->
  2 ^ (B - 63) <= F /\ 2 ^ (B - 63) <= 2 ^ B - F /\ (A * bpow radix2 B = IZR (Q / 2 ^ B + m * 8) * bpow radix2 B + IZR F + eps)%R.
Proof using HA Hq0.
  intros Hj He E. assert (HB : 94 <= B) by (unfold B; lia). pose proof (Z_div_mod_eq_full Q (2 ^ B)) as D. fold F in D. pose proof (Z.mod_pos_bound Q (2 ^ B) ltac:(lia)) as FB. fold F in FB.
  set (N := Q / 2 ^ B + m * 8). assert (EN : (A * bpow radix2 B = IZR N * bpow radix2 B + IZR F + eps)%R).
  { rewrite E. rewrite <- (IZRp B) by lia. rewrite <- mult_IZR, <- plus_IZR. do 2 f_equal. unfold N. lia. }
  assert (PB : (0 < bpow radix2 B)%R) by apply bpow_gt_0. assert (P26 : (3 * bpow radix2 24 <= bpow radix2 (B - 64))%R).
  { apply Rle_trans with (bpow radix2 26); [replace 26 with (2 + 24) by lia; rewrite bpow_plus; change (bpow radix2 2) with 4%R; pose proof (bpow_gt_0 radix2 24); lra|apply bpow_le; lia]. }
  assert (E64 : (bpow radix2 (B - 62) = 4 * bpow radix2 (B - 64))%R) by (replace (B - 62) with (2 + (B - 64)) by lia; rewrite bpow_plus; reflexivity).
  assert (E63 : (bpow radix2 (B - 63) = 2 * bpow radix2 (B - 64))%R) by (replace (B - 63) with (1 + (B - 64)) by lia; rewrite bpow_plus; reflexivity).
  assert (S : forall n, (bpow radix2 (B - 62) <= Rabs (A * bpow radix2 B - IZR n * bpow radix2 B))%R).
  { intros n. replace (A * bpow radix2 B - IZR n * bpow radix2 B)%R with ((A - IZR n) * bpow radix2 B)%R by ring. rewrite Rabs_mult, (Rabs_pos_eq (bpow radix2 B)) by lra. replace (B - 62) with (-62 + B) by lia. rewrite bpow_plus. apply Rmult_le_compat_r; [lra|apply HA]. }
  pose proof (S N) as S0. pose proof (S (N + 1)) as S1. rewrite EN in S0, S1. rewrite plus_IZR in S1.
  replace (IZR N * bpow radix2 B + IZR F + eps - IZR N * bpow radix2 B)%R with (IZR F + eps)%R in S0 by ring.
  replace (IZR N * bpow radix2 B + IZR F + eps - (IZR N + 1) * bpow radix2 B)%R with (- (bpow radix2 B - IZR F - eps))%R in S1 by ring. rewrite Rabs_Ropp in S1.
  assert (F0 : (0 <= IZR F)%R) by (apply IZR_le; lia). rewrite Rabs_pos_eq in S0 by lra.
  assert (F1 : (1 <= bpow radix2 B - IZR F)%R) by (rewrite <- (IZRp B), <- minus_IZR by lia; apply IZR_le; lia).
  assert (W : (0 < bpow radix2 (B - 64))%R) by apply bpow_gt_0.
  split; [|split; [|exact EN]].
  - apply le_IZR. rewrite IZRp by lia. lra.
  - apply le_IZR. rewrite minus_IZR, !IZRp by lia. destruct (Rle_lt_dec 0 (bpow radix2 B - IZR F - eps)) as [L|L]; [rewrite Rabs_pos_eq in S1 by exact L; lra|rewrite Rabs_left in S1 by exact L; lra].
Qed.

Definition state (jz z n ih Zf : Z) (iq : list Z) : Prop :=
  let B := 24 * jz - q0 in let G := digz jz iq + Zf * 2 ^ (24 * jz) in
  4 <= jz <= 7 /\ len iq = 20 /\ digs_ok iq jz /\ sc z Zf q0 /\ (if q0 <? 0 then 0 <= Zf <= 2 ^ (- q0) else Zf = 0) /\
  2 ^ (B - 63) <= G <= 2 ^ (B - 1) /\
  exists N eps, (0 <= eps <= 3 * bpow radix2 24)%R /\ 0 <= n <= 8 /\ (n - N) mod 8 = 0 /\
    (A * bpow radix2 B = if ih =? 0 then IZR N * bpow radix2 B + (IZR G + eps) else IZR N * bpow radix2 B - (IZR G - eps))%R.

Lemma loop_ok fuel : forall jz f q iq, 4 <= jz <= 7 -> 8 - jz <= Z.of_nat fuel -> fok jx jv f (jx + jz) -> qok jv xv q jz -> len iq = 20 ->
  exists jz' z n ih q' iq' Zf, lg_loop o c tbl fuel 4 jx jv q0 jz x f q iq = Ok (jz', z, n, ih, q', iq') /\ len q' = 20 /\ state jz' z n ih Zf iq' /\ 2 ^ 96 <= digz jz' iq' + Zf * 2 ^ (24 * jz').
Proof using Ho Hc Ht Hx Hxr Hx0 Hlen Hjx Hjv HA Hq0 Hq1 He0.
  induction fuel as [|fuel IH]; intros jz f q iq Hj Hfu Hf Hq Li; [lia|].
  cbn [lg_loop]. destruct Hq as (Lq & Fq). rewrite tab_el by lia. cbn [bind].
  pose proof (CC_range xv Hxr) as CR.
  destruct (distill_ok o Ho c Hc (fun i => CC xv (jv + i)) jz q (fun i => CR (jv + i)) ltac:(lia) Lq Fq (Z.to_nat jz) 0 (el q jz) (CC xv (jv + jz)) iq Li) as (z1 & zz & iq1 & -> & L1 & S1 & Z1 & D1 & E1);
    [lia|lia|apply Fq; lia|pose proof (CR (jv + jz)); lia|intros i Hi; lia|rewrite digz_0; unfold hor; cbn -[Z.mul Z.pow]; change (2 ^ (24 * 0)) with 1; ring|].
  cbn [bind fst snd]. set (Q := hor (fun i => CC xv (jv + i)) jz jz) in *. set (B := 24 * jz - q0).
  destruct (n_ok o Ho c Hc q0 jz z1 zz iq1 ltac:(lia) Hq0 L1 D1 S1 ltac:(lia)) as (z2 & Zf & ih & iq2 & -> & L2 & D2 & S2 & E2 & R2). rewrite E1 in E2, R2. rewrite E1. fold B in E2, R2 |- *. cbn [bind].
  destruct (meaning jz Hj) as (m & eps & He & EA). fold Q B in EA. destruct (frac_low jz m eps Q Hj He EA) as (FL & FH & EN). fold B in FL, FH, EN.
  set (F := Q mod 2 ^ B) in *. pose proof (Z.mod_pos_bound (Q / 2 ^ B) 8 ltac:(lia)) as NB. assert (HB : 94 <= B) by (unfold B; lia).
  assert (FB : F < 2 ^ B) by (unfold F; apply Z.mod_pos_bound; lia).
  destruct (neg_ok o Ho q0 jz z2 ((Q / 2 ^ B) mod 8) ih iq2 Zf F ltac:(lia) Hq0 L2 D2 S2 NB E2 FB R2) as (z3 & Zf' & iq3 & -> & L3 & D3 & S3 & E3 & Z3 & I3). fold B in E3, I3 |- *. cbn [bind].
  set (G := digz jz iq3 + Zf' * 2 ^ (24 * jz)) in *.
  assert (PB2 : 2 ^ B = 2 * 2 ^ (B - 1)) by (rewrite <- (Z.pow_add_r 2 1) by lia; f_equal; lia).
  assert (GB : 2 ^ (B - 63) <= G <= 2 ^ (B - 1)) by (rewrite E3; destruct (Z.leb_spec (2 ^ (B - 1)) F); lia).
  assert (ST : state jz z3 ((Q / 2 ^ B) mod 8 + (if 2 ^ (B - 1) <=? F then 1 else 0)) ih Zf' iq3).
  { unfold state. fold B G. split; [exact Hj|]. split; [exact L3|]. split; [exact D3|]. split; [exact S3|]. split; [exact Z3|]. split; [exact GB|].
    exists (Q / 2 ^ B + m * 8 + (if 2 ^ (B - 1) <=? F then 1 else 0)), eps. split; [exact He|]. split; [destruct (2 ^ (B - 1) <=? F); lia|]. split.
    - set (b := if 2 ^ (B - 1) <=? F then 1 else 0). replace ((Q / 2 ^ B) mod 8 + b - (Q / 2 ^ B + m * 8 + b)) with ((- (Q / 2 ^ B / 8) - m) * 8); [apply Z_mod_mult|].
      pose proof (Z_div_mod_eq_full (Q / 2 ^ B) 8). lia.
    - rewrite I3, E3, EN. rewrite (plus_IZR (Q / 2 ^ B + m * 8)). destruct (2 ^ (B - 1) <=? F); cbn [negb]; [rewrite minus_IZR, (IZRp B) by lia; ring|rewrite Rplus_0_r; ring]. }
  clear E1 E2 R2 EN EA I3 FL FH.
  assert (TE : forall r, (if o_eq o z3 0 then lg_or (Z.to_nat (jz - 4)) (jz - 1) iq3 0 else Ok 1) = Ok r -> 0 <= r -> (r = 0 <-> Zf' = 0 /\ (forall k, 3 < k <= jz - 1 -> el iq3 k = 0)) -> if r =? 0 then G < 2 ^ 96 /\ G = digz 4 iq3 else 2 ^ 96 <= G).
  { intros r _ Hr R. pose proof (digz_range iq3 jz ltac:(lia) D3) as DR. assert (PJ : 2 ^ 96 <= 2 ^ (24 * jz)) by (apply Z.pow_le_mono_r; lia). destruct (Z.eqb_spec r 0) as [Er|Er].
    - apply R in Er. destruct Er as (-> & K). unfold G. rewrite (digz_zero iq3 4 jz) by (try lia; intros k Hk; apply K; lia). pose proof (digz_range iq3 4 ltac:(lia) ltac:(intros k Hk; apply D3; lia)). change (24 * 4) with 96 in *. lia.
    - destruct (Z.eq_dec Zf' 0) as [Z0|Z0]; [|assert (1 <= Zf') by (destruct (q0 <? 0); lia); unfold G; nia].
      unfold G. rewrite Z0, Z.mul_0_l, Z.add_0_r. destruct (Z_lt_ge_dec (digz jz iq3) (2 ^ 96)) as [L|L]; [|lia]. exfalso. apply Er, R. split; [exact Z0|]. intros k Hk. destruct (Z.eq_dec (el iq3 k) 0) as [E|E]; [exact E|].
      pose proof (digz_big iq3 4 jz k ltac:(lia) ltac:(lia) D3 E) as Bg. change (24 * 4) with 96 in Bg. lia. }
  assert (RR : exists r, (if o_eq o z3 0 then lg_or (Z.to_nat (jz - 4)) (jz - 1) iq3 0 else Ok 1) = Ok r /\ 0 <= r /\ (r = 0 <-> Zf' = 0 /\ (forall k, 3 < k <= jz - 1 -> el iq3 k = 0))).
  { rewrite (sc_eq0 o Ho _ _ _ S3). destruct (Z.eqb_spec Zf' 0) as [Z0|Z0].
    - destruct (or_ok iq3 (Z.to_nat (jz - 4)) (jz - 1) 0 L3 ltac:(lia) ltac:(lia) ltac:(lia)) as (r & E & R0 & R); [replace (jz - 1 + 1) with jz by lia; exact D3|]. exists r. split; [exact E|]. split; [exact R0|]. rewrite R.
      replace (jz - 1 - Z.of_nat (Z.to_nat (jz - 4))) with 3 by lia. tauto.
    - exists 1. split; [reflexivity|]. split; [lia|]. split; [lia|tauto]. }
  destruct RR as (r & ER & R0 & R). specialize (TE r ER R0 R). rewrite ER. cbn [bind]. destruct (r =? 0) eqn:E0.
  - destruct TE as (GL & G4). assert (D4 : digs_ok iq3 4) by (intros k Hk; apply D3; lia). assert (0 < 2 ^ (B - 63)) by lia.
    change (S (Z.to_nat 4)) with 5%nat. destruct (k_ok iq3 L3 D4) as (k & -> & Hk & GK); [lia|]. cbn [bind]. rewrite <- G4 in GK.
    assert (JK : jz + k <= 7).
    { assert (2 ^ (B - 63) < 2 ^ (24 * (5 - k))) by lia. apply Z.pow_lt_mono_r_iff in H0; [|lia|lia]. unfold B in H0. lia. }
    destruct (extend_ok o Ho c Hc tbl Ht x jx jv xv Hjx Hjv Hlen Hx Hxr Hx0 (Z.to_nat k) (jz + 1) f q) as (f' & q' & -> & F' & Q'); try lia.
    + replace (jx + (jz + 1) - 1) with (jx + jz) by lia. exact Hf.
    + replace (jz + 1 - 1) with jz by lia. split; assumption.
    + cbn [bind fst snd]. rewrite Z2Nat.id in F', Q' by lia. apply IH; try lia.
      * replace (jx + (jz + k)) with (jx + (jz + 1) + k - 1) by lia. exact F'.
      * replace (jz + k) with (jz + 1 + k - 1) by lia. exact Q'.
  - eexists jz, z3, _, ih, q, iq3, Zf'. split; [reflexivity|]. split; [exact Lq|]. split; [exact ST|exact TE].
Qed.
End Trig.
