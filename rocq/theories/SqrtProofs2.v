(** Proofs about sqrt: the table and the iterations of each format. *)
From Coq Require Import ZArith Reals Bool List Lia Lra Psatz.
From Flocq Require Import Core.
From Verif Require Import Base BaseLemmas FloatModel FloatSpec FloatProofs SqrtModel SqrtProofs.
Import ListNotations.
Open Scope R_scope.

(** * The table *)
Definition tab_check (i : Z) : bool :=
  match nth_error RSQRT_TAB (Z.to_nat i) with
  | Some t => let b := (if i <? 64 then 2 else 1)%Z in let j := (i mod 64)%Z in
      ((0 <? t) && (t <? 65536) && (9961 ^ 2 * 2 ^ 38 <=? b * (64 + j) * t ^ 2 * 10 ^ 8) && (b * (65 + j) * t ^ 2 * 10 ^ 8 <=? 10039 ^ 2 * 2 ^ 38))%Z
  | None => false
  end.
Lemma tab_checked : forallb tab_check (map Z.of_nat (seq 0 128)) = true.
Proof. vm_compute. reflexivity. Qed.
Lemma tab_ok i : (0 <= i < 128)%Z -> exists t, nth_error RSQRT_TAB (Z.to_nat i) = Some t /\ (0 < t < 65536)%Z /\
  (let b := if i <? 64 then 2 else 1 in let j := i mod 64 in 9961 ^ 2 * 2 ^ 38 <= b * (64 + j) * t ^ 2 * 10 ^ 8 /\ b * (65 + j) * t ^ 2 * 10 ^ 8 <= 10039 ^ 2 * 2 ^ 38)%Z.
Proof.
  intros Hi. pose proof tab_checked as T. rewrite forallb_forall in T. specialize (T i). unfold tab_check in T.
  destruct (nth_error RSQRT_TAB (Z.to_nat i)) as [t|] eqn:E.
  - exists t. split; [reflexivity|]. cbv zeta in *. assert (In i (map Z.of_nat (seq 0 128))) as L by (apply in_map_iff; exists (Z.to_nat i); split; [lia|apply in_seq; lia]). specialize (T L).
    rewrite !andb_true_iff, !Z.ltb_lt, !Z.leb_le in T. tauto.
  - exfalso. assert (In i (map Z.of_nat (seq 0 128))) as L by (apply in_map_iff; exists (Z.to_nat i); split; [lia|apply in_seq; lia]). specialize (T L). discriminate.
Qed.

Lemma from_sq x y : 0 <= x -> 0 <= y -> x * x <= y * y -> x <= y.
Proof. intros. nra. Qed.

Lemma tab_near n m i t : (16 <= n)%Z -> (2 ^ (n - 2) <= m < 2 ^ n)%Z -> (0 <= i < 128)%Z -> nth_error RSQRT_TAB (Z.to_nat i) = Some t ->
  (let b := if i <? 64 then 2 else 1 in let j := i mod 64 in b * (64 + j) * 2 ^ (n - 8) <= m < b * (65 + j) * 2 ^ (n - 8))%Z ->
  near n m (t * 2 ^ (n - 16)) (39/10000) /\ below n m (t * 2 ^ (n - 16)) (387/100000).
Proof.
  intros Hn Hm Hi Et Hb. destruct (tab_ok i Hi) as (t' & Et' & T0 & T1 & T2). rewrite Et in Et'. injection Et' as <-. cbv zeta in Hb.
  set (b := if (i <? 64)%Z then 2%Z else 1%Z) in *. set (j := (i mod 64)%Z) in *. assert (0 <= j < 64)%Z as Hj by (apply Z.mod_pos_bound; lia).
  set (P := (2 ^ (n - 8))%Z) in *. assert (0 < P)%Z as HP by (apply Z.pow_pos_nonneg; lia). assert (2 ^ n = 256 * P)%Z as EP. { unfold P. replace n with (n - 8 + 8)%Z at 1 by lia. rewrite Z.pow_add_r by lia. lia. }
  assert (2 ^ n = 65536 * 2 ^ (n - 16))%Z as E16. { replace n with (n - 16 + 16)%Z at 1 by lia. rewrite Z.pow_add_r by lia. lia. }
  pose proof (width_big n Hn) as WB. pose proof (root_range n m Hn Hm) as Q. pose proof (root_sq n m Hn Hm) as S. pose proof (M_range n m Hn Hm) as MR.
  assert (0 < IZR P) as HP' by (apply IZR_lt; exact HP). assert (width n = 256 * IZR P) as WP by (unfold width; rewrite EP, mult_IZR; reflexivity).
  assert (xr n m (t * 2 ^ (n - 16)) = root n m * (IZR t / 65536)) as X.
  { unfold xr, width. rewrite E16, !mult_IZR. field. apply IZR_neq. assert (0 < 2 ^ (n - 16))%Z by (apply Z.pow_pos_nonneg; lia). lia. }
  set (M := 4 * IZR m / width n) in *. assert (IZR (b * (64 + j)) / 64 <= M <= IZR (b * (65 + j)) / 64) as MB.
  { unfold M. rewrite WP. assert (IZR (b * (64 + j)) * IZR P <= IZR m <= IZR (b * (65 + j)) * IZR P) as K by (rewrite <- !mult_IZR; split; apply IZR_le; lia).
    set (k1 := IZR (b * (64 + j))) in *. set (k2 := IZR (b * (65 + j))) in *. split; apply Rmult_le_reg_r with (256 * IZR P); try lra.
    - replace (4 * IZR m / (256 * IZR P) * (256 * IZR P)) with (4 * IZR m) by (field; lra). lra.
    - replace (4 * IZR m / (256 * IZR P) * (256 * IZR P)) with (4 * IZR m) by (field; lra). lra. }
  assert (0 < IZR t < 65536) as HT by (split; apply IZR_lt; lia). assert (0 < root n m * (IZR t / 65536)) as X0 by (apply Rmult_lt_0_compat; lra).
  assert (root n m * (IZR t / 65536) * (root n m * (IZR t / 65536)) = M * (IZR t * IZR t / 4294967296)) as XX by (rewrite <- S; field).
  assert (0 < IZR t * IZR t) as TT by (apply Rmult_lt_0_compat; lra).
  split; [split|].
  - assert (0 < 2 ^ (n - 16))%Z by (apply Z.pow_pos_nonneg; lia). nia.
  - rewrite X. split.
    + apply from_sq; [lra|lra|]. rewrite XX. apply Rle_trans with (IZR (b * (64 + j)) / 64 * (IZR t * IZR t / 4294967296)); [|apply Rmult_le_compat_r; lra].
      apply IZR_le in T1. rewrite !mult_IZR in T1. replace (t ^ 2)%Z with (t * t)%Z in T1 by ring. rewrite mult_IZR in T1. change (9961 ^ 2)%Z with 99221521%Z in T1. change (2 ^ 38)%Z with 274877906944%Z in T1. change (10 ^ 8)%Z with 100000000%Z in T1.
      rewrite <- (mult_IZR b) in T1. set (k1 := IZR (b * (64 + j))) in *. lra.
    + apply from_sq; [lra|lra|]. rewrite XX. apply Rle_trans with (IZR (b * (65 + j)) / 64 * (IZR t * IZR t / 4294967296)); [apply Rmult_le_compat_r; lra|].
      apply IZR_le in T2. rewrite !mult_IZR in T2. replace (t ^ 2)%Z with (t * t)%Z in T2 by ring. rewrite mult_IZR in T2. change (10039 ^ 2)%Z with 100781521%Z in T2. change (2 ^ 38)%Z with 274877906944%Z in T2. change (10 ^ 8)%Z with 100000000%Z in T2.
      rewrite <- (mult_IZR b) in T2. set (k1 := IZR (b * (65 + j))) in *. lra.
  - intros K. fold M in K. rewrite X. assert (i = 64)%Z as ->.
    { destruct (Z.eq_dec i 64) as [|N]; [assumption|]. exfalso. assert (65 <= b * (64 + j))%Z as L. { unfold b, j. destruct (i <? 64)%Z eqn:C; [lia|]. assert (i mod 64 = i - 64)%Z by (symmetry; apply Z.mod_unique with 1%Z; lia). lia. }
      apply IZR_le in L. lra. }
    injection Et as <-. assert (root n m <= 1 + 1/2097152) as RB. { apply from_sq; [lra|lra|]. rewrite S. fold M. lra. }
    nra.
Qed.

(** * Going to a wider integer *)
Lemma near_weaken n m r A A' : near n m r A -> A <= A' -> near n m r A'.
Proof. intros (H & K) L. split; [exact H|lra]. Qed.
Lemma below_weaken n m r B B' : below n m r B -> B' <= B -> below n m r B'.
Proof. intros H L K. specialize (H K). lra. Qed.

Lemma widen_near n k m r A : (16 <= n)%Z -> (0 <= k)%Z -> (2 ^ (n + k - 2) <= m < 2 ^ (n + k))%Z -> near n (m / 2 ^ k) r A ->
  near (n + k) m (r * 2 ^ k) (A + 2 * / width n) /\ (forall B, below n (m / 2 ^ k) r B -> below (n + k) m (r * 2 ^ k) (B - 2 * / width n)).
Proof.
  intros Hn Hk Hm (Hr & Hx). assert (0 < 2 ^ k)%Z as K0 by (apply Z.pow_pos_nonneg; lia). assert (2 ^ (n + k) = 2 ^ n * 2 ^ k)%Z as E1 by (apply Z.pow_add_r; lia).
  assert (2 ^ (n + k - 2) = 2 ^ (n - 2) * 2 ^ k)%Z as E2 by (rewrite <- Z.pow_add_r by lia; f_equal; lia).
  assert (2 ^ (n - 2) <= m / 2 ^ k < 2 ^ n)%Z as Hm' by (split; [apply Z.div_le_lower_bound; lia|apply Z.div_lt_upper_bound; lia]).
  assert (16 <= n + k)%Z as Hn' by lia. pose proof (width_big n Hn) as W1. pose proof (w_small n Hn) as w1. assert (1 <= IZR (2 ^ k)) as K1 by (apply IZR_le; lia).
  assert (width (n + k) = width n * IZR (2 ^ k)) as EW by (unfold width; rewrite E1, mult_IZR; reflexivity).
  pose proof (root_range n (m / 2 ^ k) Hn Hm') as Q. pose proof (root_range (n + k) m Hn' Hm) as Q'. pose proof (root_sq n (m / 2 ^ k) Hn Hm') as S. pose proof (root_sq (n + k) m Hn' Hm) as S'.
  set (q := root n (m / 2 ^ k)) in *. set (q' := root (n + k) m) in *. pose proof (div_real m (2 ^ k) K0) as D.
  assert (4 * IZR m / width (n + k) = 4 * (IZR m / IZR (2 ^ k)) / width n) as EM by (rewrite EW; field; lra).
  set (m0 := IZR (m / 2 ^ k)) in *. set (m1 := IZR m / IZR (2 ^ k)) in *.
  assert (q * q <= q' * q' <= q * q + 4 * / width n) as SS.
  { rewrite S, S', EM. unfold Rdiv. split; [apply Rmult_le_compat_r; lra|]. replace (4 * m0 * / width n + 4 * / width n) with (4 * (m0 + 1) * / width n) by ring. apply Rmult_le_compat_r; lra. }
  assert (q <= q') as L1 by (apply from_sq; lra). assert (q' <= q + 2 * / width n) as L2. { apply from_sq; [lra|lra|]. nra. }
  assert (0 <= IZR r / width n < 1) as R1. { assert (0 <= IZR r < width n) by (unfold width; split; [apply IZR_le|apply IZR_lt]; lia). split; [apply Rle_mult_inv_pos; lra|]. apply Rmult_lt_reg_r with (width n); [lra|]. unfold Rdiv. rewrite Rmult_assoc, Rinv_l; lra. }
  assert (xr (n + k) m (r * 2 ^ k) = q' * (IZR r / width n)) as X. { unfold xr. fold q'. rewrite EW, mult_IZR. field. lra. }
  assert (xr n (m / 2 ^ k) r <= q' * (IZR r / width n) <= xr n (m / 2 ^ k) r + 2 * / width n) as XX.
  { unfold xr. fold q. set (p := IZR r / width n) in *. split; [apply Rmult_le_compat_r; lra|]. assert ((q' - q) * p <= 2 * / width n * 1) by (apply Rmult_le_compat; lra). lra. }
  split; [split; [nia|rewrite X; lra]|].
  intros B HB K. rewrite X. assert (xr n (m / 2 ^ k) r <= 1 - B) as HB'. { apply HB. fold m0. rewrite <- S. rewrite <- S' in K. lra. } lra.
Qed.

(** * Overflow of r in a second round *)
Lemma set2_no n m r A : (16 <= n)%Z -> (2 ^ (n - 2) <= m < 2 ^ n)%Z -> near n m r A -> 0 <= A <= 1/100 -> 301/200 * (A * A) + 82/10 * / width n <= 1/100 ->
  let u := next_u n r (wmulh n m r) in let r1 := (2 * wmulh n r u)%Z in let s2 := (2 * wmulh n (wmulh n m r) u)%Z in
  (r1 < 2 ^ n)%Z ->
  (1 + 85/10 * / width n < root n m -> (2 * wmulh n r1 (next_u n r1 s2) < 2 ^ n)%Z) /\
  (forall B, 0 <= B -> below n m r1 B -> 85/10 * / width n < 1/4194304 -> 85/10 * / width n < 299/200 * (B * B) -> (2 * wmulh n r1 (next_u n r1 s2) < 2 ^ n)%Z).
Proof.
  intros Hn Hm N HA HA1 u r1 s2 NO1. destruct (first_round n m Hn Hm r A N HA) as (Hs & Hy & HC). set (s := wmulh n m r) in *. pose proof (w_small n Hn) as Ww. pose proof (root_range n m Hn Hm) as Q.
  destruct (round_r n m Hn Hm r s A (4 * / width n) N Hs HA HC Hy) as (Hu & YU & _ & _ & NX). destruct (NX NO1) as ((NX1 & NX2) & NXY). fold u in Hu, YU, NX, NX1, NX2, NXY. fold r1 in NX1, NX2, NXY.
  destruct (second_s n m Hn Hm s u (53/100 * (4 * / width n) + 11 * / width n) Hs Hu ltac:(lra) ltac:(lra)) as (S0 & S1 & S2). fold s2 in S1, S2.
  set (A1 := 301/200 * (A * A) + 82/10 * / width n) in *. assert (0 <= A * A) by apply Rle_0_sqr. assert (near n m r1 A1) as N1 by (split; [exact NX1|unfold A1; lra]). assert (0 <= A1 <= 1/100) as HA1' by (split; [unfold A1; lra|exact HA1]).
  destruct (round_r n m Hn Hm r1 s2 A1 (103/100 * (4 * / width n) + 8 * / width n) N1 ltac:(unfold s2 in *; lia) HA1' ltac:(lra) ltac:(rewrite S2; lra)) as (_ & _ & P1 & P2 & _).
  split; [intros K; apply P1; lra|]. intros B B0 Bl K1 K2. apply (P2 B B0 Bl); lra.
Qed.

Lemma set1_no n m r A B : (16 <= n)%Z -> (2 ^ (n - 2) <= m < 2 ^ n)%Z -> near n m r A -> 0 <= A <= 1/100 -> 0 <= B -> below n m r B -> 41/10 * / width n < 1/4194304 -> 41/10 * / width n < 299/200 * (B * B) ->
  (2 * wmulh n r (next_u n r (wmulh n m r)) < 2 ^ n)%Z.
Proof.
  intros Hn Hm N HA B0 Bl K1 K2. destruct (first_round n m Hn Hm r A N HA) as (Hs & Hy & HC). pose proof (w_small n Hn) as Ww.
  destruct (round_r n m Hn Hm r _ A (4 * / width n) N Hs HA HC Hy) as (_ & _ & _ & P2 & _). apply (P2 B B0 Bl); lra.
Qed.

(** * The iterations of sqrt_round *)
Lemma index_ok f (W : wf f) ix m : (0 <= ix < 2 ^ fb f)%Z ->
  m = ((2 ^ fs f + ix mod 2 ^ fs f) * 2 ^ (EXP_BITS f - (ix / 2 ^ fs f) mod 2))%Z ->
  exists t, nth_error RSQRT_TAB (Z.to_nat (Z.land (ix / 2 ^ (fs f - 6)) 127)) = Some t /\ (0 < t < 65536)%Z /\
  forall n, (16 <= n <= fb f)%Z -> (2 ^ (n - 2) <= m / 2 ^ (fb f - n) < 2 ^ n)%Z /\
    near n (m / 2 ^ (fb f - n)) (t * 2 ^ (n - 16)) (39/10000) /\ below n (m / 2 ^ (fb f - n)) (t * 2 ^ (n - 16)) (387/100000).
Proof.
  intros Hix Em. assert (10 <= fs f /\ 5 <= EXP_BITS f /\ fb f = fs f + EXP_BITS f + 1)%Z as (H1 & H2 & H3) by (destruct W; unfold EXP_BITS; lia).
  set (e := EXP_BITS f) in *. set (b := ((ix / 2 ^ fs f) mod 2)%Z) in *. set (F := (ix mod 2 ^ fs f)%Z) in *. set (P := (2 ^ (fs f - 6))%Z). assert (0 < P)%Z as P0 by (apply Z.pow_pos_nonneg; lia).
  assert (2 ^ fs f = 64 * P)%Z as E64. { unfold P. replace (fs f) with (fs f - 6 + 6)%Z at 1 by lia. rewrite Z.pow_add_r by lia. lia. }
  assert (0 <= b < 2)%Z as Hb by (apply Z.mod_pos_bound; lia). assert (0 <= F < 64 * P)%Z as HF by (unfold F; rewrite E64; apply Z.mod_pos_bound; lia).
  assert (Z.land (ix / P) 127 = 64 * b + F / P)%Z as EI.
  { change 127%Z with (Z.ones 7). rewrite Z.land_ones by lia. change (2 ^ 7)%Z with 128%Z. symmetry. apply Z.mod_unique with (ix / 2 ^ fs f / 2)%Z.
    - assert (0 <= F / P < 64)%Z by (split; [apply Z.div_pos; lia|apply Z.div_lt_upper_bound; lia]). lia.
    - pose proof (Z.div_mod (ix / 2 ^ fs f) 2 ltac:(lia)) as D1. fold b in D1. pose proof (Z.div_mod ix (2 ^ fs f) ltac:(lia)) as D2. fold F in D2. rewrite E64 in *.
      replace ix with ((64 * (ix / (64 * P))) * P + F)%Z at 1 by lia. rewrite Z.div_add_l by lia. lia. }
  set (i := Z.land (ix / P) 127) in *. assert (0 <= F / P < 64)%Z as HFP by (split; [apply Z.div_pos; lia|apply Z.div_lt_upper_bound; lia]). assert (0 <= i < 128)%Z as Hi by lia.
  destruct (tab_ok i Hi) as (t & Et & T0 & _). exists t. split; [exact Et|]. split; [exact T0|]. intros n Hn.
  assert ((if i <? 64 then 2 else 1) = 2 ^ (1 - b))%Z as Eb. { assert (b = 0 \/ b = 1)%Z as [B|B] by lia; rewrite B in *; [replace (i <? 64)%Z with true by lia|replace (i <? 64)%Z with false by lia]; reflexivity. }
  assert (i mod 64 = F / P)%Z as Ej by (symmetry; apply Z.mod_unique with b; lia).
  set (K := (fb f - n)%Z) in *. assert (0 < 2 ^ K)%Z as K0 by (apply Z.pow_pos_nonneg; lia).
  assert (P * 2 ^ (e - b) = 2 ^ (1 - b) * 2 ^ (n - 8) * 2 ^ K)%Z as EP. { unfold P. rewrite <- !Z.pow_add_r by lia. f_equal. lia. }
  pose proof (Z.div_mod F P ltac:(lia)) as DF. pose proof (Z.mod_pos_bound F P P0) as DM. set (j := (F / P)%Z) in *.
  assert (0 < 2 ^ (1 - b) * 2 ^ (n - 8))%Z as Q0. { apply Z.mul_pos_pos; apply Z.pow_pos_nonneg; lia. }
  assert (2 ^ (1 - b) * (64 + j) * 2 ^ (n - 8) <= m / 2 ^ K < 2 ^ (1 - b) * (65 + j) * 2 ^ (n - 8))%Z as MB.
  { rewrite Em, E64. assert (0 < 2 ^ (e - b))%Z as EB0 by (apply Z.pow_pos_nonneg; lia). set (Q := (2 ^ (1 - b) * 2 ^ (n - 8))%Z) in *. replace (2 ^ (1 - b) * (64 + j) * 2 ^ (n - 8))%Z with ((64 + j) * Q)%Z by (unfold Q; ring). replace (2 ^ (1 - b) * (65 + j) * 2 ^ (n - 8))%Z with ((65 + j) * Q)%Z by (unfold Q; ring).
    split; [apply Z.div_le_lower_bound; [lia|]|apply Z.div_lt_upper_bound; [lia|]].
    - replace (2 ^ K * ((64 + j) * Q))%Z with ((64 + j) * (Q * 2 ^ K))%Z by ring. rewrite <- EP. nia.
    - replace (2 ^ K * ((65 + j) * Q))%Z with ((65 + j) * (Q * 2 ^ K))%Z by ring. rewrite <- EP. nia. }
  assert (2 ^ (n - 2) = 64 * 2 ^ (n - 8))%Z as E2. { replace (n - 2)%Z with (n - 8 + 6)%Z by lia. rewrite Z.pow_add_r by lia. lia. }
  assert (2 ^ n = 256 * 2 ^ (n - 8))%Z as E0. { replace n with (n - 8 + 8)%Z at 1 by lia. rewrite Z.pow_add_r by lia. lia. }
  assert (2 ^ (n - 2) <= m / 2 ^ K < 2 ^ n)%Z as MR. { assert (1 <= 2 ^ (1 - b) <= 2)%Z. { assert (b = 0 \/ b = 1)%Z as [B|B] by lia; rewrite B; cbn; lia. } nia. }
  split; [exact MR|]. apply (tab_near n _ i t); [lia|exact MR|exact Hi|exact Et|]. cbv zeta. rewrite Eb, Ej. exact MB.
Qed.

(** The outcome of the iterations: the root within half a unit in the last place. *)
Definition root_near (f : fmt) (m s : Z) : Prop := (0 <= s < 2 ^ fb f)%Z /\ Rabs (8 * IZR s / width (fb f) - root (fb f) m) < / IZR (2 ^ (fs f + 1)).

Lemma scale_q y q d e : 1 <= q < 2 -> 1 - e <= y <= 1 + d -> 0 <= d -> 0 <= e -> - (2 * e) <= y * q - q <= 2 * d.
Proof. intros. nra. Qed.
Lemma root_near_intro n f m s e : n = fb f -> (16 <= n)%Z -> (2 ^ (n - 2) <= m < 2 ^ n)%Z -> (0 <= s < 2 ^ n)%Z ->
  0 <= e -> 1 - e <= 8 * IZR s / width n / root n m <= 1 + e -> 2 * e < / IZR (2 ^ (fs f + 1)) -> root_near f m s.
Proof.
  intros -> Hn Hm Hs He Y L. split; [exact Hs|]. pose proof (root_range (fb f) m Hn Hm) as Q. pose proof (width_big (fb f) Hn). pose proof (scale_q _ _ e e Q Y He He) as B.
  replace (8 * IZR s / width (fb f) / root (fb f) m * root (fb f) m) with (8 * IZR s / width (fb f)) in B by (field; lra). apply Rabs_def1; lra.
Qed.

Lemma wf16 : wf F16. Proof. apply std_wf. unfold std. tauto. Qed.
Lemma wf32 : wf F32. Proof. apply std_wf. unfold std. tauto. Qed.
Lemma wf64 : wf F64. Proof. apply std_wf. unfold std. tauto. Qed.
Lemma wf128 : wf F128. Proof. apply std_wf. unfold std. tauto. Qed.

Definition fresh (f : fmt) (ix m : Z) : Prop := (0 <= ix < 2 ^ fb f)%Z /\ m = ((2 ^ fs f + ix mod 2 ^ fs f) * 2 ^ (EXP_BITS f - (ix / 2 ^ fs f) mod 2))%Z.
Lemma usz_ok ix k usz n : (0 <= ix < 2 ^ n)%Z -> (0 <= k <= n)%Z -> (n - k <= usz)%Z -> ccast (UI usz) (ix / 2 ^ k) = Ok (ix / 2 ^ k)%Z.
Proof.
  intros H Hk Hu. unfold ccast. apply chk_ok, fits_u. assert (0 < 2 ^ k)%Z by (apply Z.pow_pos_nonneg; lia). split; [apply Z.div_pos; lia|]. apply Z.lt_le_trans with (2 ^ (n - k))%Z.
  - apply Z.div_lt_upper_bound; [assumption|]. rewrite <- Z.pow_add_r by lia. replace (k + (n - k))%Z with n by lia. lia.
  - apply Z.pow_le_mono_r; lia.
Qed.


Lemma iterate_unfold f (W : wf f) usz ix m t : let c := sqrt_config f in (16 <= is1 c <= is2 c)%Z -> (is2 c <= fb f)%Z -> (EXP_BITS f + 7 <= usz)%Z -> fresh f ix m ->
  nth_error RSQRT_TAB (Z.to_nat (Z.land (ix / 2 ^ (fs f - 6)) 127)) = Some t -> (0 < t < 65536)%Z -> (0 <= m < 2 ^ fb f)%Z ->
  sqrt_iterate f usz ix m =
    let* (r, _) := goldschmidt (is1 c) (t * 2 ^ (is1 c - 16)) (m / 2 ^ (fb f - is1 c)) (rounds1 c) false in
    let* r := cshl (UI (is2 c)) r (is2 c - is1 c) in
    let* (r, _) := goldschmidt (is2 c) r (m / 2 ^ (fb f - is2 c)) (rounds2 c) false in
    let* r := cshl (fI f) r (fb f - is2 c) in
    let* (_, s) := goldschmidt (fb f) r m (final_rounds c) true in
    Ok s.
Proof.
  intros c H1 H2 Hu (Hix & _) Et Ht Hm. unfold sqrt_iterate. fold c. assert (10 <= fs f /\ 5 <= EXP_BITS f /\ fb f = fs f + EXP_BITS f + 1)%Z as (K1 & K2 & K3) by (destruct W; unfold EXP_BITS; lia).
  assert (65536 * 2 ^ (is1 c - 16) = 2 ^ is1 c)%Z as E16. { change 65536%Z with (2 ^ 16)%Z. rewrite <- Z.pow_add_r by lia. f_equal. lia. }
  assert (0 < 2 ^ (is1 c - 16))%Z by (apply Z.pow_pos_nonneg; lia). 
  unfold fI. rewrite cshr_ok by (cbn; lia). cbn [bind]. rewrite (usz_ok ix _ usz (fb f)) by lia. cbn [bind]. rewrite Et. cbn [bind].
  unfold ccast at 1. rewrite chk_ok by (apply fits_u; nia). cbn [bind]. rewrite cshl_u_exact by nia. cbn [bind]. rewrite cshr_ok by (cbn; lia). cbn [bind]. rewrite (usz_ok m _ (is1 c) (fb f)) by lia. cbn [bind].
  destruct (goldschmidt (is1 c) (t * 2 ^ (is1 c - 16)) (m / 2 ^ (fb f - is1 c)) (rounds1 c) false) as [[r s]|]; cbn [bind]; [|reflexivity].
  destruct (cshl (UI (is2 c)) r (is2 c - is1 c)) as [r2|]; cbn [bind]; [|reflexivity].
  rewrite cshr_ok by (cbn; lia). cbn [bind]. rewrite (usz_ok m _ (is2 c) (fb f)) by lia. reflexivity.
Qed.

Lemma w_eq n k : (2 ^ n)%Z = k -> width n = IZR k.
Proof. intros <-. reflexivity. Qed.
Lemma sq_mono a b : 0 <= a <= b -> a * a <= b * b.
Proof. intros. nra. Qed.
Lemma shl0 n r : (0 <= r < 2 ^ n)%Z -> (0 < n)%Z -> cshl (UI n) r 0 = Ok r.
Proof. intros. rewrite cshl_u_exact by lia. f_equal. lia. Qed.

Lemma iterate16 usz ix m : (12 <= usz)%Z -> fresh F16 ix m -> exists s, sqrt_iterate F16 usz ix m = Ok s /\ root_near F16 m s.
Proof.
  intros Hu FR. destruct (index_ok F16 wf16 ix m (proj1 FR) (proj2 FR)) as (t & Et & Ht & HN). destruct (HN 16%Z ltac:(cbn; lia)) as (Hm & N & _). change (fb F16 - 16)%Z with 0%Z in *. change (2 ^ 0)%Z with 1%Z in *. rewrite Z.div_1_r in *.
  change (16 - 16)%Z with 0%Z in N. change (2 ^ 0)%Z with 1%Z in N. rewrite Z.mul_1_r in N.
  destruct (final2 16 m ltac:(lia) Hm t _ N ltac:(lra)) as (r' & s & E & Hs & Y).
  exists s. split.
  - rewrite (iterate_unfold F16 wf16 usz ix m t) by (first [exact FR|exact Et|exact Ht|cbn; lia]). change (sqrt_config F16) with (SqrtCfg 16 16 0 0 2). cbn [is1 is2 rounds1 rounds2 final_rounds]. change (fb F16 - 16)%Z with 0%Z. change (16 - 16)%Z with 0%Z. change (2 ^ 0)%Z with 1%Z. rewrite Z.mul_1_r, Z.div_1_r.
    unfold goldschmidt at 1. cbn [goldschmidt_loop bind]. rewrite shl0 by (cbn; lia). cbn [bind]. unfold goldschmidt at 1. cbn [goldschmidt_loop bind]. change (fI F16) with (UI 16). rewrite shl0 by (cbn; lia). cbn [bind]. change (fb F16) with 16%Z. rewrite E. reflexivity.
  - rewrite (w_eq 16 65536 eq_refl) in *. apply (root_near_intro 16 F16 m s (301/200 * (39/10000 * (39/10000)) + 132/10 * / 65536)); try reflexivity; try lia; try lra; try exact Hs.
    + rewrite (w_eq 16 65536 eq_refl). lra.
    + change (2 ^ (fs F16 + 1))%Z with 2048%Z. lra.
Qed.

Lemma iterate32 usz ix m : (15 <= usz)%Z -> fresh F32 ix m -> exists s, sqrt_iterate F32 usz ix m = Ok s /\ root_near F32 m s.
Proof.
  intros Hu FR. destruct (index_ok F32 wf32 ix m (proj1 FR) (proj2 FR)) as (t & Et & Ht & HN). destruct (HN 32%Z ltac:(cbn; lia)) as (Hm & N & Bl). change (fb F32 - 32)%Z with 0%Z in *. change (2 ^ 0)%Z with 1%Z in *. rewrite Z.div_1_r in *.
  change (32 - 16)%Z with 16%Z in *. change (2 ^ 16)%Z with 65536%Z in *.
  assert (2 * wmulh 32 (t * 65536) (next_u 32 (t * 65536) (wmulh 32 m (t * 65536))) < 2 ^ 32)%Z as NO.
  { apply (set1_no 32 m _ (39/10000) (387/100000)); try assumption; try lia; try lra; rewrite (w_eq 32 4294967296 eq_refl); lra. }
  destruct (final3 32 m ltac:(lia) Hm _ _ N ltac:(lra) NO) as (r' & s & E & Hs & Y).
  exists s. split.
  - rewrite (iterate_unfold F32 wf32 usz ix m t) by (first [exact FR|exact Et|exact Ht|cbn; lia]). change (sqrt_config F32) with (SqrtCfg 32 32 0 0 3). cbn [is1 is2 rounds1 rounds2 final_rounds]. change (fb F32 - 32)%Z with 0%Z. change (32 - 16)%Z with 16%Z. change (32 - 32)%Z with 0%Z. change (2 ^ 0)%Z with 1%Z. change (2 ^ 16)%Z with 65536%Z. rewrite Z.div_1_r.
    unfold goldschmidt at 1. cbn [goldschmidt_loop bind]. rewrite shl0 by (cbn; lia). cbn [bind]. unfold goldschmidt at 1. cbn [goldschmidt_loop bind]. change (fI F32) with (UI 32). rewrite shl0 by (cbn; lia). cbn [bind]. change (fb F32) with 32%Z. rewrite E. reflexivity.
  - cbv zeta in Y. rewrite (w_eq 32 4294967296 eq_refl) in *. specialize (Y ltac:(lra)). set (A1 := 301/200 * (39/10000 * (39/10000)) + 82/10 * / 4294967296) in *.
    assert (A1 * A1 <= 24/1000000 * (24/1000000)) by (apply sq_mono; unfold A1; lra).
    apply (root_near_intro 32 F32 m s (22 * / 4294967296)); try reflexivity; try lia; try lra; try exact Hs.
    + rewrite (w_eq 32 4294967296 eq_refl). lra.
    + change (2 ^ (fs F32 + 1))%Z with 16777216%Z. lra.
Qed.

(** The second round at 32 bits when M is within 2^-26 of 1. *)
Definition no2 (r m : Z) : bool :=
  let u := next_u 32 r (wmulh 32 m r) in let r1 := (2 * wmulh 32 r u)%Z in let s2 := (2 * wmulh 32 (wmulh 32 m r) u)%Z in
  (2 * wmulh 32 r1 (next_u 32 r1 s2) <? 2 ^ 32)%Z.
Lemma no2_elim r m : no2 r m = true -> let u := next_u 32 r (wmulh 32 m r) in let r1 := (2 * wmulh 32 r u)%Z in let s2 := (2 * wmulh 32 (wmulh 32 m r) u)%Z in
  (2 * wmulh 32 r1 (next_u 32 r1 s2) < 2 ^ 32)%Z.
Proof. intros E u r1 s2. apply Z.ltb_lt. exact E. Qed.
Lemma no2_checked : forallb (no2 (0xff02 * 65536)) (map (fun k => 2 ^ 30 + Z.of_nat k)%Z (seq 0 16)) = true.
Proof. vm_compute. reflexivity. Qed.
Lemma no2_ok m : (2 ^ 30 <= m < 2 ^ 30 + 16)%Z -> no2 (0xff02 * 65536) m = true.
Proof.
  intros Hm. pose proof no2_checked as T. rewrite forallb_forall in T. apply T. apply in_map_iff. exists (Z.to_nat (m - 2 ^ 30)). split; [lia|apply in_seq; lia].
Qed.

Lemma index64 ix m : fresh F64 ix m -> (m / 2 ^ 32 < 2 ^ 30 + 16)%Z -> Z.land (ix / 2 ^ (fs F64 - 6)) 127 = 64%Z.
Proof.
  intros (Hix & Em) L. change (fs F64 - 6)%Z with 46%Z. change (fs F64) with 52%Z in Em. change (EXP_BITS F64) with 11%Z in Em. change 127%Z with (Z.ones 7). rewrite Z.land_ones by lia. set (m0 := (m / 2 ^ 32)%Z) in *.
  assert (m < (2 ^ 30 + 16) * 2 ^ 32)%Z as Lm. { pose proof (Z.div_mod m (2 ^ 32) ltac:(lia)) as D. pose proof (Z.mod_pos_bound m (2 ^ 32) ltac:(lia)). fold m0 in D. lia. }
  assert (0 <= (ix / 2 ^ 52) mod 2 < 2)%Z as Hb by (apply Z.mod_pos_bound; lia). pose proof (Z.mod_pos_bound ix (2 ^ 52) ltac:(lia)) as HF.
  assert ((ix / 2 ^ 52) mod 2 = 1)%Z as B1. { assert ((ix / 2 ^ 52) mod 2 = 0 \/ (ix / 2 ^ 52) mod 2 = 1)%Z as [B|B] by lia; [|exact B]. rewrite B in Em. change (11 - 0)%Z with 11%Z in Em. lia. }
  rewrite B1 in Em. change (11 - 1)%Z with 10%Z in Em.
  assert (ix mod 2 ^ 52 < 2 ^ 46)%Z by lia. pose proof (Z.div_mod ix (2 ^ 52) ltac:(lia)) as D2. pose proof (Z.div_mod (ix / 2 ^ 52) 2 ltac:(lia)) as D3. rewrite B1 in D3.
  symmetry. apply Z.mod_unique with (ix / 2 ^ 52 / 2)%Z; [lia|]. replace ix with ((64 * (ix / 2 ^ 52)) * 2 ^ 46 + ix mod 2 ^ 52)%Z at 1 by lia. rewrite Z.div_add_l by lia. rewrite (Z.div_small (ix mod 2 ^ 52)) by lia. lia. 
Qed.
Lemma tab64 t : nth_error RSQRT_TAB (Z.to_nat 64) = Some t -> t = 0xff02%Z.
Proof. intros E. cbn in E. injection E as <-. reflexivity. Qed.

Lemma NO2_64 ix m t : fresh F64 ix m -> nth_error RSQRT_TAB (Z.to_nat (Z.land (ix / 2 ^ (fs F64 - 6)) 127)) = Some t ->
  let m0 := (m / 2 ^ 32)%Z in let r := (t * 65536)%Z in (2 ^ (32 - 2) <= m0 < 2 ^ 32)%Z -> near 32 m0 r (39/10000) -> (2 * wmulh 32 r (next_u 32 r (wmulh 32 m0 r)) < 2 ^ 32)%Z ->
  let u := next_u 32 r (wmulh 32 m0 r) in let r1 := (2 * wmulh 32 r u)%Z in let s2 := (2 * wmulh 32 (wmulh 32 m0 r) u)%Z in (2 * wmulh 32 r1 (next_u 32 r1 s2) < 2 ^ 32)%Z.
Proof.
  intros FR Et m0 r Hm N NO u r1 s2. pose proof (w_eq 32 4294967296 eq_refl) as W32.
  destruct (Z.lt_ge_cases m0 (2 ^ 30 + 16)) as [L|L].
  - rewrite (index64 ix m FR L) in Et. apply tab64 in Et. apply no2_elim. unfold r. rewrite Et. apply no2_ok; change (32 - 2)%Z with 30%Z in Hm; lia.
  - apply (set2_no 32 m0 r (39/10000) ltac:(lia) Hm N ltac:(lra)); [rewrite W32; lra|exact NO|]. pose proof (root_range 32 m0 ltac:(lia) Hm) as Q. pose proof (root_sq 32 m0 ltac:(lia) Hm) as S. rewrite W32 in *.
      assert (1073741840 <= IZR m0) as L' by (apply IZR_le; lia). destruct (Rlt_or_le (1 + 85/10 * / 4294967296) (root 32 m0)) as [G|G]; [exact G|exfalso].
      assert (root 32 m0 * root 32 m0 <= (1 + 85/10 * / 4294967296) * (1 + 85/10 * / 4294967296)) by (apply sq_mono; lra). lra.
Qed.

Lemma iterate64 usz ix m : (18 <= usz)%Z -> fresh F64 ix m -> exists s, sqrt_iterate F64 usz ix m = Ok s /\ root_near F64 m s.
Proof.
  intros Hu FR. destruct (index_ok F64 wf64 ix m (proj1 FR) (proj2 FR)) as (t & Et & Ht & HN). destruct (HN 32%Z ltac:(cbn; lia)) as (Hm & N & Bl). destruct (HN 64%Z ltac:(cbn; lia)) as (Hm' & _). change (fb F64 - 32)%Z with 32%Z in *. change (fb F64 - 64)%Z with 0%Z in *. change (2 ^ 0)%Z with 1%Z in *. rewrite Z.div_1_r in Hm'.
  change (32 - 16)%Z with 16%Z in *. change (2 ^ 16)%Z with 65536%Z in *. set (m0 := (m / 2 ^ 32)%Z) in *. set (r := (t * 65536)%Z) in *. pose proof (w_eq 32 4294967296 eq_refl) as W32.
  assert (2 * wmulh 32 r (next_u 32 r (wmulh 32 m0 r)) < 2 ^ 32)%Z as NO.
  { apply (set1_no 32 m0 _ (39/10000) (387/100000)); try assumption; try lia; try lra; rewrite W32; lra. }
  set (u := next_u 32 r (wmulh 32 m0 r)) in *. set (r1 := (2 * wmulh 32 r u)%Z) in *. set (s2 := (2 * wmulh 32 (wmulh 32 m0 r) u)%Z).
  assert (2 * wmulh 32 r1 (next_u 32 r1 s2) < 2 ^ 32)%Z as NO2.
  { exact (NO2_64 ix m t FR Et Hm N NO). }
  destruct (set2 32 m0 ltac:(lia) Hm r _ N ltac:(lra) NO NO2) as (r2 & s' & E1 & N2). cbv zeta in N2. rewrite W32 in N2. specialize (N2 ltac:(lra)).
  assert (near 32 m0 r2 (4/1000000000)) as N3. { apply (near_weaken _ _ _ _ _ N2). set (A1 := 301/200 * (39/10000 * (39/10000)) + 82/10 * / 4294967296). assert (A1 * A1 <= 23/1000000 * (23/1000000)) by (apply sq_mono; unfold A1; lra). lra. }
  destruct (widen_near 32 32 m r2 _ ltac:(lia) ltac:(lia) Hm' N3) as (N4 & _). change (32 + 32)%Z with 64%Z in N4. apply (near_weaken _ _ _ _ (5/1000000000)) in N4; [|rewrite W32; lra].
  destruct (final2 64 m ltac:(lia) Hm' _ _ N4 ltac:(lra)) as (r3 & s & E2 & Hs & Y).
  exists s. split.
  - assert (0 <= m < 2 ^ fb F64)%Z as Hmf by (change (fb F64) with 64%Z; lia).
    rewrite (iterate_unfold F64 wf64 usz ix m t) by (first [exact FR|exact Et|exact Ht|exact Hmf|clear - Hu; cbn; lia]). change (sqrt_config F64) with (SqrtCfg 32 32 0 2 2). cbn [is1 is2 rounds1 rounds2 final_rounds]. change (fb F64 - 32)%Z with 32%Z. change (32 - 16)%Z with 16%Z. change (32 - 32)%Z with 0%Z. change (2 ^ 16)%Z with 65536%Z. fold m0. fold r.
    unfold goldschmidt at 1. cbn [goldschmidt_loop bind]. rewrite shl0 by (apply N || lia). cbn [bind]. rewrite E1. cbn [bind]. change (fI F64) with (UI 64). destruct N3 as (R2 & _). rewrite cshl_u_exact by lia. cbn [bind]. change (fb F64) with 64%Z. rewrite E2. reflexivity.
  - rewrite (w_eq 64 18446744073709551616 eq_refl) in Y.
    apply (root_near_intro 64 F64 m s (301/200 * (5/1000000000 * (5/1000000000)) + 132/10 * / 18446744073709551616)); try reflexivity; try lia; try lra; try exact Hs; try exact Hm'.
    + rewrite (w_eq 64 18446744073709551616 eq_refl). lra.
    + change (2 ^ (fs F64 + 1))%Z with 9007199254740992%Z. lra.
Qed.

Lemma iterate128 usz ix m : (22 <= usz)%Z -> fresh F128 ix m -> exists s, sqrt_iterate F128 usz ix m = Ok s /\ root_near F128 m s.
Proof.
  intros Hu FR. destruct (index_ok F128 wf128 ix m (proj1 FR) (proj2 FR)) as (t & Et & Ht & HN). destruct (HN 32%Z ltac:(cbn; lia)) as (Hm & N & Bl). destruct (HN 64%Z ltac:(cbn; lia)) as (Hm2 & _). destruct (HN 128%Z ltac:(cbn; lia)) as (Hm' & _).
  change (fb F128 - 32)%Z with 96%Z in *. change (fb F128 - 64)%Z with 64%Z in *. change (fb F128 - 128)%Z with 0%Z in *. change (2 ^ 0)%Z with 1%Z in *. rewrite Z.div_1_r in Hm'.
  change (32 - 16)%Z with 16%Z in *. change (2 ^ 16)%Z with 65536%Z in *. set (m0 := (m / 2 ^ 96)%Z) in *. set (m1 := (m / 2 ^ 64)%Z) in *. set (r := (t * 65536)%Z) in *.
  pose proof (w_eq 32 4294967296 eq_refl) as W32. pose proof (w_eq 64 18446744073709551616 eq_refl) as W64.
  assert (m0 = m1 / 2 ^ 32)%Z as M01. { unfold m0, m1. rewrite Z.div_div by lia. reflexivity. }
  assert (2 * wmulh 32 r (next_u 32 r (wmulh 32 m0 r)) < 2 ^ 32)%Z as NO.
  { apply (set1_no 32 m0 _ (39/10000) (387/100000)); try assumption; try lia; try lra; rewrite W32; lra. }
  destruct (set1 32 m0 ltac:(lia) Hm r _ N ltac:(lra) NO) as (r1 & s1 & E1 & _ & N1 & B1). rewrite W32 in N1, B1. specialize (B1 (387/100000) ltac:(lra) Bl ltac:(lra) ltac:(lra)).
  rewrite M01 in N1, B1. destruct (widen_near 32 32 m1 r1 _ ltac:(lia) ltac:(lia) Hm2 N1) as (N2 & B2). specialize (B2 _ B1). change (32 + 32)%Z with 64%Z in *. rewrite W32 in N2, B2.
  apply (near_weaken _ _ _ _ (23/1000000)) in N2; [|lra]. apply (below_weaken _ _ _ _ (222/10000000)) in B2; [|lra]. set (p := (r1 * 2 ^ 32)%Z) in *.
  assert (2 * wmulh 64 p (next_u 64 p (wmulh 64 m1 p)) < 2 ^ 64)%Z as NO1.
  { apply (set1_no 64 m1 _ (23/1000000) (222/10000000)); try assumption; try lia; try lra; rewrite W64; lra. }
  destruct (set1 64 m1 ltac:(lia) Hm2 p _ N2 ltac:(lra) NO1) as (p1 & s2 & E2 & P1 & _ & B3). rewrite W64 in B3. specialize (B3 (222/10000000) ltac:(lra) B2 ltac:(lra) ltac:(lra)).
  apply (below_weaken _ _ _ _ (7/10000000000)) in B3; [|lra]. rewrite P1 in B3. 
  destruct (set2_no 64 m1 p (23/1000000) ltac:(lia) Hm2 N2 ltac:(lra) ltac:(rewrite W64; lra) NO1) as (_ & NB).
  assert (85/10 * / width 64 < 299/200 * (7/10000000000 * (7/10000000000))) as K2 by (rewrite W64; lra).
  specialize (NB (7/10000000000) ltac:(lra) B3 ltac:(rewrite W64; lra) K2).
  destruct (set2 64 m1 ltac:(lia) Hm2 p _ N2 ltac:(lra) NO1 NB) as (p2 & s3 & E3 & N3). cbv zeta in N3. rewrite W64 in N3. specialize (N3 ltac:(lra)).
  apply (near_weaken _ _ _ _ (2/1000000000000000000)) in N3.
  2:{ set (A1 := 301/200 * (23/1000000 * (23/1000000)) + 82/10 * / 18446744073709551616). assert (A1 * A1 <= 8/10000000000 * (8/10000000000)) by (apply sq_mono; unfold A1; lra). lra. }
  destruct (widen_near 64 64 m p2 _ ltac:(lia) ltac:(lia) Hm' N3) as (N4 & _). change (64 + 64)%Z with 128%Z in N4. apply (near_weaken _ _ _ _ (3/1000000000000000000)) in N4; [|rewrite W64; lra].
  destruct (final2 128 m ltac:(lia) Hm' _ _ N4 ltac:(lra)) as (r3 & s & E4 & Hs & Y).
  exists s. split.
  - assert (0 <= m < 2 ^ fb F128)%Z as Hmf by (change (fb F128) with 128%Z; lia).
    rewrite (iterate_unfold F128 wf128 usz ix m t) by (first [exact FR|exact Et|exact Ht|exact Hmf|clear - Hu; cbn; lia]). change (sqrt_config F128) with (SqrtCfg 32 64 1 2 2). cbn [is1 is2 rounds1 rounds2 final_rounds]. change (fb F128 - 32)%Z with 96%Z. change (fb F128 - 64)%Z with 64%Z. change (32 - 16)%Z with 16%Z. change (64 - 32)%Z with 32%Z. change (2 ^ 16)%Z with 65536%Z. fold m0. fold m1. fold r.
    rewrite E1. cbn [bind]. destruct N1 as (R1 & _). rewrite cshl_u_exact by lia. cbn [bind]. fold p. rewrite E3. cbn [bind]. change (fI F128) with (UI 128). destruct N3 as (R2 & _). rewrite cshl_u_exact by lia. cbn [bind]. change (fb F128) with 128%Z. rewrite E4. reflexivity.
  - rewrite (w_eq 128 340282366920938463463374607431768211456 eq_refl) in Y.
    apply (root_near_intro 128 F128 m s (301/200 * (3/1000000000000000000 * (3/1000000000000000000)) + 132/10 * / 340282366920938463463374607431768211456)); try reflexivity; try lia; try lra; try exact Hs; try exact Hm'.
    + rewrite (w_eq 128 340282366920938463463374607431768211456 eq_refl). lra.
    + change (2 ^ (fs F128 + 1))%Z with 10384593717069655257060992658440192%Z. lra.
Qed.
