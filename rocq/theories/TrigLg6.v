(** rem_pio2_large: the leading digit, and the products with the digits of pi / 2. *)
From Coq Require Import ZArith Reals Bool List Lia Lra Psatz.
From Flocq Require Import Core.
From Verif Require Import Base BaseLemmas FloatModel FloatSpec FloatProofs5 LibmModel LibmSpec LibmProps FloatConvSpec FloatErr PolyBound Elem ElemModel ElemSpec TrigModel F64Lib ExpProofs3 ExpProofs4 ExpProofs7 TrigDist TrigRed TrigRed4 TrigLg TrigLg2 TrigLg3 TrigLg4.
Import ListNotations.
Open Scope Z_scope.

Lemma chop_ok iq n : forall jz q0, len iq = 20 -> 0 <= jz < 20 -> jz < Z.of_nat n -> digs_ok iq (jz + 1) -> 0 < digz (jz + 1) iq -> -1000 <= q0 - 24 * jz -> q0 <= 1000 ->
  exists j, lg_chop n jz q0 iq = Ok (j, q0 - 24 * (jz - j)) /\ 0 <= j <= jz /\ el iq j <> 0 /\ digz (j + 1) iq = digz (jz + 1) iq.
Proof.
  induction n as [|n IH]; intros jz q0 Li Hj Hn Di G Hq Hq'; [lia|]. cbn [lg_chop]. rewrite tab_el by lia. cbn [bind]. rewrite digz_S in G by lia. destruct (Z.eqb_spec (el iq jz) 0) as [E|E].
  - rewrite E, Z.mul_0_l, Z.add_0_r in G. assert (1 <= jz) by (destruct (Z.eq_dec jz 0) as [Z0|Z0]; [rewrite Z0, digz_0 in G; lia|lia]). rewrite usub_ok by lia. cbn [bind].
    replace (csub (SI 32) q0 24) with (Ok (q0 - 24)) by (symmetry; apply chk_ok, fits_s; lia). cbn [bind].
    destruct (IH (jz - 1) (q0 - 24)) as (j & -> & Hj' & N & D); try lia.
    + intros k Hk. apply Di. lia.
    + replace (jz - 1 + 1) with jz by lia. exact G.
    + exists j. split; [do 2 f_equal; lia|]. split; [lia|]. split; [exact N|]. rewrite D, (digz_S jz), E by lia. replace (jz - 1 + 1) with jz by lia. ring.
  - exists jz. split; [do 2 f_equal; lia|]. split; [lia|]. split; [exact E|reflexivity].
Qed.

(** The leading 24-bit digits of pi / 2: PIO2[k] in units of 2^(-23 - 24 k) *)
Definition PZ : list Z := [0xc90fda; 0xa22168; 0xc234c4; 0xc6628b; 0x80dc1c].
Definition pz (k : Z) : Z := el PZ k.
Lemma pz_sc k : 0 <= k <= 4 -> sc (el PIO2 k) (pz k) (- 23 - 24 * k).
Proof.
  intros H. assert (k = 0 \/ k = 1 \/ k = 2 \/ k = 3 \/ k = 4) as [->|[->|[->|[->| ->]]]] by lia.
  - split; [apply (good64 false 0x3ff921fb40000000); lia|apply (kb_val 23 0x3ff921fb40000000 0xc90fda eq_refl)].
  - split; [apply (good64 false 0x3e74442d00000000); lia|apply (kb_val 47 0x3e74442d00000000 0xa22168 eq_refl)].
  - split; [apply (good64 false 0x3cf8469880000000); lia|apply (kb_val 71 0x3cf8469880000000 0xc234c4 eq_refl)].
  - split; [apply (good64 false 0x3b78cc5160000000); lia|apply (kb_val 95 0x3b78cc5160000000 0xc6628b eq_refl)].
  - split; [apply (good64 false 0x39f01b8380000000); lia|apply (kb_val 119 0x39f01b8380000000 0x80dc1c eq_refl)].
Qed.
Lemma pz_range k : 0 <= k <= 4 -> 0 < pz k < 2 ^ 24.
Proof. intros H. assert (k = 0 \/ k = 1 \/ k = 2 \/ k = 3 \/ k = 4) as [->|[->|[->|[->| ->]]]] by lia; vm_compute; split; reflexivity. Qed.

Section Trig.
Context (o : fops) (Ho : ieee_ops F64 o) (c : icast) (Hc : icast_ok c).
Lemma top_ok jz q0 z Zf iq (G := digz jz iq + Zf * 2 ^ (24 * jz)) : 4 <= jz <= 7 -> -27 <= q0 <= 2 -> len iq = 20 -> digs_ok iq jz -> sc z Zf q0 -> (if q0 <? 0 then 0 <= Zf <= 2 ^ (- q0) else Zf = 0) -> 2 ^ 96 <= G ->
  exists j iq', lg_top o c jz q0 z iq = Ok (j, q0 - 24 * (jz - j), iq') /\ 4 <= j <= 8 /\ len iq' = 20 /\ digs_ok iq' (j + 1) /\ el iq' j <> 0 /\ digz (j + 1) iq' = G.
Proof using Ho Hc.
  intros Hj Hq Li Di Sz HZ HG. unfold lg_top. rewrite (sc_eq0 o Ho _ _ _ Sz). destruct (Z.eqb_spec Zf 0) as [Z0|Z0].
  - rewrite usub_ok by lia. cbn [bind]. replace (csub (SI 32) q0 24) with (Ok (q0 - 24)) by (symmetry; apply chk_ok, fits_s; lia). cbn [bind].
    unfold G in *. rewrite Z0, Z.mul_0_l, Z.add_0_r in *.
    destruct (chop_ok iq (S (Z.to_nat (jz - 1))) (jz - 1) (q0 - 24)) as (j & -> & Hj' & N & D); try lia.
    + replace (jz - 1 + 1) with jz by lia. exact Di.
    + replace (jz - 1 + 1) with jz by lia. lia.
    + replace (jz - 1 + 1) with jz in D by lia. cbn [bind fst snd]. exists j, iq. split; [do 3 f_equal; lia|]. assert (DJ : digs_ok iq (j + 1)) by (intros k Hk; apply Di; lia).
      split; [|split; [exact Li|split; [exact DJ|split; [exact N|exact D]]]]. split; [|lia].
      pose proof (digz_range iq (j + 1) ltac:(lia) DJ) as R. rewrite D in R. assert (Q : 2 ^ 96 < 2 ^ (24 * (j + 1))) by lia. apply Z.pow_lt_mono_r_iff in Q; lia.
  - destruct (Z.ltb_spec q0 0) as [N|N]; [|lia]. assert (PP : 2 ^ (- q0) <= 2 ^ 27) by (apply Z.pow_le_mono_r; lia).
    replace (cneg (SI 32) q0) with (Ok (- q0)) by (symmetry; apply chk_ok, fits_s; lia). cbn [bind].
    destruct (sc_scale o Ho z Zf q0 (- q0) Sz ltac:(lia) ltac:(lia) ltac:(lia)) as (z1 & -> & S1). rewrite Z.add_opp_diag_r in S1. cbn [bind].
    pose proof (sc_shift _ _ _ 24 ltac:(lia) sc_x1p24) as S2. change (24 - 24) with 0 in S2. rewrite Z.mul_1_l in S2. rewrite (sc_le o Ho _ _ _ _ _ S2 S1).
    destruct (Z.leb_spec (2 ^ 24) Zf) as [L|L].
    + pose proof (sc_mul o Ho _ _ _ _ _ _ sc_x1p_24 S1 ltac:(lia) ltac:(lia)) as S3. rewrite Z.mul_1_l in S3. change (-24 + 0) with (- (24)) in S3.
      assert (Z1 : 1 <= Zf / 2 ^ 24 < 2 ^ 4) by (split; [apply Z.div_le_lower_bound; lia|apply Z.div_lt_upper_bound; lia]).
      rewrite (sc_toi c Hc _ _ 24 ltac:(lia) S3 ltac:(lia) ltac:(lia)). set (h := Zf / 2 ^ 24) in *. pose proof (sc_ofi c Hc h ltac:(lia)) as Sf.
      pose proof (sc_mul o Ho _ _ _ _ _ _ sc_x1p24 Sf ltac:(lia) ltac:(lia)) as S4. rewrite Z.mul_1_l in S4. apply (sc_shift _ _ _ 24 ltac:(lia)) in S4. change (24 + 0 - 24) with 0 in S4.
      assert (M : Zf - h * 2 ^ 24 = Zf mod 2 ^ 24) by (rewrite Z.mod_eq by lia; unfold h; lia). pose proof (Z.mod_pos_bound Zf (2 ^ 24) ltac:(lia)) as MB.
      pose proof (sc_sub o Ho _ _ _ _ _ S1 S4 ltac:(lia) ltac:(lia)) as S5. rewrite M in S5.
      rewrite (sc_toi c Hc _ (Zf mod 2 ^ 24) 0 ltac:(lia) S5 ltac:(lia)) by (change (2 ^ 0) with 1; rewrite Z.div_1_r; lia). change (2 ^ 0) with 1. rewrite Z.div_1_r.
      destruct (put_el iq jz (Zf mod 2 ^ 24) ltac:(lia)) as (iq1 & -> & L1 & E1). cbn [bind].
      replace (cadd (SI 32) q0 24) with (Ok (q0 + 24)) by (symmetry; apply chk_ok, fits_s; lia). cbn [bind].
      rewrite (sc_toi c Hc _ h 0 ltac:(lia) Sf ltac:(lia)) by (change (2 ^ 0) with 1; rewrite Z.div_1_r; lia). change (2 ^ 0) with 1. rewrite Z.div_1_r.
      destruct (put_el iq1 (jz + 1) h ltac:(lia)) as (iq2 & -> & L2 & E2). cbn [bind]. exists (jz + 1), iq2. split; [do 3 f_equal; lia|]. split; [lia|]. split; [lia|].
      assert (EJ : el iq2 jz = Zf mod 2 ^ 24) by (rewrite E2, E1, Z.eqb_refl by lia; replace (jz =? jz + 1) with false by lia; reflexivity).
      assert (EJ1 : el iq2 (jz + 1) = h) by (rewrite E2, Z.eqb_refl by lia; reflexivity).
      assert (EK : forall k, 0 <= k < jz -> el iq2 k = el iq k) by (intros k Hk; rewrite E2, E1 by lia; replace (k =? jz + 1) with false by lia; replace (k =? jz) with false by lia; reflexivity).
      split; [|split].
      * intros k Hk. destruct (Z.eq_dec k jz) as [-> |]; [rewrite EJ; lia|]. destruct (Z.eq_dec k (jz + 1)) as [-> |]; [rewrite EJ1; lia|]. rewrite EK by lia. apply Di. lia.
      * rewrite EJ1. lia.
      * rewrite !digz_S by lia. rewrite EJ, EJ1, (digz_ext iq2 iq) by (try lia; intros k Hk; apply EK; lia). unfold G. rewrite pow_S by lia. rewrite <- M. ring.
    + rewrite (sc_toi c Hc _ Zf 0 ltac:(lia) S1 ltac:(lia)) by (change (2 ^ 0) with 1; rewrite Z.div_1_r; lia). change (2 ^ 0) with 1. rewrite Z.div_1_r.
      destruct (put_el iq jz Zf ltac:(lia)) as (iq1 & -> & L1 & E1). cbn [bind]. exists jz, iq1. split; [do 3 f_equal; lia|]. split; [lia|]. split; [lia|]. split; [|split].
      * intros k Hk. rewrite E1 by lia. destruct (Z.eqb_spec k jz); [lia|apply Di; lia].
      * rewrite E1, Z.eqb_refl by lia. exact Z0.
      * rewrite digz_S by lia. rewrite (digz_put iq iq1 jz Zf ltac:(lia) E1), E1, Z.eqb_refl by lia. reflexivity.
Qed.

Lemma chunks_ok B iq n : forall fw q, 0 <= B <= 200 -> 24 * (Z.of_nat n - 1) - B <= 40 -> len iq = 20 -> len q = 20 -> Z.of_nat n <= 9 -> digs_ok iq (Z.of_nat n) -> sc fw 1 (24 * (Z.of_nat n - 1) - B) -> exists q', lg_chunks o c n fw iq q = Ok q' /\ len q' = 20 /\
  forall k, 0 <= k -> if k <? Z.of_nat n then sc (el q' k) (el iq k) (24 * k - B) else el q' k = el q k.
Proof using Ho Hc.
  induction n as [|n IH]; intros fw q HB HB' Li Lq Hn Di Sf.
  - exists q. split; [reflexivity|]. split; [exact Lq|]. intros k Hk. replace (k <? Z.of_nat 0) with false by lia. reflexivity.
  - cbn [lg_chunks]. rewrite tab_el by lia. cbn [bind]. replace (Z.of_nat (S n) - 1) with (Z.of_nat n) in Sf by lia. pose proof (Di (Z.of_nat n) ltac:(lia)) as Hd.
    pose proof (sc_mul o Ho _ _ _ _ _ _ Sf (sc_ofi c Hc (el iq (Z.of_nat n)) ltac:(lia)) ltac:(lia) ltac:(lia)) as S1. rewrite Z.mul_1_l, Z.add_0_r in S1.
    destruct (put_el q (Z.of_nat n) (o_mul o fw (c_ofi c (el iq (Z.of_nat n)))) ltac:(lia)) as (q1 & -> & L1 & E1). cbn [bind].
    pose proof (sc_mul o Ho _ _ _ _ _ _ Sf sc_x1p_24 ltac:(lia) ltac:(lia)) as S2. change (1 * 1) with 1 in S2. replace (24 * Z.of_nat n - B + -24) with (24 * (Z.of_nat n - 1) - B) in S2 by lia.
    destruct (IH _ q1 HB ltac:(lia) Li ltac:(lia) ltac:(lia) ltac:(intros k Hk; apply Di; lia) S2) as (q' & -> & L' & E'). exists q'. split; [reflexivity|]. split; [exact L'|]. intros k Hk. specialize (E' k Hk). rewrite E1 in E' by exact Hk.
    destruct (Z.eqb_spec k (Z.of_nat n)) as [D|D].
    + rewrite D in *. replace (Z.of_nat n <? Z.of_nat n) with false in E' by lia. replace (Z.of_nat n <? Z.of_nat (S n)) with true by lia. rewrite E'. exact S1.
    + replace (k <? Z.of_nat (S n)) with (k <? Z.of_nat n) by lia. exact E'.
Qed.

Section Prod.
Context (B jz : Z) (iq q : list Z) (HB : 0 <= B <= 200) (HB' : 24 * jz - B <= 40) (Hj : 4 <= jz <= 8) (Lq : len q = 20) (Di : digs_ok iq (jz + 1)) (Hq : forall k, 0 <= k <= jz -> sc (el q k) (el iq k) (24 * k - B)).
Definition dd (m : Z) : Z := if m <=? jz then el iq m else 0.
Definition WW (i : Z) : Z := sumz 5 0 (fun t => pz t * dd (i + t)).
Lemma dd_range m : 0 <= m -> 0 <= dd m < 2 ^ 24.
Proof using Di. intros H. unfold dd. destruct (Z.leb_spec m jz); [apply Di; lia|lia]. Qed.
Lemma sumz_zero n g : forall j, (forall t, j <= t < j + Z.of_nat n -> g t = 0) -> sumz n j g = 0.
Proof using. induction n as [|n IH]; intros j H; [reflexivity|]. cbn [sumz]. rewrite (H j) by lia. rewrite IH; [reflexivity|]. intros t Htt. apply H. lia. Qed.
Lemma pq_ok i fuel : forall k fw a, 0 <= i <= jz -> 0 <= k <= 5 -> k <= jz - i + 1 -> jz - i + 1 - k < Z.of_nat fuel -> sc fw a (24 * i - 23 - B) -> 0 <= a <= k * 2 ^ 48 ->
  exists r, lg_pq o fuel k 4 jz i q fw = Ok r /\ sc r (a + sumz (Z.to_nat (5 - k)) k (fun t => pz t * dd (i + t))) (24 * i - 23 - B).
Proof using Ho HB HB' Hj Lq Di Hq.
  induction fuel as [|fuel IH]; intros k fw a Hi Hk Hk' Hf Sf Ha; [lia|]. cbn [lg_pq]. rewrite usub_ok by lia. cbn [bind]. destruct ((k <=? 4) && (k <=? jz - i)) eqn:E.
  - change (tab PIO2 k) with (tab PIO2 k). rewrite (tab_el PIO2 k) by (unfold len; cbn [length PIO2]; lia). cbn [bind]. rewrite tab_el by lia. cbn [bind].
    pose proof (pz_sc k ltac:(lia)) as Sp. pose proof (Hq (i + k) ltac:(lia)) as Sq. pose proof (pz_range k ltac:(lia)) as Pr. pose proof (dd_range (i + k) ltac:(lia)) as Dr.
    assert (Ed : dd (i + k) = el iq (i + k)) by (unfold dd; replace (i + k <=? jz) with true by lia; reflexivity). rewrite <- Ed in Sq.
    pose proof (prod_range (pz k) (dd (i + k)) ltac:(lia) Dr) as PR.
    pose proof (sc_mul o Ho _ _ _ _ _ _ Sp Sq ltac:(lia) ltac:(lia)) as S1. replace (- 23 - 24 * k + (24 * (i + k) - B)) with (24 * i - 23 - B) in S1 by lia.
    pose proof (sc_add o Ho _ _ _ _ _ Sf S1 ltac:(lia) ltac:(lia)) as S2.
    destruct (IH (k + 1) _ (a + pz k * dd (i + k)) Hi ltac:(lia) ltac:(lia) ltac:(lia) S2 ltac:(lia)) as (r & -> & Sr). exists r. split; [reflexivity|].
    replace (Z.to_nat (5 - k)) with (S (Z.to_nat (5 - (k + 1)))) by lia. cbn [sumz]. rewrite Z.add_assoc. exact Sr.
  - exists fw. split; [reflexivity|]. rewrite sumz_zero; [rewrite Z.add_0_r; exact Sf|]. intros t Htt. unfold dd. replace (i + t <=? jz) with false by lia. ring.
Qed.
Lemma fq_ok n : forall fq, Z.of_nat n <= jz + 1 -> len fq = 20 -> exists fq', lg_fq o n 4 jz q fq = Ok fq' /\ len fq' = 20 /\
  forall d, 0 <= d -> if (jz - Z.of_nat n <? d) && (d <=? jz) then sc (el fq' d) (WW (jz - d)) (24 * (jz - d) - 23 - B) else el fq' d = el fq d.
Proof using Ho HB HB' Hj Lq Di Hq.
  induction n as [|n IH]; intros fq Hn Lf.
  - exists fq. split; [reflexivity|]. split; [exact Lf|]. intros d Hd. replace ((jz - Z.of_nat 0 <? d) && (d <=? jz)) with false by lia. reflexivity.
  - cbn [lg_fq]. set (i := Z.of_nat n). destruct (pq_ok i (S (S (Z.to_nat jz))) 0 0 0) as (r & -> & Sr); try lia; [apply sc_zero_at|]. change (Z.to_nat (5 - 0)) with 5%nat in Sr. rewrite Z.add_0_l in Sr. fold (WW i) in Sr.
    cbn [bind]. rewrite usub_ok by lia. cbn [bind]. destruct (put_el fq (jz - i) r ltac:(lia)) as (fq1 & -> & L1 & E1). cbn [bind].
    destruct (IH fq1 ltac:(lia) ltac:(lia)) as (fq' & -> & L' & E'). exists fq'. split; [reflexivity|]. split; [exact L'|]. intros d Hd. specialize (E' d Hd). rewrite E1 in E' by exact Hd.
    destruct (Z.eqb_spec d (jz - i)) as [D|D].
    + replace ((jz - Z.of_nat n <? d) && (d <=? jz)) with false in E' by lia. replace ((jz - Z.of_nat (S n) <? d) && (d <=? jz)) with true by lia. rewrite E', D. replace (jz - (jz - i)) with i by lia. exact Sr.
    + replace ((jz - Z.of_nat (S n) <? d) && (d <=? jz)) with ((jz - Z.of_nat n <? d) && (d <=? jz)) by lia. exact E'.
Qed.

(** * The sum of the products, as an integer *)
Fixpoint dgf (m : nat) : Z := match m with O => 0 | S m => dgf m + dd (Z.of_nat m) * 2 ^ (24 * Z.of_nat m) end.
Definition dg (m : Z) : Z := dgf (Z.to_nat m).
Lemma dg_S m : 0 <= m -> dg (m + 1) = dg m + dd m * 2 ^ (24 * m).
Proof using. intros H. unfold dg. replace (Z.to_nat (m + 1)) with (S (Z.to_nat m)) by lia. cbn [dgf]. rewrite Z2Nat.id by exact H. reflexivity. Qed.
Lemma dg_low m : 0 <= m -> m <= jz + 1 -> dg m = digz m iq.
Proof using.
  intros Hm. revert m Hm. apply (nat_ind_Z (fun m => m <= jz + 1 -> dg m = digz m iq)); [reflexivity|]. intros m Hm IH H. rewrite dg_S, digz_S, IH by lia. unfold dd. replace (m <=? jz) with true by lia. reflexivity.
Qed.
Lemma dg_high d : 0 <= d -> dg (jz + 1 + d) = digz (jz + 1) iq.
Proof using Hj.
  revert d. apply nat_ind_Z; [rewrite Z.add_0_r; apply dg_low; lia|]. intros d Hd IH. rewrite Z.add_assoc, dg_S, IH by lia. unfold dd. replace (jz + 1 + d <=? jz) with false by lia. ring.
Qed.
Fixpoint zsn (n : nat) : Z := match n with O => 0 | S n => zsn n + WW (Z.of_nat n) * 2 ^ (24 * Z.of_nat n) end.
Lemma zs_eq n : 2 ^ 96 * zsn n = pz 0 * 2 ^ 96 * (dg (Z.of_nat n) - dg 0) + pz 1 * 2 ^ 72 * (dg (Z.of_nat n + 1) - dg 1) + pz 2 * 2 ^ 48 * (dg (Z.of_nat n + 2) - dg 2)
    + pz 3 * 2 ^ 24 * (dg (Z.of_nat n + 3) - dg 3) + pz 4 * (dg (Z.of_nat n + 4) - dg 4).
Proof using.
  induction n as [|n IH]; [cbn [zsn]; change (Z.of_nat 0) with 0; rewrite !Z.add_0_l; ring|]. cbn [zsn]. rewrite Z.mul_add_distr_l, IH. set (m := Z.of_nat n). replace (Z.of_nat (S n)) with (m + 1) by (unfold m; lia).
  replace (m + 1 + 1) with (m + 1 + 1) by lia. replace (m + 1 + 2) with (m + 2 + 1) by lia. replace (m + 1 + 3) with (m + 3 + 1) by lia. replace (m + 1 + 4) with (m + 4 + 1) by lia. rewrite !dg_S by (unfold m; lia).
  unfold WW. cbn [sumz]. change (0 + 1) with 1. change (1 + 1) with 2. change (2 + 1) with 3. change (3 + 1) with 4. rewrite !Z.add_0_r.
  replace (24 * (m + 1)) with (24 + 24 * m) by lia. replace (24 * (m + 2)) with (48 + 24 * m) by lia. replace (24 * (m + 3)) with (72 + 24 * m) by lia. replace (24 * (m + 4)) with (96 + 24 * m) by lia.
  rewrite !Z.pow_add_r by (unfold m; lia). generalize (2 ^ (24 * m)). intros W. change (2 ^ 96) with (2 ^ 24 * 2 ^ 24 * 2 ^ 24 * 2 ^ 24). change (2 ^ 72) with (2 ^ 24 * 2 ^ 24 * 2 ^ 24). change (2 ^ 48) with (2 ^ 24 * 2 ^ 24). generalize (2 ^ 24). intros V. ring.
Qed.
End Prod.
End Trig.
