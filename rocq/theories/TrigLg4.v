(** rem_pio2_large: the reflection at 1 / 2 and the loop. *)
From Coq Require Import ZArith Reals Bool List Lia Lra Psatz.
From Flocq Require Import Core.
From Verif Require Import Base BaseLemmas FloatModel FloatSpec FloatProofs5 LibmModel LibmSpec LibmProps FloatConvSpec FloatErr PolyBound Elem ElemModel ElemSpec TrigModel F64Lib ExpProofs3 ExpProofs4 ExpProofs7 TrigRed TrigRed4 TrigLg TrigLg2 TrigLg3.
Import ListNotations.
Open Scope Z_scope.

Lemma digz_put iq iq' i v : 0 <= i -> (forall k, 0 <= k -> el iq' k = if k =? i then v else el iq k) -> digz i iq' = digz i iq.
Proof. intros Hi E. apply digz_ext; [exact Hi|]. intros k Hk. rewrite E by lia. destruct (Z.eqb_spec k i); [lia|reflexivity]. Qed.
Lemma digz_put2 iq iq' i v m : 0 <= i -> i < m -> (forall k, 0 <= k -> el iq' k = if k =? i then v else el iq k) -> digz m iq' = digz m iq + (v - el iq i) * 2 ^ (24 * i).
Proof.
  intros Hi Hm E. replace m with (i + 1 + (m - (i + 1))) by lia. generalize (m - (i + 1)) as d, (ltac:(lia) : 0 <= m - (i + 1)). intros d Hd. revert d Hd.
  apply (nat_ind_Z (fun d => digz (i + 1 + d) iq' = digz (i + 1 + d) iq + (v - el iq i) * 2 ^ (24 * i))).
  - rewrite Z.add_0_r, !digz_S by exact Hi. rewrite (digz_put iq iq' i v Hi E), (E i Hi), Z.eqb_refl. ring.
  - intros d Hd IH. rewrite Z.add_assoc, !digz_S by lia. rewrite IH, (E (i + 1 + d)) by lia. destruct (Z.eqb_spec (i + 1 + d) i); [lia|]. ring.
Qed.

(** * Negation of the digits *)
Lemma flip_ok n : forall i carry iq D, len iq = 20 -> 0 <= i -> i + Z.of_nat n <= 20 -> digs_ok iq (i + Z.of_nat n) ->
  (carry = 0 /\ digz i iq = 0 /\ D = 0 \/ carry = 1 /\ digz i iq = 2 ^ (24 * i) - D /\ 0 < D < 2 ^ (24 * i)) ->
  let m := i + Z.of_nat n in let D' := D + (digz m iq - digz i iq) in
  exists carry' iq', lg_flip n i carry iq = Ok (carry', iq') /\ len iq' = 20 /\ digs_ok iq' m /\
    (carry' = 0 /\ digz m iq' = 0 /\ D' = 0 \/ carry' = 1 /\ digz m iq' = 2 ^ (24 * m) - D' /\ 0 < D' < 2 ^ (24 * m)).
Proof.
  induction n as [|n IH]; intros i carry iq D Li Hi Hn Di H m D'.
  - unfold D', m. rewrite Z.add_0_r, Z.sub_diag, Z.add_0_r. exists carry, iq. cbn [lg_flip]. rewrite Z.add_0_r in Di. auto 6.
  - subst m D'. replace (i + Z.of_nat (S n)) with (i + 1 + Z.of_nat n) in * by lia. cbn [lg_flip]. rewrite tab_el by lia. cbn [bind]. set (d := el iq i).
    assert (Hd : 0 <= d < 2 ^ 24) by (apply Di; lia). pose proof (digz_S i iq Hi) as ES. fold d in ES. pose proof (pow_S i Hi) as PS. assert (PP : 0 < 2 ^ (24 * i)) by lia.
    destruct H as [(-> & G0 & ->)|(-> & G0 & HD)].
    + change (0 =? 0) with true. cbn match. destruct (Z.eqb_spec d 0) as [Z0|Z0].
      * destruct (IH (i + 1) 0 iq 0) as (cr & iq' & E & L & Dk & R); [exact Li|lia|lia|exact Di|left; repeat split; lia|]. exists cr, iq'. split; [exact E|]. split; [exact L|]. split; [exact Dk|].
        replace (0 + (digz (i + 1 + Z.of_nat n) iq - digz i iq)) with (0 + (digz (i + 1 + Z.of_nat n) iq - digz (i + 1) iq)) by lia. exact R.
      * replace (csub (SI 32) 16777216 d) with (Ok (2 ^ 24 - d)) by (symmetry; apply chk_ok, fits_s; lia). cbn [bind].
        destruct (put_el iq i (2 ^ 24 - d) ltac:(lia)) as (iq1 & -> & L1 & E1). cbn [bind].
        pose proof (digz_put2 iq iq1 i _ (i + 1 + Z.of_nat n) Hi ltac:(lia) E1) as X1. pose proof (digz_put2 iq iq1 i _ (i + 1) Hi ltac:(lia) E1) as X2. fold d in X1, X2.
        destruct (IH (i + 1) 1 iq1 (d * 2 ^ (24 * i))) as (cr & iq' & E & L & Dk & R); try lia.
        -- intros k Hk. rewrite E1 by lia. destruct (Z.eqb_spec k i); [lia|apply Di; lia].
        -- right. split; [reflexivity|]. split; [rewrite X2, ES, G0, PS; ring|]. rewrite PS. nia.
        -- exists cr, iq'. split; [exact E|]. split; [exact L|]. split; [exact Dk|].
           replace (0 + (digz (i + 1 + Z.of_nat n) iq - digz i iq)) with (d * 2 ^ (24 * i) + (digz (i + 1 + Z.of_nat n) iq1 - digz (i + 1) iq1)) by lia. exact R.
    + change (1 =? 0) with false. cbn match. replace (csub (SI 32) 16777215 d) with (Ok (2 ^ 24 - 1 - d)) by (symmetry; apply chk_ok, fits_s; lia). cbn [bind].
      destruct (put_el iq i (2 ^ 24 - 1 - d) ltac:(lia)) as (iq1 & -> & L1 & E1). cbn [bind].
      pose proof (digz_put2 iq iq1 i _ (i + 1 + Z.of_nat n) Hi ltac:(lia) E1) as X1. pose proof (digz_put2 iq iq1 i _ (i + 1) Hi ltac:(lia) E1) as X2. fold d in X1, X2.
      destruct (IH (i + 1) 1 iq1 (D + d * 2 ^ (24 * i))) as (cr & iq' & E & L & Dk & R); try lia.
      * intros k Hk. rewrite E1 by lia. destruct (Z.eqb_spec k i); [lia|apply Di; lia].
      * right. split; [reflexivity|]. split; [rewrite X2, ES, G0, PS; ring|]. rewrite PS. nia.
      * exists cr, iq'. split; [exact E|]. split; [exact L|]. split; [exact Dk|].
        replace (D + (digz (i + 1 + Z.of_nat n) iq - digz i iq)) with (D + d * 2 ^ (24 * i) + (digz (i + 1 + Z.of_nat n) iq1 - digz (i + 1) iq1)) by lia. exact R.
Qed.
Lemma mask_ok q0 jz iq : 1 <= jz < 20 -> len iq = 20 -> digs_ok iq jz -> q0 <= 2 -> exists iq', lg_mask q0 jz iq = Ok iq' /\ len iq' = 20 /\ digs_ok iq' jz /\
  digz jz iq' = if 0 <? q0 then digz jz iq mod 2 ^ (24 * jz - q0) else digz jz iq.
Proof.
  intros Hj Li Di Hq. unfold lg_mask. destruct (Z.ltb_spec 0 q0) as [P|P].
  - assert (E0 : (q0 =? 1) || (q0 =? 2) = true) by lia. rewrite E0. rewrite usub_ok by lia. cbn [bind]. rewrite tab_el by lia. cbn [bind]. set (d := el iq (jz - 1)).
    assert (Hd : 0 <= d < 2 ^ 24) by (apply Di; lia).
    assert (EM : Z.land d (if q0 =? 1 then 8388607 else 4194303) = d mod 2 ^ (24 - q0)).
    { assert (q0 = 1 \/ q0 = 2) as [-> | ->] by lia; cbn match; [apply (land_ones d 23)|apply (land_ones d 22)]; lia. }
    rewrite EM. destruct (put_el iq (jz - 1) (d mod 2 ^ (24 - q0)) ltac:(lia)) as (iq1 & -> & L1 & E1). exists iq1. split; [reflexivity|]. split; [lia|].
    pose proof (Z.mod_pos_bound d (2 ^ (24 - q0)) ltac:(lia)). assert (2 ^ (24 - q0) < 2 ^ 24) by (apply Z.pow_lt_mono_r; lia). split.
    + intros k Hk. rewrite E1 by lia. destruct (Z.eqb_spec k (jz - 1)); [lia|apply Di; lia].
    + rewrite (digz_put2 iq iq1 (jz - 1) _ jz ltac:(lia) ltac:(lia) E1). fold d.
      assert (DJ : digz jz iq = digz (jz - 1) iq + d * 2 ^ (24 * (jz - 1))) by (replace jz with (jz - 1 + 1) at 1 by lia; apply digz_S; lia).
      pose proof (digz_range iq (jz - 1) ltac:(lia) ltac:(intros k Hk; apply Di; lia)) as LR.
      destruct (dm_hi _ d (24 * (jz - 1)) (24 - q0) ltac:(lia) ltac:(lia) LR) as (_ & MD). rewrite <- DJ in MD. replace (24 * (jz - 1) + (24 - q0)) with (24 * jz - q0) in MD by lia. rewrite MD, DJ. ring.
  - assert (E0 : (q0 =? 1) || (q0 =? 2) = false) by lia. rewrite E0. exists iq. auto.
Qed.

Section Trig.
Context (o : fops) (Ho : ieee_ops F64 o) (c : icast) (Hc : icast_ok c).
Lemma neg_ok q0 jz z n ih iq Zf F (B := 24 * jz - q0) : 1 <= jz < 20 -> -27 <= q0 <= 2 -> len iq = 20 -> digs_ok iq jz -> sc z Zf q0 -> 0 <= n < 8 -> digz jz iq + Zf * 2 ^ (24 * jz) = F -> F < 2 ^ B ->
  (if q0 <? 0 then 0 <= Zf < 2 ^ (- q0) /\ ih = (if 2 ^ (B - 1) <=? F then 2 else 0) else Zf = 0 /\ ih = (if 2 ^ (B - 1) <=? F then 1 else 0)) ->
  exists z' Zf' iq', lg_neg o q0 jz z n ih iq = Ok (z', n + (if 2 ^ (B - 1) <=? F then 1 else 0), iq') /\ len iq' = 20 /\ digs_ok iq' jz /\ sc z' Zf' q0 /\
    digz jz iq' + Zf' * 2 ^ (24 * jz) = (if 2 ^ (B - 1) <=? F then 2 ^ B - F else F) /\ (if q0 <? 0 then 0 <= Zf' <= 2 ^ (- q0) else Zf' = 0) /\ (ih =? 0) = negb (2 ^ (B - 1) <=? F).
Proof using Ho.
  intros Hj Hq Li Di Sz Hn EF HF H. unfold lg_neg. pose proof (digz_range iq jz ltac:(lia) Di) as DR.
  destruct (2 ^ (B - 1) <=? F) eqn:EB.
  2:{ assert (ih = 0) by (destruct (q0 <? 0); tauto). subst ih. change (0 <? 0) with false. cbn match. rewrite Z.add_0_r. exists z, Zf, iq. split; [reflexivity|]. split; [exact Li|]. split; [exact Di|]. split; [exact Sz|]. split; [exact EF|].
      split; [destruct (q0 <? 0); [lia|tauto]|reflexivity]. }
  apply Z.leb_le in EB. assert (PB : 0 < 2 ^ (B - 1)) by (apply Z.pow_pos_nonneg; [lia|unfold B; lia]).
  assert (I1 : (0 <? ih) = true) by (destruct (q0 <? 0); lia). rewrite I1.
  replace (cadd (SI 32) n 1) with (Ok (n + 1)) by (symmetry; apply chk_ok, fits_s; lia). cbn [bind].
  destruct (flip_ok (Z.to_nat jz) 0 0 iq 0 Li ltac:(lia)) as (cr & iq1 & -> & L1 & D1 & R1); [lia|rewrite Z2Nat.id by lia; exact Di|left; auto|].
  rewrite Z.add_0_l, Z2Nat.id, digz_0, Z.sub_0_r, Z.add_0_l in * by lia. cbn [bind snd fst].
  destruct (mask_ok q0 jz iq1 ltac:(lia) L1 D1 ltac:(lia)) as (iq2 & -> & L2 & D2 & E2). cbn [bind].
  destruct (Z.ltb_spec q0 0) as [N|N].
  - destruct H as (HZ & ->). change (2 =? 2) with true. cbn match. replace (0 <? q0) with false in E2 by lia. set (p := - q0) in *.
    assert (EB' : 2 ^ B = 2 ^ p * 2 ^ (24 * jz)) by (rewrite <- Z.pow_add_r by (unfold p; lia); f_equal; unfold B, p; lia).
    pose proof (sc_shift _ _ _ p ltac:(lia) sc_one) as S1. rewrite Z.mul_1_l in S1. replace (0 - p) with q0 in S1 by (unfold p; lia).
    assert (Pp : 2 ^ p <= 2 ^ 27) by (apply Z.pow_le_mono_r; unfold p; lia).
    pose proof (sc_sub o Ho _ _ _ _ _ S1 Sz ltac:(lia) ltac:(lia)) as S2.
    destruct R1 as [(-> & G0 & D0)|(-> & G0 & D0)].
    + change (0 =? 0) with true. cbn match. eexists _, _, iq2. split; [reflexivity|]. split; [exact L2|]. split; [exact D2|]. split; [exact S2|]. split; [rewrite E2, G0, EB', <- EF, D0; ring|]. split; [lia|reflexivity].
    + change (1 =? 0) with false. cbn match. destruct (sc_scale o Ho one 1 0 q0 sc_one ltac:(lia) ltac:(lia) ltac:(lia)) as (s & -> & Ss). rewrite Z.add_0_l in Ss. cbn [bind].
      pose proof (sc_sub o Ho _ _ _ _ _ S2 Ss ltac:(lia) ltac:(lia)) as S3.
      eexists _, _, iq2. split; [reflexivity|]. split; [exact L2|]. split; [exact D2|]. split; [exact S3|]. split; [rewrite E2, G0, EB', <- EF; ring|]. split; [lia|reflexivity].
  - destruct H as (-> & ->). change (1 =? 2) with false. cbn match. exists z, 0, iq2. split; [reflexivity|]. split; [exact L2|]. split; [exact D2|]. split; [exact Sz|]. split; [|split; reflexivity].
    rewrite Z.mul_0_l, Z.add_0_r in *. rewrite E2. destruct R1 as [(-> & G0 & D0)|(-> & G0 & D0)]; [lia|]. rewrite G0, <- EF.
    destruct (Z.ltb_spec 0 q0) as [P|P]; [|assert (q0 = 0) by lia; subst q0; unfold B; rewrite Z.sub_0_r; reflexivity].
    assert (EB' : 2 ^ (24 * jz) = 2 ^ q0 * 2 ^ B) by (rewrite <- Z.pow_add_r by (unfold B; lia); f_equal; unfold B; lia). fold B. assert (0 < 2 ^ B) by (apply Z.pow_pos_nonneg; [lia|unfold B; lia]).
    symmetry. apply (Z.mod_unique _ _ (2 ^ q0 - 1)); [left; lia|]. rewrite EB'. ring.
Qed.

(** * The exit test *)
Lemma or_ok iq n : forall i j, len iq = 20 -> 0 <= j -> i < 20 -> Z.of_nat n <= i + 1 -> digs_ok iq (i + 1) -> exists r, lg_or n i iq j = Ok r /\ 0 <= r /\
  (r = 0 <-> j = 0 /\ forall k, i - Z.of_nat n < k <= i -> el iq k = 0).
Proof using.
  induction n as [|n IH]; intros i j Li Hj Hi Hn Di.
  - exists j. split; [reflexivity|]. split; [exact Hj|]. split; [intros E; split; [exact E|lia]|tauto].
  - cbn [lg_or]. rewrite tab_el by lia. cbn [bind]. pose proof (Di i ltac:(lia)) as Hd.
    destruct (IH (i - 1) (Z.lor j (el iq i))) as (r & E & R0 & R); try lia; [apply Z.lor_nonneg; lia|intros k Hk; apply Di; lia|]. exists r. split; [exact E|]. split; [exact R0|]. rewrite R. rewrite Z.lor_eq_0_iff. split.
    + intros ((A & B) & K). split; [exact A|]. intros k Hk. destruct (Z.eq_dec k i) as [->|D]; [exact B|apply K; lia].
    + intros (A & K). split; [split; [exact A|apply K; lia]|]. intros k Hk. apply K. lia.
Qed.
Lemma digz_zero iq a m : 0 <= a <= m -> (forall k, a <= k < m -> el iq k = 0) -> digz m iq = digz a iq.
Proof using.
  intros H E. assert (Ha : 0 <= a) by lia. replace m with (a + (m - a)) in * by lia. generalize dependent (m - a). intros d H1 E1. assert (Hd : 0 <= d) by lia. clear H1. revert d Hd E1.
  apply (nat_ind_Z (fun d => (forall k, a <= k < a + d -> el iq k = 0) -> digz (a + d) iq = digz a iq)); [intros _; f_equal; lia|].
  intros d Hd IH E. rewrite Z.add_assoc, digz_S by lia. rewrite (E (a + d)) by lia. rewrite IH; [ring|]. intros k Hk. apply E. lia.
Qed.
Lemma digz_big iq a m k : 0 <= a <= k -> k < m -> digs_ok iq m -> el iq k <> 0 -> 2 ^ (24 * a) <= digz m iq.
Proof using.
  intros Ha Hk D N. apply Z.le_trans with (digz (k + 1) iq).
  - rewrite digz_S by lia. pose proof (digz_range iq k ltac:(lia) ltac:(intros i Hi; apply D; lia)). pose proof (D k ltac:(lia)). assert (2 ^ (24 * a) <= 2 ^ (24 * k)) by (apply Z.pow_le_mono_r; lia). nia.
  - replace m with (k + 1 + (m - (k + 1))) in * by lia. generalize dependent (m - (k + 1)). intros d H1 E1. assert (Hd : 0 <= d) by lia. clear H1. revert d Hd E1.
    apply (nat_ind_Z (fun d => digs_ok iq (k + 1 + d) -> digz (k + 1) iq <= digz (k + 1 + d) iq)); [intros _; rewrite Z.add_0_r; lia|].
    intros d Hd IH E. rewrite Z.add_assoc, (digz_S (k + 1 + d)) by lia. specialize (IH ltac:(intros i Hi; apply E; lia)). pose proof (E (k + 1 + d) ltac:(lia)). assert (0 < 2 ^ (24 * (k + 1 + d))) by (apply Z.pow_pos_nonneg; lia). pose proof (Z.mul_nonneg_nonneg (el iq (k + 1 + d)) (2 ^ (24 * (k + 1 + d))) ltac:(lia) ltac:(lia)). lia.
Qed.
(** The number of further terms *)
Lemma k_ok iq : len iq = 20 -> digs_ok iq 4 -> digz 4 iq <> 0 -> exists k, lg_k 5 4 1 iq = Ok k /\ 1 <= k <= 4 /\ digz 4 iq < 2 ^ (24 * (5 - k)).
Proof using.
  intros Li Di N. assert (E4 : digz 4 iq = el iq 0 + el iq 1 * 2 ^ 24 + el iq 2 * 2 ^ 48 + el iq 3 * 2 ^ 72) by (change 4 with (0 + 1 + 1 + 1 + 1); rewrite !digz_S, digz_0 by lia; change (0 + 1) with 1; change (1 + 1) with 2; change (2 + 1) with 3; change (2 ^ (24 * 0)) with 1; change (24 * 1) with 24; change (24 * 2) with 48; change (24 * 3) with 72; ring).
  pose proof (Di 0 ltac:(lia)). pose proof (Di 1 ltac:(lia)). pose proof (Di 2 ltac:(lia)). pose proof (Di 3 ltac:(lia)).
  cbn [lg_k]. rewrite !usub_ok by lia. cbn [bind]. change (4 - 1) with 3. change (1 + 1) with 2. change (2 + 1) with 3. change (3 + 1) with 4. change (4 - 2) with 2. change (4 - 3) with 1. change (4 - 4) with 0. rewrite !tab_el by lia. cbn [bind].
  destruct (Z.eqb_spec (el iq 3) 0); [|exists 1; split; [reflexivity|]; change (2 ^ (24 * (5 - 1))) with (2 ^ 96); lia].
  destruct (Z.eqb_spec (el iq 2) 0); [|exists 2; split; [reflexivity|]; change (2 ^ (24 * (5 - 2))) with (2 ^ 72); lia].
  destruct (Z.eqb_spec (el iq 1) 0); [|exists 3; split; [reflexivity|]; change (2 ^ (24 * (5 - 3))) with (2 ^ 48); lia].
  destruct (Z.eqb_spec (el iq 0) 0); [|exists 4; split; [reflexivity|]; change (2 ^ (24 * (5 - 4))) with (2 ^ 24); lia]. lia.
Qed.
End Trig.
