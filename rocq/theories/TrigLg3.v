(** rem_pio2_large: distillation into 24-bit digits, the integer part and the reflection at 1 / 2. *)
From Coq Require Import ZArith Reals Bool List Lia Lra Psatz.
From Flocq Require Import Core.
From Verif Require Import Base BaseLemmas FloatModel FloatSpec FloatProofs5 LibmModel LibmSpec LibmProps FloatConvSpec FloatErr PolyBound Elem ElemModel ElemSpec TrigModel F64Lib ExpProofs3 ExpProofs4 ExpProofs7 TrigRed TrigRed4 TrigLg TrigLg2.
Import ListNotations.
Open Scope Z_scope.

Fixpoint dign (m : nat) (iq : list Z) : Z := match m with O => 0 | S m => dign m iq + el iq (Z.of_nat m) * 2 ^ (24 * Z.of_nat m) end.
(** The number whose [m] lowest digits in base 2^24 are in [iq] *)
Definition digz (m : Z) (iq : list Z) : Z := dign (Z.to_nat m) iq.
Definition digs_ok (iq : list Z) (m : Z) : Prop := forall i, 0 <= i < m -> 0 <= el iq i < 2 ^ 24.
Lemma digz_S m iq : 0 <= m -> digz (m + 1) iq = digz m iq + el iq m * 2 ^ (24 * m).
Proof. intros H. unfold digz. replace (Z.to_nat (m + 1)) with (S (Z.to_nat m)) by lia. cbn [dign]. rewrite Z2Nat.id by exact H. reflexivity. Qed.
Lemma digz_0 iq : digz 0 iq = 0. Proof. reflexivity. Qed.
Lemma nat_ind_Z (P : Z -> Prop) : P 0 -> (forall m, 0 <= m -> P m -> P (m + 1)) -> forall m, 0 <= m -> P m.
Proof. intros H0 HS m Hm. apply natlike_ind; [exact H0| |exact Hm]. intros k Hk Pk. rewrite <- Z.add_1_r. apply HS; assumption. Qed.
Lemma pow_S m : 0 <= m -> 2 ^ (24 * (m + 1)) = 2 ^ 24 * 2 ^ (24 * m).
Proof. intros H. rewrite <- Z.pow_add_r by lia. f_equal. lia. Qed.
Lemma digz_range iq m : 0 <= m -> digs_ok iq m -> 0 <= digz m iq < 2 ^ (24 * m).
Proof.
  intros Hm. revert m Hm. apply (nat_ind_Z (fun m => digs_ok iq m -> 0 <= digz m iq < 2 ^ (24 * m))).
  - intros _. rewrite digz_0. cbn. lia.
  - intros m Hm IH D. rewrite digz_S, pow_S by exact Hm. assert (0 < 2 ^ (24 * m)) by lia. specialize (IH ltac:(intros i Hi; apply D; lia)). specialize (D m ltac:(lia)). nia.
Qed.
Lemma digz_ext iq iq' m : 0 <= m -> (forall i, 0 <= i < m -> el iq i = el iq' i) -> digz m iq = digz m iq'.
Proof.
  intros Hm. revert m Hm. apply (nat_ind_Z (fun m => (forall i, 0 <= i < m -> el iq i = el iq' i) -> digz m iq = digz m iq')); [reflexivity|].
  intros m Hm IH E. rewrite !digz_S by exact Hm. rewrite IH by (intros i Hi; apply E; lia). rewrite (E m) by lia. reflexivity.
Qed.
Lemma dm_hi D z K p : 0 <= K -> 0 <= p -> 0 <= D < 2 ^ K -> (D + z * 2 ^ K) / 2 ^ (K + p) = z / 2 ^ p /\ (D + z * 2 ^ K) mod 2 ^ (K + p) = D + (z mod 2 ^ p) * 2 ^ K.
Proof.
  intros HK Hp HD. assert (P : 0 < 2 ^ p) by lia. pose proof (Z_div_mod_eq_full z (2 ^ p)) as E. pose proof (Z.mod_pos_bound z (2 ^ p) P) as M.
  assert (X : D + z * 2 ^ K = 2 ^ (K + p) * (z / 2 ^ p) + (D + (z mod 2 ^ p) * 2 ^ K)) by (rewrite Z.pow_add_r by lia; rewrite E at 1; ring).
  assert (Y : 0 <= D + (z mod 2 ^ p) * 2 ^ K < 2 ^ (K + p)) by (rewrite Z.pow_add_r by lia; nia).
  split; [symmetry; apply (Z.div_unique _ _ _ _ (or_introl Y) X)|symmetry; apply (Z.mod_unique _ _ _ _ (or_introl Y) X)].
Qed.
Lemma land_ones a k : 0 <= k -> Z.land a (2 ^ k - 1) = a mod 2 ^ k.
Proof. intros H. rewrite <- Z.land_ones by exact H. f_equal. rewrite Z.ones_equiv. lia. Qed.

Section Trig.
Context (o : fops) (Ho : ieee_ops F64 o) (c : icast) (Hc : icast_ok c).

(** * Distillation *)
Section Distill.
Context (C : Z -> Z) (jz : Z) (q : list Z) (HC : forall i, 0 <= C i <= 3 * 2 ^ 48) (Hjz : 0 <= jz < 20) (Lq : len q = 20) (Fq : forall i, 0 <= i <= jz -> sc (el q i) (C i) 0).
Fixpoint horn (m : nat) : Z := match m with O => C jz | S m => horn m + C (jz - (Z.of_nat m + 1)) * 2 ^ (24 * (Z.of_nat m + 1)) end.
Definition hor (m : Z) : Z := horn (Z.to_nat m).
Lemma hor_S m : 0 <= m -> hor (m + 1) = hor m + C (jz - (m + 1)) * 2 ^ (24 * (m + 1)).
Proof using. intros H. unfold hor. replace (Z.to_nat (m + 1)) with (S (Z.to_nat m)) by lia. cbn [horn]. rewrite Z2Nat.id by exact H. reflexivity. Qed.
Lemma distill_ok : forall j i z zz iq, len iq = 20 -> i = jz - Z.of_nat j -> 0 <= i -> sc z zz 0 -> 0 <= zz <= 3 * 2 ^ 48 + 2 ^ 26 -> digs_ok iq i -> digz i iq + zz * 2 ^ (24 * i) = hor i ->
  exists z' zz' iq', lg_distill o c j i z q iq = Ok (z', iq') /\ len iq' = 20 /\ sc z' zz' 0 /\ 0 <= zz' <= 3 * 2 ^ 48 + 2 ^ 26 /\ digs_ok iq' jz /\ digz jz iq' + zz' * 2 ^ (24 * jz) = hor jz.
Proof using Ho Hc HC Hjz Lq Fq.
  induction j as [|j IH]; intros i z zz iq Li Hi Hi0 Sz Hz Di E.
  - exists z, zz, iq. assert (i = jz) by lia. subst i. rewrite H in *. auto 8.
  - cbn [lg_distill]. pose proof (sc_mul o Ho _ _ _ _ _ _ sc_x1p_24 Sz ltac:(lia) ltac:(lia)) as S1. rewrite Z.mul_1_l in S1. change (-24 + 0) with (- (24)) in S1.
    assert (Z1 : 0 <= zz / 2 ^ 24 < 2 ^ 26) by (split; [apply Z.div_pos; lia|apply Z.div_lt_upper_bound; lia]).
    rewrite (sc_toi c Hc _ _ 24 ltac:(lia) S1 ltac:(lia) ltac:(lia)). set (h := zz / 2 ^ 24) in *. pose proof (sc_ofi c Hc h ltac:(lia)) as Sf.
    pose proof (sc_mul o Ho _ _ _ _ _ _ sc_x1p24 Sf ltac:(lia) ltac:(lia)) as S2. rewrite Z.mul_1_l in S2. apply (sc_shift _ _ _ 24 ltac:(lia)) in S2. change (24 + 0 - 24) with 0 in S2.
    assert (M : zz - h * 2 ^ 24 = zz mod 2 ^ 24) by (rewrite Z.mod_eq by lia; unfold h; lia). pose proof (Z.mod_pos_bound zz (2 ^ 24) ltac:(lia)) as MB.
    pose proof (sc_sub o Ho _ _ _ _ _ Sz S2 ltac:(lia) ltac:(lia)) as S3. rewrite M in S3.
    rewrite (sc_toi c Hc _ (zz mod 2 ^ 24) 0 ltac:(lia) S3 ltac:(lia)) by (change (2 ^ 0) with 1; rewrite Z.div_1_r; lia). change (2 ^ 0) with 1. rewrite Z.div_1_r.
    destruct (put_el iq i (zz mod 2 ^ 24) ltac:(lia)) as (iq1 & -> & L1 & E1). cbn [bind]. rewrite tab_el by lia. cbn [bind].
    replace (cadd (SI 32) i 1) with (Ok (i + 1)) by (symmetry; apply chk_ok, fits_s; lia). cbn [bind]. pose proof (HC (Z.of_nat j)) as HCj.
    apply (IH (i + 1) _ (C (Z.of_nat j) + h)); try lia.
    + apply (sc_add o Ho); [apply Fq; lia|exact Sf|lia|lia].
    + intros k Hk. rewrite E1 by lia. destruct (Z.eqb_spec k i); [lia|apply Di; lia].
    + rewrite hor_S, digz_S by exact Hi0. rewrite (E1 i Hi0), Z.eqb_refl. 
      assert (EX : digz i iq1 = digz i iq) by (apply digz_ext; [lia|]; intros k Hk; rewrite E1 by lia; destruct (Z.eqb_spec k i); [lia|reflexivity]). rewrite EX.
      replace (jz - (i + 1)) with (Z.of_nat j) by lia. rewrite pow_S by exact Hi0. rewrite <- E, <- M. ring.
Qed.
End Distill.

(** * The integer part *)
Lemma n_ok q0 jz z zz iq (B := 24 * jz - q0) (Q := digz jz iq + zz * 2 ^ (24 * jz)) : 1 <= jz < 20 -> -27 <= q0 <= 2 -> len iq = 20 -> digs_ok iq jz -> sc z zz 0 -> 0 <= zz <= 2 ^ 50 ->
  exists z' Zf ih iq', lg_n o c q0 jz z iq = Ok (z', (Q / 2 ^ B) mod 8, ih, iq') /\ len iq' = 20 /\ digs_ok iq' jz /\ sc z' Zf q0 /\ digz jz iq' + Zf * 2 ^ (24 * jz) = Q mod 2 ^ B /\
    (if q0 <? 0 then 0 <= Zf < 2 ^ (- q0) /\ ih = (if 2 ^ (B - 1) <=? Q mod 2 ^ B then 2 else 0) else Zf = 0 /\ ih = (if 2 ^ (B - 1) <=? Q mod 2 ^ B then 1 else 0)).
Proof using Ho Hc.
  intros Hjz Hq Li Di Sz Hz. unfold lg_n. pose proof (digz_range iq jz ltac:(lia) Di) as DR.
  destruct (sc_scale o Ho z zz 0 q0 Sz ltac:(lia) ltac:(lia) ltac:(lia)) as (z1 & -> & Sz1). cbn [bind]. rewrite Z.add_0_l in Sz1.
  pose proof (sc_mul o Ho _ _ _ _ _ _ Sz1 sc_eighth ltac:(lia) ltac:(lia)) as S2. rewrite Z.mul_1_r in S2. replace (q0 + -3) with (- (3 - q0)) in S2 by lia.
  destruct (sc_floor _ _ (3 - q0) ltac:(lia) S2) as (fl & st & -> & Sfl). cbn [bind fst].
  assert (PP3 : 2 <= 2 ^ (3 - q0)) by (apply (Z.pow_le_mono_r 2 1); lia).
  assert (Fz : 0 <= zz / 2 ^ (3 - q0) <= zz) by (split; [apply Z.div_pos; lia|apply Z.div_le_upper_bound; [lia|nia]]).
  pose proof (sc_mul o Ho _ _ _ _ _ _ sc_eight Sfl ltac:(lia) ltac:(lia)) as S3. rewrite Z.mul_1_l in S3. apply (sc_shift _ _ _ (3 - q0) ltac:(lia)) in S3. replace (3 + 0 - (3 - q0)) with q0 in S3 by lia.
  pose proof (Z_div_mod_eq_full zz (2 ^ (3 - q0))) as EM. pose proof (Z.mod_pos_bound zz (2 ^ (3 - q0)) ltac:(lia)) as MB. set (r := zz mod 2 ^ (3 - q0)) in *.
  assert (Mr : zz - zz / 2 ^ (3 - q0) * 2 ^ (3 - q0) = r) by lia. assert (Hr : r <= zz) by nia.
  pose proof (sc_sub o Ho _ _ _ _ _ Sz1 S3 ltac:(lia) ltac:(lia)) as S4. rewrite Mr in S4. clear S2 S3 Sfl Sz1 Sz.
  set (z2 := o_sub o z1 (o_mul o eight fl)) in *. clearbody z2.
  destruct (Z.ltb_spec 0 q0) as [P|P].
  - (* q0 = 1, 2 *)
    pose proof (sc_shift _ _ _ q0 ltac:(lia) S4) as S5. replace (q0 - q0) with (- 0) in S5 by lia. 
    assert (Hn : r * 2 ^ q0 = (zz * 2 ^ q0) mod 8). { assert (q0 = 1 \/ q0 = 2) as [-> | ->] by lia; unfold r; cbn -[Z.mul Z.modulo]; Z.div_mod_to_equations; lia. }
    pose proof (Z.mod_pos_bound (zz * 2 ^ q0) 8 ltac:(lia)) as NB. rewrite Hn in S5.
    rewrite (sc_toi c Hc _ _ 0 ltac:(lia) S5 ltac:(lia)) by (change (2 ^ 0) with 1; rewrite Z.div_1_r; lia). change (2 ^ 0) with 1. rewrite Z.div_1_r. change (- 0) with 0 in S5.
    set (n0 := (zz * 2 ^ q0) mod 8) in *.
    pose proof (sc_sub o Ho _ _ _ _ _ S5 (sc_ofi c Hc n0 ltac:(lia)) ltac:(lia) ltac:(lia)) as S6. rewrite Z.sub_diag in S6. set (z3 := o_sub o z2 (c_ofi c n0)) in *. clearbody z3.
    rewrite usub_ok by lia. cbn [bind]. rewrite tab_el by lia. cbn [bind]. set (d := el iq (jz - 1)). assert (Hd : 0 <= d < 2 ^ 24) by (apply Di; lia).
    replace (csub (SI 32) 24 q0) with (Ok (24 - q0)) by (symmetry; apply chk_ok, fits_s; lia). cbn [bind]. rewrite cshr_ok by (change (bits (SI 32)) with 32; lia). cbn [bind].
    assert (Hi : 0 <= d / 2 ^ (24 - q0) < 4) by (assert (q0 = 1 \/ q0 = 2) as [-> | ->] by lia; [change (24 - 1) with 23|change (24 - 2) with 22]; Z.div_mod_to_equations; lia). set (i := d / 2 ^ (24 - q0)) in *.
    fold i.
    replace (cadd (SI 32) n0 i) with (Ok (n0 + i)) by (symmetry; apply chk_ok, fits_s; lia). cbn [bind].
    assert (Ei : d - i * 2 ^ (24 - q0) = d mod 2 ^ (24 - q0)) by (rewrite Z.mod_eq by lia; unfold i; lia). pose proof (Z.mod_pos_bound d (2 ^ (24 - q0)) ltac:(lia)) as DB.
    rewrite cshl_ok by (change (bits (SI 32)) with 32; lia). cbn [bind]. rewrite norm_id by first [reflexivity|apply fits_s; assert (0 < 2 ^ (24 - q0)) by lia; nia].
    replace (csub (SI 32) d (i * 2 ^ (24 - q0))) with (Ok (d mod 2 ^ (24 - q0))) by (rewrite <- Ei; symmetry; apply chk_ok, fits_s; assert (2 ^ (24 - q0) < 2 ^ 24) by (apply Z.pow_lt_mono_r; lia); lia). cbn [bind].
    set (d' := d mod 2 ^ (24 - q0)) in *.
    destruct (put_el iq (jz - 1) d' ltac:(lia)) as (iq1 & -> & L1 & E1). cbn [bind].
    replace (csub (SI 32) 23 q0) with (Ok (23 - q0)) by (symmetry; apply chk_ok, fits_s; lia). cbn [bind]. rewrite cshr_ok by (change (bits (SI 32)) with 32; lia). cbn [bind].
    assert (PW : 2 ^ (24 - q0) < 2 ^ 24) by (apply Z.pow_lt_mono_r; lia).
    assert (DJ : digz jz iq = digz (jz - 1) iq + d * 2 ^ (24 * (jz - 1))) by (replace jz with (jz - 1 + 1) at 1 by lia; apply digz_S; lia).
    assert (DJ1 : digz jz iq1 = digz (jz - 1) iq + d' * 2 ^ (24 * (jz - 1))).
    { replace jz with (jz - 1 + 1) at 1 by lia. rewrite digz_S by lia. rewrite E1, Z.eqb_refl by lia. f_equal. apply digz_ext; [lia|]. intros k Hk. rewrite E1 by lia. destruct (Z.eqb_spec k (jz - 1)); [lia|reflexivity]. }
    pose proof (digz_range iq (jz - 1) ltac:(lia) ltac:(intros k Hk; apply Di; lia)) as LR.
    assert (EQ : Q = digz (jz - 1) iq + (d + zz * 2 ^ 24) * 2 ^ (24 * (jz - 1))) by (unfold Q; rewrite DJ; replace (24 * jz) with (24 * (jz - 1 + 1)) by lia; rewrite pow_S by lia; ring).
    destruct (dm_hi _ (d + zz * 2 ^ 24) (24 * (jz - 1)) (24 - q0) ltac:(lia) ltac:(lia) LR) as (DV & MD). rewrite <- EQ in DV, MD. replace (24 * (jz - 1) + (24 - q0)) with B in DV, MD by (unfold B; lia).
    assert (X1 : (d + zz * 2 ^ 24) mod 2 ^ (24 - q0) = d').
    { replace (zz * 2 ^ 24) with (zz * 2 ^ q0 * 2 ^ (24 - q0)) by (rewrite <- Z.mul_assoc, <- Z.pow_add_r by lia; do 2 f_equal; lia). apply Z.mod_add. lia. }
    assert (X2 : (d + zz * 2 ^ 24) / 2 ^ (24 - q0) = i + zz * 2 ^ q0).
    { replace (zz * 2 ^ 24) with (zz * 2 ^ q0 * 2 ^ (24 - q0)) by (rewrite <- Z.mul_assoc, <- Z.pow_add_r by lia; do 2 f_equal; lia). apply Z.div_add. lia. }
    assert (X3 : n0 + i = (Q / 2 ^ B) mod 8).
    { rewrite DV, X2. unfold n0. assert (Hi2 : 0 <= i < 2 ^ q0) by (unfold i; split; [apply Z.div_pos; lia|apply Z.div_lt_upper_bound; [lia|rewrite <- Z.pow_add_r by lia; replace (24 - q0 + q0) with 24 by lia; lia]]).
      assert (q0 = 1 \/ q0 = 2) as [-> | ->] by lia; cbn -[Z.mul Z.modulo Z.add] in Hi2 |- *; clear - Hi2; Z.div_mod_to_equations; lia. }
    rewrite X3. do 3 eexists. exists iq1. split; [reflexivity|]. split; [lia|]. split; [|split; [|split]].
    + intros k Hk. rewrite E1 by lia. destruct (Z.eqb_spec k (jz - 1)); [lia|apply Di; lia].
    + instantiate (1 := 0). destruct S6 as (G6 & V6). split; [exact G6|]. rewrite V6. ring.
    + rewrite MD, X1, DJ1. ring.
    + replace (q0 <? 0) with false by lia. split; [reflexivity|]. rewrite MD, X1.
      assert (HB : 2 ^ (B - 1) = 2 ^ (23 - q0) * 2 ^ (24 * (jz - 1))) by (rewrite <- Z.pow_add_r by lia; f_equal; unfold B; lia).
      assert (PD : 2 ^ (24 - q0) = 2 * 2 ^ (23 - q0)) by (rewrite <- (Z.pow_add_r 2 1) by lia; f_equal; lia). assert (0 < 2 ^ (23 - q0)) by lia. assert (0 < 2 ^ (24 * (jz - 1))) by lia.
      destruct (Z.leb_spec (2 ^ (B - 1)) (digz (jz - 1) iq + d' * 2 ^ (24 * (jz - 1)))) as [L|L].
      * assert (2 ^ (23 - q0) <= d') by nia. symmetry. apply (Z.div_unique _ _ _ (d' - 2 ^ (23 - q0))); [left; lia|lia].
      * assert (d' < 2 ^ (23 - q0)) by nia. apply Z.div_small. lia.
  - (* q0 <= 0 *)
    set (p := - q0). assert (Hp : 0 <= p <= 27) by (unfold p; lia). replace q0 with (- p) in S4 by (unfold p; lia).
    assert (PW : 2 ^ (3 - q0) = 8 * 2 ^ p) by (replace (3 - q0) with (3 + p) by (unfold p; lia); rewrite Z.pow_add_r by lia; reflexivity).
    assert (Pp : 0 < 2 ^ p) by lia. assert (Hn : 0 <= r / 2 ^ p < 8) by (split; [apply Z.div_pos; lia|apply Z.div_lt_upper_bound; lia]).
    rewrite (sc_toi c Hc _ _ p ltac:(lia) S4 ltac:(lia) ltac:(lia)). set (n := r / 2 ^ p) in *.
    pose proof (sc_shift _ _ _ p ltac:(lia) (sc_ofi c Hc n ltac:(lia))) as S5. replace (0 - p) with (- p) in S5 by lia.
    assert (Er : r - n * 2 ^ p = zz mod 2 ^ p).
    { transitivity (r mod 2 ^ p); [rewrite Z.mod_eq by lia; unfold n; lia|]. unfold r. rewrite PW, Z.mul_comm. symmetry. apply Znumtheory.Zmod_div_mod; [lia|lia|]. exists 8. ring. }
    pose proof (Z.mod_pos_bound zz (2 ^ p) Pp) as RB. assert (2 ^ p <= 2 ^ 27) by (apply Z.pow_le_mono_r; lia).
    pose proof (sc_sub o Ho _ _ _ _ _ S4 S5 ltac:(lia) ltac:(lia)) as S6. rewrite Er in S6. set (z3 := o_sub o z2 (c_ofi c n)) in *. clearbody z3.
    destruct (dm_hi _ zz (24 * jz) p ltac:(lia) ltac:(lia) DR) as (DV & MD). fold Q in DV, MD. replace (24 * jz + p) with B in DV, MD by (unfold B, p; lia).
    assert (En : n = (Q / 2 ^ B) mod 8).
    { rewrite DV. unfold n, r. rewrite PW. rewrite Z.mul_comm, Z.rem_mul_r by lia. rewrite Z.mul_comm, Z.div_add by lia. rewrite Z.div_small by (apply Z.mod_pos_bound; lia). apply Z.add_0_l. }
    rewrite En. destruct (Z.eqb_spec q0 0) as [Z0|Z0].
    + assert (p = 0) by (unfold p; lia). rewrite H0 in *. change (2 ^ 0) with 1 in *. rewrite Z.mod_1_r in *.
      rewrite usub_ok by lia. cbn [bind]. rewrite tab_el by lia. cbn [bind]. set (d := el iq (jz - 1)). assert (Hd : 0 <= d < 2 ^ 24) by (apply Di; lia). rewrite cshr_ok by (change (bits (SI 32)) with 32; lia). cbn [bind].
      do 3 eexists. exists iq. split; [reflexivity|]. split; [exact Li|]. split; [exact Di|]. rewrite Z0. split; [exact S6|]. split; [exact (eq_sym MD)|]. change (0 <? 0) with false. cbn match. split; [reflexivity|].
      rewrite MD, Z.mul_0_l, Z.add_0_r.
      assert (DJ : digz jz iq = digz (jz - 1) iq + d * 2 ^ (24 * (jz - 1))) by (replace jz with (jz - 1 + 1) at 1 by lia; apply digz_S; lia). rewrite DJ.
      pose proof (digz_range iq (jz - 1) ltac:(lia) ltac:(intros k Hk; apply Di; lia)) as LR.
      assert (HB : 2 ^ (B - 1) = 2 ^ 23 * 2 ^ (24 * (jz - 1))) by (rewrite <- Z.pow_add_r by lia; f_equal; unfold B; lia). assert (0 < 2 ^ (24 * (jz - 1))) by lia.
      destruct (Z.leb_spec (2 ^ (B - 1)) (digz (jz - 1) iq + d * 2 ^ (24 * (jz - 1)))) as [L|L].
      * assert (2 ^ 23 <= d) by nia. symmetry. apply (Z.div_unique _ _ _ (d - 2 ^ 23)); [left; lia|lia].
      * assert (d < 2 ^ 23) by nia. apply Z.div_small. lia.
    + assert (Hp1 : 1 <= p) by (unfold p; lia). assert (S7 : sc half (2 ^ (p - 1)) (- p)).
      { pose proof (sc_shift _ _ _ (p - 1) ltac:(lia) sc_half) as S7. rewrite Z.mul_1_l in S7. replace (-1 - (p - 1)) with (- p) in S7 by lia. exact S7. }
      rewrite (sc_le o Ho _ _ _ _ _ S7 S6).
      assert (HB : 2 ^ (B - 1) = 2 ^ (p - 1) * 2 ^ (24 * jz)) by (rewrite <- Z.pow_add_r by lia; f_equal; unfold B, p; lia). assert (0 < 2 ^ (24 * jz)) by lia. assert (0 < 2 ^ (p - 1)) by lia.
      assert (EQV : (2 ^ (p - 1) <=? zz mod 2 ^ p) = (2 ^ (B - 1) <=? Q mod 2 ^ B)).
      { rewrite MD, HB. destruct (Z.leb_spec (2 ^ (p - 1)) (zz mod 2 ^ p)) as [L|L]; symmetry; [apply Z.leb_le; nia|apply Z.leb_gt; nia]. }
      rewrite EQV. replace (q0 <? 0) with true by lia. exists z3, (zz mod 2 ^ p), (if 2 ^ (B - 1) <=? Q mod 2 ^ B then 2 else 0), iq.
      split; [destruct (2 ^ (B - 1) <=? Q mod 2 ^ B); reflexivity|]. split; [exact Li|]. split; [exact Di|]. split; [replace q0 with (- p) by (unfold p; lia); exact S6|]. split; [rewrite MD; reflexivity|]. split; [fold p; lia|reflexivity].
Qed.
End Trig.
