(** Proofs about IntModel.v: shifts and multiplication. *)
From Coq Require Import ZArith Bool List Lia ZifyBool.
From Verif Require Import Base BaseLemmas IntModel IntProofs.
Import ListNotations.
Open Scope Z_scope.

Lemma land_pow2_test s m : 0 <= m -> 0 <= s < 2 * 2 ^ m ->
  (Z.land s (2 ^ m) =? 0) = (s <? 2 ^ m).
Proof.
  intros Hm Hs. pose proof (pow2_pos m Hm).
  assert (Z.testbit s m = negb (s <? 2 ^ m)) as E.
  { destruct (Z.ltb_spec s (2 ^ m)); cbn [negb].
    - apply Bool.not_true_iff_false. rewrite Z.testbit_true by lia.
      rewrite Z.div_small by lia. rewrite Z.mod_0_l; lia.
    - rewrite Z.testbit_true by lia.
      replace (s / 2 ^ m) with 1; [reflexivity|].
      apply Z.div_unique with (r := s - 2 ^ m); lia. }
  assert (Z.land s (2 ^ m) = if Z.testbit s m then 2 ^ m else 0) as ->.
  { apply Z.bits_inj'; intros i Hi. rewrite Z.land_spec.
    rewrite Z.pow2_bits_eqb by lia.
    destruct (Z.eqb_spec m i).
    - subst. destruct (Z.testbit s i); simpl.
      + rewrite Z.pow2_bits_true by lia. reflexivity.
      + now rewrite Z.bits_0.
    - rewrite andb_false_r. destruct (Z.testbit s m).
      + rewrite Z.pow2_bits_false by lia. reflexivity.
      + now rewrite Z.bits_0. }
  rewrite E. destruct (Z.ltb_spec s (2 ^ m)); cbn [negb]; lia.
Qed.

Lemma div_bound_sym x d B : 0 < d -> - B <= x < B -> - B <= x / d < B.
Proof.
  intros Hd Hx. split; [apply Z.div_le_lower_bound; nia|]. apply Z.div_lt_upper_bound; nia.
Qed.

Section Shifts.
Variables h m : Z.
Hypothesis Hm : 0 <= m.
Hypothesis Hhm : h = 2 ^ m.
Hypothesis H32 : 2 * h < 2 ^ 32.
Let Hh : 0 < h. Proof. subst h. now apply pow2_pos. Qed.

Lemma land_h s : 0 <= s < 2 * h -> (Z.land s h =? 0) = (s <? h).
Proof. intros. rewrite Hhm in *. now apply land_pow2_test. Qed.

Lemma small_shift_amount s : 0 < s < h -> wrapping_sub (UI 32) h s = h - s.
Proof. intros. unfold wrapping_sub. rewrite norm_u. apply Z.mod_small. lia. Qed.

Lemma wshl_u n x s : 0 <= s < n -> wrapping_shl (UI n) x s = (x * 2 ^ s) mod 2 ^ n.
Proof. intros. unfold wrapping_shl. rewrite ?bits_u, ?bits_s. rewrite (Z.mod_small s) by lia. rewrite shiftl_mul by lia. reflexivity. Qed.
Lemma lshr_u n x s : 0 <= s < n -> 0 <= x < 2 ^ n -> logical_shr (UI n) x s = x / 2 ^ s.
Proof.
  intros. unfold logical_shr, wrapping_shr. rewrite ?bits_u, ?bits_s. rewrite !norm_u.
  rewrite (Z.mod_small s), (Z.mod_small x) by lia. rewrite shiftr_div by lia.
  apply Z.mod_small. pose proof (pow2_pos s). split; [apply Z.div_pos; lia|].
  apply Z.div_lt_upper_bound; [lia|]. nia.
Qed.

(** x * 2^s splits as (x / 2^(h-s)) * 2^h + low part *)
Lemma mul_split x s : 0 <= s <= h ->
  x * 2 ^ s = (x / 2 ^ (h - s)) * 2 ^ h + (x mod 2 ^ (h - s)) * 2 ^ s.
Proof.
  intros. pose proof (pow2_pos (h - s)). pose proof (Z.div_mod x (2 ^ (h - s))).
  replace (2 ^ h) with (2 ^ (h - s) * 2 ^ s) by (rewrite <- pow2_add by lia; f_equal; lia).
  nia.
Qed.

Lemma ashl_correct a s : 0 <= a < 2 ^ (2 * h) -> 0 <= s < 2 * h ->
  ashl (UI (2 * h)) a s = Ok ((a * 2 ^ s) mod 2 ^ (2 * h)).
Proof using Hm Hhm H32.
  intros Ha Hs. unfold ashl. rewrite ?bits_u, ?bits_s.
  replace (2 * h / 2) with h by (rewrite Z.mul_comm, Z.div_mul; lia).
  rewrite land_h by lia.
  pose proof (pow2_pos h ltac:(lia)) as Hp.
  destruct (Z.ltb_spec s h); cbn [negb].
  - destruct (Z.eqb_spec s 0).
    { subst s. rewrite Z.mul_1_r, Z.mod_small by lia. reflexivity. }
    f_equal. rewrite half_u, lo_u, hi_u by (auto; lia).
    rewrite small_shift_amount by lia.
    rewrite (from_lo_hi_eq _ h) by (auto; lia). rewrite norm_u.
    bnd a h. rewrite lshr_u by lia. rewrite !wshl_u by lia. rewrite Zmod_mod.
    set (al := a mod 2 ^ h) in *. set (ah := a / 2 ^ h).
    assert (a = 2 ^ h * ah + al) as Ea by (apply Z.div_mod; lia).
    assert (exists q, (ah * 2 ^ s) mod 2 ^ h = q * 2 ^ s) as [q Hq].
    { exists (ah mod 2 ^ (h - s)).
      rewrite (mul_split ah s) by lia. rewrite Z.add_comm, Z_mod_plus_full.
      apply Z.mod_small. bnd ah (h - s). pose proof (pow2_pos s).
      replace (2 ^ h) with (2 ^ (h - s) * 2 ^ s) by (rewrite <- pow2_add by lia; f_equal; lia). nia. }
    rewrite Hq. pose proof (pow2_pos (h - s)). pose proof (pow2_pos s).
    assert (2 ^ h = 2 ^ (h - s) * 2 ^ s) as Ep by (rewrite <- pow2_add by lia; f_equal; lia).
    rewrite lor_add_low.
    2: lia.
    2:{ split; [apply Z.div_pos; lia|]. apply Z.div_lt_upper_bound; lia. }
    rewrite pow2_dbl by lia. apply mod_congr.
    pose proof (mul_split al s ltac:(lia)) as Es.
    assert (al * 2 ^ s mod 2 ^ h = al mod 2 ^ (h - s) * 2 ^ s) as ->.
    { rewrite Es, Z.add_comm, Z_mod_plus_full. apply Z.mod_small.
      bnd al (h - s). nia. }
    pose proof (Z.div_mod (ah * 2 ^ s) (2 ^ h) ltac:(lia)). rewrite Hq in *.
    exists (- (ah * 2 ^ s / 2 ^ h)). nia.
  - rewrite csub_u by lia. cbn [bind]. f_equal.
    rewrite half_u, lo_u by (auto; lia).
    rewrite <- (half_u h) at 1 by lia. rewrite (widen_hi_eq _ h) by (auto; lia).
    rewrite wshl_u by lia. rewrite norm_u.
    assert (2 ^ s = 2 ^ h * 2 ^ (s - h)) as Ep by (rewrite <- pow2_add by lia; f_equal; lia).
    rewrite pow2_dbl by lia. apply mod_congr.
    rewrite (Z.mod_eq _ (2 ^ h)) by lia. rewrite (Z.mod_eq a (2 ^ h)) by lia.
    rewrite Ep.
    exists (- (a / 2 ^ h * 2 ^ (s - h)) - ((a - 2 ^ h * (a / 2 ^ h)) * 2 ^ (s - h)) / 2 ^ h). ring.
Qed.

Lemma lshr_correct a s : 0 <= a < 2 ^ (2 * h) -> 0 <= s < 2 * h ->
  lshr (UI (2 * h)) a s = Ok (a / 2 ^ s).
Proof using Hm Hhm H32.
  intros Ha Hs. unfold lshr. rewrite ?bits_u, ?bits_s.
  replace (2 * h / 2) with h by (rewrite Z.mul_comm, Z.div_mul; lia).
  rewrite land_h by lia.
  pose proof (pow2_pos h ltac:(lia)) as Hp. bnd a h.
  assert (0 <= a / 2 ^ h < 2 ^ h) as Hah.
  { rewrite pow2_dbl in Ha by lia. split; [apply Z.div_pos; lia|]. apply Z.div_lt_upper_bound; lia. }
  destruct (Z.ltb_spec s h); cbn [negb].
  - destruct (Z.eqb_spec s 0).
    { subst s. now rewrite Z.div_1_r. }
    f_equal. rewrite half_u, lo_u, hi_u by (auto; lia).
    rewrite small_shift_amount by lia.
    rewrite (from_lo_hi_eq _ h) by (auto; lia). rewrite norm_u.
    rewrite !lshr_u by lia. rewrite !wshl_u by lia.
    set (al := a mod 2 ^ h) in *. set (ah := a / 2 ^ h) in *.
    assert (a = 2 ^ h * ah + al) as Ea by (apply Z.div_mod; lia).
    pose proof (pow2_pos (h - s)). pose proof (pow2_pos s).
    assert (2 ^ h = 2 ^ (h - s) * 2 ^ s) as Ep by (rewrite <- pow2_add by lia; f_equal; lia).
    assert ((ah * 2 ^ (h - s)) mod 2 ^ h = (ah mod 2 ^ s) * 2 ^ (h - s)) as ->.
    { rewrite Ep, (Z.mul_comm (2 ^ (h - s))). apply Z.mul_mod_distr_r; lia. }
    rewrite lor_add_low.
    2: lia.
    2:{ split; [apply Z.div_pos; lia|]. apply Z.div_lt_upper_bound; lia. }
    pose proof (Z.div_mod al (2 ^ s)). bnd al s. pose proof (Z.div_mod ah (2 ^ s)). bnd ah s.
    assert (0 <= al / 2 ^ s < 2 ^ (h - s)).
    { split; [apply Z.div_pos; lia|]. apply Z.div_lt_upper_bound; lia. }
    assert (0 <= ah / 2 ^ s < 2 ^ (h - s)).
    { split; [apply Z.div_pos; lia|]. apply Z.div_lt_upper_bound; lia. }
    rewrite (Z.mod_small (_ + _) (2 ^ h)) by nia.
    rewrite Z.mod_small by (rewrite pow2_dbl by lia; nia).
    apply Z.div_unique with (r := al mod 2 ^ s); [lia|]. nia.
  - rewrite csub_u by lia. cbn [bind]. f_equal.
    rewrite half_u, hi_u by (auto; lia).
    rewrite <- (half_u h) at 1 by lia. rewrite (zero_widen_eq _ h) by (auto; lia).
    rewrite lshr_u by lia.
    assert (2 ^ s = 2 ^ h * 2 ^ (s - h)) as Ep by (rewrite <- pow2_add by lia; f_equal; lia).
    pose proof (pow2_pos (s - h)).
    rewrite Z.mod_small.
    2:{ split; [apply Z.div_pos; lia|]. apply Z.div_lt_upper_bound; nia. }
    rewrite Ep. rewrite Z.div_div; lia.
Qed.

Lemma ashr_correct a s : fits (SI (2 * h)) a -> 0 <= s < 2 * h ->
  ashr (SI (2 * h)) a s = Ok (a / 2 ^ s).
Proof using Hm Hhm H32.
  intros Ha Hs. unfold ashr. rewrite ?bits_u, ?bits_s.
  replace (2 * h / 2) with h by (rewrite Z.mul_comm, Z.div_mul; lia).
  rewrite land_h by lia.
  pose proof (pow2_pos h ltac:(lia)) as Hp. bnd a h.
  pose proof (pow2_pos (h-1) ltac:(lia)) as Hp1. pose proof (pow2_S h Hh) as HpS.
  assert (half (SI (2 * h)) = SI h) as Hhalf by (rewrite (half_eq _ h); auto).
  assert (hi (SI (2 * h)) a = a / 2 ^ h) as Ehi by (apply (hi_fit _ h); auto; lia).
  assert (2 ^ (2 * h - 1) = 2 ^ h * 2 ^ (h - 1)) as Epn by (rewrite <- pow2_add by lia; f_equal; lia).
  assert (- 2 ^ (h - 1) <= a / 2 ^ h < 2 ^ (h - 1)) as Hah.
  { apply fits_s in Ha. rewrite Epn in Ha. split; [apply Z.div_le_lower_bound; nia|].
    apply Z.div_lt_upper_bound; nia. }
  assert (forall x, fits (SI (2 * h)) x <-> - (2 ^ h * 2 ^ (h - 1)) <= x < 2 ^ h * 2 ^ (h - 1)) as Hfs.
  { intros. rewrite fits_s. now rewrite Epn. }
  destruct (Z.ltb_spec s h); cbn [negb].
  - destruct (Z.eqb_spec s 0).
    { subst s. now rewrite Z.div_1_r. }
    f_equal. rewrite Hhalf, Ehi.
    rewrite small_shift_amount by lia.
    rewrite (from_lo_hi_eq _ h) by (auto; lia).
    set (ah := a / 2 ^ h) in *.
    pose proof (pow2_pos (h - s)). pose proof (pow2_pos s).
    assert (2 ^ h = 2 ^ (h - s) * 2 ^ s) as Ep by (rewrite <- pow2_add by lia; f_equal; lia).
    (* low part *)
    unfold logical_shr, wrapping_shl, wrapping_shr. rewrite ?bits_u, ?bits_s. rewrite !norm_u.
    rewrite !Z.mod_small with (a := s) by lia. rewrite !Z.mod_small with (a := h - s) by lia.
    rewrite (lo_mod_eq _ h) by (auto; lia).
    rewrite shiftl_mul, !shiftr_div by lia.
    set (al := a mod 2 ^ h) in *.
    assert (a = 2 ^ h * ah + al) as Ea by (apply Z.div_mod; lia).
    destruct (norm_eq_mod (SI h) ltac:(rewrite ?bits_s, ?bits_u; lia) (ah * 2 ^ (h - s))) as [k Hk]. rewrite bits_s in Hk.
    assert (0 <= al / 2 ^ s < 2 ^ (h - s)).
    { split; [apply Z.div_pos; lia|]. apply Z.div_lt_upper_bound; lia. }
    assert (norm (SI h) (al / 2 ^ s) = al / 2 ^ s) as ->.
    { apply norm_id; [rewrite ?bits_s, ?bits_u; lia|]. apply fits_s.
      assert (2 ^ (h - s) <= 2 ^ (h - 1)) by (apply pow2_le; lia). lia. }
    assert (norm (SI h) (ah * 2 ^ (h - s)) = (ah + k * 2 ^ s) * 2 ^ (h - s)) as E by (rewrite Hk; nia).
    rewrite E. rewrite lor_add_low by lia.
    assert (2 ^ h = 2 ^ s * 2 ^ (h - s)) as Ep' by lia.
    assert ((al / 2 ^ s + (ah + k * 2 ^ s) * 2 ^ (h - s)) mod 2 ^ h = al / 2 ^ s + (ah mod 2 ^ s) * 2 ^ (h - s)) as ->.
    { symmetry. apply Z.mod_unique with (q := ah / 2 ^ s + k).
      - left. bnd ah s. nia.
      - pose proof (Z.div_mod ah (2 ^ s)). nia. }
    assert (a / 2 ^ s = al / 2 ^ s + ah mod 2 ^ s * 2 ^ (h - s) + ah / 2 ^ s * 2 ^ h) as ->.
    { symmetry. apply Z.div_unique with (r := al mod 2 ^ s).
      - bnd al s. lia.
      - pose proof (Z.div_mod ah (2 ^ s)). pose proof (Z.div_mod al (2 ^ s)). nia. }
    apply norm_id; [rewrite ?bits_s, ?bits_u; lia|]. apply Hfs.
    assert (- 2 ^ (h - 1) <= ah / 2 ^ s < 2 ^ (h - 1)).
    { apply div_bound_sym; lia. }
    bnd ah s. assert (0 <= al / 2 ^ s + ah mod 2 ^ s * 2 ^ (h - s) < 2 ^ h) by nia. nia.
  - rewrite !csub_u by lia. cbn [bind]. f_equal. rewrite Hhalf, Ehi.
    rewrite (from_lo_hi_eq _ h) by (auto; lia).
    unfold wrapping_shr; rewrite ?bits_u, ?bits_s. rewrite !Z.mod_small with (b := h) by lia.
    rewrite !shiftr_div by lia.
    set (ah := a / 2 ^ h) in *.
    assert (2 ^ s = 2 ^ h * 2 ^ (s - h)) as Ep by (rewrite <- pow2_add by lia; f_equal; lia).
    pose proof (pow2_pos (s - h)).
    assert (a / 2 ^ s = ah / 2 ^ (s - h)) as -> by (rewrite Ep, <- Z.div_div by lia; reflexivity).
    assert (- 2 ^ (h - 1) <= ah / 2 ^ (s - h) < 2 ^ (h - 1)).
    { apply div_bound_sym; lia. }
    set (q := ah / 2 ^ (s - h)) in *.
    assert (ah / 2 ^ (h - 1) = q / 2 ^ h) as ->.
    { destruct (Z_lt_le_dec ah 0).
      - replace (ah / 2 ^ (h - 1)) with (-1) by (apply Z.div_unique with (r := ah + 2 ^ (h - 1)); lia).
        assert (q < 0) by (apply Z.div_lt_upper_bound; nia).
        apply Z.div_unique with (r := q + 2 ^ h); lia.
      - rewrite (Z.div_small ah) by lia. assert (0 <= q) by (apply Z.div_pos; lia).
        symmetry. apply Z.div_small. lia. }
    pose proof (Z.div_mod q (2 ^ h)).
    replace (q mod 2 ^ h + q / 2 ^ h * 2 ^ h) with q by lia.
    apply norm_id; [rewrite ?bits_s, ?bits_u; lia|]. apply Hfs. nia.
Qed.
End Shifts.

(** ** Multiplication *)
Section MulProof.
Variable t : ity.
Variable q : Z.
Hypothesis Hq : 0 < q.
Hypothesis Hn : bits t = 4 * q.

Lemma mul_correct a b : mul t a b = Ok (norm t (a * b)).
Proof using Hq Hn.
  set (h := 2 * q). assert (0 < h) as Hh by lia. assert (bits t = 2 * h) as Hn2 by lia.
  unfold mul. assert (bits t / 4 = q) as -> by (rewrite Hn, Z.mul_comm, Z.div_mul; lia).
  rewrite !cshl_ok by lia. cbn [bind]. f_equal.
  assert (0 < bits t) as Hbt by lia.
  set (H := half t). assert (bits H = 2 * q) as HH.
  { unfold H. rewrite (half_eq t h) by auto. reflexivity. }
  assert (dbl (half H) = H) as HdH by (apply (dbl_half H q); auto).
  assert (0 < bits H) as HbH by lia.
  pose proof (pow2_pos q ltac:(lia)) as HQ.
  assert (2 ^ h = 2 ^ q * 2 ^ q) as Eh by (apply pow2_dbl; lia).
  assert (2 ^ bits t = 2 ^ h * 2 ^ h) as En by (apply (pow_n t h); auto; lia).
  assert (2 ^ bits H = 2 ^ q * 2 ^ q) as EH by (rewrite HH; apply pow2_dbl; lia).
  unfold wrapping_add. rewrite !norm_add_l by auto.
  assert (forall x y, zero_widen_mul (half H) x y = norm H ((x mod 2 ^ q) * (y mod 2 ^ q))) as EZ.
  { intros. unfold zero_widen_mul, wrapping_mul. rewrite HdH. rewrite !(zero_widen_eq H q) by auto. reflexivity. }
  fold H. rewrite !EZ.
  rewrite (from_lo_hi_eq t h) by auto.
  assert (forall x, zero_widen H x = x mod 2 ^ h) as EZW by (intros; now apply (zero_widen_eq t h)).
  assert (forall x, widen_hi H x = norm t (x * 2 ^ h)) as EWH by (intros; now apply (widen_hi_eq t h)).
  rewrite !EZW, !EWH.
  set (al := lo t a). set (bl := lo t b).
  destruct (lo_mod t h Hh Hn2 a) as [k1 Hk1]. destruct (lo_mod t h Hh Hn2 b) as [k2 Hk2].
  fold al in Hk1. fold bl in Hk2.
  destruct (hi_mod t h Hh Hn2 a) as [k3 Hk3]. destruct (hi_mod t h Hh Hn2 b) as [k4 Hk4].
  set (ah := hi t a) in *. set (bh := hi t b) in *.
  rewrite !(lo_mod_eq H q) by auto.
  assert (forall x, hi H x mod 2 ^ q = (x / 2 ^ q) mod 2 ^ q) as Ehi.
  { intros. destruct (hi_mod H q Hq HH x) as [k ->]. apply Z_mod_plus_full. }
  rewrite !Ehi.
  set (a0 := al mod 2 ^ q). set (a1 := (al / 2 ^ q) mod 2 ^ q).
  set (b0 := bl mod 2 ^ q). set (b1 := (bl / 2 ^ q) mod 2 ^ q).
  assert (0 <= a0 < 2 ^ q) by (apply Z.mod_pos_bound; lia).
  assert (0 <= b0 < 2 ^ q) by (apply Z.mod_pos_bound; lia).
  assert (0 <= a1 < 2 ^ q) by (apply Z.mod_pos_bound; lia).
  assert (0 <= b1 < 2 ^ q) by (apply Z.mod_pos_bound; lia).
  assert (a mod 2 ^ h = a0 + a1 * 2 ^ q) as Hu.
  { unfold a0, a1. rewrite <- (lo_mod_eq t h) by auto. fold al. rewrite Eh.
    symmetry. apply Z.mod_unique with (q := al / 2 ^ q / 2 ^ q); [fold a0 a1; nia|].
    pose proof (Z.div_mod al (2 ^ q)). pose proof (Z.div_mod (al / 2 ^ q) (2 ^ q)). nia. }
  assert (b mod 2 ^ h = b0 + b1 * 2 ^ q) as Hv.
  { unfold b0, b1. rewrite <- (lo_mod_eq t h) by auto. fold bl. rewrite Eh.
    symmetry. apply Z.mod_unique with (q := bl / 2 ^ q / 2 ^ q); [fold b0 b1; nia|].
    pose proof (Z.div_mod bl (2 ^ q)). pose proof (Z.div_mod (bl / 2 ^ q) (2 ^ q)). nia. }
  assert (forall x, 0 <= x < 2 ^ h -> norm H x mod 2 ^ h = x) as Enm.
  { intros x Hx. destruct (norm_eq_mod H HbH x) as [k ->]. rewrite EH, <- Eh, Z_mod_plus_full. now apply Z.mod_small. }
  rewrite !Enm by (rewrite Eh; nia).
  unfold wrapping_mul.
  destruct (norm_eq_mod H HbH (a1 * b1)) as [n1 E1].
  destruct (norm_eq_mod H HbH (al * bh)) as [n2 E2].
  destruct (norm_eq_mod H HbH (ah * bl)) as [n3 E3].
  destruct (norm_eq_mod t Hbt (a0 * b1 * 2 ^ q)) as [n4 E4].
  destruct (norm_eq_mod t Hbt (a1 * b0 * 2 ^ q)) as [n5 E5].
  rewrite E1, E2, E3, E4, E5.
  destruct (norm_eq_mod t Hbt ((al * bh + n2 * 2 ^ bits H) * 2 ^ h)) as [n6 E6].
  destruct (norm_eq_mod t Hbt ((ah * bl + n3 * 2 ^ bits H) * 2 ^ h)) as [n7 E7].
  rewrite E6, E7.
  destruct (norm_eq_mod t Hbt (a0 * b0 + (a1 * b1 + n1 * 2 ^ bits H) * 2 ^ h)) as [n8 E8].
  rewrite E8.
  apply norm_congr.
  match goal with |- exists k, norm t ?X + _ + _ = _ => destruct (norm_eq_mod t Hbt X) as [n9 E9]; rewrite E9 end.
  pose proof (Z.div_mod a (2 ^ h) ltac:(nia)) as Da.
  pose proof (Z.div_mod b (2 ^ h) ltac:(nia)) as Db.
  rewrite Hu in Da. rewrite Hv in Db.
  assert (exists ka, al = a0 + a1 * 2 ^ q + ka * 2 ^ h) as [ka Ha'].
  { exists (k1 + a / 2 ^ h). lia. }
  assert (exists kb, bl = b0 + b1 * 2 ^ q + kb * 2 ^ h) as [kb Hb'].
  { exists (k2 + b / 2 ^ h). lia. }
  rewrite En, EH, <- Eh in *.
  rewrite Ha', Hb', Hk3, Hk4.
  set (qa := a / 2 ^ h) in *. set (qb := b / 2 ^ h) in *.
  set (P := 2 ^ h) in *.
  assert (a * b = (P * qa + (a0 + a1 * 2 ^ q)) * (P * qb + (b0 + b1 * 2 ^ q))) as -> by (rewrite <- Da, <- Db; reflexivity).
  set (Q := 2 ^ q) in *.
  exists (- (qa * qb) + n9 + n8 + n1 + n4 + n5 + n6 + n7 + n2 + n3 +
     (ka * (qb + k4 * P) + (a0 + a1 * Q) * k4) + (kb * (qa + k3 * P) + (b0 + b1 * Q) * k3)).
  rewrite Eh. ring.
Qed.
End MulProof.
