(** Proofs about fmaf16: the computation in 64-bit fixed point. *)
From Coq Require Import ZArith Reals Bool Lia Lra Psatz.
From Flocq Require Import Core.
From Verif Require Import Base BaseLemmas FloatModel FloatSpec FloatProofs FloatProofs2 FloatProofs3 FloatProofs6 FloatConvProofs FloatLib LibmModel LibmSpec LibmProofs LibmProofs2 LibmProofs3 LibmProofs4 LibmProofs5 LibmProofs6 RemModel RemProofs3 FmaModel FmaSpec FmaProofs FmaProofs2 FmaProofs4.
Open Scope Z_scope.

Local Notation f := F16.
Local Notation bp k := (bpow radix2 k).
Lemma W16 : wf f. Proof. apply std_wf. unfold std. tauto. Qed.

(** * Bits *)
Lemma land_pow2 A k : 0 <= k -> (Z.land A (2 ^ k) =? 0) = negb (Z.odd (A / 2 ^ k)).
Proof.
  intros Hk. rewrite <- shiftr_div by lia. rewrite <- Z.bit0_odd, Z.shiftr_spec, Z.add_0_l by lia.
  destruct (Z.testbit A k) eqn:T; cbn [negb].
  - apply Z.eqb_neq. intros K. assert (Z.testbit (Z.land A (2 ^ k)) k = true) as Q by (rewrite Z.land_spec, T, Z.pow2_bits_true by lia; reflexivity). rewrite K, Z.bits_0 in Q. discriminate.
  - apply Z.eqb_eq. apply Z.bits_inj'. intros i Hi. rewrite Z.land_spec, Z.bits_0, Z.pow2_bits_eqb by lia. destruct (Z.eqb_spec k i) as [<-|]; [rewrite T|rewrite andb_false_r]; reflexivity.
Qed.

Lemma rup_bits A : 0 <= A -> b2z (negb (Z.land A (2 ^ 47) =? 0) && negb (Z.land A (Z.land (2 ^ 49 - 1) (inot (UI 64) (2 ^ 47))) =? 0)) = rup A (2 ^ 48).
Proof.
  intros HA. assert (Z.land (2 ^ 49 - 1) (inot (UI 64) (2 ^ 47)) = Z.lor (2 ^ 48) (2 ^ 47 - 1)) as -> by (vm_compute; reflexivity).
  rewrite Z.land_lor_distr_r. rewrite (land_ones_mod A 47) by lia.
  assert (forall p q, 0 <= p -> 0 <= q -> (Z.lor p q =? 0) = (p =? 0) && (q =? 0)) as LO.
  { intros p q Hp Hq. apply eq_true_iff_eq. rewrite andb_true_iff, !Z.eqb_eq. apply Z.lor_eq_0_iff. }
  pose proof (Z.mod_pos_bound A (2 ^ 47) ltac:(lia)) as M.
  rewrite LO by (lia || (apply Z.land_nonneg; lia)). rewrite !land_pow2 by lia.
  unfold rup. pose proof (Z.div_mod A (2 ^ 47) ltac:(lia)) as D1. pose proof (Z.div_mod (A / 2 ^ 47) 2 ltac:(lia)) as D2. pose proof (Z.div_mod A (2 ^ 48) ltac:(lia)) as D3.
  rewrite Z.div_div in D2 by lia. change (2 ^ 47 * 2) with (2 ^ 48) in D2. pose proof (Z.mod_pos_bound (A / 2 ^ 47) 2 ltac:(lia)) as M2. pose proof (Z.mod_pos_bound A (2 ^ 48) ltac:(lia)) as M3.
  rewrite (Zmod_odd (A / 2 ^ 47)) in *. rewrite (Zmod_odd (A / 2 ^ 48)).
  set (r := A mod 2 ^ 47) in *. set (r' := A mod 2 ^ 48) in *. assert (r' = (if Z.odd (A / 2 ^ 47) then 2 ^ 47 else 0) + r) as R by (destruct (Z.odd (A / 2 ^ 47)); lia).
  destruct (Z.odd (A / 2 ^ 47)); cbn [negb andb].
  - destruct (Z.compare_spec (2 * r') (2 ^ 48)) as [C|C|C]; [|lia|].
    + assert (r = 0) as -> by lia. destruct (Z.odd (A / 2 ^ 48)); reflexivity.
    + destruct (Z.eqb_spec r 0); [lia|]. rewrite andb_false_r. reflexivity.
  - destruct (Z.compare_spec (2 * r') (2 ^ 48)); [lia|reflexivity|lia].
Qed.

(** * From fixed point *)
Lemma fixed_ok R : 0 <= R < 2 ^ 64 -> exists r, f16_from_u21_43 R = Ok r /\ rmag f (IZR R * bp (-43)) r.
Proof.
  intros HR. unfold f16_from_u21_43. change (csub (UI 32) (64 - fs f - (64 - 16)) 1) with (Ok 5). cbn [bind]. change (cshl (UI 64) (2 ^ 64 - 1) (64 - 5)) with (Ok (31 * 2 ^ 59)). cbn [bind].
  assert (negb (Z.land R (31 * 2 ^ 59) =? 0) = (2 ^ 59 <=? R)) as ->.
  { rewrite <- Z.land_comm. replace (31 * 2 ^ 59) with (Z.shiftl 31 59) by reflexivity.
    assert (Z.land (Z.shiftl 31 59) R = Z.shiftl (R / 2 ^ 59) 59) as ->.
    { assert (0 <= R / 2 ^ 59 < 2 ^ 5) as RB by (split; [apply Z.div_pos; lia|apply Z.div_lt_upper_bound; lia]).
      apply Z.bits_inj'. intros i Hi. rewrite Z.land_spec. destruct (Z.lt_ge_cases i 59).
      - rewrite !Z.shiftl_spec_low by lia. reflexivity.
      - rewrite !Z.shiftl_spec by lia. rewrite <- shiftr_div, Z.shiftr_spec by lia. replace (i - 59 + 59) with i by lia. change 31 with (Z.ones 5). destruct (Z.lt_ge_cases (i - 59) 5).
        + rewrite Z.ones_spec_low by lia. reflexivity.
        + rewrite Z.ones_spec_high by lia. symmetry. cbn [andb]. destruct (Z.eq_dec R 0) as [->|]; [apply Z.bits_0|]. apply Z.bits_above_log2; [lia|]. apply Z.lt_le_trans with 64; [apply Z.log2_lt_pow2; lia|lia]. }
    rewrite shiftl_mul by lia. destruct (Z.leb_spec (2 ^ 59) R) as [L|L].
    - assert (1 <= R / 2 ^ 59) by (apply Z.div_le_lower_bound; lia). apply negb_true_iff, Z.eqb_neq. lia.
    - rewrite Z.div_small by lia. reflexivity. }
  destruct (Z.leb_spec (2 ^ 59) R) as [L|L].
  - eexists. split; [reflexivity|]. change (EXP_MASK f) with (inf f). apply (rmag_overflow f W16). change (emax f) with 16. replace 16 with (59 + -43) by lia. rewrite bpow_plus. apply Rmult_le_compat_r; [apply bpow_ge_0|]. rewrite <- (IZR_pow 59) by lia. apply IZR_le. exact L.
  - change (cadd (UI 32) (norm (UI 32) (EXP_MAX f)) (EXP_BIAS f)) with (Ok 30). cbn [bind]. change (csub (UI 32) 30 1) with (Ok 29). cbn [bind]. change (cadd (UI 32) 29 5) with (Ok 34). cbn [bind].
    set (lz := nlz 64 R). assert (HL : 5 <= lz <= 64 /\ R < 2 ^ (64 - lz) /\ (0 < R -> 2 ^ (63 - lz) <= R)).
    { unfold lz. destruct (Z.eq_dec R 0) as [->|N]; [rewrite nlz_0; split; [lia|]; split; [reflexivity|lia]|].
      destruct (nlz_spec 64 R) as [H1 [H2 H3]]; [lia|]. assert (5 <= nlz 64 R). { apply Z.nlt_ge. intros K. assert (2 ^ 59 <= 2 ^ (64 - 1 - nlz 64 R)) by (apply pow2_le; lia). lia. }
      split; [lia|]. split; [exact H3|]. intros _. exact H2. }
    destruct HL as (L1 & L2 & L3). set (rexp := sub_or 34 lz 0). assert (HE : rexp = Z.max 0 (34 - lz)) by (unfold rexp, sub_or; destruct (Z.leb_spec lz 34); lia).
    unfold csub at 1. rewrite chk_u by lia. cbn [bind]. set (sh := 29 - rexp).
    assert (P1 : 0 <= R * 2 ^ sh < 2 ^ 59). { pose proof (pow2_pos sh ltac:(lia)). split; [nia|]. apply Z.lt_le_trans with (2 ^ (64 - lz) * 2 ^ sh); [apply Z.mul_lt_mono_pos_r; lia|]. rewrite <- pow2_add by lia. apply pow2_le; lia. }
    rewrite cshl_u_exact by lia. cbn [bind]. change (cshl (UI 64) 1 (64 - 16 - 1)) with (Ok (2 ^ 47)). cbn [bind]. change (cshl (UI 64) 1 (64 - 16 + 1)) with (Ok (2 ^ 49)). cbn [bind]. change (csub (UI 64) (2 ^ 49) 1) with (Ok (2 ^ 49 - 1)). cbn [bind].
    rewrite rup_bits by lia. rewrite cshr_ok by (rewrite bits_u; lia). cbn [bind]. change (64 - 16) with 48. set (A := R * 2 ^ sh) in *.
    assert (QA : 0 <= A / 2 ^ 48 < 2 ^ 11) by (split; [apply Z.div_pos; lia|apply Z.div_lt_upper_bound; lia]).
    rewrite norm_u_id by lia. unfold ccast. rewrite chk_u by lia. cbn [bind]. change (fs f) with 10. rewrite cshl_u_exact by lia. cbn [bind].
    assert (RU : 0 <= rup A (2 ^ 48) <= 1) by (unfold rup; pose proof (Z.mod_pos_bound (A / 2 ^ 48) 2 ltac:(lia)); destruct (_ ?= _); lia).
    unfold cadd at 1. rewrite chk_u by lia. cbn [bind]. unfold cadd. rewrite chk_u by lia. eexists. split; [reflexivity|].
    pose proof (pack f W16 (rexp + 1) A (2 ^ 48)) as PK. change (2 ^ eb f - 1) with 31 in PK. change (2 ^ fs f) with 1024 in PK.
    replace (A / 2 ^ 48 + rexp * 2 ^ 10 + rup A (2 ^ 48)) with (enc f (rexp + 1) (A / 2 ^ 48) + rup A (2 ^ 48)) by (unfold enc; change (fs f) with 10; lia).
    replace (IZR R * bp (-43))%R with (IZR A / IZR (2 ^ 48) * bp (rexp + 1 - 1) * bp (emin f))%R.
    + apply PK; [lia|lia|lia|]. destruct (Z.le_gt_cases 34 lz) as [G|G]; [left; lia|right]. assert (2 ^ (63 - lz) <= R) as L4. { apply L3. destruct (Z.eq_dec R 0) as [K|]; [|lia]. exfalso. unfold lz in G. rewrite K, nlz_0 in G. lia. }
      unfold A. apply Z.le_trans with (2 ^ (63 - lz) * 2 ^ sh); [rewrite <- pow2_add by lia; change (1024 * 2 ^ 48) with (2 ^ 58); apply pow2_le; lia|]. apply Z.mul_le_mono_nonneg_r; [pose proof (pow2_pos sh); lia|exact L4].
    + unfold A, Rdiv. rewrite mult_IZR, !IZR_pow by lia. rewrite <- bpow_opp, !Rmult_assoc, <- !bpow_plus. do 2 f_equal. change (emin f) with (-24). unfold sh. lia.
Qed.

(** * Cells of half a unit of the least subnormal *)
Lemma rne_cell18 X Y : (0 <= X)%R -> cell 18 X Y -> rne f (X * bp (-43)) = rne f (Y * bp (-43)).
Proof.
  intros X0 C. assert (0 <= Y)%R as Y0. { pose proof (cell_le _ _ _ 0 C) as K. rewrite Rmult_0_l in K. tauto. }
  assert (exists E, 1 <= E /\ (X < bp (29 + E))%R /\ (E = 1 \/ (bp (28 + E) <= X)%R)) as (E & HE & U & L).
  { destruct (Rlt_or_le X (bp 30)) as [K|K]; [exists 1; split; [lia|]; split; [exact K|left; reflexivity]|].
    pose proof (bpow_gt_0 radix2 30) as P. destruct (mag radix2 X) as [n Hn]. specialize (Hn ltac:(lra)). rewrite Rabs_pos_eq in Hn by lra. assert (30 < n) by (apply (lt_bpow radix2); lra).
    exists (n - 29). split; [lia|]. replace (29 + (n - 29)) with n by lia. split; [apply Hn|]. right. replace (28 + (n - 29)) with (n - 1) by lia. apply Hn. }
  assert (forall k, 18 <= k -> bp k = (IZR (2 ^ (k - 18)) * bp 18)%R) as BK by (intros k Hk; rewrite IZR_pow, <- bpow_plus by lia; f_equal; lia).
  assert ((Y < bp (29 + E))%R /\ (E = 1 \/ (bp (28 + E) <= Y)%R)) as [U' L'].
  { rewrite (BK (29 + E)) in * by lia. split; [apply (cell_lt _ _ _ _ C), U|]. destruct L as [L|L]; [left; exact L|right]. rewrite (BK (28 + E)) in * by lia. apply (cell_le _ _ _ _ C), L. }
  assert (forall Z, (0 <= Z)%R -> (Z < bp (29 + E))%R -> (E = 1 \/ (bp (28 + E) <= Z)%R) -> rne f (Z * bp (-43)) = (IZR (ZnearestE (Z * bp (- (18 + E)))) * bp (E - 1 + emin f))%R) as RN.
  { intros Z Z0 Zu Zl. rewrite <- (rne_scaled f W16 E); [|exact HE| |].
    - f_equal. rewrite Rmult_assoc, <- bpow_plus. do 2 f_equal. change (emin f) with (-24). lia.
    - split; [apply Rmult_le_pos; [exact Z0|apply bpow_ge_0]|]. change (2 * 2 ^ fs f) with (2 ^ 11). rewrite IZR_pow by lia. replace 11 with (29 + E + - (18 + E)) by lia. rewrite bpow_plus. apply Rmult_lt_compat_r; [apply bpow_gt_0|exact Zu].
    - destruct Zl as [K|K]; [left; exact K|right]. change (2 ^ fs f) with (2 ^ 10). rewrite IZR_pow by lia. replace 10 with (28 + E + - (18 + E)) by lia. rewrite bpow_plus. apply Rmult_le_compat_r; [apply bpow_ge_0|exact K]. }
  rewrite !RN by assumption. f_equal. f_equal. apply cell_near with 18; [exact C|lia].
Qed.

Lemma rmag_ext X Y r : rmag f X r -> rne f X = rne f Y -> rmag f Y r.
Proof. intros (A & B & C) E. rewrite E in B, C. split; [exact A|split; assumption]. Qed.

(** The operands as integers times a power of two. *)
Lemma dec16 n : 0 < n < inf f -> exists E q, 1 <= E <= 30 /\ 0 < q < 2 ^ 11 /\ (E = 1 \/ 2 ^ 10 <= q) /\ V f n = q * 2 ^ (E - 1) /\
  sub_or (n / 2 ^ 10) 1 0 = E - 1 /\ (if negb (n / 2 ^ 10 =? 0) then Z.lor (n mod 2 ^ 10) (2 ^ 10) else n mod 2 ^ 10) = q.
Proof.
  intros Hn. destruct (enc_dec f W16 n ltac:(lia)) as (E & q & En & HE & Hq & Hs). change (2 ^ eb f) with 32 in HE. change (2 ^ fs f) with (2 ^ 10) in *. exists E, q.
  assert (V f n = q * 2 ^ (E - 1)) as VE by (rewrite En; apply (V_enc f W16); [lia|change (2 ^ fs f) with (2 ^ 10); lia|exact Hs]).
  assert (n = (E - 1) * 2 ^ 10 + q) as En' by (rewrite En; unfold enc; reflexivity).
  assert (0 < q). { destruct (Z.eq_dec q 0) as [->|]; [|lia]. destruct Hs as [->|]; lia. }
  split; [lia|]. split; [lia|]. split; [exact Hs|]. split; [exact VE|].
  destruct (Z.lt_ge_cases q (2 ^ 10)) as [L|L].
  - assert (E = 1) as -> by lia. assert (n = q) as -> by lia. rewrite Z.div_small, Z.mod_small by lia. split; reflexivity.
  - assert (n / 2 ^ 10 = E) as -> by (symmetry; apply (Z.div_unique n (2 ^ 10) E (q - 2 ^ 10)); lia). assert (n mod 2 ^ 10 = q - 2 ^ 10) as -> by (symmetry; apply (Z.mod_unique n (2 ^ 10) E (q - 2 ^ 10)); lia).
    split; [unfold sub_or; destruct (Z.leb_spec 1 E); lia|]. destruct (Z.eqb_spec E 0); [lia|]. cbn [negb]. rewrite <- (Z.mul_1_l (2 ^ 10)) at 2. rewrite lor_add_low by lia. lia.
Qed.

Section P.
Context (o : fops) (O : ieee_ops f o).
Notation B := (2 ^ (fb f - 1)).
Notation mk s n := (b2z s * B + n).
Notation magh n := (IZR (V f n) * bp (emin f))%R.

(** The product in fixed point. *)
Lemma prod_ok (dbg : bool) m a : 0 < m < 2 ^ 22 -> 0 <= a <= 44 -> exists m64,
  (if 5 <=? a then
     let* s := csub (UI 32) 64 (a - 5) in
     let* _ := (if dbg then assert ((if s <? 64 then m / 2 ^ s else 0) =? 0) else Ok tt) in
     cshl (UI 64) m (a - 5)
   else
     let* t := cshr (UI 64) m (5 - a) in
     Ok (Z.lor t (b2z (negb (Z.land m 31 =? 0))))) = Ok m64 /\ 0 < m64 < 2 ^ 61 /\ cell 18 (IZR m * bp (a - 5)) (IZR m64).
Proof.
  intros Hm Ha. destruct (Z.leb_spec 5 a) as [L|L].
  - cbv zeta. unfold csub. rewrite chk_u by lia. cbn [bind]. pose proof (pow2_pos (a - 5) ltac:(lia)) as PP.
    assert (m * 2 ^ (a - 5) < 2 ^ 61) as U. { apply Z.lt_le_trans with (2 ^ 22 * 2 ^ (a - 5)); [apply Z.mul_lt_mono_pos_r; lia|]. rewrite <- pow2_add by lia. apply pow2_le. lia. }
    assert ((if dbg then assert ((if 64 - (a - 5) <? 64 then m / 2 ^ (64 - (a - 5)) else 0) =? 0) else Ok tt) = Ok tt) as ->.
    { destruct dbg; [|reflexivity]. destruct (_ <? 64); [|reflexivity]. rewrite Z.div_small; [reflexivity|]. split; [lia|]. apply Z.lt_le_trans with (2 ^ 22); [lia|]. apply pow2_le. lia. }
    cbn [bind]. rewrite cshl_u_exact by lia. eexists. split; [reflexivity|]. split; [nia|]. rewrite mult_IZR, IZR_pow by lia. apply cell_refl.
  - cbv zeta. rewrite cshr_ok by (rewrite bits_u; lia). cbn [bind]. change 31 with (2 ^ 5 - 1). rewrite (land_ones_mod m 5) by lia. eexists. split; [reflexivity|]. set (k := 5 - a) in *. replace (a - 5) with (- k) by lia.
    pose proof (pow2_pos k ltac:(lia)) as PP. pose proof (Z.div_pos m (2 ^ k) ltac:(lia) ltac:(lia)) as D0. assert (m / 2 ^ k < 2 ^ 22) as D1 by (apply Z.div_lt_upper_bound; [lia|nia]).
    pose proof (Z.div_mod m (2 ^ k) ltac:(lia)) as DM. pose proof (Z.mod_pos_bound m (2 ^ k) ltac:(lia)) as DB.
    assert (m mod 2 ^ k = (m mod 2 ^ 5) mod 2 ^ k) as MM. { apply Znumtheory.Zmod_div_mod; [lia|lia|]. exists (2 ^ (5 - k)). rewrite <- pow2_add by lia. f_equal. lia. }
    pose proof (bpow_gt_0 radix2 (- k)) as Pk. assert (IZR (2 ^ k) * bp (- k) = 1)%R as IK by (rewrite IZR_pow, <- bpow_plus by lia; replace (k + - k) with 0 by lia; reflexivity).
    rewrite lor_b2z by lia. destruct (Z.eqb_spec (m mod 2 ^ 5) 0) as [S|S]; cbn [negb].
    + rewrite S, Z.mod_0_l in MM by lia. split; [nia|]. replace (IZR m * bp (- k))%R with (IZR (m / 2 ^ k)); [apply cell_refl|]. rewrite DM at 2. rewrite MM, Z.add_0_r, mult_IZR. rewrite (Rmult_comm (IZR (2 ^ k))), Rmult_assoc, IK. ring.
    + pose proof (Z.mod_pos_bound (m / 2 ^ k) 2 ltac:(lia)) as M2. split; [clear - M2 D0 D1; set (T := m / 2 ^ k) in *; pose proof (Z.mod_le T 2 D0 ltac:(lia)); lia|].
      (* both strictly between two multiples of 2^18 *)
      set (T := m / 2 ^ k) in *. set (c := T / 2 ^ 18). pose proof (Z.div_mod T (2 ^ 18) ltac:(lia)) as TD. fold c in TD. pose proof (Z.mod_pos_bound T (2 ^ 18) ltac:(lia)) as TB.
      assert (T mod 2 = (T mod 2 ^ 18) mod 2) as T2 by (apply Znumtheory.Zmod_div_mod; [lia|lia|]; exists (2 ^ 17); reflexivity).
      pose proof (Z.div_mod (T mod 2 ^ 18) 2 ltac:(lia)) as T3. pose proof (Z.mod_pos_bound (T mod 2 ^ 18) 2 ltac:(lia)) as T4. rewrite <- T2 in T3, T4.
      assert (T mod 2 ^ 18 < 2 ^ 18 - 1 + T mod 2) as TE by (set (u := (T mod 2 ^ 18) / 2) in *; lia).
      assert (2 ^ k * (c * 2 ^ 18) < m < 2 ^ k * ((c + 1) * 2 ^ 18)) as MB.
      { split; [|nia]. assert (2 ^ k * (c * 2 ^ 18) <= m) as LE by nia. destruct (Z.eq_dec (2 ^ k * (c * 2 ^ 18)) m) as [E|]; [|lia]. exfalso. apply S. rewrite <- E. replace (2 ^ k * (c * 2 ^ 18)) with (2 ^ k * c * 2 ^ 13 * 2 ^ 5) by ring. apply Z.mod_mul. lia. }
      apply cell_between with c; (rewrite <- (IZR_pow 18), <- !mult_IZR by lia).
      * destruct MB as [B1 B2]. apply IZR_lt in B1, B2. rewrite mult_IZR in B1. rewrite (mult_IZR (2 ^ k)) in B2. apply (Rmult_lt_compat_r _ _ _ Pk) in B1, B2.
        rewrite (Rmult_comm (IZR (2 ^ k))), Rmult_assoc, IK, Rmult_1_r in B1. rewrite (Rmult_comm (IZR (2 ^ k))), (Rmult_assoc _ (IZR (2 ^ k))), IK, Rmult_1_r in B2. split; assumption.
      * split; apply IZR_lt; lia.
Qed.

Lemma sgn_f16 (s : bool) r : 0 <= r < B -> copysign f r (if s then NEG_ONE f else ONE f) = mk s r.
Proof. intros Hr. replace r with (mk false r) at 1 by reflexivity. replace (if s then NEG_ONE f else ONE f) with (mk s 15360) by (destruct s; reflexivity). apply (copysign_mk f W16); [exact Hr|]. split; reflexivity || discriminate. Qed.

Lemma inf16 : inf f = 31744. Proof. reflexivity. Qed.

Lemma fmaf16_finite (dbg s t w : bool) n m l : 0 < n < inf f -> 0 < m < inf f -> 0 < l < inf f -> exists r,
  fmaf16 o dbg (mk s n) (mk t m) (mk w l) = Ok r /\ rounds_to f (xorb s t && w) (value f (mk s n) * value f (mk t m) + value f (mk w l)) r.
Proof.
  intros Hn Hm Hl. rewrite inf16 in *. assert (B = 32768) as EB by reflexivity.
  assert (0 <= n < B /\ 0 <= m < B /\ 0 <= l < B) as (Bn & Bm & Bl) by lia.
  unfold fmaf16. rewrite (inot_sign f W16), !(mag_of f W16), !(sign_negative_mk f W16) by assumption. change (EXP_MASK f) with 31744.
  replace ((n =? 0) || (31744 <=? n) || (m =? 0) || (31744 <=? m)) with false by lia. replace (l =? 0) with false by lia. replace (31744 <=? l) with false by lia.
  rewrite !(ex_mk f W16) by assumption. rewrite !(SIG_MASK_eq f W16), !(IMPLICIT_BIT_eq f W16). change (2 ^ fs f) with (2 ^ 10). rewrite !(land_ones_mod _ 10) by lia.
  destruct (dec16 n ltac:(rewrite inf16; lia)) as (E1 & q1 & HE1 & Hq1 & Hs1 & V1 & X1 & Y1). destruct (dec16 m ltac:(rewrite inf16; lia)) as (E2 & q2 & HE2 & Hq2 & Hs2 & V2 & X2 & Y2). destruct (dec16 l ltac:(rewrite inf16; lia)) as (E3 & q3 & HE3 & Hq3 & Hs3 & V3 & X3 & Y3).
  rewrite X1, X2, X3, Y1, Y2, Y3. clear X1 X2 X3 Y1 Y2 Y3.
  change (csub (UI 32) (EXP_BIAS f) 1) with (Ok 14). cbn [bind]. unfold cadd at 1. rewrite chk_u by lia. cbn [bind]. change (cmul (UI 32) 14 2) with (Ok 28). cbn [bind]. change (cadd (UI 32) 28 (norm (UI 32) (EXP_MAX f))) with (Ok 43). cbn [bind]. change (cadd (UI 32) 43 1) with (Ok 44). cbn [bind].
  set (a := E1 - 1 + (E2 - 1)).
  assert (VAL : forall (c : bool) k, 0 <= k < 31744 -> value f (mk c k) = if c then (- magh k)%R else magh k) by (intros c k Hk; apply value_mk; [apply W16|lia]).
  set (T := (IZR (q1 * q2) * bp (a - 5))%R). set (Zr := IZR (q3 * 2 ^ (E3 - 1 + 19))).
  assert (magh n * magh m = T * bp (-43))%R as PT. { rewrite V1, V2. unfold T. rewrite !mult_IZR, !IZR_pow by lia. change (emin f) with (-24). replace (IZR q1 * bp (E1 - 1) * bp (-24) * (IZR q2 * bp (E2 - 1) * bp (-24)))%R with (IZR q1 * IZR q2 * (bp (E1 - 1) * bp (-24) * bp (E2 - 1) * bp (-24)))%R by ring. rewrite <- !bpow_plus, (Rmult_assoc (IZR q1 * IZR q2) (bp (a - 5))), <- bpow_plus. do 2 f_equal. unfold a. lia. }
  assert (magh l = Zr * bp (-43))%R as PZ. { rewrite V3. unfold Zr. rewrite !mult_IZR, !IZR_pow by lia. change (emin f) with (-24). rewrite !Rmult_assoc, <- !bpow_plus. do 2 f_equal. lia. }
  assert (0 < q1 * q2 < 2 ^ 22) as Hq. { split; [apply Z.mul_pos_pos; lia|]. change (2 ^ 22) with (2 ^ 11 * 2 ^ 11). apply Z.mul_lt_mono_nonneg; lia. }
  assert (0 < T)%R as T0 by (apply Rmult_lt_0_compat; [apply IZR_lt; lia|apply bpow_gt_0]).
  assert (0 < q3 * 2 ^ (E3 - 1 + 19) < 2 ^ 59) as HZ. { pose proof (pow2_pos (E3 - 1 + 19) ltac:(lia)). split; [nia|]. apply Z.lt_le_trans with (2 ^ 11 * 2 ^ (E3 - 1 + 19)); [apply Z.mul_lt_mono_pos_r; lia|]. rewrite <- pow2_add by lia. apply pow2_le. lia. }
  assert (0 < Zr)%R as Z0 by (apply IZR_lt; lia).
  assert (value f (mk s n) * value f (mk t m) = (if xorb s t then - T else T) * bp (-43))%R as PV. { rewrite !VAL by lia. destruct s, t; cbn [xorb]; lra. }
  assert (value f (mk w l) = (if w then - Zr else Zr) * bp (-43))%R as PL. { rewrite VAL by lia. rewrite PZ. destruct w; lra. }
  rewrite PV, PL, <- Rmult_plus_distr_r. clear PV PL PT PZ VAL. pose proof (bpow_gt_0 radix2 (-43)) as P43.
  set (c := xorb s t).
  destruct (Z.ltb_spec 44 a) as [OV|NOV].
  - (* certain overflow *)
    assert (2 ^ 10 <= q1 /\ 2 ^ 10 <= q2) as [G1 G2] by (unfold a in OV; lia). assert (2 ^ 20 <= q1 * q2) as G by (change (2 ^ 20) with (2 ^ 10 * 2 ^ 10); apply Z.mul_le_mono_nonneg; lia).
    assert (bp 60 <= T)%R as TL. { unfold T. replace 60 with (20 + 40) by lia. rewrite bpow_plus. apply Rmult_le_compat; try apply bpow_ge_0; [rewrite <- (IZR_pow 20) by lia; apply IZR_le; exact G|apply bpow_le; lia]. }
    assert (Zr < bp 59)%R as ZU. { rewrite <- (IZR_pow 59) by lia. apply IZR_lt. lia. }
    assert (bp 60 = bp 59 + bp 59)%R as BB. { change 60 with (59 + 1). rewrite (bpow_plus radix2 59 1). change (bp 1) with 2%R. ring. }
    exists (mk c (inf f)). split; [destruct c; reflexivity|].
    set (X := if Bool.eqb c w then (T + Zr)%R else (T - Zr)%R).
    assert (((if c then - T else T) + (if w then - Zr else Zr)) * bp (-43) = if c then - (X * bp (-43)) else X * bp (-43))%R as -> by (unfold X; destruct c, w; cbn [Bool.eqb]; lra).
    assert (bp 59 < X)%R as XL by (unfold X; destruct (Bool.eqb c w); lra). pose proof (bpow_gt_0 radix2 59).
    apply (rounds_mag f W16).
    + apply Rmult_le_pos; lra.
    + apply (rmag_overflow f W16). change (emax f) with 16. replace 16 with (59 + -43) by lia. rewrite bpow_plus. apply Rmult_le_compat_r; lra.
    + intros K. exfalso. assert (0 < X * bp (-43))%R by (apply Rmult_lt_0_compat; lra). lra.
  - unfold cmul. rewrite chk_u by lia. cbn [bind]. destruct (prod_ok dbg (q1 * q2) a Hq ltac:(unfold a in *; lia)) as (m64 & -> & HM & CM). fold T in CM. cbn [bind].
    unfold cadd at 1. rewrite chk_u by lia. cbn [bind]. unfold csub at 1. change (fs f) with 10. rewrite chk_u by lia. cbn [bind]. unfold csub at 1. rewrite chk_u by lia. cbn [bind]. replace (E3 - 1 + 43 - 10 - 14) with (E3 - 1 + 19) by lia. rewrite cshl_u_exact by lia. cbn [bind].
    set (z64 := q3 * 2 ^ (E3 - 1 + 19)) in *.
    assert (CZ : exists j, IZR z64 = (IZR j * bp 18)%R). { exists (q3 * 2 ^ E3). unfold z64. rewrite !mult_IZR, !IZR_pow by lia. rewrite Rmult_assoc, <- bpow_plus. do 2 f_equal. lia. }
    destruct CZ as [j CZ].
    assert (CS : cell 18 ((if c then - T else T) + (if w then - Zr else Zr)) (IZR ((if c then - m64 else m64) + (if w then - z64 else z64)))).
    { rewrite plus_IZR. replace (if w then (- Zr)%R else Zr) with (IZR (if w then - j else j) * bp 18)%R by (unfold Zr; destruct w; [rewrite opp_IZR|]; lra). replace (IZR (if w then - z64 else z64)) with (IZR (if w then - j else j) * bp 18)%R by (destruct w; rewrite ?opp_IZR; lra).
      apply cell_add. destruct c; [rewrite opp_IZR; apply cell_opp|]; exact CM. }
    set (S := (if c then - m64 else m64) + (if w then - z64 else z64)) in *. set (v := ((if c then - T else T) + (if w then - Zr else Zr))%R) in *.
    (* the fixed-point sum *)
    assert (exists rn r64, (if xorb c w then
           if z64 <? m64 then Ok (c, wrapping_sub (UI 64) m64 z64)
           else if m64 =? z64 then Ok (false, wrapping_sub (UI 64) m64 z64)
           else Ok (w, wrapping_sub (UI 64) z64 m64)
         else let* s0 := cadd (UI 64) m64 z64 in Ok (c, s0)) = Ok (rn, r64) /\ 0 <= r64 < 2 ^ 64 /\ S = (if rn then - r64 else r64) /\ (r64 = 0 -> rn = c && w)) as (rn & r64 & -> & HR & ES & EZ).
    { destruct (xorb c w) eqn:XX.
      - unfold wrapping_sub. destruct (Z.ltb_spec z64 m64); [|destruct (Z.eqb_spec m64 z64)].
        + exists c, (m64 - z64). rewrite norm_u_id by lia. split; [reflexivity|]. split; [lia|]. split; [unfold S; destruct c, w; try discriminate; lia|lia].
        + exists false, (m64 - z64). rewrite norm_u_id by lia. split; [reflexivity|]. split; [lia|]. split; [unfold S; destruct c, w; try discriminate; lia|intros _; destruct c, w; try discriminate; reflexivity].
        + exists w, (z64 - m64). rewrite norm_u_id by lia. split; [reflexivity|]. split; [lia|]. split; [unfold S; destruct c, w; try discriminate; lia|lia].
      - unfold cadd. rewrite chk_u by lia. cbn [bind]. exists c, (m64 + z64). split; [reflexivity|]. split; [lia|]. split; [unfold S; destruct c, w; try discriminate; lia|lia]. }
    cbn [bind]. destruct (fixed_ok r64 HR) as (r & -> & RM). cbn [bind]. assert (0 <= r < B) as Hr. { destruct RM as [R1 _]. rewrite inf16 in R1. lia. }
    rewrite sgn_f16 by exact Hr. eexists. split; [reflexivity|].
    destruct (Z.eq_dec r64 0) as [R0|R0].
    + assert (v = 0%R) as ->. { assert (S = 0) as S0 by (rewrite ES, R0; destruct rn; reflexivity). rewrite S0 in CS. rewrite <- (Rmult_0_l (bp 18)). apply cell_eq. rewrite Rmult_0_l. exact CS. }
      rewrite R0, Rmult_0_l in RM. replace (0 * bp (-43))%R with (if rn then - 0 else 0)%R by (destruct rn; ring). apply (rounds_mag f W16); [lra|exact RM|]. intros _. symmetry. apply EZ, R0.
    + assert (exists X, v = (if rn then - X else X)%R /\ (0 < X)%R /\ cell 18 X (IZR r64)) as (X & EV & X0 & CX).
      { exists (if rn then - v else v)%R. rewrite ES in CS. pose proof (IZR_lt 0 r64 ltac:(lia)) as RP. destruct rn.
        - split; [lra|]. apply cell_opp in CS. rewrite opp_IZR, Ropp_involutive in CS. split; [|exact CS]. pose proof (cell_lt _ _ _ 0 (cell_opp _ _ _ CS)) as K. rewrite Rmult_0_l in K. lra.
        - split; [reflexivity|]. split; [|exact CS]. pose proof (cell_lt _ _ _ 0 (cell_opp _ _ _ CS)) as K. rewrite Rmult_0_l in K. lra. }
      rewrite EV. replace ((if rn then - X else X) * bp (-43))%R with (if rn then - (X * bp (-43)) else X * bp (-43))%R by (destruct rn; ring).
      assert (0 < X * bp (-43))%R by (apply Rmult_lt_0_compat; lra).
      apply (rounds_mag f W16); [lra| |intros; lra]. apply (rmag_ext _ _ _ RM). symmetry. apply rne_cell18; [lra|exact CX].
Qed.

Lemma not_lost s n t m z : 0 <= n < B -> 0 <= m < B -> (n = 0 \/ inf f <= n) \/ (m = 0 \/ inf f <= m) -> ~ sticky_lost f (mk s n) (mk t m) z.
Proof.
  intros Hn Hm SPC (mx & ex & my & ey & mz & ez & N1 & N2 & _).
  assert (forall c k M e, 0 <= k < B -> (k = 0 \/ inf f <= k) -> normal_form f (mk c k) M e -> False) as NF.
  { intros c k M e Hk Sk (F & MM & E). apply is_finite_mk in F; [|apply W16|exact Hk]. assert (k = 0) as -> by lia. rewrite value_mk in E by (apply W16 || assumption). rewrite (mag_0 f W16) in E. change (2 ^ fs f) with 1024 in MM.
    replace (if c then (- 0)%R else 0%R) with 0%R in E by (destruct c; ring). rewrite Rabs_R0 in E. assert (0 < IZR M * bp e)%R by (apply Rmult_lt_0_compat; [apply IZR_lt; lia|apply bpow_gt_0]). lra. }
  destruct SPC as [K|K]; [apply (NF _ _ _ _ Hn K N1)|apply (NF _ _ _ _ Hm K N2)].
Qed.

Lemma fmaf16_ok dbg x y z : is_float f x -> is_float f y -> is_float f z -> exists r, fmaf16 o dbg x y z = Ok r /\ ieee_fma f x y z r.
Proof using O.
  intros Fx Fy Fz. destruct (split_float f W16 x Fx) as (s & n & -> & Hn). destruct (split_float f W16 y Fy) as (t & m & -> & Hm). destruct (split_float f W16 z Fz) as (w & l & -> & Hl).
  pose proof (inf_pos f W16) as IP. assert (EX : EXP_MASK f = inf f) by reflexivity.
  destruct ((n =? 0) || (inf f <=? n) || (m =? 0) || (inf f <=? m)) eqn:SP.
  - unfold fmaf16. rewrite (inot_sign f W16), !(mag_of f W16), EX, SP by assumption. eexists. split; [reflexivity|].
    assert ((n = 0 \/ inf f <= n) \/ (m = 0 \/ inf f <= m)) as SPC by lia. apply (special_ok f W16 o O s n t m w l Hn Hm Hl SPC). apply not_lost; assumption.
  - assert (0 < n < inf f /\ 0 < m < inf f) as [N1 M1] by lia.
    destruct (Z.eq_dec l 0) as [->|L0]; [|destruct (Z.lt_ge_cases l (inf f)) as [L1|L1]].
    + unfold fmaf16. rewrite (inot_sign f W16), !(mag_of f W16), EX, SP by assumption. rewrite Z.eqb_refl. eexists. split; [reflexivity|].
      destruct (ops_mul f o O _ _ Fx Fy) as [RF (_ & _ & _ & RM)]. specialize (RM ltac:(apply is_finite_mk; [apply W16|assumption|lia]) ltac:(apply is_finite_mk; [apply W16|assumption|lia])).
      assert (rounds_to f (xorb s t && w) (value f (mk s n) * value f (mk t m) + value f (mk w 0)) (o_mul o (mk s n) (mk t m))) as RT.
      { assert (value f (mk w 0) = 0%R) as ->. { rewrite value_mk by (apply W16 || lia). rewrite (mag_0 f W16). destruct w; ring. }
        rewrite Rplus_0_r. apply (rounds_ext f _ _ _ _ _ RM); [reflexivity|reflexivity|]. intros K. exfalso. rewrite !value_mk in K by (apply W16 || lia).
        assert (0 < magh n /\ 0 < magh m)%R as (G1 & G2) by (split; apply (mag_pos f W16); lia). assert (0 < magh n * magh m)%R by (apply Rmult_lt_0_compat; assumption). destruct s, t; lra. }
      split; [exact RF|]. rewrite !(is_nan_mk f W16), !(is_inf_mk f W16), !(is_zero_mk f W16), !(is_finite_mk f W16), !(sign_of_mk f W16) by (assumption || lia).
      do 4 (split; [intros; exfalso; lia|]). intros; exact RT.
    + destruct (fmaf16_finite dbg s t w n m l N1 M1 ltac:(lia)) as (r & E & RT). exists r. split; [exact E|]. split; [apply RT|].
      rewrite !(is_nan_mk f W16), !(is_inf_mk f W16), !(is_zero_mk f W16), !(is_finite_mk f W16), !(sign_of_mk f W16) by (assumption || lia).
      do 4 (split; [intros; exfalso; lia|]). intros; exact RT.
    + unfold fmaf16. rewrite (inot_sign f W16), !(mag_of f W16), EX, SP by assumption. replace (l =? 0) with false by lia. replace (inf f <=? l) with true by lia. eexists. split; [reflexivity|]. split; [exact Fz|].
      rewrite !(is_nan_mk f W16), !(is_inf_mk f W16), !(is_zero_mk f W16), !(is_finite_mk f W16), !(sign_of_mk f W16) by (assumption || lia).
      split; [intros [K|[K|K]]; [exfalso; lia|exfalso; lia|exact K]|]. do 2 (split; [intros; exfalso; lia|]). split; [reflexivity|]. intros _ _ K. exfalso. first [lia|apply is_finite_mk in K; [lia|apply W16|assumption]].
Qed.
End P.
