(** hypot: the search of the exact path. *)
From Coq Require Import ZArith Reals Bool Lia Lra Psatz.
From Flocq Require Import Core.
From Verif Require Import Base BaseLemmas FloatModel FloatSpec FloatConvSpec FloatProofs FloatProofs2 FloatLib LibmModel LibmSpec LibmProofs RemModel FmaModel FmaSpec FmaProofs FmaProofs2 FmaProofs6 FmaProps SqrtModel SqrtSpec SqrtProps F64Lib FloatErr ExpProofs3 ExpProofs4 ExpProofs8 TrigRed HypotModel HypotProofs HypotProofs2 HypotProofs3 HypotProofs4.
Open Scope Z_scope.

(** The double that [rm] and [re] stand for: significands from 2^53 on go up by twos. *)
Definition idx (re rm : Z) : Z := (re + 1022) * 2 ^ 52 + (if rm <? 2 ^ 53 then rm else 2 ^ 52 + rm / 2).
Definition inv (rm : Z) : Prop := 2 ^ 52 <= rm < 2 ^ 53 + 64 /\ (2 ^ 53 <= rm -> Z.even rm = true).

Lemma idx_val re rm : inv rm -> xval (idx re rm) = (IZR rm * bpow radix2 (re - 52))%R.
Proof.
  intros [H E]. unfold idx. destruct (Z.ltb_spec rm (2 ^ 53)) as [L|L].
  - replace ((re + 1022) * 2 ^ 52 + rm) with (rm - 2 ^ 52 + (re + 1023) * 2 ^ 52) by lia. rewrite xval_shift. unfold xval. rewrite Z.mod_small, Z.div_small by lia. rewrite Rmult_assoc, <- bpow_plus. do 2 f_equal; lia.
  - specialize (E L). apply Z.even_spec in E. destruct E as (k & ->). rewrite (Z.mul_comm 2), Z.div_mul by lia.
    replace ((re + 1022) * 2 ^ 52 + (2 ^ 52 + k)) with (k - 2 ^ 52 + (re + 1024) * 2 ^ 52) by lia. rewrite xval_shift. unfold xval. rewrite Z.mod_small, Z.div_small by lia. rewrite Rmult_assoc, <- bpow_plus.
    replace (0 - 1075 + (re + 1024)) with (1 + (re - 52)) by lia. rewrite bpow_plus, mult_IZR. change (bpow radix2 1) with 2%R. replace (2 ^ 52 + (k - 2 ^ 52)) with k by lia. ring.
Qed.
Lemma idx_step re rm : inv rm -> rm < 2 ^ 53 + 60 -> inv (rm + (1 + b2z (2 ^ 53 <=? rm))) /\ idx re (rm + (1 + b2z (2 ^ 53 <=? rm))) = idx re rm + 1.
Proof.
  intros [H E] H2. destruct (Z.leb_spec (2 ^ 53) rm) as [L|L]; cbn [b2z].
  - specialize (E L). split; [split; [lia|]; intros _; change (1 + 1) with 2; rewrite Z.even_add, E; reflexivity|]. unfold idx. destruct (Z.ltb_spec (rm + (1 + 1)) (2 ^ 53)); [lia|]. destruct (Z.ltb_spec rm (2 ^ 53)); [lia|].
    replace (rm + (1 + 1)) with (rm + 1 * 2) by lia. rewrite Z.div_add by lia. lia.
  - change (1 + 0) with 1. split; [split; [lia|]; intros L2; replace (rm + 1) with (2 ^ 53) by lia; reflexivity|]. unfold idx. destruct (Z.ltb_spec rm (2 ^ 53)); [|lia]. destruct (Z.ltb_spec (rm + 1) (2 ^ 53)); [lia|].
    replace (rm + 1) with (2 ^ 53) by lia. change (2 ^ 53 / 2) with (2 ^ 52). lia.
Qed.

(** Comparing in the integers. *)
Section Search.
Context (h : R) (Q : Z) (Hh : (1 < h < 3)%R) (HQ : stands_for Q (h * h * bpow radix2 108)).

Lemma cmp_ok t v : Z.even t = true -> v = (IZR t * bpow radix2 (-54))%R -> (0 < v < 4)%R -> (Rabs (v - h) <= 9 * bpow radix2 (-52))%R ->
  sub_i64 false (norm (SI 64) (Q mod 2 ^ 64)) (norm (SI 64) (wrapping_mul (UI 64) t t)) = Ok (Q - t * t) /\
  ((v < h)%R -> 0 < Q - t * t) /\ ((h < v)%R -> Q - t * t < 0) /\ (h = v -> Q - t * t = 0) /\ - 2 ^ 63 <= Q - t * t < 2 ^ 63.
Proof using Hh HQ.
  intros Et Ev Hv Hd. destruct HQ as [H1 H2]. assert (IZR (t * t) = v * v * bpow radix2 108)%R as E.
  { rewrite Ev, mult_IZR. change 108 with (54 + 54). rewrite bpow_plus. assert (bpow radix2 (-54) * bpow radix2 54 = 1)%R as B by (rewrite <- bpow_plus; reflexivity).
    replace (IZR t * bpow radix2 (-54) * (IZR t * bpow radix2 (-54)) * (bpow radix2 54 * bpow radix2 54))%R with (IZR t * IZR t * (bpow radix2 (-54) * bpow radix2 54) * (bpow radix2 (-54) * bpow radix2 54))%R by ring. rewrite B. ring. }
  assert (Z.even (t * t) = true) as Et2 by (rewrite Z.even_mul, Et; reflexivity). specialize (H2 _ Et2). rewrite E in H2. destruct H2 as (L1 & L2 & L3).
  pose proof (bpow_gt_0 radix2 108) as P.
  assert (Rabs (h * h * bpow radix2 108 - v * v * bpow radix2 108) <= bpow radix2 62)%R as B.
  { replace (h * h * bpow radix2 108 - v * v * bpow radix2 108)%R with ((v - h) * (- (h + v) * bpow radix2 108))%R by ring. rewrite Rabs_mult. apply Rle_trans with (9 * bpow radix2 (-52) * (7 * bpow radix2 108))%R.
    - apply Rmult_le_compat; try apply Rabs_pos; [exact Hd|]. rewrite Rabs_mult, (Rabs_pos_eq (bpow _ _)) by lra. apply Rmult_le_compat_r; [lra|]. apply Rabs_le; lra.
    - replace (9 * bpow radix2 (-52) * (7 * bpow radix2 108))%R with (63 * bpow radix2 56)%R by (change 56 with (-52 + 108); rewrite bpow_plus; ring).
      change 62 with (6 + 56). rewrite bpow_plus. apply Rmult_le_compat_r; [apply bpow_ge_0|]. cbn. lra. }
  assert (- 2 ^ 63 <= Q - t * t < 2 ^ 63) as RG.
  { apply Rabs_le_inv in B, H1. rewrite <- E in B. change (bpow radix2 62) with (IZR (2 ^ 62)) in B. change (- 2 ^ 63) with (- (2 * 2 ^ 62)). change (2 ^ 63) with (2 * 2 ^ 62).
    split; [apply le_IZR|apply lt_IZR]; rewrite ?opp_IZR, minus_IZR, (mult_IZR 2 (2 ^ 62)); pose proof (IZR_lt 2 (2 ^ 62) ltac:(lia)); lra. }
  split; [unfold wrapping_mul; rewrite norm_u; apply sub_wrap; exact RG|]. split; [|split; [|split; [|exact RG]]]; intros H.
  - assert (t * t < Q); [apply L1|lia]. apply Rmult_lt_compat_r; [exact P|]. apply Rmult_gt_0_lt_compat; lra.
  - assert (Q < t * t); [apply L2|lia]. apply Rmult_lt_compat_r; [exact P|]. apply Rmult_gt_0_lt_compat; lra.
  - assert (Q = t * t); [apply L3|lia]. rewrite H. reflexivity.
Qed.

Lemma even_shl a k : 1 <= k -> Z.even (a * 2 ^ k) = true.
Proof using. intros H. rewrite Z.even_mul, Z.even_pow by lia. apply orb_true_r. Qed.
Lemma tm_val re rm : -2 <= re -> inv rm -> xval (idx re rm) = (IZR (rm * 2 ^ (re + 2)) * bpow radix2 (-54))%R.
Proof using. intros H I. rewrite idx_val by exact I. rewrite mult_IZR, (IZR_pow (re + 2)), Rmult_assoc, <- bpow_plus by lia. do 2 f_equal. lia. Qed.

Lemma climb_ok re : -1 <= re <= 1 -> forall fuel rm, inv rm -> rm + 2 * Z.of_nat fuel < 2 ^ 53 + 60 -> (xval (idx re rm) < h)%R -> (h <= xval (idx re rm + Z.of_nat fuel))%R ->
  (h - xval (idx re rm) <= 9 * bpow radix2 (-52))%R -> (xval (idx re rm + Z.of_nat fuel) - h <= 9 * bpow radix2 (-52))%R ->
  exists rm', climb false fuel (Q mod 2 ^ 64) (re + 2) rm = Ok (rm', Q - rm' * 2 ^ (re + 2) * (rm' * 2 ^ (re + 2))) /\ inv rm' /\ 2 ^ 52 < rm' /\ rm' < 2 ^ 53 + 62 /\
    (h - 9 * bpow radix2 (-52) <= xval (idx re rm' - 1))%R /\ (xval (idx re rm' - 1) < h <= xval (idx re rm'))%R /\ (xval (idx re rm') - h <= 9 * bpow radix2 (-52))%R.
Proof using Hh HQ.
  intros Hre. induction fuel as [|fuel IH]; intros rm I Hf H1 H2 H3 H4. { rewrite Z.add_0_r in H2. lra. }
  cbn [climb]. destruct (idx_step re rm I ltac:(lia)) as [I' E']. set (rm' := rm + (1 + b2z (2 ^ 53 <=? rm))) in *. assert (rm < rm' <= rm + 2) as Hr' by (unfold rm'; destruct (2 ^ 53 <=? rm); cbn [b2z]; lia). assert (2 ^ 52 <= rm < 2 ^ 53 + 64) as Hrm by apply I.
  rewrite cadd_u by (fold rm'; lia). fold rm'. cbn [bind]. assert (2 ^ (re + 2) <= 2 ^ 3) by (apply pow2_le; lia). assert (0 < 2 ^ (re + 2)) by (apply pow2_pos; lia). rewrite cshl_u_exact by nia. cbn [bind].
  assert (idx re rm + Z.of_nat (S fuel) = idx re rm' + Z.of_nat fuel) as EF by lia. rewrite EF in H2, H4.
  assert (xval (idx re rm) < xval (idx re rm'))%R by (apply xval_lt; lia). assert (xval (idx re rm') <= xval (idx re rm' + Z.of_nat fuel))%R by (apply xval_le; lia). pose proof (xval_pos (idx re rm')). assert (9 * bpow radix2 (-52) < / 100000)%R by (cbn; lra).
  destruct (cmp_ok (rm' * 2 ^ (re + 2)) (xval (idx re rm'))) as (C1 & C2 & C3 & C4 & _); [apply even_shl; lia|apply tm_val; [lia|exact I']|lra|apply Rabs_le; lra|].
  rewrite C1. cbn [bind]. destruct (Rlt_le_dec (xval (idx re rm')) h) as [L|L].
  - specialize (C2 L). destruct (Z.leb_spec (Q - rm' * 2 ^ (re + 2) * (rm' * 2 ^ (re + 2))) 0); [lia|]. apply IH; try assumption; lia || lra.
  - assert (Q - rm' * 2 ^ (re + 2) * (rm' * 2 ^ (re + 2)) <= 0) as D. { destruct (Rle_lt_or_eq_dec _ _ L) as [L2|L2]; [specialize (C3 L2); lia|specialize (C4 L2); lia]. }
    apply Z.leb_le in D. rewrite D. exists rm'. split; [reflexivity|]. split; [exact I'|]. split; [lia|]. split; [lia|]. replace (idx re rm' - 1) with (idx re rm) by lia. lra.
Qed.
End Search.

(** The final choice. *)
Section Choose.
Context (o : fops) (Ho : ieee_ops F64 o).
Lemma one_shift : o_eq o (o_add o 0x3ff0000000000000 0x3c90000000000000) (o_sub o 0x3ff0000000000000 0x3c90000000000000) = true.
Proof using Ho.
  assert (good 0x3c90000000000000) as G2 by const_good. assert (value F64 0x3c90000000000000 = bpow radix2 (-54)) as V2 by (rewrite (kb_val 54 0x3c90000000000000 1) by (vm_compute; reflexivity); unfold fx; apply Rmult_1_l).
  pose proof good_one as G1. pose proof value_one as V1. change ElemModel.one with 0x3ff0000000000000 in G1, V1.
  assert (0 < bpow radix2 (-54) < / 1000000)%R as B by (cbn; lra).
  destruct (add64 o Ho _ _ G1 G2) as [Ga Va]. { rewrite V1, V2. apply (sm _ 2); [lra|]. apply Rabs_le; lra. }
  destruct (sub64 o Ho _ _ G1 G2) as [Gs Vs]. { rewrite V1, V2. apply (sm _ 2); [lra|]. apply Rabs_le; lra. }
  assert (rne F64 (1 + bpow radix2 (-54)) = 1)%R as Ea.
  { pose proof (xval_mag 0x3ff0000000000000 ltac:(lia)) as X. rewrite mag_value, V1 in X by lia. rewrite X at 2. apply rne_down; [lia|rewrite <- X; lra|]. rewrite xval_succ, <- X. change (0x3ff0000000000000 / 2 ^ 52 - 1075) with (-52). change (-52) with (2 + -54). rewrite bpow_plus. change (bpow radix2 2) with 4%R. lra. }
  assert (rne F64 (1 - bpow radix2 (-54)) = 1)%R as Es.
  { rewrite (rne_eq F64 0). 2: { change (bpow radix2 (0 - 1)) with (/ 2)%R. change (bpow radix2 0) with 1%R. lra. } change (FLT_exp (emin F64) (prec F64) 0) with (-53). change (- -53) with 53.
    replace ((1 - bpow radix2 (-54)) * bpow radix2 53)%R with (IZR (2 ^ 53 - 1) + / 2)%R. 2: { rewrite Rmult_minus_distr_r, <- bpow_plus. change (-54 + 53) with (-1). change (bpow radix2 (-1)) with (/ 2)%R. change (bpow radix2 53) with (IZR (2 ^ 53)). rewrite minus_IZR. lra. }
    assert (ZnearestE (IZR (2 ^ 53 - 1) + / 2) = 2 ^ 53) as ->. 2: { change (IZR (2 ^ 53)) with (bpow radix2 53). rewrite <- bpow_plus. reflexivity. }
    unfold Znearest. assert (Zfloor (IZR (2 ^ 53 - 1) + / 2) = 2 ^ 53 - 1) as F by (apply Zfloor_imp; rewrite (plus_IZR _ 1); lra). assert (Zceil (IZR (2 ^ 53 - 1) + / 2) = 2 ^ 53) as C by (apply Zceil_imp; replace (2 ^ 53 - 1) with (2 ^ 53 - 1) by lia; rewrite minus_IZR; lra). rewrite F, C.
    rewrite Rcompare_Eq by lra. reflexivity. }
  rewrite V1, V2, Ea in Va. rewrite V1, V2, Es in Vs. apply (ops_eq F64 o Ho); try apply Ga; try apply Gs. split.
  - unfold ordered. split; intros N; [destruct Ga as [F Fi]|destruct Gs as [F Fi]]; destruct (split64 _ F) as (s & n & E & Hn); rewrite E in Fi, N; apply finite64 in Fi; try apply nan64 in N; lia.
  - left. split; [apply Ga|]. split; [apply Gs|]. lra.
Qed.

Context (h : R) (Q : Z) (Hh : (1 < h < 3)%R) (HQ : stands_for Q (h * h * bpow radix2 108)).
(** The bits assembled at the end, hypot.rs:229-235. *)
Lemma choose_ok re rm : -1 <= re <= 1 -> inv rm -> 2 ^ 52 < rm -> rm < 2 ^ 53 + 62 -> (h - 9 * bpow radix2 (-52) <= xval (idx re rm - 1))%R -> (xval (idx re rm - 1) < h <= xval (idx re rm))%R -> (xval (idx re rm) - h <= 9 * bpow radix2 (-52))%R ->
  let mid := ((xval (idx re rm - 1) + xval (idx re rm)) / 2)%R in
  exists rm', choose o false (Q mod 2 ^ 64) (re + 2) rm (Q - rm * 2 ^ (re + 2) * (rm * 2 ^ (re + 2))) = Ok rm' /\ 2 ^ 52 <= rm' < 2 ^ 53 + 64 /\
    ((idx re rm' = idx re rm /\ (mid <= h)%R) \/ (idx re rm' = idx re rm - 1 /\ (h <= mid)%R)).
Proof using Ho Hh HQ.
  intros Hre I Hr Hr2 H0 [H1 H2] H3 mid. assert (9 * bpow radix2 (-52) < / 100000)%R by (cbn; lra). pose proof (xval_pos (idx re rm)). unfold choose. rewrite one_shift.
  destruct (cmp_ok h Q Hh HQ (rm * 2 ^ (re + 2)) (xval (idx re rm))) as (_ & _ & C3 & C4 & _); [apply even_shl; lia|apply tm_val; [lia|exact I]|lra|apply Rabs_le; lra|].
  destruct (Rle_lt_or_eq_dec _ _ H2) as [L|L]. 2: { specialize (C4 L). rewrite C4. cbn [Z.eqb]. exists rm. split; [reflexivity|]. split; [lia|]. left. split; [reflexivity|]. unfold mid. lra. }
  specialize (C3 L). destruct (Z.eqb_spec (Q - rm * 2 ^ (re + 2) * (rm * 2 ^ (re + 2))) 0) as [|_]; [lia|].
  assert (2 ^ (re + 2) <= 2 ^ 3) by (apply pow2_le; lia). assert (0 < 2 ^ (re + 2)) by (apply pow2_pos; lia). rewrite cshl_u_exact by nia. cbn [bind].
  (* above 1, the smallest exponent is never used for a significand below 2^53 *)
  assert (re = -1 -> 2 ^ 53 < rm) as NR.
  { intros ->. rewrite idx_val in L by exact I. change (-1 - 52) with (-53) in L. apply lt_IZR. change (IZR (2 ^ 53)) with (bpow radix2 53). apply (Rmult_lt_reg_r (bpow radix2 (-53))); [apply bpow_gt_0|]. rewrite <- bpow_plus. change (bpow radix2 (53 + -53)) with 1%R. lra. }
  set (b := b2z (rm <=? 2 ^ 53)). assert (0 <= b <= 1) as Hb by (unfold b; destruct (rm <=? 2 ^ 53); cbn; lia). assert (1 <= re + 2 - b) as Hk by (unfold b; destruct (Z.leb_spec rm (2 ^ 53)); cbn [b2z]; lia).
  replace (csub (SI 32) (re + 2) b) with (Ok (re + 2 - b)) by (symmetry; apply chk_ok, fits_s; lia). cbn [bind]. assert (2 ^ (re + 2 - b) <= 2 ^ 3) by (apply pow2_le; lia). assert (0 < 2 ^ (re + 2 - b)) by (apply pow2_pos; lia). rewrite cshl_u_exact by lia. cbn [bind]. rewrite Z.mul_1_l.
  rewrite csub_u by nia. cbn [bind]. set (tm := rm * 2 ^ (re + 2) - 2 ^ (re + 2 - b)).
  assert (Z.even tm = true) as Etm. { unfold tm. rewrite Z.even_sub, even_shl, Z.even_pow by lia. reflexivity. }
  (* the predecessor *)
  assert (exists rp, inv rp /\ idx re rp = idx re rm - 1 /\ 2 * tm = (rm + rp) * 2 ^ (re + 2)) as (rp & Ip & Ep & Em).
  { unfold tm, b. destruct (Z.leb_spec rm (2 ^ 53)) as [L1|L1]; cbn [b2z].
    - exists (rm - 1). split; [split; [lia|intros; lia]|]. split.
      + unfold idx. destruct (Z.ltb_spec (rm - 1) (2 ^ 53)); [|lia]. destruct (Z.ltb_spec rm (2 ^ 53)); [lia|]. replace rm with (2 ^ 53) by lia. change (2 ^ 53 / 2) with (2 ^ 52). lia.
      + rewrite (pow2_S (re + 2)) by lia. ring.
    - assert (Z.even rm = true) as Ev by (apply I; lia). exists (rm - 2). assert (2 ^ 53 <= rm - 2) by (apply Z.even_spec in Ev; destruct Ev as (m & ->); lia). split; [split; [lia|]; intros _; rewrite Z.even_sub, Ev; reflexivity|]. split.
      + unfold idx. destruct (Z.ltb_spec (rm - 2) (2 ^ 53)); [lia|]. destruct (Z.ltb_spec rm (2 ^ 53)); [lia|]. replace (rm - 2) with (rm + (-1) * 2) by lia. rewrite Z.div_add by lia. lia.
      + rewrite Z.sub_0_r. ring. }
  assert (mid = IZR tm * bpow radix2 (-54))%R as Vm.
  { unfold mid. rewrite <- Ep, !tm_val by (lia || assumption). apply (f_equal IZR) in Em. rewrite !mult_IZR, plus_IZR in Em. rewrite !mult_IZR. replace (IZR tm) with ((IZR rm + IZR rp) * IZR (2 ^ (re + 2)) / 2)%R by lra. field. }
  destruct (cmp_ok h Q Hh HQ tm mid) as (D1 & D2 & D3 & D4 & D5); [exact Etm|exact Vm|unfold mid; pose proof (xval_pos (idx re rm - 1)); lra|apply Rabs_le; unfold mid; lra|].
  rewrite D1. cbn [bind]. destruct (Rtotal_order h mid) as [M|[M|M]].
  - specialize (D3 M). destruct (Z.eqb_spec (Q - tm * tm) 0); [lia|]. rewrite cshr_ok by (change (bits (SI 64)) with 64; lia). cbn [bind].
    assert ((Q - tm * tm) / 2 ^ 63 = -1) as -> by (symmetry; apply Z.div_unique with (Q - tm * tm + 2 ^ 63); lia). unfold wrapping_add. rewrite norm_add_r by reflexivity. rewrite norm_id by (reflexivity || (apply fits_u; lia)).
    exists (rm + -1). split; [reflexivity|]. split; [lia|]. right. split; [|lra]. unfold idx. destruct (Z.ltb_spec (rm + -1) (2 ^ 53)) as [L2|L2]; destruct (Z.ltb_spec rm (2 ^ 53)) as [L3|L3]; try lia.
    + replace rm with (2 ^ 53) by lia. change (2 ^ 53 / 2) with (2 ^ 52). lia.
    + assert (Z.even rm = true) as Ev by (apply I; lia). apply Z.even_spec in Ev. destruct Ev as (m & ->). rewrite (Z.mul_comm 2), Z.div_mul by lia. assert ((m * 2 + -1) / 2 = m - 1) as -> by (symmetry; apply Z.div_unique with 1; lia). lia.
  - specialize (D4 M). rewrite D4. cbn [Z.eqb]. rewrite land_1. pose proof (Z.mod_pos_bound rm 2 ltac:(lia)). rewrite csub_u by lia. exists (rm - rm mod 2). split; [reflexivity|]. split; [lia|].
    assert (rm mod 2 = 0 \/ rm mod 2 = 1) as [E0|E0] by lia; rewrite E0.
    + left. rewrite Z.sub_0_r. split; [reflexivity|lra].
    + right. split; [|lra]. assert (rm < 2 ^ 53). { destruct (Z_lt_le_dec rm (2 ^ 53)) as [|L3]; [assumption|]. apply I in L3. rewrite Zmod_even, L3 in E0. discriminate. }
      unfold idx. destruct (Z.ltb_spec (rm - 1) (2 ^ 53)); [|lia]. destruct (Z.ltb_spec rm (2 ^ 53)); lia.
  - specialize (D2 M). destruct (Z.eqb_spec (Q - tm * tm) 0); [lia|]. rewrite cshr_ok by (change (bits (SI 64)) with 64; lia). cbn [bind].
    assert ((Q - tm * tm) / 2 ^ 63 = 0) as -> by (apply Z.div_small; lia). change (norm (UI 64) 0) with 0. unfold wrapping_add. rewrite Z.add_0_r, norm_id by (reflexivity || (apply fits_u; lia)).
    exists rm. split; [reflexivity|]. split; [lia|]. left. split; [reflexivity|lra].
Qed.
End Choose.
