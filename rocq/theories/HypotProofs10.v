(** hypot: the whole function. *)
From Coq Require Import ZArith Reals Bool Lia Lra Psatz.
From Flocq Require Import Core.
From Verif Require Import Base BaseLemmas FloatModel FloatSpec FloatConvSpec FloatProofs FloatProofs2 FloatLib LibmModel LibmSpec LibmProofs LibmProofs3 RemModel FmaModel FmaSpec FmaProofs FmaProofs2 FmaProofs6 FmaProps SqrtModel SqrtSpec SqrtProps F64Lib FloatErr ExpProofs3 ExpProofs4 ExpProofs8 TrigRed HypotModel HypotProofs HypotProofs2 HypotProofs3 HypotProofs4 HypotProofs5 HypotProofs6 HypotProofs7 HypotProofs8 HypotProofs9.
Open Scope Z_scope.

Lemma habs_mk s n : 0 <= n < 2 ^ 63 -> habs (mk64 s n) = n.
Proof. intros H. unfold habs, mk64. rewrite land_ones_mod by lia. rewrite Z.add_comm, Z.mod_add by lia. apply Z.mod_small, H. Qed.
Lemma top_mk s n : 0 <= n < 2 ^ 63 -> (Z.land (mk64 s n) (0x7ff * 2 ^ 52) =? 0x7ff * 2 ^ 52) = (INF <=? n).
Proof.
  intros H. assert (Z.land (mk64 s n) (0x7ff * 2 ^ 52) = n / 2 ^ 52 * 2 ^ 52) as ->.
  { rewrite <- !Z.shiftl_mul_pow2 by lia. rewrite <- Z.shiftr_div_pow2 by lia. apply Z.bits_inj'. intros i Hi. rewrite Z.land_spec, !Z.shiftl_spec by lia. destruct (Z_lt_le_dec i 52) as [L|L]; [rewrite !(Z.testbit_neg_r _ (i - 52)) by lia; apply andb_false_r|].
    rewrite Z.shiftr_spec by lia. replace (i - 52 + 52) with i by lia. change 2047 with (Z.ones 11). destruct (Z_lt_le_dec i 63) as [L2|L2].
    - rewrite Z.ones_spec_low by lia. rewrite andb_true_r. assert (Z.land (mk64 s n) (Z.ones 63) = n) as A by exact (habs_mk s n H). rewrite <- A at 2. rewrite Z.land_spec, Z.ones_spec_low by lia. symmetry. apply andb_true_r.
    - rewrite Z.ones_spec_high by lia. rewrite andb_false_r. symmetry. destruct (Z.eq_dec n 0) as [-> | N]; [apply Z.bits_0|]. apply Z.bits_above_log2; [lia|]. apply Z.log2_lt_pow2; [lia|]. apply Z.lt_le_trans with (2 ^ 63); [lia|]. apply Z.pow_le_mono_r; lia. }
  pose proof (Z.div_mod n (2 ^ 52) ltac:(lia)). pose proof (Z.mod_pos_bound n (2 ^ 52) ltac:(lia)). assert (n / 2 ^ 52 < 2048) by (apply Z.div_lt_upper_bound; lia).
  destruct (Z.leb_spec 9218868437227405312 n); [apply Z.eqb_eq|apply Z.eqb_neq]; lia.
Qed.
Lemma wide_mk s n : 0 <= n < 2 ^ 63 -> norm (UI 64) (Z.shiftl (mk64 s n) 1) = 2 * n.
Proof. intros H. rewrite norm_u, Z.shiftl_mul_pow2 by lia. unfold mk64. change (2 ^ 1) with 2. replace ((b2z s * 2 ^ 63 + n) * 2) with (2 * n + b2z s * 2 ^ 64) by lia. rewrite Z.mod_add by lia. apply Z.mod_small. lia. Qed.

Section Top.
Context (o : fops) (Ho : ieee_ops F64 o) (conv : Z -> Z) (Hc : int_conv F64 conv) (tou : Z -> Z) (Ht : forall a, is_float F64 a -> fix_spec F64 (UI 64) a (tou a)).

Lemma nan_qnan r : is_qnan F64 r -> is_nan F64 r. Proof. intros [H _]. exact H. Qed.

Lemma special_ok checks fuel s n t m : 0 <= n < 2 ^ 63 -> 0 <= m < 2 ^ 63 -> INF <= n \/ INF <= m ->
  exists r, hypot o conv tou checks fuel (mk64 s n) (mk64 t m) = Ok r /\ (n = INF \/ m = INF -> r = INF) /\ (n <> INF -> m <> INF -> is_float F64 r /\ is_qnan F64 r).
Proof using Ho.
  intros Hn Hm H. unfold hypot. rewrite !habs_mk, !top_mk, !wide_mk by assumption. change (norm (UI 64) (Z.shiftl (2047 * 2 ^ 52) 1)) with (2 * INF).
  replace ((INF <=? n) || (INF <=? m)) with true by (symmetry; destruct (Z.leb_spec INF n); [reflexivity|]; cbn [orb]; apply Z.leb_le; lia).
  change n with (mk64 false n) at 2. change m with (mk64 false m) at 2. rewrite !is_nanb64 by assumption.
  assert (forall a, (2 * a =? 2 * INF) = (a =? INF)) as EE by (intros a; destruct (Z.eqb_spec a INF); [apply Z.eqb_eq|apply Z.eqb_neq]; lia). rewrite !EE.
  assert (is_float F64 n /\ is_float F64 m) as [Fn Fm] by (split; [exact (float64 false n Hn)|exact (float64 false m Hm)]).
  destruct (ops_add F64 o Ho n m Fn Fm) as [Fr (A1 & A2 & A3 & A4 & _)].
  assert (forall a, 0 <= a < 2 ^ 63 -> (is_nan F64 a <-> INF < a) /\ (is_inf F64 a <-> a = INF) /\ (is_finite F64 a <-> a < INF) /\ sign_of F64 a = false) as K.
  { intros a Ha. split; [exact (nan64 false a Ha)|]. split; [exact (isinf64 false a Ha)|]. split; [exact (finite64 false a Ha)|exact (sign64 false a Ha)]. }
  destruct (K n Hn) as (N1 & N2 & N3 & N4). destruct (K m Hm) as (M1 & M2 & M3 & M4). rewrite N1, M1 in A1. rewrite N2, M2, N4, M4 in A2. cbn [Bool.eqb] in A2. rewrite N2, M3 in A3. rewrite N3, M2 in A4.
  destruct (Z.eqb_spec n INF) as [En|En]; destruct (Z.eqb_spec m INF) as [Em|Em]; cbn [xorb andb].
  - exists (o_add o n m). split; [reflexivity|]. split; [intros _; rewrite (A2 En Em); exact En|lia].
  - destruct (Z.ltb_spec INF n) as [|_]; [lia|]. cbn [xorb]. destruct (Z.ltb_spec INF m) as [L|L]; [exists INF; split; [reflexivity|]; split; [reflexivity|lia]|].
    exists (o_add o n m). split; [reflexivity|]. split; [intros _; rewrite A3 by lia; exact En|lia].
  - destruct (Z.ltb_spec INF m) as [|_]; [lia|]. rewrite xorb_false_r. destruct (Z.ltb_spec INF n) as [L|L]; [exists INF; split; [reflexivity|]; split; [reflexivity|lia]|].
    exists (o_add o n m). split; [reflexivity|]. split; [intros _; rewrite A4 by lia; exact Em|lia].
  - exists (o_add o n m). split; [reflexivity|]. split; [lia|]. intros _ _. split; [exact Fr|]. apply A1. lia.
Qed.

(** The finite operands, by their magnitudes. *)
Lemma finite_eq checks fuel s n t m : 0 <= n < INF -> 0 <= m < INF ->
  hypot o conv tou checks fuel (mk64 s n) (mk64 t m) = hypot o conv tou checks fuel (Z.max n m) (Z.min n m).
Proof using Ho.
  intros Hn Hm. unfold hypot. change (Z.max n m) with (mk64 false (Z.max n m)). change (Z.min n m) with (mk64 false (Z.min n m)).
  rewrite !habs_mk, !top_mk by lia. replace (INF <=? n) with false by (symmetry; apply Z.leb_gt; lia). replace (INF <=? m) with false by (symmetry; apply Z.leb_gt; lia). replace (INF <=? Z.max n m) with false by (symmetry; apply Z.leb_gt; lia). replace (INF <=? Z.min n m) with false by (symmetry; apply Z.leb_gt; lia). cbn [orb].
  assert (forall a b, 0 <= a < INF -> 0 <= b < INF -> o_lt o a b = (a <? b)) as LT. { intros a b A B. pose proof (lt_key o Ho false a false b ltac:(lia) ltac:(lia)) as E. change (mk64 false a) with a in E. change (mk64 false b) with b in E. rewrite E. rewrite (proj2 (Z.leb_le a INF)), (proj2 (Z.leb_le b INF)) by lia. reflexivity. }
  rewrite !LT by lia.
  assert ((if n <? m then m else n) = Z.max n m) as -> by (destruct (Z.ltb_spec n m); lia). assert ((if m <? n then m else n) = Z.min n m) as -> by (destruct (Z.ltb_spec m n); lia).
  assert ((if Z.max n m <? Z.min n m then Z.min n m else Z.max n m) = Z.max n m) as -> by (destruct (Z.ltb_spec (Z.max n m) (Z.min n m)); lia).
  assert ((if Z.min n m <? Z.max n m then Z.min n m else Z.max n m) = Z.min n m) as -> by (destruct (Z.ltb_spec (Z.min n m) (Z.max n m)); lia).
  reflexivity.
Qed.

Lemma self_rounds u : 0 <= u < INF -> rounds_to F64 false (mag64 u) u.
Proof using.
  intros Hu. destruct (good_lit u Hu) as [F N]. split; [exact F|]. split.
  - change u with (mk64 false u) at 1. rewrite sign64 by lia. destruct (Rcompare_spec (mag64 u) 0) as [L|L|L]; try reflexivity. pose proof (mag_nonneg64 u ltac:(lia)). lra.
  - rewrite rne_mag64 by exact Hu. rewrite Rabs_pos_eq by (apply mag_nonneg64; lia). rewrite Rlt_bool_true; [split; [exact N|symmetry; apply mag_value; lia]|].
    apply Rlt_le_trans with (mag64 INF); [apply mag_lt64; lia|]. rewrite xval_mag by lia. change INF with (1023 * 2 ^ 52 + 1024 * 2 ^ 52). rewrite xval_shift, xval_one. change (emax F64) with 1024. lra.
Qed.
Lemma mag_sub n : 0 <= n < 2 ^ 52 -> mag64 n = (IZR n * bpow radix2 (-1074))%R.
Proof using. intros H. unfold mag64. do 2 f_equal. unfold V. change (fs F64) with 52. rewrite Z.div_small, Z.mod_small by lia. reflexivity. Qed.

Lemma ordered_ok fuel u v : (6 <= fuel)%nat -> 0 <= v <= u -> u < INF -> let H := sqrt (mag64 u * mag64 u + mag64 v * mag64 v) in
  exists r w, hypot o conv tou false fuel u v = Ok r /\ rounds_to F64 false w r /\ (Rabs (w - H) <= H * bpow radix2 (-97))%R.
Proof using Ho Hc Ht.
  intros Hf Hv Hu H. assert (forall r, rounds_to F64 false H r -> exists w, rounds_to F64 false w r /\ (Rabs (w - H) <= H * bpow radix2 (-97))%R) as EX.
  { intros r R. exists H. split; [exact R|]. unfold Rminus. rewrite Rplus_opp_r, Rabs_R0. apply Rmult_le_pos; [apply sqrt_pos|apply bpow_ge_0]. }
  unfold hypot. pose proof (top_mk false u ltac:(lia)) as T1. pose proof (top_mk false v ltac:(lia)) as T2. pose proof (habs_mk false u ltac:(lia)) as H1. pose proof (habs_mk false v ltac:(lia)) as H2. change (mk64 false u) with u in *. change (mk64 false v) with v in *. rewrite H1, H2, T1, T2.
  replace (INF <=? u) with false by (symmetry; apply Z.leb_gt; lia). replace (INF <=? v) with false by (symmetry; apply Z.leb_gt; lia). cbn [orb].
  assert (forall a b, 0 <= a < INF -> 0 <= b < INF -> o_lt o a b = (a <? b)) as LT. { intros a b A B. pose proof (lt_key o Ho false a false b ltac:(lia) ltac:(lia)) as E. change (mk64 false a) with a in E. change (mk64 false b) with b in E. rewrite E. rewrite (proj2 (Z.leb_le a INF)), (proj2 (Z.leb_le b INF)) by lia. reflexivity. }
  rewrite !LT by lia. assert ((if u <? v then v else u) = u) as -> by (destruct (Z.ltb_spec u v); lia). assert ((if v <? u then v else u) = v) as -> by (destruct (Z.ltb_spec v u); lia). clear T1 T2 H1 H2 LT.
  cbv zeta. rewrite cshr_ok by (change (bits (UI 64)) with 64; lia). cbn [bind].
  destruct (Z.eqb_spec (v / 2 ^ 52) 0) as [V0|V0].
  - destruct (Z.eqb_spec v 0) as [->|Nv].
    { exists u. assert (H = mag64 u) as EH. { unfold H. rewrite mag0_64, Rmult_0_l, Rplus_0_r. apply sqrt_square, mag_nonneg64. lia. } destruct (EX u) as (w & W1 & W2); [rewrite EH; apply self_rounds; lia|]. exists w. tauto. }
    assert (v < 2 ^ 52) as Vs. { pose proof (Z.div_mod v (2 ^ 52) ltac:(lia)). pose proof (Z.mod_pos_bound v (2 ^ 52) ltac:(lia)). lia. }
    rewrite cshr_ok by (change (bits (UI 64)) with 64; lia). cbn [bind]. destruct (Z.eqb_spec (u / 2 ^ 52) 0) as [U0|U0].
    + destruct (Z.eqb_spec u 0) as [|_]; [lia|]. assert (u < 2 ^ 52) as Us. { pose proof (Z.div_mod u (2 ^ 52) ltac:(lia)). pose proof (Z.mod_pos_bound u (2 ^ 52) ltac:(lia)). lia. }
      destruct (denorm_ok o Ho conv Hc tou Ht fuel u v Hf ltac:(lia) Us) as (r & E & R). exists r. destruct (EX r) as (w & W1 & W2); [|exists w; tauto].
      replace H with (sqrt (IZR (u * u + v * v)) * bpow radix2 (-1074))%R; [exact R|]. unfold H. rewrite !mag_sub by lia. rewrite sqrt_scale by (apply IZR_le; lia). rewrite plus_IZR, !mult_IZR. reflexivity.
    + assert (2 ^ 52 <= u) as Un. { destruct (Z_lt_le_dec u (2 ^ 52)) as [L|L]; [rewrite Z.div_small in U0 by lia; lia|exact L]. }
      destruct (nlz_spec 64 v ltac:(lia)) as [Nz [N1 N2]]. set (nz := nlz 64 v) in *. assert (12 <= nz <= 63) as Rnz. { split; [|lia]. assert (2 ^ (63 - nz) < 2 ^ 52) as L by (replace (63 - nz) with (64 - 1 - nz) by lia; lia). apply Z.pow_lt_mono_r_iff in L; lia. }
      rewrite csub_u by lia. cbn [bind]. assert (2 ^ (63 - nz) * 2 ^ (nz - 11) = 2 ^ 52) as P1 by (rewrite <- Z.pow_add_r by lia; f_equal; lia). assert (2 ^ (64 - nz) * 2 ^ (nz - 11) = 2 ^ 53) as P2 by (rewrite <- Z.pow_add_r by lia; f_equal; lia). replace (64 - 1 - nz) with (63 - nz) in N1 by lia.
      assert (0 < 2 ^ (nz - 11)) as Pp by (apply Z.pow_pos_nonneg; lia). assert (2 ^ 52 <= v * 2 ^ (nz - 11) < 2 ^ 53) as RV by (split; [rewrite <- P1; apply Z.mul_le_mono_nonneg_r; lia|rewrite <- P2; apply Z.mul_lt_mono_pos_r; lia]).
      rewrite cshl_u_exact by lia. cbn [bind]. rewrite land_ones_mod by lia. replace (v * 2 ^ (nz - 11) mod 2 ^ 52) with (v * 2 ^ (nz - 11) - 2 ^ 52) by (apply Z.mod_unique_pos with 1; lia).
      replace (csub (SI 64) nz 12) with (Ok (nz - 12)) by (symmetry; apply chk_ok, fits_s; lia). cbn [bind]. rewrite cshl_ok by (change (bits (SI 64)) with 64; lia). cbn [bind]. rewrite (norm_id (SI 64) eq_refl) by (apply fits_s; lia).
      unfold wrapping_sub. rewrite norm_sub_r by reflexivity. rewrite norm_u. set (y := v * 2 ^ (nz - 11) - 2 ^ 52 - (nz - 12) * 2 ^ 52).
      assert (xval y = mag64 v) as XY. { rewrite mag_sub by lia. replace y with (v * 2 ^ (nz - 11) - 2 ^ 52 + (12 - nz) * 2 ^ 52) by (unfold y; lia). rewrite xval_shift. unfold xval. rewrite Z.mod_small, Z.div_small by lia. replace (2 ^ 52 + (v * 2 ^ (nz - 11) - 2 ^ 52)) with (v * 2 ^ (nz - 11)) by lia. rewrite mult_IZR, (IZR_Zpower radix2) by lia. rewrite !Rmult_assoc, <- !bpow_plus. do 2 f_equal. lia. }
      assert (value F64 v = mag64 v) as VV by (symmetry; apply mag_value; lia).
      destruct (main_ok o Ho conv Hc fuel u v y Hf ltac:(lia) (good_lit v ltac:(lia))) as (r & w & E & R & B); [congruence|unfold y; lia|]. exists r, w. split; [exact E|]. split; [exact R|]. unfold H. rewrite <- XY, (xval_mag u) by lia. exact B.
  - assert (2 ^ 52 <= v) as Vn. { destruct (Z_lt_le_dec v (2 ^ 52)) as [L|L]; [rewrite Z.div_small in V0 by lia; lia|exact L]. }
    destruct (main_ok o Ho conv Hc fuel u v v Hf ltac:(lia) (good_lit v ltac:(lia)) (val_lit v ltac:(lia)) ltac:(lia)) as (r & w & E & R & B). rewrite Z.mod_small in E by lia. exists r, w. split; [exact E|]. split; [exact R|]. unfold H. rewrite (xval_mag u), (xval_mag v) by lia. exact B.
Qed.
End Top.

(** Close to a double, a value rounds to it. *)
Lemma near_exact z w : 0 <= z < INF -> (Rabs (w - mag64 z) <= mag64 z * bpow radix2 (-97))%R -> rne F64 w = mag64 z.
Proof.
  intros Hz B. pose proof (mag_nonneg64 z ltac:(lia)) as M0. assert (0 < bpow radix2 (-97) <= / 19807040628566084398385987584)%R as Bp by (split; [apply bpow_gt_0|cbn; lra]). set (q := bpow radix2 (-97)) in *. apply Rabs_le_inv in B.
  destruct (Z_lt_le_dec z (2 ^ 53)) as [L|L].
  - assert (mag64 z = IZR z * bpow radix2 (-1074))%R as MZ.
    { unfold mag64. do 2 f_equal. unfold V. change (fs F64) with 52. pose proof (Z.div_mod z (2 ^ 52) ltac:(lia)). pose proof (Z.mod_pos_bound z (2 ^ 52) ltac:(lia)). destruct (Z.eqb_spec (z / 2 ^ 52) 0) as [E0|E0]; [lia|].
      assert (z / 2 ^ 52 = 1) as E1. { assert (z / 2 ^ 52 < 2) by (apply Z.div_lt_upper_bound; lia). assert (0 <= z / 2 ^ 52) by (apply Z.div_pos; lia). lia. } rewrite E1 in *. change (2 ^ (1 - 1)) with 1. lia. }
    destruct (Z.eq_dec z 0) as [-> | Nz]. { rewrite mag0_64 in *. replace w with 0%R by lra. apply (rne_0 F64). }
    set (y := (w * bpow radix2 1074)%R). assert (w = y * bpow radix2 (-1074))%R as Ew by (unfold y; rewrite Rmult_assoc, <- bpow_plus; change (1074 + -1074) with 0; cbn; ring).
    assert (0 < bpow radix2 (-1074))%R as b0' by apply bpow_gt_0. set (t := bpow radix2 (-1074)) in *. assert (1 <= IZR z <= 9007199254740991)%R as Rz by (split; apply IZR_le; lia).
    assert (IZR z - / 4 <= y <= IZR z + / 4)%R as HY. { rewrite MZ, Ew in B. assert (IZR z * q <= / 4)%R by (apply Rle_trans with (9007199254740991 * q)%R; [apply Rmult_le_compat_r; lra|lra]). split; apply (Rmult_le_reg_r t); try exact b0'.
      - assert (IZR z * q * t <= / 4 * t)%R by (apply Rmult_le_compat_r; lra). lra.
      - assert (IZR z * q * t <= / 4 * t)%R by (apply Rmult_le_compat_r; lra). lra. }
    rewrite Ew, MZ. pose proof (rne_scaled F64 W64 1 y ltac:(lia)) as R. change (IZR (2 * 2 ^ fs F64)) with 9007199254740992%R in R. specialize (R ltac:(lra) (or_introl eq_refl)). change (1 - 1 + emin F64) with (-1074) in R. fold t in R. rewrite R, (ZnearestE_int_near y z) by lra. reflexivity.
  - rewrite (xval_mag z) in * by lia. apply rne_here; [lia| |intros ->; lia]. pose proof (Z.mod_pos_bound z (2 ^ 52) ltac:(lia)) as Mz. assert (xval z = IZR (2 ^ 52 + z mod 2 ^ 52) * bpow radix2 (z / 2 ^ 52 - 1075))%R as XZ by reflexivity. set (U := bpow radix2 (z / 2 ^ 52 - 1075)) in *. assert (0 < U)%R as Up by apply bpow_gt_0.
    set (k := IZR (2 ^ 52 + z mod 2 ^ 52)) in *. assert (0 <= k <= 9007199254740992)%R as Rk by (unfold k; split; apply IZR_le; lia). assert (xval z * q <= U / 8)%R as XQ. { rewrite XZ. replace (k * U * q)%R with (k * q * U)%R by ring. unfold Rdiv. rewrite (Rmult_comm U). apply Rmult_le_compat_r; [lra|]. apply Rle_trans with (9007199254740992 * q)%R; [apply Rmult_le_compat_r; lra|lra]. }
    lra.
Qed.
