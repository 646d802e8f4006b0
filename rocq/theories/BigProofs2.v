(** Lemmas about BigModel.v: narrowing division and modular reduction. *)
From Coq Require Import ZArith Bool List Lia.
From Verif Require Import Base BaseLemmas IntProofs IntProofs3 BigModel BigProofs.
Open Scope Z_scope.

Lemma flh_u h l x : 0 < h -> 0 <= l < 2 ^ h -> 0 <= x < 2 ^ h -> from_lo_hi (UI (2 * h)) l x = x * 2 ^ h + l.
Proof.
  intros Hh Hl Hx. rewrite (from_lo_hi_eq (UI (2 * h)) h) by (auto; reflexivity).
  rewrite (Z.mod_small l) by lia. rewrite norm_u, pow2_dbl by lia. pose proof (pow2_pos h).
  assert (x * 2 ^ h <= (2 ^ h - 1) * 2 ^ h) by (apply Z.mul_le_mono_nonneg_r; lia).
  pose proof (Z.mul_nonneg_nonneg x (2 ^ h) ltac:(lia) ltac:(lia)).
  rewrite Z.mod_small by lia. lia.
Qed.

(** ** Primitive narrowing division *)
Lemma nd_prim_ok w a n : 0 < w -> 0 <= a < 2 ^ (2 * w) -> 0 <= n < 2 ^ w ->
  nd_checked_prim (2 * w) a n = Ok (if a / 2 ^ w <? n then Some (a / n, a mod n) else None).
Proof.
  intros Hw Ha Hn. unfold nd_checked_prim, nd_unchecked_prim. rewrite hi_u by lia.
  rewrite half_u by lia.
  destruct (Z.ltb_spec (a / 2 ^ w) n) as [H|H]; [|reflexivity].
  replace (n <=? a / 2 ^ w) with false by lia.
  pose proof (pow2_pos w ltac:(lia)).
  assert (0 <= a / 2 ^ w) by (apply Z.div_pos; lia).
  assert (Hwd : widen (UI w) n = n).
  { unfold widen. change (dbl (UI w)) with (UI (2 * w)). rewrite norm_u, pow2_dbl by lia. apply Z.mod_small. nia. }
  rewrite Hwd. unfold ccast.
  pose proof (Z.mod_pos_bound a n ltac:(lia)).
  pose proof (Z.div_mod a (2 ^ w) ltac:(lia)). pose proof (Z.mod_pos_bound a (2 ^ w) ltac:(lia)).
  assert (0 <= a / n < 2 ^ w).
  { split; [apply Z.div_pos; lia|]. apply Z.div_lt_upper_bound; [lia|].
    assert ((a / 2 ^ w + 1) * 2 ^ w <= n * 2 ^ w) by (apply Z.mul_le_mono_nonneg_r; lia). lia. }
  rewrite chk_ok by (apply fits_u; lia). cbn [bind]. rewrite chk_ok by (apply fits_u; lia). reflexivity.
Qed.

(** ** Three digits by two *)
Lemma ofl_add N a b : 0 < N -> 0 <= a < 2 ^ N -> 0 <= b < 2 ^ N ->
  overflowing_add (UI N) a b = if a + b <? 2 ^ N then (a + b, false) else (a + b - 2 ^ N, true).
Proof.
  intros. unfold overflowing_add. rewrite norm_u. unfold fitsb, imin, imax, UI; cbn [signed bits].
  destruct (Z.ltb_spec (a + b) (2 ^ N)).
  - rewrite Z.mod_small by lia. f_equal. lia.
  - destruct (div_mod_unique (a + b) (2 ^ N) 1 (a + b - 2 ^ N)) as [_ ->]; [lia|lia|]. f_equal. lia.
Qed.
Lemma ofl_sub N a b : 0 < N -> 0 <= a < 2 ^ N -> 0 <= b < 2 ^ N ->
  overflowing_sub (UI N) a b = if b <=? a then (a - b, false) else (a - b + 2 ^ N, true).
Proof.
  intros. unfold overflowing_sub. rewrite norm_u. unfold fitsb, imin, imax, UI; cbn [signed bits].
  destruct (Z.leb_spec b a).
  - rewrite Z.mod_small by lia. f_equal. lia.
  - destruct (div_mod_unique (a - b) (2 ^ N) (-1) (a - b + 2 ^ N)) as [_ ->]; [lia|lia|]. f_equal. lia.
Qed.

Lemma tail_ok w q X n N : 0 < w -> 2 ^ (2 * w) <= 2 * n -> n < 2 ^ (2 * w) ->
  0 <= N -> N = (q + 1) * n + X -> - 2 ^ (2 * w) <= X < 0 -> 0 <= q < 2 ^ w ->
  d3by2_tail w q (X + 2 ^ (2 * w)) n = Ok (N / n, N mod n).
Proof.
  intros Hw Hn1 Hn2 HN EN HX Hq. unfold d3by2_tail.
  rewrite ofl_add by lia.
  destruct (Z.ltb_spec (X + 2 ^ (2 * w) + n) (2 ^ (2 * w))) as [H|H].
  - assert (1 <= q) by nia. rewrite csub_u by lia. cbn [bind]. rewrite ofl_add by lia.
    replace (X + 2 ^ (2 * w) + n + n <? 2 ^ (2 * w)) with false by lia. cbn.
    destruct (div_mod_unique N n (q - 1) (X + n + n)) as [-> ->]; [lia|lia|]. do 2 f_equal. lia.
  - destruct (div_mod_unique N n q (X + n)) as [-> ->]; [lia|lia|]. do 2 f_equal. lia.
Qed.

Lemma d3by2_ok w a0 a n : 0 < w -> 0 <= a0 < 2 ^ w -> 0 <= a < n -> 2 ^ (2 * w) <= 2 * n -> n < 2 ^ (2 * w) ->
  d3by2 w a0 a n = Ok ((a * 2 ^ w + a0) / n, (a * 2 ^ w + a0) mod n).
Proof.
  intros Hw H0 Ha Hn1 Hn2. unfold d3by2.
  assert (Hnl : nlz (2 * w) n = 0).
  { apply nlz_unique; [|lia]. rewrite !Z.sub_0_r. rewrite (pow2_S (2 * w)) in * by lia. lia. }
  rewrite Hnl. replace ((0 <? 0) || (n <=? a)) with false by lia.
  rewrite !lo_u by lia. rewrite (hi_u w n), (hi_u w a) by lia.
  pose proof (pow2_pos w ltac:(lia)) as HR. rewrite pow2_dbl in * by lia. set (R := 2 ^ w) in *.
  pose proof (Z.div_mod n R ltac:(lia)) as Dn. pose proof (Z.mod_pos_bound n R ltac:(lia)) as Mn.
  pose proof (Z.div_mod a R ltac:(lia)) as Da. pose proof (Z.mod_pos_bound a R ltac:(lia)) as Ma.
  set (n1 := n / R) in *. set (n0 := n mod R) in *. set (a2 := a / R) in *. set (a1 := a mod R) in *.
  assert (Hn1r : 0 <= n1 < R) by (subst n1; split; [apply Z.div_pos; lia|apply Z.div_lt_upper_bound; lia]).
  assert (Hna2 : 0 <= a2 <= n1).
  { subst a2 n1. split; [apply Z.div_pos; lia|apply Z.div_le_mono; lia]. }
  rewrite nd_prim_ok by (rewrite ?pow2_dbl by lia; fold R; lia). fold R. fold a2. cbn [bind].
  destruct (Z.ltb_spec a2 n1) as [Hlt|Hge].
  - pose proof (Z.div_mod a n1 ltac:(lia)) as Dq. pose proof (Z.mod_pos_bound a n1 ltac:(lia)) as Mq.
    set (q := a / n1) in *. set (r1 := a mod n1) in *.
    assert (Hq : 0 <= q < R).
    { subst q. split; [apply Z.div_pos; lia|apply Z.div_lt_upper_bound; [lia|]].
      assert ((a2 + 1) * R <= n1 * R) by (apply Z.mul_le_mono_nonneg_r; lia). lia. }
    clearbody q r1 n1 n0 a2 a1.
    rewrite flh_u by (fold R; lia). rewrite widen_mul_u by (fold R; lia). fold R.
    assert (Hqn : 0 <= q * n0 <= (R - 1) * (R - 1)) by (split; [apply Z.mul_nonneg_nonneg; lia|apply Z.mul_le_mono_nonneg; lia]).
    assert (Hr1 : 0 <= r1 * R <= (n1 - 1) * R) by (split; [apply Z.mul_nonneg_nonneg; lia|apply Z.mul_le_mono_nonneg_r; lia]).
    assert (n1 * R <= (R - 1) * R) by (apply Z.mul_le_mono_nonneg_r; lia).
    rewrite ofl_sub by (rewrite ?pow2_dbl by lia; fold R; lia). rewrite pow2_dbl by lia. fold R.
    assert (EN : a * R + a0 = q * n + (r1 * R + a0 - q * n0)) by (rewrite Dq at 1; rewrite Dn; ring).
    destruct (Z.leb_spec (q * n0) (r1 * R + a0)) as [Hc|Hc]; cbn [negb].
    + destruct (div_mod_unique (a * R + a0) n q (r1 * R + a0 - q * n0)) as [-> ->]; [lia|lia|reflexivity].
    + assert (1 <= q) by nia.
      rewrite csub_u by (fold R; lia). cbn [bind].
      replace (r1 * R + a0 - q * n0 + R * R) with (r1 * R + a0 - q * n0 + 2 ^ (2 * w)) by (rewrite pow2_dbl by lia; reflexivity).
      apply tail_ok; rewrite ?pow2_dbl by lia; fold R; try lia.
  - assert (a2 = n1) by lia. assert (a1 < n0) by nia.
    replace ((a2 =? n1) && (a1 <? n0)) with true by lia. cbn [assert bind].
    unfold wrapping_sub. rewrite norm_u. fold R.
    destruct (div_mod_unique (a1 - n0) R (-1) (a1 - n0 + R)) as [_ ->]; [lia|lia|].
    rewrite flh_u by (fold R; lia). fold R.
    replace ((a1 - n0 + R) * R + a0) with ((a1 - n0) * R + a0 + 2 ^ (2 * w)) by (rewrite pow2_dbl by lia; fold R; ring).
    assert (- (R - 1) * R <= (a1 - n0) * R <= -1 * R) by (split; apply Z.mul_le_mono_nonneg_r; lia).
    apply tail_ok; rewrite ?pow2_dbl by lia; fold R; try lia.
Qed.

(** ** 256-bit narrowing division *)
Lemma nd_u256_ok dbg x n : okb (UI 128) x -> 0 <= n < 2 ^ 128 ->
  nd_checked_u256 dbg x n = Ok (if b_hi x <? n then Some (bval x / n, bval x mod n) else None).
Proof.
  intros Hx Hn. unfold nd_checked_u256, nd_unchecked_u256, big_hi.
  destruct (Z.ltb_spec (b_hi x) n) as [Hlt|Hge]; [|reflexivity].
  replace (n <=? b_hi x) with false by lia.
  destruct (proj1 (fits_u 128 _) (proj1 Hx)) as [Hh _]. pose proof (proj2 Hx) as Hl.
  destruct (nlz_spec 128 n ltac:(lia)) as [Hz Hnz]. set (lz := nlz 128 n) in *.
  destruct (big_shl_spec (UI 128) eq_refl dbg x lz Hx ltac:(lia)) as (a & -> & Hoa & Hva). cbn [bind].
  pose proof (pow2_pos lz ltac:(lia)) as Hpz.
  assert (Hb1 : 2 ^ 127 <= n * 2 ^ lz < 2 ^ 128).
  { replace (2 ^ 127) with (2 ^ (128 - 1 - lz) * 2 ^ lz) by (rewrite <- pow2_add by lia; f_equal; lia).
    replace (2 ^ 128) with (2 ^ (128 - lz) * 2 ^ lz) by (rewrite <- pow2_add by lia; f_equal; lia).
    split; [apply Z.mul_le_mono_nonneg_r; lia|apply Z.mul_lt_mono_pos_r; lia]. }
  assert (Hv : bval a = bval x * 2 ^ lz).
  { rewrite Hva. apply norm_id; [reflexivity|]. apply (fits_u 256). unfold bval.
    split; [apply Z.mul_nonneg_nonneg; lia|].
    assert ((b_hi x * 2 ^ 128 + b_lo x) * 2 ^ lz < (n * 2 ^ 128) * 2 ^ lz) by (apply Z.mul_lt_mono_pos_r; lia).
    change (2 ^ 256) with (2 ^ 128 * 2 ^ 128). lia. }
  rewrite cshl_u_exact by lia. cbn [bind]. set (b := n * 2 ^ lz) in *.
  destruct Hoa as [Hah Hal]. apply fits_u in Hah.
  assert (Hab : b_hi a < b).
  { unfold bval in Hv. destruct (Z_lt_le_dec (b_hi a) b) as [|Hc]; [assumption|exfalso].
    assert (b * 2 ^ 128 <= b_hi a * 2 ^ 128) by (apply Z.mul_le_mono_nonneg_r; lia).
    assert ((b_hi x * 2 ^ 128 + b_lo x) * 2 ^ lz < (n * 2 ^ 128) * 2 ^ lz) by (apply Z.mul_lt_mono_pos_r; lia).
    subst b. lia. }
  unfold u256_lo. change (UI 128) with (UI (2 * 64)). rewrite lo_u, hi_u by (try apply Hal; lia).
  change (2 * 64) with 128 in *.
  pose proof (Z.div_mod (b_lo a) (2 ^ 64) ltac:(lia)) as Dl. pose proof (Z.mod_pos_bound (b_lo a) (2 ^ 64) ltac:(lia)) as Ml.
  assert (0 <= b_lo a / 2 ^ 64 < 2 ^ 64) by (split; [apply Z.div_pos; lia|apply Z.div_lt_upper_bound; lia]).
  set (a1 := b_lo a / 2 ^ 64) in *. set (a0 := b_lo a mod 2 ^ 64) in *. clearbody a1 a0.
  rewrite d3by2_ok by (change (2 * 64) with 128; lia). cbn [bind].
  pose proof (Z.div_mod (b_hi a * 2 ^ 64 + a1) b ltac:(lia)) as D1. pose proof (Z.mod_pos_bound (b_hi a * 2 ^ 64 + a1) b ltac:(lia)) as M1.
  assert (Q1 : 0 <= (b_hi a * 2 ^ 64 + a1) / b < 2 ^ 64) by (split; [apply Z.div_pos; lia|apply Z.div_lt_upper_bound; lia]).
  set (q1 := (b_hi a * 2 ^ 64 + a1) / b) in *. set (r1 := (b_hi a * 2 ^ 64 + a1) mod b) in *. clearbody q1 r1.
  rewrite d3by2_ok by (change (2 * 64) with 128; lia). cbn [bind].
  pose proof (Z.div_mod (r1 * 2 ^ 64 + a0) b ltac:(lia)) as D0. pose proof (Z.mod_pos_bound (r1 * 2 ^ 64 + a0) b ltac:(lia)) as M0.
  assert (Q0 : 0 <= (r1 * 2 ^ 64 + a0) / b < 2 ^ 64) by (split; [apply Z.div_pos; lia|apply Z.div_lt_upper_bound; lia]).
  set (q0 := (r1 * 2 ^ 64 + a0) / b) in *. set (r0 := (r1 * 2 ^ 64 + a0) mod b) in *. clearbody q0 r0.
  rewrite cshr_ok by (rewrite bits_u; lia). cbn [bind].
  change (UI 128) with (UI (2 * 64)). rewrite flh_u by lia.
  assert (E : bval a = b * (q1 * 2 ^ 64 + q0) + r0).
  { unfold bval. rewrite Dl. change (2 ^ 128) with (2 ^ 64 * 2 ^ 64).
    replace (b_hi a * (2 ^ 64 * 2 ^ 64) + (2 ^ 64 * a1 + a0)) with ((b_hi a * 2 ^ 64 + a1) * 2 ^ 64 + a0) by ring.
    rewrite D1. replace ((b * q1 + r1) * 2 ^ 64 + a0) with (b * q1 * 2 ^ 64 + (r1 * 2 ^ 64 + a0)) by ring. rewrite D0. ring. }
  rewrite Hv in E.
  assert (Hqq : bval x / n = q1 * 2 ^ 64 + q0 /\ (bval x mod n) * 2 ^ lz = r0).
  { destruct (div_mod_unique (bval x * 2 ^ lz) b (q1 * 2 ^ 64 + q0) r0) as [Eq Er]; [lia|lia|].
    subst b. rewrite Z.div_mul_cancel_r in Eq by lia. rewrite Zmult_mod_distr_r in Er. auto. }
  destruct Hqq as [-> Hr]. replace (r0 / 2 ^ lz) with (bval x mod n); [reflexivity|]. rewrite <- Hr. symmetry. apply Z.div_mul. lia.
Qed.

(** ** Laws of the double-width dictionary *)
Record dict_ok (w : Z) (d : dict) (val : D d -> Z) (V : D d -> Prop) : Prop := {
  V_range : forall x, V x -> 0 <= val x < 2 ^ w * 2 ^ w;
  L_lo : forall x, V x -> d_lo d x = val x mod 2 ^ w;
  L_hi : forall x, V x -> d_hi d x = val x / 2 ^ w;
  L_flh : forall l h, 0 <= l < 2 ^ w -> 0 <= h < 2 ^ w -> V (d_from_lo_hi d l h) /\ val (d_from_lo_hi d l h) = h * 2 ^ w + l;
  L_whi : forall x, 0 <= x < 2 ^ w -> V (d_widen_hi d x) /\ val (d_widen_hi d x) = x * 2 ^ w;
  L_wmul : forall a b, 0 <= a < 2 ^ w -> 0 <= b < 2 ^ w -> exists r, d_widen_mul d a b = Ok r /\ V r /\ val r = a * b;
  L_add : forall a b, V a -> V b -> val a + val b < 2 ^ w * 2 ^ w -> exists r, d_add d a b = Ok r /\ V r /\ val r = val a + val b;
  L_shl : forall a k, V a -> 0 <= k < w -> exists r, d_shl d a k = Ok r /\ V r /\ val r = (val a * 2 ^ k) mod (2 ^ w * 2 ^ w);
  L_ndiv : forall a n, V a -> 0 <= n < 2 ^ w -> val a / 2 ^ w < n -> d_ndiv d a n = Ok (Some (val a / n, val a mod n))
}.

Lemma prim_ok w : 0 < w -> dict_ok w (prim_dict w) (fun x => x) (fun x => 0 <= x < 2 ^ (2 * w)).
Proof.
  intros Hw. pose proof (pow2_pos w ltac:(lia)). pose proof (pow2_dbl w ltac:(lia)) as E.
  split; cbn [D d_lo d_hi d_from_lo_hi d_widen_hi d_widen_mul d_add d_shl d_ndiv prim_dict].
  - intros. rewrite <- E. auto.
  - intros. now rewrite lo_u.
  - intros. now rewrite hi_u.
  - intros. rewrite flh_u by lia. split; [|lia].
    assert (0 <= h * 2 ^ w <= (2 ^ w - 1) * 2 ^ w) by (split; [apply Z.mul_nonneg_nonneg; lia|apply Z.mul_le_mono_nonneg_r; lia]). lia.
  - intros. unfold widen_hi. change (dbl (UI w)) with (UI (2 * w)). rewrite bits_u, !norm_u.
    rewrite shiftl_mul by lia. rewrite (Z.mod_small x) by nia.
    assert (0 <= x * 2 ^ w <= (2 ^ w - 1) * 2 ^ w) by (split; [apply Z.mul_nonneg_nonneg; lia|apply Z.mul_le_mono_nonneg_r; lia]).
    rewrite Z.mod_small by lia. lia.
  - intros. rewrite widen_mul_u by lia. eexists. split; [reflexivity|]. split; [|reflexivity].
    assert (0 <= a * b <= (2 ^ w - 1) * (2 ^ w - 1)) by (split; [apply Z.mul_nonneg_nonneg; lia|apply Z.mul_le_mono_nonneg; lia]). lia.
  - intros. rewrite cadd_u by lia. eexists. split; [reflexivity|]. lia.
  - intros. rewrite cshl_ok by (rewrite bits_u; lia). eexists. split; [reflexivity|]. rewrite norm_u, E. split; [apply Z.mod_pos_bound; nia|reflexivity].
  - intros. rewrite nd_prim_ok by lia. replace (a / 2 ^ w <? n) with true by lia. reflexivity.
Qed.

Lemma u256_ok dbg : dict_ok 128 (u256_dict dbg) bval (okb (UI 128)).
Proof.
  assert (R : forall x, okb (UI 128) x -> 0 <= bval x < 2 ^ 128 * 2 ^ 128).
  { intros x Hx. apply (okb_fits (UI 128) eq_refl) in Hx. apply (fits_u 256) in Hx. exact Hx. }
  split; cbn [D d_lo d_hi d_from_lo_hi d_widen_hi d_widen_mul d_add d_shl d_ndiv u256_dict].
  - exact R.
  - intros x [_ H]. unfold u256_lo, bval. rewrite Z.add_comm, Z_mod_plus_full, Z.mod_small; auto.
  - intros x [_ H]. unfold big_hi, bval. rewrite Z.add_comm, Z.div_add, Z.div_small; lia.
  - intros l h Hl Hh. unfold u256_from_lo_hi, big_or, u128_widen, u128_widen_hi. cbn [b_hi b_lo].
    rewrite Z.lor_0_l, Z.lor_0_r. unfold okb, bval. rewrite fits_u. cbn [b_hi b_lo]. lia.
  - intros x Hx. unfold okb, bval, u128_widen_hi. rewrite fits_u. cbn [b_hi b_lo]. lia.
  - intros. now apply u128_widen_mul_spec.
  - intros a b Ha Hb Hs. destruct (big_add_spec (UI 128) eq_refl dbg a b Ha Hb) as (r & Hr & Hv & ->).
    pose proof (R _ Ha). pose proof (R _ Hb).
    assert (Hf : fits (wide (UI 128)) (bval a + bval b)) by (apply (fits_u 256); change (2 ^ 256) with (2 ^ 128 * 2 ^ 128); lia).
    rewrite (proj2 (fitsb_spec _ _) Hf). rewrite andb_false_r. exists r. split; [reflexivity|]. split; [exact Hr|].
    rewrite Hv. apply norm_id; [reflexivity|exact Hf].
  - intros a k Ha Hk. destruct (big_shl_spec (UI 128) eq_refl dbg a k Ha ltac:(lia)) as (r & E & Hr & Hv).
    exists r. split; [exact E|]. split; [exact Hr|]. rewrite Hv. reflexivity.
  - intros a n Ha Hn Hh. rewrite nd_u256_ok by auto.
    assert (b_hi a = bval a / 2 ^ 128) as -> by (unfold bval; destruct Ha; rewrite Z.add_comm, Z.div_add, Z.div_small; lia).
    replace (bval a / 2 ^ 128 <? n) with true by lia. reflexivity.
Qed.
