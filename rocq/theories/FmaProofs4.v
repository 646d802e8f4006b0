(** Proofs about the fused multiply-add: addition, left alignment, the whole function. *)
From Coq Require Import ZArith Reals Bool Lia Lra Psatz.
From Flocq Require Import Core.
From Verif Require Import Base BaseLemmas FloatModel FloatSpec FloatConvSpec FloatProofs FloatProofs2 FloatProofs3 FloatProofs6 FloatConvProofs FloatLib LibmModel LibmSpec LibmProofs LibmProofs2 LibmProofs3 LibmProofs4 LibmProofs5 LibmProofs6 RemModel RemProofs3 FmaModel FmaSpec FmaProofs FmaProofs2 FmaProofs3.
Open Scope Z_scope.

Section P.
Context (f : fmt) (W : wf f) (WL : fs f + 3 <= bias f) (WS : 16 < fb f -> 3 * fs f + 6 <= bias f) (WB : fb f <= 16 -> bias f = 15 /\ fs f = 10) (WI : fb f <= bias f).
Context (o : fops) (O : ieee_ops f o) (conv : Z -> Z) (IC : int_conv f conv).
Notation S := (2 ^ fs f).
Notation B := (2 ^ (fb f - 1)).
Notation u := (bpow radix2 (emin f)).
Notation mk s n := (b2z s * B + n).
Notation mag n := (IZR (V f n) * u)%R.
Notation b := (fb f).
Notation T := (2 ^ fb f).

Lemma combine_ok neg zneg rlo rhi zlo zhi : 0 <= rlo < T -> 0 <= zlo < T -> 0 <= rhi -> 0 <= zhi ->
  let r := rlo + T * rhi in let z := zlo + T * zhi in let R := if xorb neg zneg then r - z else r + z in
  r + z < 2 ^ (2 * b - 2) -> T <= r + z ->
  exists lo hi nz, fma_combine f neg zneg rlo rhi zlo zhi = Ok (xorb neg (R <? 0), lo, hi, nz) /\ 0 <= lo < T /\ 0 <= hi /\ lo + T * hi = Z.abs R /\ nz = negb (hi =? 0).
Proof using W.
  intros Hrl Hzl Hrh Hzh r z R Hlt Hge. clear WL WS WB WI IC O.
  assert (BB : T = 2 * B) by (apply pow2_S; destruct W; lia). assert (0 < B) by (apply pow2_pos; destruct W; lia). assert (16 <= b) by (destruct W; lia).
  assert (T2 : 2 ^ (2 * b - 2) = B * B) by (rewrite <- pow2_add by lia; f_equal; lia). rewrite T2 in Hlt.
  assert (HH : rhi + zhi < B / 2 + 1). { apply Z.nle_gt. intros K. assert (B = 2 * 2 ^ (b - 2)) as E by (rewrite pow2_S by lia; do 2 f_equal; lia). assert (B / 2 = 2 ^ (b - 2)) as E2 by (rewrite E, Z.mul_comm, Z.div_mul by lia; reflexivity). rewrite E2 in K.
    assert (T * 2 ^ (b - 2) = B * B) by (rewrite <- !pow2_add by lia; f_equal; lia). assert (T * (2 ^ (b - 2) + 1) <= T * (rhi + zhi)) by (apply Z.mul_le_mono_nonneg_l; lia). unfold r, z in Hlt. lia. }
  assert (2 ^ 2 <= B) by (apply pow2_le; lia). assert (B / 2 <= B - 2) by (apply Z.div_le_upper_bound; lia).
  unfold fma_combine. unfold fI. unfold wrapping_add, wrapping_sub, wrapping_neg. rewrite !norm_u.
  replace (xorb (negb neg) zneg) with (negb (xorb neg zneg)) by (destruct neg, zneg; reflexivity).
  destruct (xorb neg zneg) eqn:Sg; cbn [negb].
  - (* subtraction *)
    assert (Lo : (rlo - zlo) mod T = rlo - zlo + T * b2z (rlo <? zlo)).
    { destruct (Z.ltb_spec rlo zlo); cbn [b2z]; symmetry; [apply Z.mod_unique with (q := -1)|apply Z.mod_unique with (q := 0)]; lia. }
    set (c := b2z (rlo <? zlo)) in *. assert (0 <= c <= 1) by (unfold c; destruct (rlo <? zlo); cbn [b2z]; lia).
    rewrite (Z.mod_small (zhi + c)) by lia.
    assert (RE : R = (rlo - zlo) mod T + T * (rhi - zhi - c)) by (rewrite Lo; unfold R, r, z; lia).
    pose proof (Z.mod_pos_bound (rlo - zlo) T ltac:(lia)) as ML. set (l := (rlo - zlo) mod T) in *.
    replace (rhi - (zhi + c)) with (rhi - zhi - c) by lia. set (h := rhi - zhi - c) in *. assert (- B < h < B) as Hh by lia.
    assert ((R <? 0) = (h <? 0)) as ->. { clearbody l h. clear - RE ML Hh BB. destruct (Z.ltb_spec h 0) as [L|L]; [apply Z.ltb_lt|apply Z.ltb_ge]; nia. }
    rewrite cshr_ok by (rewrite bits_u; lia). cbn [bind].
    destruct (Z.ltb_spec h 0) as [L|L].
    + assert (h mod T = h + T) as -> by (symmetry; apply Z.mod_unique with (q := -1); lia).
      assert ((h + T) / B = 1) as -> by (symmetry; apply Z.div_unique with (r := h + T - B); lia). cbn [Z.eqb negb].
      assert (- l mod T = if l =? 0 then 0 else T - l) as ->. { destruct (Z.eqb_spec l 0) as [->|]; [apply Z.mod_0_l; lia|]. symmetry. apply Z.mod_unique with (q := -1); lia. }
      assert (- (h + T) mod T = - h) as ->. { symmetry. apply Z.mod_unique with (q := -1); lia. }
      unfold csub. assert (AR : Z.abs R = - l - T * h) by (clearbody l h; clear - RE ML L Hh; assert (R < 0) by nia; lia).
      destruct (Z.eqb_spec l 0) as [e|e]; cbn [Z.eqb negb b2z].
      * rewrite chk_u by lia. cbn [bind]. do 3 eexists. split; [rewrite xorb_true_r; reflexivity|]. split; [lia|]. split; [lia|]. split; [lia|reflexivity].
      * replace (T - l =? 0) with false by lia. cbn [negb b2z]. rewrite chk_u by lia. cbn [bind]. do 3 eexists. split; [rewrite xorb_true_r; reflexivity|]. split; [lia|]. split; [lia|]. split; [lia|reflexivity].
    + rewrite (Z.mod_small h) by lia. rewrite (Z.div_small h) by lia. cbn [Z.eqb negb bind]. do 3 eexists. split; [rewrite xorb_false_r; reflexivity|]. split; [lia|]. split; [lia|]. split; [|reflexivity].
      assert (0 <= T * h) by (apply Z.mul_nonneg_nonneg; lia). lia.
  - (* addition *)
    assert (0 <= T * rhi /\ 0 <= T * zhi) as [N1 N2] by (split; apply Z.mul_nonneg_nonneg; lia).
    assert (Lo : (rlo + zlo) mod T = rlo + zlo - T * b2z ((rlo + zlo) mod T <? zlo)).
    { destruct (Z_lt_ge_dec (rlo + zlo) T) as [L|L].
      - rewrite Z.mod_small by lia. replace (rlo + zlo <? zlo) with false by lia. cbn [b2z]. lia.
      - assert ((rlo + zlo) mod T = rlo + zlo - T) as -> by (symmetry; apply Z.mod_unique with (q := 1); lia). replace (rlo + zlo - T <? zlo) with true by lia. cbn [b2z]. lia. }
    set (c := b2z ((rlo + zlo) mod T <? zlo)) in *. assert (0 <= c <= 1) by (unfold c; destruct (_ <? zlo); cbn [b2z]; lia).
    unfold cadd. rewrite !chk_u by lia. cbn [bind]. rewrite chk_u by lia. cbn [bind].
    pose proof (Z.mod_pos_bound (rlo + zlo) T ltac:(lia)) as ML. set (l := (rlo + zlo) mod T) in *.
    assert (RE : R = l + T * (rhi + (zhi + c))) by (rewrite Lo; unfold R, r, z; ring).
    replace (R <? 0) with false by (unfold R, r, z in *; lia). do 3 eexists. split; [rewrite xorb_false_r; reflexivity|]. split; [lia|]. split; [lia|]. split; [unfold R, r, z in *; lia|].
    destruct (Z.eqb_spec (rhi + (zhi + c)) 0) as [K|]; [|reflexivity]. exfalso. rewrite K in RE. unfold R, r, z in *. lia.
Qed.

Lemma top_ok lo hi e R : 0 <= lo < T -> 0 <= hi -> lo + T * hi = R -> 0 < R < 2 ^ (2 * b - 2) -> - 2 ^ 25 <= e <= 2 ^ 25 ->
  exists s rhi, fma_top f (negb (hi =? 0)) lo hi e = Ok (Some (rhi, e + s)) /\ - 2 ^ 10 <= s <= 2 ^ 10 /\ 2 ^ (b - 2) <= rhi < B /\
    (0 <= s -> rhi = stkr R s) /\ (s < 0 -> rhi = R * 2 ^ (- s)) /\ s = Z.log2 R - b + 2.
Proof using W.
  intros Hlo Hhi ER HR He. clear WL WS WB WI IC O. pose proof (b128 f W) as B128. pose proof (fs10 f W). pose proof (eb5 f W). pose proof (b_eq f W).
  assert (BB : T = 2 * B) by (apply pow2_S; lia). assert (0 < B) by (apply pow2_pos; lia).
  unfold fma_top. unfold fI. destruct (Z.eqb_spec hi 0) as [e0|e0]; cbn [negb].
  - subst hi. replace lo with R in * by lia. replace (R =? 0) with false by lia. cbn [negb].
    pose proof (nlz_spec b R ltac:(lia)) as [N1 N2]. set (z := nlz b R) in *. unfold csub. rewrite chk_s32 by lia. cbn [bind].
    assert (LG : Z.log2 R = b - 1 - z) by (apply Z.log2_unique; [lia|]; replace (Z.succ (b - 1 - z)) with (b - z) by lia; exact N2).
    destruct (Z.ltb_spec (z - 1) 0) as [L|L].
    + assert (z = 0) as z0 by lia. rewrite z0 in *. rewrite cshr_ok by (rewrite bits_u; lia). cbn [bind]. rewrite chk_s32 by lia. cbn [bind].
      exists 1, (stkr R 1). replace (e - (0 - 1)) with (e + 1) by lia. split.
      * do 3 f_equal. unfold stkr. change (2 ^ 1) with 2. f_equal. rewrite land_1. pose proof (Z.mod_pos_bound R 2). destruct (Z.eqb_spec (R mod 2) 0); cbn [negb b2z]; lia.
      * split; [lia|]. split; [|split; [reflexivity|lia]]. replace (b - 1 - 0) with (b - 2 + 1) in N2 by lia. rewrite Z.pow_add_r in N2 by lia. change (2 ^ 1) with 2 in N2. replace (b - 0) with b in N2 by lia.
        assert (B = 2 * 2 ^ (b - 2)) by (rewrite pow2_S by lia; do 2 f_equal; lia). pose proof (stkr_pos R 1 ltac:(lia) ltac:(lia)). pose proof (stkr_bound R 1 (2 ^ (b - 2)) ltac:(lia)) as SB. change (2 ^ 1) with 2 in *. assert (2 ^ (b - 2) <= R / 2) by (apply Z.div_le_lower_bound; lia). lia.
    + assert (2 ^ (b - 2) <= R * 2 ^ (z - 1) < B) as RG.
      { replace (2 ^ (b - 2)) with (2 ^ (b - 1 - z) * 2 ^ (z - 1)) by (rewrite <- pow2_add by lia; f_equal; lia). replace B with (2 ^ (b - z) * 2 ^ (z - 1)) by (rewrite <- pow2_add by lia; f_equal; lia). pose proof (pow2_pos (z - 1) ltac:(lia)). split; [apply Z.mul_le_mono_nonneg_r; lia|apply Z.mul_lt_mono_pos_r; lia]. }
      rewrite cshl_u_exact by lia. cbn [bind]. rewrite chk_s32 by lia. cbn [bind]. exists (- (z - 1)), (R * 2 ^ (z - 1)). replace (e - (z - 1)) with (e + - (z - 1)) by lia. split; [reflexivity|]. split; [lia|]. split; [exact RG|]. replace (- - (z - 1)) with (z - 1) by lia.
      split; [|split; [reflexivity|lia]]. intros Z1. assert (z = 1) as -> by lia. cbn [Z.sub Z.opp]. change (2 ^ (1 - 1)) with 1. rewrite Z.mul_1_r. change (- (1 - 1)) with 0. rewrite stkr_0 by lia. reflexivity.
  - assert (hi < 2 ^ (b - 2)) as Hhi2. { apply Z.nle_gt. intros K. assert (2 ^ (2 * b - 2) = T * 2 ^ (b - 2)) by (rewrite <- pow2_add by lia; f_equal; lia). assert (T * 2 ^ (b - 2) <= T * hi) by (apply Z.mul_le_mono_nonneg_l; lia). lia. }
    assert (2 ^ (b - 2) <= T) by (apply pow2_le; lia).
    pose proof (nlz_spec b hi ltac:(lia)) as [N1 N2]. set (z := nlz b hi) in *.
    assert (2 <= z). { apply Z.nlt_ge. intros K. assert (2 ^ (b - 2) <= 2 ^ (b - 1 - z)) by (apply pow2_le; lia). lia. }
    unfold csub, cadd. rewrite !chk_s32 by lia. cbn [bind]. set (d := z - 1) in *.
    assert (HD : hi * 2 ^ d < B). { replace B with (2 ^ (b - z) * 2 ^ d) by (rewrite <- pow2_add by lia; f_equal; lia). apply Z.mul_lt_mono_pos_r; [apply pow2_pos; lia|lia]. }
    assert (HD2 : 2 ^ (b - 2) <= hi * 2 ^ d). { replace (2 ^ (b - 2)) with (2 ^ (b - 1 - z) * 2 ^ d) by (rewrite <- pow2_add by lia; f_equal; lia). apply Z.mul_le_mono_nonneg_r; [apply Z.pow_nonneg; lia|lia]. }
    pose proof (pow2_pos d ltac:(lia)) as PD. pose proof (pow2_pos (b - d) ltac:(lia)) as PBD.
    assert (TD : T = 2 ^ (b - d) * 2 ^ d) by (rewrite <- pow2_add by lia; f_equal; lia).
    rewrite cshl_u_exact by lia. cbn [bind]. rewrite cshr_ok by (rewrite bits_u; lia). cbn [bind]. rewrite cshl_ok by (rewrite bits_u; lia). cbn [bind]. rewrite chk_s32 by lia. cbn [bind]. rewrite norm_u.
    assert (L2 : 0 <= lo / 2 ^ (b - d) < 2 ^ d) by (split; [apply Z.div_pos; lia|apply Z.div_lt_upper_bound; lia]).
    assert (Q : R / 2 ^ (b - d) = lo / 2 ^ (b - d) + hi * 2 ^ d). { rewrite <- ER, TD. replace (lo + 2 ^ (b - d) * 2 ^ d * hi) with (lo + (hi * 2 ^ d) * 2 ^ (b - d)) by ring. apply Z.div_add. lia. }
    assert (Q2 : R mod 2 ^ (b - d) = lo mod 2 ^ (b - d)). { rewrite <- ER, TD. replace (lo + 2 ^ (b - d) * 2 ^ d * hi) with (lo + (hi * 2 ^ d) * 2 ^ (b - d)) by ring. apply Z.mod_add. lia. }
    assert (Q3 : (lo * 2 ^ d) mod T = lo mod 2 ^ (b - d) * 2 ^ d) by (rewrite TD; apply Z.mul_mod_distr_r; lia).
    exists (b - d), (stkr R (b - d)). split.
    + do 3 f_equal; [|lia]. unfold stkr. rewrite Q, Q2, Q3. f_equal.
      * rewrite Z.lor_comm, lor_add_low by lia. reflexivity.
      * do 2 f_equal. destruct (Z.eqb_spec (lo mod 2 ^ (b - d)) 0) as [->|K]; [reflexivity|]. apply Z.eqb_neq. intros E. apply Z.mul_eq_0 in E. lia.
    + split; [lia|]. assert (hi * 2 ^ d + 2 ^ d <= B). { replace B with (2 ^ (b - z) * 2 ^ d) by (rewrite <- pow2_add by lia; f_equal; lia). replace (hi * 2 ^ d + 2 ^ d) with ((hi + 1) * 2 ^ d) by ring. apply Z.mul_le_mono_nonneg_r; lia. }
      split; [|split; [reflexivity|]].
      * pose proof (stkr_pos R (b - d) ltac:(lia) ltac:(lia)). assert (B = 2 * 2 ^ (b - 2)) as B2 by (rewrite pow2_S by lia; do 2 f_equal; lia).
        pose proof (stkr_bound R (b - d) (2 ^ (b - 2)) ltac:(lia)) as SB. rewrite <- B2 in SB. assert (0 <= R < B * 2 ^ (b - d)) as RB; [|specialize (SB RB); lia].
        split; [lia|]. apply Z.lt_le_trans with ((R / 2 ^ (b - d) + 1) * 2 ^ (b - d)); [pose proof (Z.div_mod R (2 ^ (b - d)) ltac:(lia)); pose proof (Z.mod_pos_bound R (2 ^ (b - d)) PBD); lia|]. apply Z.mul_le_mono_nonneg_r; lia.
      * split; [lia|]. assert (Z.log2 R = 2 * b - 1 - z); [|lia]. apply Z.log2_unique; [lia|].
        replace (2 * b - 1 - z) with (b + (b - 1 - z)) by lia. replace (Z.succ (b + (b - 1 - z))) with (b + (b - z)) by lia. rewrite !pow2_add by lia. split.
        -- assert (T * 2 ^ (b - 1 - z) <= T * hi) by (apply Z.mul_le_mono_nonneg_l; lia). lia.
        -- assert (T * (hi + 1) <= T * 2 ^ (b - z)) by (apply Z.mul_le_mono_nonneg_l; lia). lia.
Qed.

(** From an approximation of the sum to the rounded result. *)
Lemma sum_ok (neg : bool) lo hi e X R zs : agree f X R -> 0 <= lo < T -> 0 <= hi -> lo + T * hi = Z.abs R -> R <> 0 -> Z.abs R < 2 ^ (2 * b - 2) -> - 2 ^ 25 <= e <= 2 ^ 25 ->
  exists rhi e', fma_top f (negb (hi =? 0)) lo hi e = Ok (Some (rhi, e')) /\
    exists r, fma_finish f o conv (xorb neg (R <? 0)) rhi e' = Ok r /\ rounds_to f zs (if neg then - (X * bp e) else X * bp e) r.
Proof using W WL WS WB WI O IC.
  intros A Hlo Hhi ER R0 HR He. pose proof (fs10 f W). pose proof (eb5 f W). pose proof (b_eq f W).
  destruct (top_ok lo hi e (Z.abs R) Hlo Hhi ER ltac:(lia) He) as (s & rhi & E & Hs & Hr & C1 & C2 & Es). exists rhi, (e + s). split; [exact E|].
  set (X' := if R <? 0 then (- X)%R else X).
  assert (IZR (Z.abs R) = if R <? 0 then - IZR R else IZR R)%R as Ea. { destruct (Z.ltb_spec R 0); [rewrite <- opp_IZR|]; f_equal; lia. }
  assert (cell (eb f - 2) (X' * bp (- s)) (IZR rhi)) as C.
  { assert (0 <= s -> cell (eb f - 2) (IZR (Z.abs R) * bp (- s)) (IZR rhi)) as CS. { intros Hs0. rewrite (C1 Hs0). apply cell_weaken with 1; [lia|]. apply cell_stkr; lia. }
    destruct A as [A|(h & Hh & Ch & L1 & L2)].
    - assert (X' = IZR (Z.abs R)) as -> by (rewrite Ea; unfold X'; rewrite A; reflexivity).
      destruct (Z_lt_ge_dec s 0) as [L|L]; [|apply CS; lia]. rewrite (C2 L), mult_IZR, (IZR_pow (- s)) by lia. apply cell_refl.
    - assert (2 <= s). { rewrite Es. assert (b <= Z.log2 (Z.abs R)); [|lia]. apply Z.log2_le_pow2; lia. }
      assert (h + fs f + 1 <= Z.log2 (Z.abs R)) by (apply Z.log2_le_pow2; lia).
      apply cell_trans with (IZR (Z.abs R) * bp (- s))%R; [|apply CS; lia]. apply cell_weaken with (h + - s); [lia|]. apply cell_scale. rewrite Ea. unfold X'. destruct (R <? 0); [apply cell_opp|]; exact Ch. }
  destruct (finish_ok f W WL WS WB WI o O conv IC (xorb neg (R <? 0)) rhi (e + s) (X' * bp (- s)) zs Hr C ltac:(lia)) as (r & F & RT). exists r. split; [exact F|].
  replace (X' * bp (- s) * bp (e + s))%R with (X' * bp e)%R in RT. 2: { rewrite Rmult_assoc, <- bpow_plus. do 2 f_equal. lia. }
  unfold X' in RT. destruct neg, (R <? 0); cbn [xorb] in RT; try exact RT.
  - replace (- (X * bp e))%R with (- X * bp e)%R by ring. exact RT.
  - replace (X * bp e)%R with (- (- X * bp e))%R by ring. exact RT.
Qed.

Lemma is_zero_mk_ s n : 0 <= n < B -> (is_zero f (mk s n) <-> n = 0).
Proof using W. intros. apply is_zero_mk; assumption. Qed.

Lemma fma_finite s n t m w l : 0 < n < inf f -> 0 < m < inf f -> 0 < l < inf f -> exists r v, fma_round f o conv (mk s n) (mk t m) (mk w l) = Ok r /\
  rounds_to f (xorb s t && w) v r /\
  let x := value f (mk s n) in let y := value f (mk t m) in let z := value f (mk w l) in
  (v = x * y + z \/ sticky_lost f (mk s n) (mk t m) (mk w l) /\ (Rabs (v - (x * y + z)) <= Rabs z * bp (- (b + fs f + 1))))%R.
Proof using W WL WS WB WI O IC.
  intros Hn Hm Hl. pose proof (fs10 f W) as F10. pose proof (eb5 f W) as E5. pose proof (b_eq f W) as BE. pose proof (inf_pos f W) as IP. pose proof (S_pos f W) as SP. pose proof (bias_le f W WL WS WB WI) as BL.
  assert (ST : 4 * S < T). { change 4 with (2 ^ 2). rewrite <- pow2_add by lia. apply pow2_lt; lia. }
  pose proof (ZIN_eq f W WL WS WB WI) as ZE.
  destruct (norm_pos f W WL WS WB WI o O s n Hn) as (mx & ex & E1 & Hmx & Mx & Hex). destruct (norm_pos f W WL WS WB WI o O t m Hm) as (my & ey & E2 & Hmy & My & Hey). destruct (norm_pos f W WL WS WB WI o O w l Hl) as (mz & ez & E3 & Hmz & Mz & Hez).
  unfold fma_round. rewrite E1, E2, E3. cbn [bind]. replace (ZERO_INF_NAN f <=? ex) with false by lia. replace (ZERO_INF_NAN f <=? ey) with false by lia. replace (ZERO_INF_NAN f <=? ez) with false by lia. cbn [orb].
  rewrite (wmul_ok f W) by lia. cbn [bind]. unfold cadd at 1. rewrite chk_s32 by lia. cbn [bind].
  replace (2 * mx * (2 * my)) with (4 * (mx * my)) by ring.
  destruct (align_ok f W WL WS WB WI mx my mz (ex + ey) ez Hmx Hmy Hmz ltac:(lia) ltac:(lia)) as (rlo & rhi & zlo & zhi & e' & -> & Hrl & Hzl & Hrh & Hzh & He' & Hlt & Hge & Xr & AG & XR). cbn [bind].
  set (r := rlo + T * rhi) in *. set (z := zlo + T * zhi) in *. set (P := 4 * (mx * my)) in *.
  destruct (combine_ok (xorb s t) w rlo rhi zlo zhi Hrl Hzl Hrh Hzh Hlt Hge) as (lo & hi & nz & -> & Hlo & Hhi & ER & ->). fold r z in ER |- *. cbn [bind].
  set (neg := xorb s t) in *. set (sub := xorb neg w) in *. set (R := if sub then r - z else r + z) in *.
  specialize (AG sub). fold R in AG. set (Xz := (IZR (2 * mz) * bp (ez - e'))%R) in *. set (X := if sub then (Xr - Xz)%R else (Xr + Xz)%R) in *.
  assert (0 <= r /\ 0 <= z) as [Hr0 Hz0] by (unfold r, z; split; apply Z.add_nonneg_nonneg; try lia; apply Z.mul_nonneg_nonneg; lia).
  assert (HR : Z.abs R < 2 ^ (2 * b - 2)) by (unfold R; destruct sub; lia).
  pose proof (bpow_gt_0 radix2 e') as PE.
  (* the exact result *)
  assert (VX : forall q (k : bool), 0 <= q < inf f -> value f (mk k q) = if k then (- mag q)%R else mag q) by (intros; apply value_mk; assumption || lia).
  assert (Vxy : (value f (mk s n) * value f (mk t m) = (if neg then -1 else 1) * (IZR P * bp (ex + ey - e')) * bp e')%R).
  { rewrite !VX by lia. rewrite Mx, My. rewrite (Rmult_assoc _ (IZR P * _)), (Rmult_assoc (IZR P)), <- bpow_plus. replace (ex + ey - e' + e') with (ex + ey) by lia.
    assert (IZR P * bp (ex + ey) = IZR mx * bp (ex + 1) * (IZR my * bp (ey + 1)))%R as ->. { unfold P. rewrite !mult_IZR, !bpow_plus. change (bp 1) with 2%R. ring. }
    unfold neg. destruct s, t; cbn [xorb]; ring. }
  assert (MZ : (mag l = Xz * bp e')%R). { rewrite Mz. unfold Xz. rewrite Rmult_assoc, <- bpow_plus. replace (ez - e' + e') with ez by lia. rewrite mult_IZR, bpow_plus. change (bp 1) with 2%R. ring. }
  assert (Vz : (value f (mk w l) = (if w then -1 else 1) * Xz * bp e')%R). { rewrite VX by lia. rewrite MZ. destruct w; ring. }
  set (v := (if neg then - (X * bp e') else X * bp e')%R).
  assert (EV : (v - (value f (mk s n) * value f (mk t m) + value f (mk w l)) = (if neg then -1 else 1) * (Xr - IZR P * bp (ex + ey - e')) * bp e')%R).
  { rewrite Vxy, Vz. unfold v, X, sub. destruct neg, w; cbn [xorb]; ring. }
  assert (CONC : (v = value f (mk s n) * value f (mk t m) + value f (mk w l) \/ sticky_lost f (mk s n) (mk t m) (mk w l) /\
    Rabs (v - (value f (mk s n) * value f (mk t m) + value f (mk w l))) <= Rabs (value f (mk w l)) * bp (- (b + fs f + 1)))%R).
  { destruct XR as [XR|(LO & Ee' & _ & DX)].
    - left. rewrite XR in EV. apply Rminus_diag_uniq. rewrite EV. ring.
    - right. split.
      + exists mx, (ex + 1), my, (ey + 1), mz, (ez + 1).
        assert (forall k q mq eq, 0 < q < inf f -> S <= mq < 2 * S -> mag q = (IZR mq * bp (eq + 1))%R -> normal_form f (mk k q) mq (eq + 1)) as NF.
        { intros k q mq eq' Hq Hmq Mq. split; [apply is_finite_mk; assumption || lia|]. split; [rewrite Z.pow_add_r by lia; lia|]. rewrite VX by lia. assert (0 < mag q)%R by (apply (mag_pos f W); lia). rewrite <- Mq. destruct k; [rewrite Rabs_Ropp|]; apply Rabs_pos_eq; lra. }
        split; [apply NF; assumption|]. split; [apply NF; assumption|]. split; [apply NF; assumption|]. cbv zeta. fold P.
        replace (ez + 1 - (ex + 1 + (ey + 1)) + 1 - b) with (ez - (ex + ey) - b) by lia. exact LO.
      + rewrite EV, Vz, !Rabs_mult. rewrite (Rabs_pos_eq (bp e')) by lra.
        assert (Rabs (if neg then -1 else 1) = 1)%R as -> by (destruct neg; [rewrite Rabs_left by lra|rewrite Rabs_pos_eq by lra]; lra).
        assert (Rabs (if w then -1 else 1) = 1)%R as -> by (destruct w; [rewrite Rabs_left by lra|rewrite Rabs_pos_eq by lra]; lra).
        apply Rle_trans with (1 * bp e')%R; [apply Rmult_le_compat_r; lra|]. rewrite Rmult_1_l, !Rmult_1_l, (Rmult_assoc (Rabs Xz)), (Rmult_comm (bp e')), <- Rmult_assoc. rewrite <- (Rmult_1_l (bp e')) at 1. apply Rmult_le_compat_r; [lra|].
        assert (bp (b + fs f + 1) <= Xz)%R as XL.
        { unfold Xz. replace (ez - e') with b by lia. rewrite mult_IZR. replace (b + fs f + 1) with (1 + fs f + b) by lia. rewrite !bpow_plus. apply Rmult_le_compat_r; [apply bpow_ge_0|]. change (bp 1) with 2%R. apply Rmult_le_compat_l; [lra|]. rewrite <- (IZR_pow (fs f)) by lia. apply IZR_le. lia. }
        pose proof (bpow_gt_0 radix2 (b + fs f + 1)). pose proof (bpow_gt_0 radix2 (- (b + fs f + 1))). rewrite Rabs_pos_eq by lra.
        replace 1%R with (bp (b + fs f + 1) * bp (- (b + fs f + 1)))%R by (rewrite <- bpow_plus; replace (b + fs f + 1 + - (b + fs f + 1)) with 0 by lia; reflexivity). apply Rmult_le_compat_r; lra. }
  destruct (Z.eq_dec R 0) as [R0|R0].
  - (* exact zero *)
    rewrite R0 in ER. assert (hi = 0 /\ lo = 0) as [-> ->] by (clear - ER Hlo Hhi; assert (0 <= T * hi) by (apply Z.mul_nonneg_nonneg; lia); split; [nia|lia]).
    cbn [Z.eqb negb fma_top bind]. unfold fma_top. cbn [Z.eqb negb bind]. do 2 eexists. split; [reflexivity|].
    assert (X = 0%R) as X0. { destruct AG as [A|(h & Hh & _ & _ & L)]; [rewrite A, R0; reflexivity|]. exfalso. rewrite R0 in L. cbn in L. lia. }
    assert (v = 0%R) as v0 by (unfold v; rewrite X0; destruct neg; ring). 
    assert (value f (mk s n) * value f (mk t m) + value f (mk w l) = 0)%R as EZ.
    { destruct XR as [XR|(_ & _ & L & _)]; [|exfalso; unfold R in R0; destruct sub; lia]. rewrite XR in EV. rewrite v0 in EV. lra. }
    assert (o_mul o (mk s n) (mk t m) = mk neg l) as ->.
    { assert (is_float f (mk s n) /\ is_float f (mk t m)) as [FL1 FL2] by (split; apply is_float_mk; assumption || lia).
      destruct (ops_mul f o O _ _ FL1 FL2) as [_ (_ & _ & _ & RM)]. specialize (RM ltac:(apply is_finite_mk; assumption || lia) ltac:(apply is_finite_mk; assumption || lia)).
      rewrite !sign_of_mk in RM by (assumption || lia). apply (op_exact f W _ _ _ neg l RM); [|lia|lia].
      assert (value f (mk s n) * value f (mk t m) = - value f (mk w l))%R as -> by lra.
      assert (0 < mag n /\ 0 < mag m /\ 0 < mag l)%R as (G1 & G2 & G3) by (repeat split; apply (mag_pos f W); lia).
      assert (0 < mag n * mag m)%R by (apply Rmult_lt_0_compat; assumption). rewrite !VX in EZ by lia; rewrite !VX by lia. unfold neg. destruct s, t, w; cbn [xorb] in *; lra. }
    assert (is_float f (mk neg l) /\ is_float f (mk w l)) as [FL1 FL2] by (split; apply is_float_mk; assumption || lia).
    destruct (ops_add f o O _ _ FL1 FL2) as [_ (_ & _ & _ & _ & RA)]. specialize (RA ltac:(apply is_finite_mk; assumption || lia) ltac:(apply is_finite_mk; assumption || lia)).
    rewrite !sign_of_mk in RA by (assumption || lia). split; [exact RA|]. left. cbv zeta. rewrite EZ.
    assert (Xz <> 0)%R as XN. { intros K. rewrite K, Rmult_0_l in MZ. assert (0 < mag l)%R by (apply (mag_pos f W); lia). lra. }
    assert (sub = true) as SB. { destruct sub eqn:Es; [reflexivity|]. exfalso. unfold R in R0. lia. }
    rewrite !VX by lia. unfold sub in SB. destruct neg, w; cbn [xorb] in SB; try discriminate; ring.
  - destruct (sum_ok neg lo hi e' X R (neg && w) AG Hlo Hhi ER R0 HR He') as (rh & e2 & -> & res & F & RT). cbn [bind]. rewrite F. exists res, v. split; [reflexivity|]. split; [exact RT|exact CONC].
Qed.

Lemma special_ok s n t m w l : 0 <= n < B -> 0 <= m < B -> 0 <= l < B -> (n = 0 \/ inf f <= n) \/ (m = 0 \/ inf f <= m) ->
  let x := mk s n in let y := mk t m in let z := mk w l in let r := o_add o (o_mul o x y) z in
  (~ sticky_lost f x y z -> ieee_fma f x y z r) /\
  (is_finite f x -> is_finite f y -> is_finite f z -> exists v, rounds_to f (xorb (sign_of f x) (sign_of f y) && sign_of f z) v r /\
    (Rabs (v - (value f x * value f y + value f z)) <= Rabs (value f z) * bp (- (b + fs f + 1)))%R).
Proof using W O.
  clear WL WS WB WI IC conv. intros Hn Hm Hl SPC x y z r. pose proof (inf_pos f W) as IP.
  assert (is_float f x /\ is_float f y /\ is_float f z) as (Fx & Fy & Fz) by (repeat split; apply is_float_mk; assumption).
  destruct (ops_mul f o O x y Fx Fy) as [FM (M1 & M2 & M3 & M4)]. destruct (ops_add f o O (o_mul o x y) z FM Fz) as [FA (A1 & A2 & A3 & A4 & A5)]. fold r in FA, A1, A2, A3, A4, A5.
  destruct (split_float f W _ FM) as (k & q & Eq & Hq). rewrite Eq in *.
  unfold x, y, z in *. clear x y z.
  assert (QN : forall c, is_qnan f c -> is_nan f c) by (intros c Q; apply Q).
  assert (V0 : forall c : bool, value f (mk c 0) = 0%R). { intros c. rewrite value_mk by (assumption || lia). rewrite (mag_0 f W). destruct c; ring. }
  assert (FIN : n < inf f -> m < inf f -> l < inf f -> rounds_to f (xorb s t && w) (value f (mk s n) * value f (mk t m) + value f (mk w l)) r).
  { intros N1 N2 N3. rewrite !(is_finite_mk f W) in M4 by assumption. specialize (M4 N1 N2). rewrite !sign_of_mk in M4 by assumption.
    assert (value f (mk s n) * value f (mk t m) = 0)%R as P0. { destruct SPC as [[->|]|[->|]]; try lia; rewrite V0; ring. }
    rewrite P0 in *. assert (mk k q = mk (xorb s t) 0) as E0. { apply (op_exact f W _ _ _ (xorb s t) 0 M4); [rewrite (mag_0 f W); destruct (xorb s t); ring|lia|reflexivity]. }
    rewrite E0 in A5. rewrite !(is_finite_mk f W) in A5 by (assumption || lia). specialize (A5 ltac:(lia) N3). rewrite !sign_of_mk, V0 in A5 by (assumption || lia). exact A5. }
  split.
  - intros _. unfold ieee_fma. cbv zeta. split; [exact FA|].
    rewrite !(is_nan_mk f W), !(is_inf_mk f W), !(is_zero_mk f W), !(is_finite_mk f W), !sign_of_mk in * by assumption.
    split; [|split; [|split; [|split]]].
    + intros K. apply QN, A1. destruct (Z_lt_ge_dec (inf f) l); [right; assumption|left]. assert (is_nan f (mk k q)) as Q by (apply QN, M1; lia). apply is_nan_mk in Q; assumption.
    + intros K. apply QN, A1. left. assert (is_nan f (mk k q)) as Q by (apply QN, M2; lia). apply is_nan_mk in Q; assumption.
    + intros K. destruct (M3 ltac:(lia)) as [I1 I2]. split.
      * intros L. rewrite (A3 I1 L). rewrite (is_inf_mk f W), sign_of_mk by assumption. split; [exact I1|exact I2].
      * intros L. specialize (A2 I1 L). rewrite I2 in A2. replace (Bool.eqb w (xorb s t)) with (Bool.eqb (xorb s t) w) by (destruct w, (xorb s t); reflexivity).
        destruct (Bool.eqb (xorb s t) w) eqn:EB; [|apply QN, A2]. apply Bool.eqb_prop in EB. rewrite A2. rewrite I1, L, EB. reflexivity.
    + intros N1 N2 L. apply A4; [|exact L].
      assert (is_finite f (mk k q)) as Q; [|apply is_finite_mk in Q; assumption].
      specialize (M4 N1 N2). assert (value f (mk s n) * value f (mk t m) = 0)%R as P0. { destruct SPC as [[->|]|[->|]]; try lia; rewrite V0; ring. }
      rewrite P0 in M4. assert (mk k q = mk (xorb s t) 0) as E0. { apply (op_exact f W _ _ _ (xorb s t) 0 M4); [rewrite (mag_0 f W); destruct (xorb s t); ring|lia|reflexivity]. } rewrite E0. apply is_finite_mk; assumption || lia.
    + exact FIN.
  - rewrite !(is_finite_mk f W), !sign_of_mk by assumption. intros N1 N2 N3. eexists. split; [apply FIN; assumption|].
    rewrite Rminus_diag_eq, Rabs_R0 by reflexivity. apply Rmult_le_pos; [apply Rabs_pos|apply bpow_ge_0].
Qed.

Lemma fma_ok x y z : is_float f x -> is_float f y -> is_float f z -> exists r, fma_round f o conv x y z = Ok r /\
  (~ sticky_lost f x y z -> ieee_fma f x y z r) /\
  (is_finite f x -> is_finite f y -> is_finite f z -> exists v, rounds_to f (xorb (sign_of f x) (sign_of f y) && sign_of f z) v r /\
    (Rabs (v - (value f x * value f y + value f z)) <= Rabs (value f z) * bp (- (b + fs f + 1)))%R).
Proof using W WL WS WB WI O IC.
  intros Fx Fy Fz. pose proof (inf_pos f W) as IP. pose proof (ZIN_eq f W WL WS WB WI) as ZE.
  destruct (split_float f W x Fx) as (s & n & -> & Hn). destruct (split_float f W y Fy) as (t & m & -> & Hm). destruct (split_float f W z Fz) as (w & l & -> & Hl).
  assert (NZ : forall k q, 0 <= q < B -> (exists mq eq, norm_float f o (mk k q) = Ok (mq, eq, k) /\ (ZERO_INF_NAN f <= eq <-> q = 0 \/ inf f <= q) /\ (ZERO_INF_NAN f < eq <-> q = 0))).
  { intros k q Hq. destruct (Z.eq_dec q 0) as [->|q0]; [|destruct (Z_lt_ge_dec q (inf f)) as [L|L]].
    - destruct (norm_special f W WL WS WB WI o O k 0) as (mq & eq & E & A1 & A2); [lia|lia|]. exists mq, eq. split; [exact E|]. lia.
    - destruct (norm_pos f W WL WS WB WI o O k q ltac:(lia)) as (mq & eq & E & _ & _ & A). exists (2 * mq), eq. split; [exact E|]. lia.
    - destruct (norm_special f W WL WS WB WI o O k q) as (mq & eq & E & A1 & A2); [lia|lia|]. exists mq, eq. split; [exact E|]. lia. }
  assert (BP : forall j, (0 < bp j)%R) by (intros; apply bpow_gt_0).
  assert (NEAR : forall v zz : R, v = zz -> forall z' j, (Rabs (v - zz) <= Rabs z' * bp j)%R). { intros v zz -> z' j. rewrite Rminus_diag_eq, Rabs_R0 by reflexivity. apply Rmult_le_pos; [apply Rabs_pos|apply Rlt_le, BP]. }
  destruct (Z_lt_ge_dec 0 n) as [n0|n0]; [destruct (Z_lt_ge_dec n (inf f)) as [n1|n1]; [destruct (Z_lt_ge_dec 0 m) as [m0|m0]; [destruct (Z_lt_ge_dec m (inf f)) as [m1|m1]|]|]|].
  1: destruct (Z_lt_ge_dec 0 l) as [l0|l0]; [destruct (Z_lt_ge_dec l (inf f)) as [l1|l1]|].
  (* all finite and not zero *)
  { destruct (fma_finite s n t m w l ltac:(lia) ltac:(lia) ltac:(lia)) as (r & v & -> & RT & C). exists r. split; [reflexivity|]. cbv zeta in C. split.
    - intros NL. destruct C as [C|[C _]]; [|contradiction]. rewrite C in RT. split; [apply RT|].
      rewrite !(is_nan_mk f W), !(is_inf_mk f W), !(is_zero_mk f W), !(is_finite_mk f W), !sign_of_mk by (assumption || lia).
      do 4 (split; [intros; exfalso; lia|]). intros; exact RT.
    - intros _ _ _. exists v. rewrite !sign_of_mk by assumption. split; [exact RT|]. destruct C as [C|[_ C]]; [apply NEAR, C|exact C]. }
  (* z infinite or NaN *)
  { unfold fma_round. destruct (NZ s n Hn) as (a1 & b1 & -> & A1 & A2). destruct (NZ t m Hm) as (a2 & b2 & -> & B1 & B2). destruct (NZ w l Hl) as (a3 & b3 & -> & C1 & C2). cbn [bind].
    replace (ZERO_INF_NAN f <=? b1) with false by lia. replace (ZERO_INF_NAN f <=? b2) with false by lia. replace (ZERO_INF_NAN f <=? b3) with true by lia. replace (ZERO_INF_NAN f <? b3) with false by lia. cbn [orb].
    eexists. split; [reflexivity|]. split.
    - intros _. split; [exact Fz|].
      rewrite !(is_nan_mk f W), !(is_inf_mk f W), !(is_zero_mk f W), !(is_finite_mk f W), !sign_of_mk by (assumption || lia).
      split; [intros [K|[K|K]]; [exfalso; lia|exfalso; lia|exact K]|]. do 2 (split; [intros; exfalso; lia|]). split; [reflexivity|]. intros _ _ K. exfalso. first [lia|apply is_finite_mk in K; [lia|assumption|assumption]].
    - intros _ _ K. rewrite (is_finite_mk f W) in K by assumption. lia. }
  (* z zero *)
  { assert (l = 0) as -> by lia. unfold fma_round. destruct (NZ s n Hn) as (a1 & b1 & -> & A1 & A2). destruct (NZ t m Hm) as (a2 & b2 & -> & B1 & B2). destruct (NZ w 0 Hl) as (a3 & b3 & -> & C1 & C2). cbn [bind].
    replace (ZERO_INF_NAN f <=? b1) with false by lia. replace (ZERO_INF_NAN f <=? b2) with false by lia. replace (ZERO_INF_NAN f <=? b3) with true by lia. replace (ZERO_INF_NAN f <? b3) with true by lia. cbn [orb].
    eexists. split; [reflexivity|]. destruct (ops_mul f o O _ _ Fx Fy) as [RF (_ & _ & _ & RM)]. specialize (RM ltac:(apply is_finite_mk; assumption || lia) ltac:(apply is_finite_mk; assumption || lia)).
    assert (rounds_to f (xorb s t && w) (value f (mk s n) * value f (mk t m) + value f (mk w 0)) (o_mul o (mk s n) (mk t m))) as RT.
    { assert (value f (mk w 0) = 0%R) as ->. { rewrite value_mk by (assumption || lia). rewrite (mag_0 f W). destruct w; ring. }
      rewrite Rplus_0_r. apply (rounds_ext f _ _ _ _ _ RM); [reflexivity|reflexivity|]. intros K. exfalso. rewrite !value_mk in K by (assumption || lia).
      assert (0 < mag n /\ 0 < mag m)%R as (G1 & G2) by (split; apply (mag_pos f W); lia). assert (0 < mag n * mag m)%R by (apply Rmult_lt_0_compat; assumption). destruct s, t; lra. }
    split.
    - intros _. split; [exact RF|].
      rewrite !(is_nan_mk f W), !(is_inf_mk f W), !(is_zero_mk f W), !(is_finite_mk f W), !sign_of_mk by (assumption || lia).
      do 4 (split; [intros; exfalso; lia|]). intros; exact RT.
    - intros _ _ _. eexists. rewrite !sign_of_mk by assumption. split; [exact RT|]. apply NEAR. reflexivity. }
  (* a special factor *)
  all: assert (SPC : (n = 0 \/ inf f <= n) \/ (m = 0 \/ inf f <= m)) by lia.
  all: unfold fma_round; destruct (NZ s n Hn) as (a1 & b1 & -> & A1 & A2); destruct (NZ t m Hm) as (a2 & b2 & -> & B1 & B2); destruct (NZ w l Hl) as (a3 & b3 & -> & _ & _); cbn [bind];
    replace ((ZERO_INF_NAN f <=? b1) || (ZERO_INF_NAN f <=? b2)) with true by lia.
  all: eexists; (split; [reflexivity|]); clear a1 b1 a2 b2 a3 b3 A1 A2 B1 B2.
  all: clear n0 NZ; try clear n1; try clear m0; try clear m1.
  all: revert SPC; apply special_ok; assumption.
Qed.
End P.
