(** Proofs about the fused multiply-add: normalisation, alignment, addition. *)
From Coq Require Import ZArith Reals Bool Lia Lra Psatz.
From Flocq Require Import Core.
From Verif Require Import Base BaseLemmas FloatModel FloatSpec FloatConvSpec FloatProofs FloatProofs2 FloatProofs3 FloatProofs6 FloatConvProofs FloatLib LibmModel LibmSpec LibmProofs LibmProofs2 LibmProofs3 LibmProofs4 LibmProofs5 LibmProofs6 RemModel RemProofs3 FmaModel FmaSpec FmaProofs FmaProofs2.
Open Scope Z_scope.

Lemma cell_in h X Y k : (IZR k * bp h <= X < IZR (k + 1) * bp h)%R -> (IZR k * bp h <= Y < IZR (k + 1) * bp h)%R -> (X = IZR k * bp h <-> Y = IZR k * bp h)%R -> cell h X Y.
Proof.
  intros HX HY E. destruct (Req_dec X (IZR k * bp h)) as [e|e].
  - rewrite e. rewrite (proj1 E e). apply cell_refl.
  - apply (cell_between h X Y k); [lra|]. assert (Y <> IZR k * bp h)%R by tauto. lra.
Qed.
Lemma stkr_0 M : 0 <= M -> stkr M 0 = M.
Proof. intros. unfold stkr. change (2 ^ 0) with 1. rewrite Z.div_1_r, Z.mod_1_r. cbn. apply Z.lor_0_r. Qed.
Lemma stkr_small M s : 0 < M < 2 ^ s -> stkr M s = 1.
Proof. intros. unfold stkr. rewrite Z.div_small, Z.mod_small by lia. destruct (Z.eqb_spec M 0); [lia|]. reflexivity. Qed.
Lemma stkr_even_step R s k : 0 <= s -> 0 <= k -> k * 2 ^ (s + 1) <= R < (k + 1) * 2 ^ (s + 1) -> 2 * k <= stkr R s < 2 * (k + 1).
Proof.
  intros Hs Hk H. pose proof (pow2_pos s Hs). rewrite Z.pow_add_r in H by lia. change (2 ^ 1) with 2 in H.
  assert (2 * k <= R / 2 ^ s) by (apply Z.div_le_lower_bound; lia). assert (R / 2 ^ s < 2 * (k + 1)) by (apply Z.div_lt_upper_bound; lia).
  unfold stkr. rewrite lor_b2z by lia. pose proof (Z.mod_pos_bound (R / 2 ^ s) 2). pose proof (Z.div_mod (R / 2 ^ s) 2).
  destruct (negb _); lia.
Qed.

Section P.
Context (f : fmt) (W : wf f) (WL : fs f + 3 <= bias f) (WS : 16 < fb f -> 3 * fs f + 6 <= bias f) (WB : fb f <= 16 -> bias f = 15 /\ fs f = 10) (WI : fb f <= bias f).
Context (o : fops) (O : ieee_ops f o) (conv : Z -> Z) (IC : int_conv f conv).
Notation S := (2 ^ fs f).
Notation B := (2 ^ (fb f - 1)).
Notation u := (bpow radix2 (emin f)).
Notation mk s n := (b2z s * B + n).
Notation mag n := (IZR (V f n) * u)%R.
Notation p2 := (p2 f).
Notation b := (fb f).
Notation T := (2 ^ fb f).

Lemma ZIN_eq : ZERO_INF_NAN f = bias f - fs f.
Proof using W WL WS WB WI. unfold ZERO_INF_NAN, EXP_UNBIAS. rewrite EXP_SAT_eq, EXP_BIAS_eq, <- bias_eq by assumption. pose proof (eb_bias f W). lia. Qed.
Lemma UNB_eq : EXP_UNBIAS f = bias f + fs f + 1.
Proof using W WL WS WB WI. unfold EXP_UNBIAS. rewrite EXP_BIAS_eq, <- bias_eq by assumption. lia. Qed.
Lemma bias_le : bias f <= 2 ^ 20.
Proof using W WL WS WB WI. pose proof (eb_bias f W). pose proof (EB_big f W). lia. Qed.
Lemma sig_of s n : 0 <= n < B -> Z.lor (Z.land (mk s n) (SIG_MASK f)) (IMPLICIT_BIT f) = S + n mod S.
Proof using W WL WS WB WI.
  intros Hn. pose proof (S_pos f W). rewrite frac_of by assumption. rewrite IMPLICIT_BIT_eq by assumption. rewrite <- (Z.mul_1_l S) at 2.
  rewrite lor_add_low; [lia|destruct W; lia|apply Z.mod_pos_bound; lia].
Qed.

Lemma norm_pos s n : 0 < n < inf f -> exists m e, norm_float f o (mk s n) = Ok (2 * m, e, s) /\ S <= m < 2 * S /\ mag n = (IZR m * bp (e + 1))%R /\ - 2 ^ 22 <= e < ZERO_INF_NAN f.
Proof using W WL WS WB WI O.
  intros Hn. pose proof (fs10 f W) as F10. pose proof (eb5 f W) as E5. pose proof (b_eq f W) as BE. pose proof (b128 f W) as B128. pose proof (inf_pos f W) as IP. pose proof (S_pos f W) as SP. pose proof bias_le as BL. pose proof (inf_eq f W) as IE. pose proof (eb_bias f W) as EBB. pose proof (fb_big f W) as FBB.
  assert (ST : 4 * S < T). { change 4 with (2 ^ 2). rewrite <- pow2_add by lia. apply pow2_lt; lia. }
  assert (forall n' e', 0 <= n' < B -> 1 <= n' / S -> mag n' = (mag n * bp e')%R -> n' < inf f -> - 2 ^ 20 <= n' / S - e' < 2 ^ eb f - 1 -> 
    exists m e, (let* e := csub (SI 32) (n' / S - e') (EXP_UNBIAS f) in let* m := cshl (fI f) (Z.lor (Z.land (mk s n') (SIG_MASK f)) (IMPLICIT_BIT f)) 1 in Ok (m, e, s)) = Ok (2 * m, e, s) /\ S <= m < 2 * S /\ mag n = (IZR m * bp (e + 1))%R /\ - 2 ^ 22 <= e < ZERO_INF_NAN f) as K.
  { intros n' e' Hn' He M Hinf Hr. pose proof (Z.mod_pos_bound n' S SP) as MB. pose proof (Z.div_mod n' S ltac:(lia)) as DM.
    rewrite ZIN_eq, UNB_eq. unfold csub. rewrite chk_s32 by lia. cbn [bind]. rewrite sig_of by assumption. unfold fI. rewrite cshl_u_exact by lia. cbn [bind].
    exists (S + n' mod S), (n' / S - e' - (bias f + fs f + 1)). split; [do 3 f_equal; lia|]. split; [lia|]. split; [|lia].
    assert (mag n' = IZR (S + n' mod S) * bp (n' / S - bias f - fs f))%R as M'.
    { rewrite <- (mag_enc f W) by lia. f_equal. f_equal. f_equal. unfold enc. lia. }
    apply Rmult_eq_reg_r with (bp e'); [|apply Rgt_not_eq, bpow_gt_0]. rewrite <- M, M', Rmult_assoc, <- bpow_plus. do 2 f_equal. lia. }
  unfold norm_float. rewrite ex_mk, sign_negative_mk by (assumption || lia). pose proof (div_range f W n ltac:(lia)) as DR.
  destruct (Z.eqb_spec (n / S) 0) as [Z0|Z0].
  - rewrite EXP_BIAS_eq, <- bias_eq by assumption. rewrite cadd_u by lia. cbn [bind]. replace (b - 1 + bias f) with (bias f + (b - 1)) by lia. rewrite (from_parts_ok f W) by lia. cbn [bind].
    assert (n < S). { apply Z.div_small_iff in Z0; lia. }
    assert (mag n = IZR n * u)%R as Mn. { replace n with (enc f 1 n) at 1 by (unfold enc; lia). rewrite V_enc by (assumption || lia). rewrite Z.mul_1_r. reflexivity. }
    assert (1 <= IZR n)%R by (apply IZR_le; lia). assert (IZR n <= bp (fs f))%R by (rewrite <- (IZR_pow (fs f)) by lia; apply IZR_le; lia).
    assert (bp (1 - bias f) <= mag n * bp (b - 1) < bp (emax f))%R as [L1 L2].
    { rewrite Mn, Rmult_assoc, <- bpow_plus. pose proof (bpow_gt_0 radix2 (emin f + (b - 1))). split.
      - apply Rle_trans with (bp (emin f + (b - 1))); [apply bpow_le; unfold emin; lia|]. rewrite <- (Rmult_1_l (bp (emin f + (b - 1)))) at 1. apply Rmult_le_compat_r; lra.
      - apply Rle_lt_trans with (bp (fs f) * bp (emin f + (b - 1)))%R; [apply Rmult_le_compat_r; lra|]. rewrite <- bpow_plus. apply bpow_lt. unfold emin, emax. lia. }
    destruct (scale_exact f W n (b - 1) ltac:(lia) L2 ltac:(left; lia)) as (m' & Hm' & Mm').
    assert (o_mul o (mk s n) (mk false (p2 (b - 1))) = mk s m') as ->.
    { apply (op_exact f W s _ _ s m' (mul_p2 f W o O s n (b - 1) ltac:(lia) ltac:(lia))); [rewrite Mm'; reflexivity|lia|reflexivity]. }
    rewrite ex_mk by (assumption || lia).
    assert (S <= m') as Sm.
    { destruct (Z_lt_ge_dec m' S) as [L|L]; [|lia]. exfalso. rewrite <- Mm' in L1. assert (mag m' < bp (1 - bias f))%R; [|lra].
      replace m' with (enc f 1 m') by (unfold enc; lia). rewrite V_enc by (assumption || lia). rewrite Z.mul_1_r. replace (1 - bias f) with (fs f + emin f) by (unfold emin; lia). rewrite bpow_plus, <- (IZR_pow (fs f)) by lia. apply Rmult_lt_compat_r; [apply bpow_gt_0|]. apply IZR_lt. lia. }
    assert (1 <= m' / S) by (apply Z.div_le_lower_bound; lia). replace (m' / S =? 0) with false by lia.
    pose proof (div_range f W m' ltac:(lia)) as DR'. assert (m' / S < 2 ^ eb f - 1) by (apply Z.div_lt_upper_bound; lia).
    unfold csub at 1. rewrite chk_s32 by lia. cbn [bind]. apply K; assumption || lia.
  - cbn [bind]. replace (n / S) with (n / S - 0) by lia. apply K; try lia. + cbn [bpow]. ring. + assert (n / S < 2 ^ eb f - 1) by (apply Z.div_lt_upper_bound; lia). lia.
Qed.

Lemma norm_special s n : n = 0 \/ inf f <= n -> 0 <= n < B -> exists m e, norm_float f o (mk s n) = Ok (m, e, s) /\ ZERO_INF_NAN f <= e /\ (ZERO_INF_NAN f < e <-> n = 0).
Proof using W WL WS WB WI O.
  intros Hn HB. pose proof (fs10 f W) as F10. pose proof (eb5 f W) as E5. pose proof (b_eq f W) as BE. pose proof (b128 f W) as B128. pose proof (inf_pos f W) as IP. pose proof (S_pos f W) as SP. pose proof bias_le as BL. pose proof (inf_eq f W) as IE. pose proof (eb_bias f W) as EBB. pose proof (EB_big f W).
  unfold norm_float. rewrite ex_mk, sign_negative_mk by (assumption || lia). rewrite ZIN_eq, UNB_eq.
  destruct Hn as [->|Hn].
  - rewrite Z.div_0_l by lia. cbn [Z.eqb]. rewrite EXP_BIAS_eq, <- bias_eq by assumption. rewrite cadd_u by lia. cbn [bind]. replace (b - 1 + bias f) with (bias f + (b - 1)) by lia. rewrite (from_parts_ok f W) by lia. cbn [bind].
    assert (o_mul o (mk s 0) (mk false (p2 (b - 1))) = mk s 0) as ->.
    { apply (op_exact f W s _ _ s 0 (mul_p2 f W o O s 0 (b - 1) ltac:(lia) ltac:(lia))); [rewrite (mag_0 f W); destruct s; ring|lia|reflexivity]. }
    rewrite ex_mk by (assumption || lia). rewrite Z.div_0_l by lia. cbn [Z.eqb]. rewrite EXP_BITS_eq by assumption.
    rewrite cshl_ok by (rewrite bits_s; lia). rewrite Z.mul_1_l. rewrite norm_s32 by lia. cbn [bind]. unfold csub. rewrite chk_s32 by lia. cbn [bind]. rewrite cshl_ok by (unfold fI; rewrite bits_u; lia). cbn [bind]. do 2 eexists. split; [reflexivity|]. lia.
  - assert (n / S = 2 ^ eb f - 1) as ->. { apply (div_inf f W); lia. }
    replace (2 ^ eb f - 1 =? 0) with false by lia. cbn [bind]. unfold csub. rewrite chk_s32 by lia. cbn [bind]. rewrite cshl_ok by (unfold fI; rewrite bits_u; lia). cbn [bind]. do 2 eexists. split; [reflexivity|]. lia.
Qed.

(** ** Alignment *)
Definition agree (X : R) (R : Z) : Prop := X = IZR R \/ exists h, 1 <= h /\ cell h X (IZR R) /\ 2 ^ (h + fs f + 1) <= Z.abs R /\ T <= Z.abs R.

Lemma align_ok mx my mz e ze : S <= mx < 2 * S -> S <= my < 2 * S -> S <= mz < 2 * S -> - 2 ^ 24 <= e <= 2 ^ 24 -> - 2 ^ 24 <= ze <= 2 ^ 24 ->
  let P := 4 * (mx * my) in let d := ze - e - b in
  exists rlo rhi zlo zhi e', fma_align f (P mod T) (P / T) e (2 * mz) ze = Ok (rlo, rhi, zlo, zhi, e') /\
    0 <= rlo < T /\ 0 <= zlo < T /\ 0 <= rhi /\ 0 <= zhi /\ - 2 ^ 25 <= e' <= 2 ^ 25 /\
    let r := rlo + T * rhi in let z := zlo + T * zhi in
    r + z < 2 ^ (2 * b - 2) /\ T <= r + z /\
    exists Xr, (forall sub : bool, agree (if sub then Xr - IZR (2 * mz) * bp (ze - e') else Xr + IZR (2 * mz) * bp (ze - e')) (if sub then r - z else r + z)) /\
      (Xr = (IZR P * bp (e - e'))%R \/
       (0 < d < b /\ P mod 2 ^ d <> 0 /\ (P / 2 ^ d) mod 2 ^ d = 0) /\ e' = ze - b /\ T <= Z.abs (r - z) /\ (Rabs (Xr - IZR P * bp (e - e')) <= 1)%R).
Proof using W WL WS WB WI.
  intros Hx Hy Hz He Hze P d. pose proof (fs10 f W) as F10. pose proof (eb5 f W) as E5. pose proof (b_eq f W) as BE. pose proof (b128 f W) as B128. pose proof (S_pos f W) as SP.
  assert (EF : eb f <= fs f) by (destruct W; lia).
  assert (ST : 4 * S < T). { change 4 with (2 ^ 2). rewrite <- pow2_add by lia. apply pow2_lt; lia. }
  assert (HP : 2 ^ (2 * fs f + 2) <= P < 2 ^ (2 * fs f + 4)).
  { replace (2 ^ (2 * fs f + 4)) with (16 * (S * S)) by (replace (2 * fs f + 4) with (4 + (fs f + fs f)) by lia; rewrite !pow2_add by lia; ring).
    replace (2 ^ (2 * fs f + 2)) with (4 * (S * S)) by (replace (2 * fs f + 2) with (2 + (fs f + fs f)) by lia; rewrite !pow2_add by lia; ring).
    assert (S * S <= mx * my) by (apply Z.mul_le_mono_nonneg; lia). assert (mx * my < (2 * S) * (2 * S)) by (apply Z.mul_lt_mono_nonneg; lia). unfold P. lia. }
  assert (TP : 0 < T) by lia. assert (TB : T <= 2 ^ (2 * fs f + 1)) by (apply pow2_le; lia).
  assert (Q1 : 2 ^ (2 * fs f + 2) = 2 * 2 ^ (2 * fs f + 1)) by (rewrite pow2_S by lia; do 2 f_equal; lia).
  assert (Q2 : 2 ^ (2 * fs f + 4) = 8 * 2 ^ (2 * fs f + 1)) by (replace (2 * fs f + 4) with (3 + (2 * fs f + 1)) by lia; rewrite pow2_add by lia; reflexivity).
  assert (Q3 : 2 ^ (2 * b - 2) = 2 ^ (eb f - 2) * 2 ^ (b + fs f + 1)) by (rewrite <- pow2_add by lia; f_equal; lia).
  assert (Q4 : 2 ^ (b + fs f + 1) = 2 * (T * S)) by (replace (b + fs f + 1) with (1 + (b + fs f)) by lia; rewrite !pow2_add by lia; reflexivity).
  assert (Q5 : 32 * 2 ^ (2 * fs f + 1) <= T * S). { rewrite <- pow2_add by lia. change 32 with (2 ^ 5). rewrite <- pow2_add by lia. apply pow2_le. lia. }
  assert (Q6 : 8 <= 2 ^ (eb f - 2)) by (change 8 with (2 ^ 3); apply pow2_le; lia).
  assert (Q7 : S * 2 <= 2 ^ (2 * fs f + 1)) by (change (S * 2) with (S * 2 ^ 1); rewrite <- pow2_add by lia; apply pow2_le; lia).
  assert (DMP : P mod T + T * (P / T) = P) by (pose proof (Z.div_mod P T); lia). pose proof (Z.mod_pos_bound P T TP) as MBP. assert (0 <= P / T) by (apply Z.div_pos; lia).
  set (U := 2 ^ (2 * fs f + 1)) in *. set (TS := T * S) in *. set (Eb := 2 ^ (eb f - 2)) in *.
  assert (SUM : forall r z, 0 <= r <= 8 * U -> 0 <= z <= 4 * TS -> r + z < 2 ^ (2 * b - 2)). { intros r z Hr Hz'. rewrite Q3, Q4. assert (8 * (2 * TS) <= Eb * (2 * TS)) by (apply Z.mul_le_mono_nonneg_r; lia). lia. }
  unfold fma_align. unfold csub at 1. rewrite chk_s32 by lia. cbn [bind]. fold (fI f). unfold fI.
  destruct (Z.ltb_spec 0 (ze - e)) as [D|D].
  - destruct (Z.ltb_spec (ze - e) b) as [D2|D2].
    + (* z shifted left, exact *)
      rewrite cshl_ok, cshr_ok by (rewrite bits_u; lia). cbn [bind]. rewrite norm_u.
      set (D' := ze - e) in *. pose proof (pow2_pos D' ltac:(lia)) as PD. 
      assert (Ez : (2 * mz * 2 ^ D') mod T + T * (2 * mz / 2 ^ (b - D')) = 2 * mz * 2 ^ D').
      { replace (2 * mz / 2 ^ (b - D')) with ((2 * mz * 2 ^ D') / T). - pose proof (Z.div_mod (2 * mz * 2 ^ D') T). lia.
        - replace T with (2 ^ (b - D') * 2 ^ D') by (rewrite <- pow2_add by lia; f_equal; lia). apply Z.div_mul_cancel_r; [apply Z.pow_nonzero; lia|lia]. }
      do 5 eexists. split; [reflexivity|]. split; [exact MBP|]. split; [apply Z.mod_pos_bound; lia|]. split; [lia|]. split; [apply Z.div_pos; [lia|apply pow2_pos; lia]|]. split; [lia|].
      cbv zeta. rewrite DMP, Ez. assert (HzT : 0 <= 2 * mz * 2 ^ D' <= 4 * TS). { assert (2 ^ D' <= T) by (apply pow2_le; lia). split; [apply Z.mul_nonneg_nonneg; lia|]. unfold TS. replace (4 * (T * S)) with (4 * S * T) by ring. apply Z.mul_le_mono_nonneg; lia. }
      split; [apply SUM; lia|]. split; [lia|].
      exists (IZR P). split; [|left; rewrite Z.sub_diag; cbn [bpow]; ring].
      intros sub. left. fold D'. rewrite <- IZR_pow, <- mult_IZR by lia. destruct sub; symmetry; [apply minus_IZR|apply plus_IZR].
    + assert (D3 : 0 <= d) by (unfold d; lia). unfold csub. rewrite !chk_s32 by lia. cbn [bind]. replace (ze - e - b) with d by reflexivity.
      assert (EZ : (IZR (2 * mz) * bp (ze - (ze - b)) = IZR (0 + T * (2 * mz)))%R). { rewrite Z.add_0_l, (mult_IZR T), (IZR_pow b) by lia. replace (ze - (ze - b)) with b by lia. ring. }
      assert (HzT : 2 * TS <= 0 + T * (2 * mz) <= 4 * TS). { unfold TS. rewrite Z.add_0_l. replace (2 * (T * S)) with (T * (2 * S)) by ring. replace (4 * (T * S)) with (T * (4 * S)) by ring. split; apply Z.mul_le_mono_nonneg_l; lia. }
      destruct (Z.eqb_spec d 0) as [d0|d0].
      * do 5 eexists. split; [reflexivity|]. split; [exact MBP|]. split; [lia|]. split; [lia|]. split; [lia|]. split; [lia|].
        cbv zeta. rewrite DMP. split; [apply SUM; lia|]. split; [lia|]. exists (IZR P). split.
        -- intros sub. left. rewrite EZ. destruct sub; symmetry; [apply minus_IZR|apply plus_IZR].
        -- left. replace (e - (ze - b)) with 0 by (unfold d in d0; lia). cbn [bpow]. ring.
      * (* both sides of a shifted product: multiples of T on the z side *)
        assert (TSB : TS = 2 ^ (b + fs f)) by (unfold TS; rewrite <- pow2_add by lia; reflexivity).
        assert (CELLS : forall h X r, 1 <= h < b -> 0 <= r <= 8 * U -> cell h X (IZR r) -> forall sub : bool, agree (if sub then X - IZR (2 * mz) * bp (ze - (ze - b)) else X + IZR (2 * mz) * bp (ze - (ze - b))) (if sub then r - (0 + T * (2 * mz)) else r + (0 + T * (2 * mz)))).
        { intros h X r Hh Hr C sub. right. exists h. split; [lia|]. rewrite EZ. set (zz := 0 + T * (2 * mz)) in *.
          assert (IZR zz = IZR (2 ^ (b - h) * (2 * mz)) * bp h)%R as Ezz. { rewrite <- (IZR_pow h), <- mult_IZR by lia. f_equal. unfold zz. replace T with (2 ^ (b - h) * 2 ^ h) by (rewrite <- pow2_add by lia; f_equal; lia). ring. }
          split; [|split].
          - destruct sub.
            + rewrite (minus_IZR r zz), Ezz. unfold Rminus. rewrite !Ropp_mult_distr_l, <- opp_IZR. apply cell_add, C.
            + rewrite (plus_IZR r zz), Ezz. apply cell_add, C.
          - assert (2 ^ (h + fs f + 1) <= TS) by (rewrite TSB; apply pow2_le; lia). destruct sub; lia.
          - assert (T <= TS) by (rewrite TSB; apply pow2_le; lia). destruct sub; lia. }
        destruct (Z.ltb_spec d b) as [D4|D4].
        -- rewrite (cshl_ok (UI b) (P / T)), !cshr_ok by (rewrite bits_u; lia). cbn [bind]. rewrite norm_u.
           pose proof (pow2_pos d ltac:(lia)) as Pd.
           assert (TD : T = 2 ^ (b - d) * 2 ^ d) by (rewrite <- pow2_add by lia; f_equal; lia).
           set (r0 := P / 2 ^ d).
           assert (R0 : P = r0 * 2 ^ d + P mod 2 ^ d) by (pose proof (Z.div_mod P (2 ^ d)); unfold r0; lia). pose proof (Z.mod_pos_bound P (2 ^ d) Pd) as MBd.
           assert (0 <= r0 <= 4 * U) as Hr0. { split; [apply Z.div_pos; lia|]. apply Z.div_le_upper_bound; [lia|]. assert (2 ^ 1 <= 2 ^ d) by (apply pow2_le; lia). change (2 ^ 1) with 2 in *. assert (2 * (4 * U) <= 2 ^ d * (4 * U)) by (apply Z.mul_le_mono_nonneg_r; lia). lia. }
           assert (HI : P / T / 2 ^ d = r0 / T). { unfold r0. rewrite !Z.div_div by lia. f_equal. ring. }
           assert (LO : Z.lor ((P / T * 2 ^ (b - d)) mod T) (P mod T / 2 ^ d) = r0 mod T).
           { assert (P mod T / 2 ^ d < 2 ^ (b - d)) by (apply Z.div_lt_upper_bound; [lia|]; rewrite <- pow2_add by lia; replace (d + (b - d)) with b by lia; lia).
             assert (0 <= P mod T / 2 ^ d) by (apply Z.div_pos; lia).
             assert ((P / T * 2 ^ (b - d)) mod T = (P / T) mod 2 ^ d * 2 ^ (b - d)) as ->. { rewrite TD at 2. rewrite (Z.mul_comm (2 ^ (b - d)) (2 ^ d)). rewrite Z.mul_mod_distr_r by (apply Z.pow_nonzero; lia). reflexivity. }
             rewrite Z.lor_comm, lor_add_low by lia.
             pose proof (Z.mod_pos_bound (P / T) (2 ^ d) Pd) as MB1. set (q := P / T) in *. pose proof (Z.div_mod q (2 ^ d) ltac:(lia)) as DQ.
             pose proof (Z.div_mod (P mod T) (2 ^ d) ltac:(lia)) as DL. pose proof (Z.mod_pos_bound (P mod T) (2 ^ d) Pd) as MB2.
             set (x1 := P mod T / 2 ^ d) in *. set (q1 := q mod 2 ^ d) in *. set (q2 := q / 2 ^ d) in *. set (T' := 2 ^ (b - d)) in *. set (w := P mod T mod 2 ^ d) in *. set (D2' := 2 ^ d) in *.
             assert (T' * D2' = T) as TD' by (symmetry; exact TD).
             assert (0 < T') by (apply pow2_pos; lia). apply Z.mod_unique with (q := q2). { left. assert (q1 * T' <= (D2' - 1) * T') by (apply Z.mul_le_mono_nonneg_r; lia). assert (0 <= q1 * T') by (apply Z.mul_nonneg_nonneg; lia). assert ((D2' - 1) * T' = T - T') by (rewrite <- TD'; ring). lia. }
             unfold r0. symmetry. apply Z.div_unique with (r := w); [left; exact MB2|]. rewrite <- DMP, DL. rewrite DQ. rewrite <- TD'. ring. }
           rewrite LO, HI. rewrite cshl_ok by (rewrite bits_u; lia). cbn [bind]. rewrite norm_u.
           assert ((r0 mod T * 2 ^ (b - d)) mod T = (r0 mod 2 ^ d) * 2 ^ (b - d)) as ->.
           { rewrite TD at 2. rewrite (Z.mul_comm (2 ^ (b - d)) (2 ^ d)). rewrite Z.mul_mod_distr_r by (apply Z.pow_nonzero; lia). f_equal. symmetry. apply Znumtheory.Zmod_div_mod; [lia|lia|]. exists (2 ^ (b - d)). exact TD. }
           assert ((r0 mod 2 ^ d * 2 ^ (b - d) =? 0) = (r0 mod 2 ^ d =? 0)) as ->. { pose proof (pow2_pos (b - d) ltac:(lia)). destruct (Z.eqb_spec (r0 mod 2 ^ d) 0) as [->|K]; [reflexivity|]. apply Z.eqb_neq. intros E. apply Z.mul_eq_0 in E. lia. }
           set (st := negb (r0 mod 2 ^ d =? 0)). set (r := Z.lor r0 (b2z st)).
           assert (TE : (T / 2) * 2 = T) by (rewrite (pow2_S b) by lia; rewrite (Z.mul_comm 2), Z.div_mul by lia; reflexivity).
           assert (RLO : Z.lor (r0 mod T) (b2z st) + T * (r0 / T) = r /\ 0 <= Z.lor (r0 mod T) (b2z st) < T).
           { pose proof (Z.mod_pos_bound r0 T TP) as MT. pose proof (Z.div_mod r0 T ltac:(lia)) as DT. unfold r. rewrite !lor_b2z by lia. destruct st; [|lia].
             assert ((r0 mod T) mod 2 = r0 mod 2) as -> by (symmetry; apply Znumtheory.Zmod_div_mod; [lia|lia|exists (T / 2); lia]).
             split; [lia|]. pose proof (Z.mod_pos_bound r0 2 ltac:(lia)).
             assert ((r0 mod T) mod 2 = r0 mod 2) as E2 by (symmetry; apply Znumtheory.Zmod_div_mod; [lia|lia|exists (T / 2); lia]). pose proof (Z.div_mod (r0 mod T) 2 ltac:(lia)). lia. }
           destruct RLO as [RL1 RL2].
           assert (Hrr : 0 <= r <= r0 + 1) by (unfold r; rewrite lor_b2z by lia; pose proof (Z.mod_pos_bound r0 2 ltac:(lia)); destruct st; lia).
           do 5 eexists. split; [reflexivity|]. split; [exact RL2|]. split; [lia|]. split; [apply Z.div_pos; lia|]. split; [lia|]. split; [lia|].
           cbv zeta. rewrite RL1. split; [apply SUM; lia|]. split; [lia|].
           replace (e - (ze - b)) with (- d) by (unfold d; lia).
           assert (XP : (IZR P * bp (- d) = IZR r0 + IZR (P mod 2 ^ d) * bp (- d))%R). { rewrite R0 at 1. rewrite plus_IZR, mult_IZR, IZR_pow, Rmult_plus_distr_r, Rmult_assoc, <- bpow_plus by lia. replace (d + - d) with 0 by lia. cbn [bpow]. ring. }
           assert (XB : (0 <= IZR (P mod 2 ^ d) * bp (- d) < 1)%R). { pose proof (bpow_gt_0 radix2 (- d)). split; [apply Rmult_le_pos; [apply IZR_le; lia|lra]|]. replace 1%R with (IZR (2 ^ d) * bp (- d))%R by (rewrite IZR_pow by lia; rewrite <- bpow_plus; replace (d + - d) with 0 by lia; reflexivity). apply Rmult_lt_compat_r; [assumption|]. apply IZR_lt. lia. }
           destruct (Z.eq_dec (r0 mod 2 ^ d) 0) as [K0|K0].
           ++ assert (r = r0) as Er by (unfold r, st; rewrite K0; cbn; apply Z.lor_0_r). exists (IZR r0). split.
              ** intros sub. left. rewrite EZ, Er. destruct sub; symmetry; [apply minus_IZR|apply plus_IZR].
              ** destruct (Z.eq_dec (P mod 2 ^ d) 0) as [K1|K1].
                 --- left. rewrite XP, K1. ring.
                 --- right. split; [split; [lia|split; assumption]|]. split; [reflexivity|]. split.
                     +++ assert (T <= TS) by (rewrite TSB; apply pow2_le; lia). lia.
                     +++ rewrite XP. apply Rabs_le. lra.
           ++ exists (IZR P * bp (- d))%R. split; [|left; reflexivity]. apply (CELLS d); [lia|lia|].
              assert (st = true) as St by (unfold st; destruct (Z.eqb_spec (r0 mod 2 ^ d) 0); [contradiction|reflexivity]).
              pose proof (Z.mod_pos_bound r0 (2 ^ d) Pd) as MB0. pose proof (Z.div_mod r0 (2 ^ d) ltac:(lia)) as D0. set (k := r0 / 2 ^ d) in *.
              assert (r < 2 ^ d * (k + 1)) as Rk. { unfold r. rewrite St, lor_b2z by lia. assert (2 ^ d = 2 * 2 ^ (d - 1)) as E2 by (rewrite pow2_S by lia; f_equal; lia). pose proof (Z.mod_pos_bound r0 2 ltac:(lia)). pose proof (Z.div_mod r0 2 ltac:(lia)). rewrite E2 in *. set (w := 2 ^ (d - 1)) in *. assert (2 * w * (k + 1) = 2 * (w * (k + 1))) by ring. lia. }
              assert (r0 <= r) as Rl by (unfold r; rewrite lor_b2z by lia; pose proof (Z.mod_pos_bound r0 2 ltac:(lia)); destruct st; lia).
              apply (cell_between d _ _ k).
              ** rewrite <- (IZR_pow d), <- !mult_IZR by lia. rewrite XP. assert (IZR (k * 2 ^ d) + 1 <= IZR r0)%R by (rewrite <- plus_IZR; apply IZR_le; lia). assert (IZR r0 + 1 <= IZR ((k + 1) * 2 ^ d))%R by (rewrite <- plus_IZR; apply IZR_le; lia). lra.
              ** rewrite <- (IZR_pow d), <- !mult_IZR by lia. split; apply IZR_lt; lia.
        -- do 5 eexists. split; [reflexivity|]. split; [lia|]. split; [lia|]. split; [lia|]. split; [lia|]. split; [lia|].
           cbv zeta. replace (1 + T * 0) with 1 by lia. split; [apply SUM; lia|]. split; [lia|].
           replace (e - (ze - b)) with (- d) by (unfold d; lia).
           exists (IZR P * bp (- d))%R. split; [|left; reflexivity]. apply (CELLS (b - 1)); [lia|lia|].
           apply (cell_between (b - 1) _ _ 0).
           ++ pose proof (bpow_gt_0 radix2 (- d)). rewrite Rmult_0_l. rewrite Z.add_0_l, Rmult_1_l. split; [apply Rmult_lt_0_compat; [apply IZR_lt; lia|assumption]|].
              apply Rlt_le_trans with (bp (2 * fs f + 4) * bp (- d))%R; [apply Rmult_lt_compat_r; [assumption|]; rewrite <- IZR_pow by lia; apply IZR_lt; lia|]. rewrite <- bpow_plus. apply bpow_le. lia.
           ++ rewrite Rmult_0_l, Z.add_0_l, Rmult_1_l. split; [lra|]. change 1%R with (bp 0). apply bpow_lt. lia.
  - (* z shifted right with a sticky bit *)
    unfold cneg. rewrite chk_s32 by lia. cbn [bind]. set (D' := - (ze - e)) in *.
    assert (exists zlo, (if D' =? 0 then Ok (P mod T, P / T, 2 * mz, 0, e) else if D' <? b then
      let* t := cshl (UI b) (2 * mz) (b - D') in let* b0 := cshr (UI b) (2 * mz) D' in Ok (P mod T, P / T, Z.lor b0 (b2z (negb (t =? 0))), 0, e)
      else Ok (P mod T, P / T, 1, 0, e)) = Ok (P mod T, P / T, zlo, 0, e) /\ zlo = stkr (2 * mz) D') as (zlo & EQ & Ez).
    { destruct (Z.eqb_spec D' 0) as [E0|E0]; [eexists; split; [reflexivity|]; rewrite E0, stkr_0 by lia; reflexivity|].
      destruct (Z.ltb_spec D' b) as [L|L].
      - rewrite cshl_ok, cshr_ok by (rewrite bits_u; lia). cbn [bind]. rewrite norm_u. eexists. split; [reflexivity|]. unfold stkr. do 3 f_equal.
        assert (T = 2 ^ D' * 2 ^ (b - D')) as -> by (rewrite <- pow2_add by lia; f_equal; lia). rewrite Z.mul_mod_distr_r by (apply Z.pow_nonzero; lia).
        pose proof (pow2_pos (b - D') ltac:(lia)). destruct (Z.eqb_spec (2 * mz mod 2 ^ D') 0) as [->|K]; [reflexivity|]. apply Z.eqb_neq. intros E. apply Z.mul_eq_0 in E. lia.
      - eexists. split; [reflexivity|]. symmetry. apply stkr_small. assert (T <= 2 ^ D') by (apply pow2_le; lia). lia. }
    rewrite EQ. assert (0 <= zlo <= 4 * S) as Hzl.
    { rewrite Ez. pose proof (stkr_pos (2 * mz) D' ltac:(lia) ltac:(lia)). pose proof (pow2_pos D' ltac:(lia)). assert (0 <= 2 * mz / 2 ^ D' <= 2 * mz) by (split; [apply Z.div_pos; lia|apply Z.div_le_upper_bound; [lia|]; rewrite <- (Z.mul_1_l (2 * mz)) at 1; apply Z.mul_le_mono_nonneg_r; lia]). lia. }
    do 5 eexists. split; [reflexivity|]. split; [exact MBP|]. split; [lia|]. split; [lia|]. split; [lia|]. split; [lia|].
    cbv zeta. rewrite DMP. replace (zlo + T * 0) with zlo by lia.
    assert (U <= P - zlo) as HS by lia.
    split; [apply SUM; lia|]. split; [lia|].
    exists (IZR P). split; [|left; rewrite Z.sub_diag; cbn [bpow]; ring].
    intros sub. right. exists 1. split; [lia|]. replace (ze - e) with (- D') by (unfold D'; lia).
    pose proof (cell_stkr (2 * mz) D' ltac:(lia) ltac:(lia)) as C. rewrite <- Ez in C.
    assert (IZR P = IZR (2 * (mx * my)) * bp 1)%R as EP by (rewrite <- (IZR_pow 1), <- mult_IZR by lia; f_equal; unfold P; change (2 ^ 1) with 2; ring).
    assert (2 ^ (1 + fs f + 1) <= U) by (apply pow2_le; lia).
    split; [|destruct sub; lia].
    destruct sub; [rewrite minus_IZR|rewrite plus_IZR]; rewrite EP.
    + unfold Rminus. rewrite !(Rplus_comm (IZR (2 * (mx * my)) * bp 1)). apply cell_add, cell_opp, C.
    + rewrite !(Rplus_comm (IZR (2 * (mx * my)) * bp 1)). apply cell_add, C.
Qed.
End P.
