(** Correctness of addition, continued (no modelling here). *)
From Coq Require Import ZArith Reals Bool Lia Lra Psatz.
From Flocq Require Import Core.
From Verif Require Import Base BaseLemmas FloatModel FloatSpec FloatProofs FloatProofs2 FloatProofs3.
Open Scope Z_scope.

Lemma norm_order S ma mb ea eb : 0 < S -> S <= ma < 2 * S -> S <= mb < 2 * S -> 0 <= ea -> 0 <= eb ->
  mb * 2 ^ eb <= ma * 2 ^ ea -> eb <= ea /\ (ea = eb -> mb <= ma).
Proof.
  intros HS Ha Hb Ea Eb H. pose proof (pow2_pos ea Ea). split.
  - destruct (Z_le_gt_dec eb ea); [assumption|]. exfalso.
    pose proof (pow2_le (1 + ea) eb ltac:(lia)) as P. rewrite pow2_add in P by lia. change (2 ^ 1) with 2 in P.
    pose proof (Z.mul_le_mono_nonneg S mb (2 * 2 ^ ea) (2 ^ eb) ltac:(lia) ltac:(lia) ltac:(lia) P).
    pose proof (Z.mul_lt_mono_pos_r (2 ^ ea) ma (2 * S) ltac:(lia)). lia.
  - intros <-. apply Z.mul_le_mono_pos_r with (2 ^ ea); lia.
Qed.

Section Fmt.
Context (f : fmt) (W : wf f).
Notation S := (2 ^ fs f).
Notation B := (2 ^ (fb f - 1)).
Notation u := (bpow radix2 (emin f)).

Lemma unpack_int n m e : 1 - fs f <= e -> IZR (V f n) = (IZR m * bpow radix2 (e - 1))%R -> V f n * S = m * 2 ^ (e - 1 + fs f).
Proof using W.
  intros He H. pose proof (wf_s f W). apply eq_IZR. rewrite !mult_IZR, H, !(IZR_Zpower radix2) by lia.
  rewrite Rmult_assoc, <- bpow_plus. reflexivity.
Qed.

Lemma rmag_exact n : 0 <= n < inf f -> rmag f (IZR (V f n) * u) n.
Proof using W.
  intros H. split; [lia|]. split; [|lia]. intros _.
  destruct (enc_dec f W n H) as (E & q & -> & HE & Hq & Hn).
  rewrite V_enc by (assumption || lia). rewrite mult_IZR, (IZR_Zpower radix2) by lia.
  rewrite Rmult_assoc, <- bpow_plus.
  rewrite rne_scaled; [|assumption|lia| |].
  - do 2 f_equal. apply Zrnd_IZR. auto with typeclass_instances.
  - split; [apply IZR_le; lia|apply IZR_lt; lia].
  - destruct Hn; [tauto|right; apply IZR_le; assumption].
Qed.

Lemma stk_add sg a A D M : 0 < D -> a mod 2 = 0 -> stk 0 A D M -> sg = 1 \/ sg = -1 -> stk 0 (a * D + sg * A) D (a + sg * M).
Proof using.
  intros HD Ha H Hs. unfold stk in *. change (2 ^ (0 + 1)) with 2 in *. change (2 ^ 0) with 1 in *.
  destruct H as [H|[H1 H2]]; [left; nia|right]. split.
  - pose proof (Z.div_mod a 2 ltac:(lia)). pose proof (Z.div_mod M 2 ltac:(lia)).
    destruct Hs as [-> | ->].
    + replace (a + 1 * M) with (1 + (a / 2 + M / 2) * 2) by lia. rewrite Z.mod_add by lia. reflexivity.
    + replace (a + -1 * M) with (1 + (a / 2 - M / 2 - 1) * 2) by lia. rewrite Z.mod_add by lia. reflexivity.
  - destruct Hs as [-> | ->]; lia.
Qed.

Lemma add_align_ok mb al : S <= mb < 2 * S -> 0 <= al -> exists Mb, add_align f (8 * mb) al = Ok Mb /\
  stk 0 (8 * mb) (2 ^ al) Mb /\ 0 <= Mb < 16 * S /\ (al = 0 -> Mb = 8 * mb) /\ (1 <= al -> Mb < 8 * S) /\ (2 <= al -> Mb < 4 * S) /\
  (al <= 1 -> Mb * 2 ^ al = 8 * mb).
Proof using W.
  intros Hm Hal. pose proof (wf_s f W). pose proof (wf_b f W). pose proof (wf_e f W). pose proof (S_pos f W). pose proof (S_big f W). pose proof (EB_big f W). pose proof (B_eq f W). pose proof (fb_eq f W).
  assert (16 * S < 2 ^ fb f) by nia.
  unfold add_align. destruct (Z.eqb_spec al 0) as [->|]; cbn [negb].
  - exists (8 * mb). change (2 ^ 0) with 1. split; [reflexivity|]. unfold stk. lia.
  - destruct (Z.ltb_spec al (fb f)).
    + rewrite shr_sticky_ok by (assumption || lia). eexists. split; [reflexivity|].
      assert (stk 0 (8 * mb) (2 ^ al) (stkr (8 * mb) al)) as St.
      { replace (2 ^ al) with (2 ^ al * 1) by lia. apply stk_shr with (k := 0); try lia. left. lia. }
      split; [exact St|].
      pose proof (pow2_S al ltac:(lia)) as P. pose proof (pow2_pos (al - 1) ltac:(lia)).
      assert (0 <= stkr (8 * mb) al < 2 * (4 * S)) by (apply stkr_bound; [lia|nia]).
      split; [lia|]. split; [lia|]. split; [lia|]. split.
      * intros. pose proof (pow2_S (al - 1) ltac:(lia)) as P2. pose proof (pow2_pos (al - 1 - 1) ltac:(lia)).
        assert (0 <= stkr (8 * mb) al < 2 * (2 * S)) by (apply stkr_bound; [lia|nia]). lia.
      * intros. assert (al = 1) as -> by lia. unfold stkr. change (2 ^ 1) with 2.
        replace (8 * mb) with (4 * mb * 2) by lia. rewrite Z.mod_mul, Z.div_mul by lia. cbn [Z.eqb negb b2z]. rewrite Z.lor_0_r. lia.
    + exists 1. split; [reflexivity|]. pose proof (pow2_le (fb f) al).
      split; [|lia]. right. change (2 ^ (0 + 1)) with 2. change (2 ^ 0) with 1. split; [reflexivity|]. lia.
Qed.

Lemma X_eq (va vb : R) sg ma mb ea eb : eb <= ea -> 
  va = (IZR ma * bpow radix2 (ea - 1))%R -> vb = (IZR mb * bpow radix2 (eb - 1))%R ->
  (va + IZR sg * vb = IZR (8 * ma * 2 ^ (ea - eb) + sg * (8 * mb)) / IZR (8 * 2 ^ (ea - eb)) * bpow radix2 (ea - 1))%R.
Proof using.
  intros He -> ->. rewrite plus_IZR, !mult_IZR, (IZR_Zpower radix2) by lia.
  replace (eb - 1) with (- (ea - eb) + (ea - 1)) by lia. rewrite bpow_plus, bpow_opp.
  pose proof (bpow_gt_0 radix2 (ea - eb)). field. lra.
Qed.

Lemma add_main_ok s t n m : 0 < m <= n -> n < inf f ->
  let X := IZR (V f n + (if Bool.eqb s t then V f m else - V f m)) in
  exists r, add_main f (b2z s * B + n) (b2z t * B + m) = Ok (if Req_bool X 0 then 0 else b2z s * B + r) /\ rmag f (X * u) r.
Proof using W.
  intros Hm Hn. cbv zeta.
  pose proof (wf_s f W) as w1. pose proof (wf_b f W) as w2. pose proof (wf_e f W) as w3. pose proof (S_pos f W) as w4. pose proof (S_big f W) as w5. pose proof (EB_big f W) as w6. pose proof (B_eq f W) as w7. pose proof (fb_eq f W) as w8. pose proof (inf_pos f W) as w9.
  pose proof (fb_big f W) as (F1 & F2 & F3). change (2 ^ 8) with 256 in F3. change (2 ^ 16) with 65536 in F2.
  assert (32 * S < 2 ^ fb f) as F4 by nia.
  destruct (add_unpack_ok f W s n ltac:(lia)) as (ea & ma0 & Ua & Hma & Hea & Va).
  destruct (add_unpack_ok f W t m ltac:(lia)) as (eb & mb0 & Ub & Hmb & Heb & Vb).
  pose proof (V_mono f W m n ltac:(lia)) as Vmn. pose proof (V_pos f W m ltac:(lia)) as Vm0.
  unfold add_main. rewrite Ua, Ub. cbn [bind].
  set (ma := Z.lor ma0 (IMPLICIT_BIT f)) in *. set (mb := Z.lor mb0 (IMPLICIT_BIT f)) in *. clearbody ma mb. clear Ua Ub ma0 mb0.
  assert (eb <= ea /\ (ea = eb -> mb <= ma)) as (Hab & Hab0).
  { pose proof (unpack_int n ma ea ltac:(lia) Va) as Ia. pose proof (unpack_int m mb eb ltac:(lia) Vb) as Ib.
    destruct (norm_order S ma mb (ea - 1 + fs f) (eb - 1 + fs f)); try lia.
    rewrite <- Ia, <- Ib. apply Z.mul_le_mono_nonneg_r; lia. }
  rewrite lxor_mk by lia. rewrite (sgn_of f W s) by (assumption || lia).
  rewrite (sgn_of f W (xorb s t)) by (try assumption; apply lxor_small; lia).
  rewrite IMPLICIT_BIT_eq by assumption. unfold fI at 1 2.
  rewrite !cshl_u_exact by (change (2 ^ 3) with 8; change (2 ^ 4) with 16; lia). cbn [bind]. change (2 ^ 3) with 8. change (2 ^ 4) with 16.
  rewrite (Z.mul_comm ma 8), (Z.mul_comm mb 8).
  unfold wrapping_sub at 1. rewrite norm_s32 by (change (2 ^ 31) with 2147483648; lia).
  unfold ccast. unfold fI at 1. rewrite chk_u by lia. cbn [bind].
  destruct (add_align_ok mb (ea - eb) Hmb ltac:(lia)) as (Mb & -> & St & HMb & Hal0 & Hal1 & Hal2 & Hex). cbn [bind].
  pose proof (pow2_pos (ea - eb) ltac:(lia)) as PD.
  assert ((8 * ma) mod 2 = 0) as Even by (replace (8 * ma) with (4 * ma * 2) by lia; apply Z.mod_mul; lia).
  replace (negb (b2z (xorb s t) * B =? 0)) with (negb (Bool.eqb s t)).
  2:{ destruct s, t; cbn [xorb b2z Bool.eqb negb]; rewrite ?Z.mul_0_l, ?Z.mul_1_l; try reflexivity; symmetry; apply negb_true_iff, Z.eqb_neq; lia. }
  destruct (Bool.eqb s t); cbn [negb].
  - (* addition *)
    assert (Req_bool (IZR (V f n + V f m)) 0 = false) as Nz.
    { apply Req_bool_false. apply not_0_IZR. lia. }
    rewrite Nz. pose proof (stk_add 1 (8 * ma) (8 * mb) (2 ^ (ea - eb)) Mb PD Even St ltac:(lia)) as SM.
    pose proof (X_eq _ _ 1 ma mb ea eb Hab Va Vb) as XE.
    rewrite plus_IZR. replace (IZR (V f m)) with (1 * IZR (V f m))%R by ring. rewrite XE.
    unfold fI at 1. rewrite cadd_u by lia. cbn [bind].
    rewrite !Z.mul_1_l in *. set (M := 8 * ma + Mb) in *. set (A := 8 * ma * 2 ^ (ea - eb) + 8 * mb) in *. clearbody A.
    assert (8 * S <= M < 32 * S) as HM by lia. clearbody M. 
    unfold fI at 1. rewrite cshl_u_exact by (change (2 ^ 4) with 16; lia). cbn [bind].
    replace (S * 2 ^ 4) with (2 ^ (fs f + 4)) by (rewrite pow2_add by lia; reflexivity).
    assert (2 ^ (fs f + 4) = 16 * S) as P4 by (rewrite pow2_add by lia; change (2 ^ 4) with 16; lia).
    rewrite land_top by lia. rewrite P4. destruct (Z.ltb_spec M (16 * S)); cbn [negb].
    + apply (add_finish_ok f W s ea 0 A _ M); try assumption; change (2 ^ 16) with 65536; lia.
    + unfold fI at 1. rewrite cshr_ok by (cbn [bits UI]; lia). cbn [bind].
      unfold cadd. rewrite chk_s32 by (change (2 ^ 31) with 2147483648; lia). cbn [bind].
      replace (Z.lor (M / 2 ^ 1) (b2z (negb (Z.land M 1 =? 0)))) with (stkr M 1) by (unfold stkr; rewrite land_1; reflexivity).
      pose proof (stk_shr 0 A _ M 1 ltac:(lia) ltac:(lia) PD ltac:(lia) SM) as SM'.
      assert (0 <= stkr M 1 < 2 * (8 * S)) as HB1 by (apply stkr_bound; [lia|change (2 ^ 1) with 2; lia]).
      assert (8 * S <= stkr M 1) as HB2.
      { assert (8 * S <= M / 2) by (apply Z.div_le_lower_bound; lia). unfold stkr. change (2 ^ 1) with 2. rewrite lor_b2z by lia.
        pose proof (Z.mod_pos_bound (M / 2) 2 ltac:(lia)). destruct (M mod 2 =? 0); cbn [negb]; lia. }
      destruct (add_finish_ok f W s (ea + 1) 0 A (2 ^ 1 * 2 ^ (ea - eb)) (stkr M 1)) as (r & -> & Hr); [lia|change (2 ^ 1) with 2; lia|assumption|lia|change (2 ^ 16) with 65536; lia|].
      exists r. split; [reflexivity|].
      replace (IZR A / IZR (8 * 2 ^ (ea - eb)) * bpow radix2 (ea - 1) * u)%R
        with (IZR A / IZR (8 * (2 ^ 1 * 2 ^ (ea - eb))) * bpow radix2 (ea + 1 - 1) * u)%R; [exact Hr|].
      f_equal. replace (ea + 1 - 1) with (1 + (ea - 1)) by lia. rewrite bpow_plus. change (bpow radix2 1) with 2%R.
      replace (8 * (2 ^ 1 * 2 ^ (ea - eb))) with (2 * (8 * 2 ^ (ea - eb))) by (change (2 ^ 1) with 2; ring). rewrite (mult_IZR 2).
      assert (IZR (8 * 2 ^ (ea - eb)) <> 0)%R by (apply not_0_IZR; lia). field. assumption.
  - (* subtraction *)
    pose proof (stk_add (-1) (8 * ma) (8 * mb) (2 ^ (ea - eb)) Mb PD Even St ltac:(lia)) as SM.
    pose proof (X_eq _ _ (-1) ma mb ea eb Hab Va Vb) as XE.
    rewrite plus_IZR, opp_IZR. replace (- IZR (V f m))%R with (-1 * IZR (V f m))%R by ring.
    unfold wrapping_sub. assert (norm (fI f) (8 * ma - Mb) = 8 * ma - Mb) as ->.
    { apply norm_u_id. destruct (Z.eq_dec ea eb) as [e|e]; [rewrite Hal0 by lia; specialize (Hab0 e)|]; lia. }
    replace (8 * ma + -1 * Mb) with (8 * ma - Mb) in SM by lia.
    assert (0 <= 8 * ma - Mb < 16 * S) as HM.
    { destruct (Z.eq_dec ea eb) as [e|e]; [rewrite Hal0 by lia; specialize (Hab0 e)|]; lia. }
    assert (2 <= ea - eb -> 4 * S < 8 * ma - Mb) as HM2 by lia.
    assert (ea - eb <= 1 -> (8 * ma - Mb) * 2 ^ (ea - eb) = 8 * ma * 2 ^ (ea - eb) + -1 * (8 * mb)) as HM1.
    { intros. rewrite <- Hex by lia. ring. }
    assert (IZR (V f n) + -1 * IZR (V f m) = IZR (V f n - V f m))%R as XZ by (rewrite minus_IZR; ring).
    set (M := 8 * ma - Mb) in *. set (A := 8 * ma * 2 ^ (ea - eb) + -1 * (8 * mb)) in *. set (D := 2 ^ (ea - eb)) in *.
    clearbody A M.
    destruct (Z.eqb_spec M 0) as [M0|M0].
    + assert (A = 0) as A0.
      { destruct SM as [SM|[SM _]]; [subst M; lia|]. subst M. discriminate SM. }
      rewrite XE. rewrite A0. exists 0. rewrite Req_bool_true by (unfold Rdiv; ring). split; [reflexivity|].
      replace (0 / IZR (8 * D) * bpow radix2 (ea - 1) * u)%R with (0 * u)%R by (unfold Rdiv; ring). apply pack_tiny; [assumption|lra|lra].
    + assert (1 <= V f n - V f m) as X1.
      { destruct (Z.eq_dec (V f n) (V f m)) as [e|]; [|lia]. exfalso.
        rewrite XZ in XE. rewrite e, Z.sub_diag in XE.
        assert (IZR A = 0)%R as A0.
        { apply (Rmult_eq_reg_r (/ IZR (8 * D))).
          - apply Rmult_eq_reg_r with (bpow radix2 (ea - 1)); [|pose proof (bpow_gt_0 radix2 (ea - 1)); lra].
            unfold Rdiv in XE. rewrite <- XE. ring.
          - apply Rinv_neq_0_compat. apply not_0_IZR. lia. }
        apply eq_IZR in A0. subst A. clear - PD M0 HM SM. destruct SM as [SM|[SM1 SM2]]; [apply Z.mul_eq_0 in SM; lia|].
        change (2 ^ 0) with 1 in SM2. nia. }
      rewrite (Req_bool_false (_ + _) 0) by (rewrite XZ; apply not_0_IZR; lia).
      unfold fI at 1. rewrite cshl_u_exact by (change (2 ^ 3) with 8; lia). cbn [bind]. change (2 ^ 3) with 8.
      destruct (Z.ltb_spec M (S * 8)) as [LT|GE].
      2:{ rewrite XE. apply (add_finish_ok f W s ea 0 A _ M); try assumption; change (2 ^ 16) with 65536; lia. }
      assert (nlz (fb f) (S * 8) = fb f - 4 - fs f) as ->.
      { apply nlz_unique; [|lia]. replace (fb f - 1 - (fb f - 4 - fs f)) with (fs f + 3) by lia.
        replace (fb f - (fb f - 4 - fs f)) with (fs f + 4) by lia. rewrite !pow2_add by lia. change (2 ^ 3) with 8; change (2 ^ 4) with 16. lia. }
      destruct (nlz_spec (fb f) M ltac:(lia)) as (z1 & z2). set (z := nlz (fb f) M) in *. clearbody z.
      assert (fb f - 1 - z < fs f + 3) as z3.
      { apply (Z.pow_lt_mono_r_iff 2); [lia|lia|]. rewrite (pow2_add (fs f) 3) by lia. change (2 ^ 3) with 8. lia. }
      rewrite !norm_s32 by (change (2 ^ 31) with 2147483648; lia).
      unfold csub. rewrite chk_s32 by (change (2 ^ 31) with 2147483648; lia). cbn [bind].
      set (h := z - (fb f - 4 - fs f)).
      assert (1 <= h <= fs f + 3) as Hh by (unfold h; lia).
      pose proof (pow2_pos h ltac:(lia)) as Ph.
      assert (8 * S = 2 ^ (fb f - 1 - z) * 2 ^ h) as E1.
      { rewrite <- pow2_add by lia. replace (fb f - 1 - z + h) with (3 + fs f) by (unfold h; lia). rewrite pow2_add by lia. reflexivity. }
      assert (16 * S = 2 ^ (fb f - z) * 2 ^ h) as E2.
      { rewrite <- pow2_add by lia. replace (fb f - z + h) with (4 + fs f) by (unfold h; lia). rewrite pow2_add by lia. reflexivity. }
      assert (8 * S <= M * 2 ^ h < 16 * S) as HM'.
      { rewrite E1, E2. split; [apply Z.mul_le_mono_nonneg_r|apply Z.mul_lt_mono_pos_r]; lia. }
      clear E1 E2. clearbody h.
      unfold fI at 1. rewrite cshl_u_exact by lia. cbn [bind].
      rewrite chk_s32 by (change (2 ^ 31) with 2147483648; lia). cbn [bind].
      assert (exists k, 0 <= k <= 1 /\ stk k (A * 2 ^ h) D (M * 2 ^ h)) as (k & Hk & SM').
      { destruct (Z_le_gt_dec (ea - eb) 1) as [L|G].
        - exists 0. split; [lia|]. left. rewrite <- HM1 by lia. ring.
        - assert (h = 1) as ->.
          { destruct (Z.eq_dec h 1); [assumption|]. exfalso. specialize (HM2 ltac:(lia)).
            pose proof (pow2_le 2 h ltac:(lia)) as P2. change (2 ^ 2) with 4 in P2. 
            pose proof (Z.mul_le_mono_nonneg M M 4 (2 ^ h)). lia. }
          exists 1. split; [lia|]. change (2 ^ 1) with 2. destruct SM as [SM|[SM1 SM2]]; [left; rewrite <- SM; ring|right].
          change (2 ^ (1 + 1)) with (2 * 2). change (2 ^ 1) with 2. change (2 ^ (0 + 1)) with 2 in SM1. change (2 ^ 0) with 1 in *. split; [|lia].
          rewrite Z.mul_mod_distr_r by lia. rewrite SM1. reflexivity. }
      assert (IZR (V f n) + -1 * IZR (V f m) = IZR (A * 2 ^ h) / IZR (8 * D) * bpow radix2 (ea - h - 1))%R as XE'.
      { rewrite XE. rewrite (mult_IZR A), (IZR_Zpower radix2) by lia.
        replace (ea - 1) with (h + (ea - h - 1)) by lia. rewrite bpow_plus. unfold Rdiv. ring. }
      assert (1 - fs f <= ea - h) as Low.
      { destruct (stk_round k (A * 2 ^ h) D (M * 2 ^ h) 3 ltac:(lia) ltac:(lia) SM') as (_ & _ & Hc). change (2 ^ 3) with 8 in Hc.
        pose proof (proj2 (Hc (2 * S)) ltac:(lia)) as Up.
        assert (1 <= IZR (V f n) + -1 * IZR (V f m))%R as X1' by (rewrite XZ; apply IZR_le; lia).
        rewrite XE' in X1'.
        assert (IZR (A * 2 ^ h) / IZR (8 * D) < bpow radix2 (1 + fs f))%R as Up'.
        { assert (0 < IZR (8 * D))%R by (apply IZR_lt; lia).
          apply Rmult_lt_reg_r with (IZR (8 * D)); [assumption|]. unfold Rdiv. rewrite Rmult_assoc, Rinv_l, Rmult_1_r by lra.
          rewrite <- (IZR_Zpower radix2), <- mult_IZR by lia. apply IZR_lt. change (Zaux.radix_val radix2) with 2. rewrite pow2_add by lia. change (2 ^ 1) with 2. lia. }
        assert (bpow radix2 0 < bpow radix2 (1 + fs f + (ea - h - 1)))%R as Lt.
        { change (bpow radix2 0) with 1%R. rewrite bpow_plus. apply Rle_lt_trans with (1 := X1'). apply Rmult_lt_compat_r; [apply bpow_gt_0|assumption]. }
        apply lt_bpow in Lt. lia. }
      rewrite XE'. apply (add_finish_ok f W s (ea - h) k); try assumption; change (2 ^ 16) with 65536 in *; lia.
Qed.
End Fmt.
