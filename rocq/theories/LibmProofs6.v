(** Libm: scalbn (C36). *)
From Coq Require Import ZArith Reals Bool Lia Lra.
From Flocq Require Import Core.
From Verif Require Import Base BaseLemmas FloatModel FloatSpec FloatConvSpec FloatConvModel FloatProofs FloatProofs2 FloatProofs3 FloatProofs4 FloatProofs5 FloatProofs7 FloatConvProofs FloatLib LibmModel LibmSpec LibmProofs LibmProofs2 LibmProofs3 LibmProofs4.
Open Scope Z_scope.

Lemma std_ws f : std f -> 16 < fb f -> 3 * fs f + 6 <= bias f.
Proof. intros [->|[->|[->| ->]]]; cbv; intros; congruence. Qed.

Section Fmt.
Context (f : fmt) (W : wf f) (WL : fs f + 3 <= bias f) (WS : 16 < fb f -> 3 * fs f + 6 <= bias f) (WB : fb f <= 16 -> bias f = 15 /\ fs f = 10).
Notation S := (2 ^ fs f).
Notation B := (2 ^ (fb f - 1)).
Notation u := (bpow radix2 (emin f)).
Notation mk s n := (b2z s * B + n).
Notation mag n := (IZR (V f n) * u)%R.
Notation p2 := (p2 f).
Context (o : fops) (O : ieee_ops f o).

(** The control flow, for a predicate preserved by the steps. *)
Lemma scalbn_path (P : Z -> Z -> Prop) x n : - 2 ^ 31 <= n < 2 ^ 31 -> P x n ->
  (forall x' n', P x' n' -> bias f < n' -> P (o_mul o x' (mk false (p2 (bias f)))) (n' - bias f)) ->
  (forall x' n' k, P x' n' -> n' < 1 - bias f -> 1 - bias f <= k < 0 -> n' - k <= - fs f - 1 -> P (o_mul o x' (mk false (p2 k))) (n' - k)) ->
  (forall x' n', P x' n' -> n' = n - 2 * bias f -> bias f < n' -> P x' (bias f)) ->
  (forall x' n', P x' n' -> n' < 1 - bias f -> emax f + (n - n') + (1 - bias f) <= emin f - 1 -> P x' (1 - bias f)) ->
  exists x' n', scalbn f o x n = Ok (o_mul o x' (mk false (p2 n'))) /\ P x' n' /\ 1 - bias f <= n' <= bias f.
Proof using W WL WS WB O.
  intros Hn P0 Pu Pd Cu Cd. pose proof (bias_range f W) as (Hb & Eb & _). pose proof (bias_pos f W) as Bp. rewrite <- Eb in Hb.
  assert (10 <= fs f <= 128) as FS by (destruct W; lia).
  unfold scalbn, EXP_MIN, EXP_MAX. rewrite <- Eb. rewrite cshl_u_exact by lia. cbn [bind]. change (2 ^ 1) with 2.
  replace (bias f * 2) with (bias f + bias f) by lia. rewrite (from_parts_ok f W (bias f)) by lia. cbn [bind].
  assert (from_parts f false 1 0 = Ok (mk false (p2 (1 - bias f)))) as -> by (rewrite <- (from_parts_ok f W (1 - bias f)) by lia; f_equal; lia). cbn [bind].
  rewrite cadd_u by lia. cbn [bind]. replace (fs f + 1 + bias f) with (bias f + (fs f + 1)) by lia. rewrite (from_parts_ok f W (fs f + 1)) by lia. cbn [bind].
  (* the last multiplication *)
  assert (forall x' n', P x' n' -> 1 - bias f <= n' <= bias f -> exists x'' n'',
    (let* b := cadd (SI 32) (bias f) n' in let* scale := from_parts f false (norm (UI 32) b) 0 in Ok (o_mul o x' scale)) = Ok (o_mul o x'' (mk false (p2 n''))) /\ P x'' n'' /\ 1 - bias f <= n'' <= bias f) as Fin.
  { intros x' n' Px Hn'. exists x', n'. unfold cadd. rewrite chk_s32 by lia. cbn [bind]. rewrite norm_u_id by lia. rewrite (from_parts_ok f W n') by lia. cbn [bind]. tauto. }
  destruct (Z.ltb_spec (bias f) n) as [Hu|Hu].
  - unfold assert. destruct (Z.leb_spec (- - (bias f - 1) + fs f + bias f) (bias f * 3)); [|lia]. cbn [bind].
    unfold csub. rewrite chk_s32 by lia. cbn [bind]. pose proof (Pu _ _ P0 Hu) as P1.
    destruct (Z.ltb_spec (bias f) (n - bias f)) as [H1|H1]; cbn [bind].
    + rewrite chk_s32 by lia. cbn [bind]. pose proof (Pu _ _ P1 H1) as P2. destruct (Z.ltb_spec (bias f) (n - bias f - bias f)) as [H2|H2].
      * apply Fin; [|lia]. apply (Cu _ _ P2); lia.
      * apply Fin; [exact P2|lia].
    + apply Fin; [exact P1|lia].
  - replace (- (bias f - 1)) with (1 - bias f) by lia. destruct (Z.ltb_spec n (1 - bias f)) as [Hl|Hl]; [|cbn [bind]; apply Fin; [exact P0|lia]].
    destruct (Z.ltb_spec 16 (fb f)) as [H16|H16].
    + specialize (WS H16).
      assert (o_mul o (mk false (p2 (1 - bias f))) (mk false (p2 (fs f + 1))) = mk false (p2 (fs f + 2 - bias f))) as ->.
      { destruct (fin_p2 f W false (1 - bias f) ltac:(lia)) as (B1 & B2 & B3 & B4). destruct (fin_p2 f W false (fs f + 1) ltac:(lia)) as (C1 & C2 & C3 & C4).
        destruct (ops_mul f o O _ _ B1 C1) as [_ (_ & _ & _ & R)]. specialize (R B2 C2).
        apply (op_exact f W _ _ _ false (p2 (fs f + 2 - bias f))) in R; [exact R|rewrite !(value_p2 f W), (mag_p2 f W), <- bpow_plus by lia; f_equal; lia|apply (p2_range f W); lia|rewrite B4, C4; reflexivity]. }
      unfold csub. rewrite chk_s32 by lia. cbn [bind]. unfold assert. destruct (Z.leb_spec (- (1 - bias f) + fs f + bias f) ((- (1 - bias f) - (fs f + 1)) * 2 + - (1 - bias f))); [|lia]. cbn [bind].
      unfold cadd at 1. rewrite chk_s32 by lia. cbn [bind].
      pose proof (Pd _ _ (fs f + 2 - bias f) P0 ltac:(lia) ltac:(lia) ltac:(lia)) as P1. replace (n - (fs f + 2 - bias f)) with (n + (- (1 - bias f) - (fs f + 1))) in P1 by lia.
      set (add := - (1 - bias f) - (fs f + 1)) in *.
      destruct (Z.ltb_spec (n + add) (1 - bias f)) as [H1|H1]; cbn [bind].
      * unfold cadd at 1. rewrite chk_s32 by lia. cbn [bind].
        pose proof (Pd _ _ (fs f + 2 - bias f) P1 ltac:(lia) ltac:(lia) ltac:(lia)) as P2. replace (n + add - (fs f + 2 - bias f)) with (n + add + add) in P2 by lia.
        destruct (Z.ltb_spec (n + add + add) (1 - bias f)) as [H2|H2].
        -- apply Fin; [|lia]. apply (Cd _ _ P2); unfold emax, emin; lia.
        -- apply Fin; [exact P2|lia].
      * apply Fin; [exact P1|lia].
    + destruct (WB H16) as [E15 E10]. unfold cadd at 1. rewrite chk_s32 by lia. cbn [bind]. unfold cneg at 1. rewrite chk_s32 by lia. cbn [bind].
      unfold csub at 1. rewrite chk_s32 by lia. cbn [bind]. rewrite norm_u_id by lia.
      set (k1 := Z.max (n + (fs f + 1)) (1 - bias f)). replace (bias f - - k1) with (bias f + k1) by lia. rewrite (from_parts_ok f W k1) by lia. cbn [bind].
      unfold cadd at 1. rewrite chk_s32 by lia. cbn [bind]. pose proof (Pd _ _ k1 P0 ltac:(lia) ltac:(lia) ltac:(lia)) as P1. replace (n - k1) with (n + - k1) in P1 by lia.
      destruct (Z.ltb_spec (n + - k1) (1 - bias f)) as [H1|H1]; cbn [bind]; [|apply Fin; [exact P1|lia]].
      unfold cadd at 1. rewrite chk_s32 by lia. cbn [bind]. unfold cneg at 1. rewrite chk_s32 by lia. cbn [bind].
      unfold csub at 1. rewrite chk_s32 by lia. cbn [bind]. rewrite norm_u_id by lia.
      set (k2 := Z.max (n + - k1 + (fs f + 1)) (1 - bias f)). replace (bias f - - k2) with (bias f + k2) by lia. rewrite (from_parts_ok f W k2) by lia. cbn [bind].
      unfold cadd at 1. rewrite chk_s32 by lia. cbn [bind]. pose proof (Pd _ _ k2 P1 ltac:(lia) ltac:(lia) ltac:(lia)) as P2. replace (n + - k1 - k2) with (n + - k1 + - k2) in P2 by lia.
      destruct (Z.ltb_spec (n + - k1 + - k2) (1 - bias f)) as [H2|H2]; cbn [bind].
      * apply Fin; [|lia]. apply (Cd _ _ P2); unfold emax, emin; lia.
      * apply Fin; [exact P2|lia].
Qed.

Lemma mul_p2 (s : bool) m k : 0 <= m < inf f -> 1 - bias f <= k <= bias f ->
  rounds_to f s (if s then - (mag m * bpow radix2 k) else mag m * bpow radix2 k)%R (o_mul o (mk s m) (mk false (p2 k))).
Proof using W O.
  clear WL WS WB.
  intros Hm Hk. pose proof (inf_pos f W). destruct (fin_p2 f W false k Hk) as (B1 & B2 & B3 & B4).
  assert (0 <= m < B) as HmB by lia.
  destruct (ops_mul f o O (mk s m) _ ltac:(apply is_float_mk; assumption) B1) as [_ (_ & _ & _ & R)].
  specialize (R ltac:(apply is_finite_mk; [assumption..|lia]) B2). rewrite B4, sign_of_mk, xorb_false_r, value_mk, (value_p2 f W) in R by assumption.
  replace (if s then - (mag m * bpow radix2 k) else mag m * bpow radix2 k)%R with ((if s then - mag m else mag m) * bpow radix2 k)%R by (destruct s; ring). exact R.
Qed.
Lemma mul_inf s k : 1 - bias f <= k <= bias f -> o_mul o (mk s (inf f)) (mk false (p2 k)) = mk s (inf f).
Proof using W O.
  clear WL WS WB.
  intros Hk. pose proof (inf_pos f W). pose proof (S_pos f W). destruct (fin_p2 f W false k Hk) as (B1 & B2 & B3 & B4). assert (0 <= inf f < B) as HB by lia.
  assert (is_float f (mk s (inf f))) as FI by (apply is_float_mk; assumption). assert (is_inf f (mk s (inf f))) as II by (apply is_inf_mk; [assumption..|reflexivity]).
  destruct (ops_mul f o O _ _ FI B1) as [Fr (_ & _ & R & _)].
  destruct R as [R1 R2]. { left. split; [exact II|]. split; [exact B3|]. apply finite_iff in B2; tauto. }
  apply (inf_unique f W); try assumption. rewrite R2, B4, sign_of_mk by assumption. apply xorb_false_r.
Qed.
Lemma rmag_tiny X : (0 <= X <= bpow radix2 (emin f - 1))%R -> rmag f X 0.
Proof using W.
  clear WL WS WB O.
  intros [H0 H1]. pose proof (EB_big f W). pose proof (S_big f W). pose proof (inf_pos f W). pose proof (S_pos f W). assert (bpow radix2 (emin f - 1) = / 2 * u)%R as E by (unfold Z.sub; rewrite bpow_plus, Rmult_comm; reflexivity).
  pose proof (bpow_gt_0 radix2 (emin f)) as UP. split; [lia|]. split; [|lia]. intros _. rewrite (mag_0 f W).
  apply Rle_antisym.
  - replace 0%R with (IZR (ZnearestE (/ 2)) * bpow radix2 (1 - 1 + emin f))%R.
    + rewrite <- (rne_scaled f W 1 (/ 2)); [|lia| |left; reflexivity]. { apply (rne_mono f W). replace (1 - 1 + emin f) with (emin f) by lia. lra. }
      split; [lra|]. assert (1 <= IZR (2 * S))%R by (apply IZR_le; lia). lra.
    + replace (/ 2)%R with (IZR 0 + / 2)%R by (cbn; lra). rewrite ZnearestE_tie_down by (exists 0; reflexivity). ring.
  - rewrite <- (rne_0 f). apply (rne_mono f W). exact H0.
Qed.
(** Scaling a finite value: exact when the result is in range. *)
Lemma scale_exact m k : 0 <= m < inf f -> (mag m * bpow radix2 k < bpow radix2 (emax f))%R -> (0 <= k \/ (bpow radix2 (1 - bias f) <= mag m * bpow radix2 k)%R) ->
  exists m', 0 <= m' < inf f /\ mag m' = (mag m * bpow radix2 k)%R.
Proof using W.
  clear WL WS WB O.
  intros Hm Hlt Hk. destruct (Z.eq_dec m 0) as [->|M0]. { exists 0. rewrite (mag_0 f W). split; [lia|ring]. }
  destruct (enc_dec f W m Hm) as (E & q & Em & HE & Hq & Hn). pose proof (S_pos f W) as SP.
  assert (mag m = IZR q * bpow radix2 (E - bias f - fs f))%R as MM. { rewrite Em at 1. apply (mag_enc f W); lia. }
  assert (mag m * bpow radix2 k = IZR q * bpow radix2 (E - bias f - fs f + k))%R as MK by (rewrite MM, Rmult_assoc, <- bpow_plus; reflexivity).
  assert (0 < q) as Q0. { assert (0 < mag m)%R as MP by (apply (mag_pos f W); lia). destruct (Z_lt_ge_dec 0 q); [assumption|]. replace q with 0 in MM by lia. rewrite Rmult_0_l in MM. lra. }
  destruct (dy_pattern f W q (E - bias f - fs f + k)) as (m' & Hm' & Mm').
  - lia.
  - unfold emin. destruct Hk as [Hk|Hk]; [lia|]. rewrite MK in Hk.
    assert (bpow radix2 (1 - bias f) < bpow radix2 (fs f + 1 + (E - bias f - fs f + k)))%R as L.
    { apply Rle_lt_trans with (1 := Hk). rewrite (bpow_plus radix2 (fs f + 1)). apply Rmult_lt_compat_r; [apply bpow_gt_0|]. rewrite bpow_plus, (bpow_S f W). change (bpow radix2 1) with 2%R. rewrite <- mult_IZR. apply IZR_lt. lia. }
    apply lt_bpow in L. destruct Hn as [->|Hn]; [|lia]. destruct (Z_lt_ge_dec q S) as [QS|QS]; [|lia].
    assert (bpow radix2 (1 - bias f) < bpow radix2 (fs f + (1 - bias f - fs f + k)))%R as L2.
    { apply Rle_lt_trans with (1 := Hk). rewrite (bpow_plus radix2 (fs f)). apply Rmult_lt_compat_r; [apply bpow_gt_0|]. rewrite (bpow_S f W). apply IZR_lt. lia. }
    apply lt_bpow in L2. lia.
  - rewrite MK in Hlt. pose proof (Z.log2_spec q Q0) as [L1 _]. pose proof (Z.log2_nonneg q).
    assert (bpow radix2 (Z.log2 q + (E - bias f - fs f + k)) < bpow radix2 (emax f))%R as L.
    { apply Rle_lt_trans with (2 := Hlt). rewrite (bpow_plus radix2 (Z.log2 q)). apply Rmult_le_compat_r; [apply bpow_ge_0|]. rewrite <- (IZR_Zpower radix2) by lia. apply IZR_le. exact L1. }
    apply lt_bpow in L. unfold emax in L. lia.
  - exists m'. split; [exact Hm'|]. rewrite Mm', MK. reflexivity.
Qed.
Lemma mag_lt_emax m : 0 <= m < inf f -> (mag m < bpow radix2 (emax f))%R.
Proof using W. clear WL WS WB O. intros. rewrite <- (V_inf f W). apply (mag_lt f W). lia. Qed.

Definition inv (s : bool) (X : R) (n x' n' : Z) : Prop :=
  (exists m, 0 <= m < inf f /\ x' = mk s m /\ (mag m * bpow radix2 n' = X * bpow radix2 n)%R) \/
  (x' = mk s (inf f) /\ (bpow radix2 (emax f) <= X * bpow radix2 n)%R) \/
  (exists m, 0 <= m < inf f /\ x' = mk s m /\ n' = bias f /\ (bpow radix2 (emax f) <= mag m * bpow radix2 n')%R /\ (bpow radix2 (emax f) <= X * bpow radix2 n)%R) \/
  (exists m, 0 <= m < inf f /\ x' = mk s m /\ (mag m <= bpow radix2 (1 - bias f))%R /\ n' <= - fs f - 1 /\ (X * bpow radix2 n <= bpow radix2 (emin f - 1))%R) \/
  (exists m, 0 <= m < inf f /\ x' = mk s m /\ n' = 1 - bias f /\ (mag m * bpow radix2 n' <= bpow radix2 (emin f - 1))%R /\ (X * bpow radix2 n <= bpow radix2 (emin f - 1))%R).

(** The only way to leave the finite range is an overflow. *)
Lemma inv_up s X n x' n' : inv s X n x' n' -> bias f < n' -> inv s X n (o_mul o x' (mk false (p2 (bias f)))) (n' - bias f).
Proof using W WL O.
  clear WS WB.
  intros I Hn'. pose proof (bias_pos f W) as Bp. destruct I as [(m & Hm & -> & E)|[(-> & E)|[(m & Hm & -> & EB & E1 & E2)|[(m & Hm & -> & E1 & E2 & E3)|(m & Hm & -> & EB & E1 & E2)]]]].
  - pose proof (mul_p2 s m (bias f) Hm ltac:(lia)) as R. pose proof (mag_nonneg f W m ltac:(lia)) as M0. pose proof (bpow_gt_0 radix2 (bias f)) as BP.
    assert (0 <= mag m * bpow radix2 (bias f))%R as MB by (apply Rmult_le_pos; lra).
    destruct (Rlt_le_dec (mag m * bpow radix2 (bias f)) (bpow radix2 (emax f))) as [L|L].
    + destruct (scale_exact m (bias f) Hm L ltac:(left; lia)) as (m' & Hm' & Mm'). left. exists m'. split; [exact Hm'|]. split.
      * apply (op_exact f W _ _ _ s m' R); [rewrite Mm'; reflexivity|exact Hm'|reflexivity].
      * rewrite Mm', Rmult_assoc, <- bpow_plus, <- E. do 2 f_equal. lia.
    + right; left. split.
      * apply (op_result f W _ _ _ s _ (inf f) R eq_refl MB); [apply (rmag_overflow f W); exact L|reflexivity].
      * rewrite <- E. apply Rle_trans with (1 := L). apply Rmult_le_compat_l; [exact M0|]. apply bpow_le. lia.
  - right; left. split; [apply mul_inf; lia|exact E].
  - lia.
  - assert (0 <= fs f) by (destruct W; lia). lia.
  - lia.
Qed.
(** Scaling down rounds to at most the original. *)
Lemma mul_down s m k : 0 <= m < inf f -> 1 - bias f <= k <= 0 -> exists m', 0 <= m' < inf f /\ o_mul o (mk s m) (mk false (p2 k)) = mk s m' /\ mag m' = rne f (mag m * bpow radix2 k) /\ (mag m' <= mag m)%R.
Proof using W O.
  clear WL WS WB.
  intros Hm Hk. pose proof (bias_pos f W) as Bp. pose proof (mul_p2 s m k Hm ltac:(lia)) as (R1 & R2 & R3). pose proof (mag_nonneg f W m ltac:(lia)) as M0. pose proof (bpow_gt_0 radix2 k) as BP.
  set (y := o_mul o (mk s m) (mk false (p2 k))) in *. set (Y := (mag m * bpow radix2 k)%R) in *.
  assert (0 <= Y <= mag m)%R as HY. { unfold Y. split; [apply Rmult_le_pos; lra|]. pose proof (bpow_le radix2 k 0 ltac:(lia)) as L. change (bpow radix2 0) with 1%R in L. pose proof (Rmult_le_compat_l _ _ _ M0 L). lra. }
  assert (0 <= rne f Y <= mag m)%R as HR. { split; [rewrite <- (rne_0 f)|rewrite <- (rne_mag f W m Hm)]; apply (rne_mono f W); lra. }
  pose proof (mag_lt_emax m Hm) as ME.
  assert (rne f (if s then - Y else Y) = if s then - rne f Y else rne f Y)%R as RE by (destruct s; [apply rne_opp|reflexivity]).
  rewrite RE in R3. rewrite Rlt_bool_true in R3. 2:{ destruct s; [rewrite Rabs_Ropp|]; rewrite Rabs_pos_eq; lra. }
  destruct (split_float f W y R1) as (t & m' & Ey & Hm'). destruct R3 as [Ny Vy]. rewrite Ey in Ny, Vy. rewrite is_finite_mk in Ny by assumption. rewrite value_mk in Vy by assumption.
  assert (t = s) as ->.
  { rewrite Ey, sign_of_mk in R2 by assumption. rewrite R2. destruct (Rle_lt_or_eq_dec 0 Y ltac:(lra)) as [YP|YZ].
    - destruct s; [rewrite Rcompare_Lt by lra|rewrite Rcompare_Gt by lra]; reflexivity.
    - rewrite Rcompare_Eq by (destruct s; lra). reflexivity. }
  exists m'. split; [lia|]. split; [exact Ey|]. assert (mag m' = rne f Y) as -> by (destruct s; lra). lra.
Qed.
Lemma inv_down s X n x' n' k : inv s X n x' n' -> n' < 1 - bias f -> 1 - bias f <= k < 0 -> n' - k <= - fs f - 1 -> inv s X n (o_mul o x' (mk false (p2 k))) (n' - k).
Proof using W WL O.
  clear WS WB.
  intros I Hnl Hk Hn'. pose proof (bias_pos f W) as Bp. assert (1 <= fs f) as FS by (destruct W; lia).
  destruct I as [(m & Hm & -> & E)|[(-> & E)|[(m & Hm & -> & EB & E1 & E2)|[(m & Hm & -> & E1 & E2 & E3)|(m & Hm & -> & EB & E1 & E2)]]]].
  - destruct (mul_down s m k Hm ltac:(lia)) as (m' & Hm' & Ey & Mm' & Le). pose proof (mag_nonneg f W m ltac:(lia)) as M0. pose proof (bpow_gt_0 radix2 k) as BP.
    assert (0 <= mag m * bpow radix2 k <= mag m)%R as HY. { split; [apply Rmult_le_pos; lra|]. pose proof (bpow_le radix2 k 0 ltac:(lia)) as L. change (bpow radix2 0) with 1%R in L. pose proof (Rmult_le_compat_l _ _ _ M0 L). lra. }
    pose proof (mag_lt_emax m Hm) as ME.
    destruct (Rlt_le_dec (mag m * bpow radix2 k) (bpow radix2 (1 - bias f))) as [L|L].
    + right; right; right; left. exists m'. split; [exact Hm'|]. split; [exact Ey|]. split; [|split; [lia|]].
      * rewrite Mm', <- (mag_p2 f W (1 - bias f)) by lia. rewrite <- (rne_mag f W (p2 (1 - bias f))) by (apply (p2_range f W); lia). apply (rne_mono f W). rewrite (mag_p2 f W) by lia. lra.
      * rewrite <- E. replace n' with (k + (n' - k)) by lia. rewrite bpow_plus, <- Rmult_assoc. replace (emin f - 1) with (1 - bias f + (- fs f - 1)) by (unfold emin; lia). rewrite bpow_plus.
        apply Rmult_le_compat; [lra|apply bpow_ge_0|lra|apply bpow_le; lia].
    + destruct (scale_exact m k Hm ltac:(lra) ltac:(right; exact L)) as (m2 & Hm2 & M2). left. exists m2. split; [exact Hm2|]. split.
      * pose proof (mul_p2 s m k Hm ltac:(lia)) as R. apply (op_exact f W _ _ _ s m2 R); [rewrite M2; reflexivity|exact Hm2|reflexivity].
      * rewrite M2, Rmult_assoc, <- bpow_plus, <- E. do 2 f_equal. lia.
  - right; left. split; [apply mul_inf; lia|exact E].
  - lia.
  - destruct (mul_down s m k Hm ltac:(lia)) as (m' & Hm' & Ey & Mm' & Le). right; right; right; left. exists m'. split; [exact Hm'|]. split; [exact Ey|]. split; [lra|]. split; [lia|exact E3].
  - lia.
Qed.
Lemma u_le_mag m : 0 < m -> (u <= mag m)%R.
Proof using W.
  clear WL WS WB O.
  intros H. pose proof (bpow_gt_0 radix2 (emin f)). assert (1 <= IZR (V f m))%R by (apply IZR_le; pose proof (V_pos f W m); lia).
  rewrite <- (Rmult_1_l u) at 1. apply Rmult_le_compat_r; lra.
Qed.

Lemma scalbn_ok x n : is_float f x -> - 2 ^ 31 <= n < 2 ^ 31 -> exists r, scalbn f o x n = Ok r /\ is_float f r /\
  (is_finite f x -> rounds_to f (sign_of f x) (value f x * bpow radix2 n) r) /\ (is_inf f x -> r = x) /\ (is_nan f x -> is_qnan f r).
Proof using W WL WS WB O.
  intros Fx Hn. pose proof (bias_pos f W) as Bp. pose proof (inf_pos f W) as IP. pose proof (S_pos f W) as SP. assert (1 <= fs f) as FS by (destruct W; lia).
  destruct (is_nan_dec f x) as [Nx|Nx]; [|destruct (split_float f W x Fx) as (s & m0 & -> & Hm0); destruct (Z_lt_ge_dec m0 (inf f)) as [Hf|Hf]].
  - assert (forall y k, is_float f y -> is_nan f y -> 1 - bias f <= k <= bias f -> is_float f (o_mul o y (mk false (p2 k))) /\ is_qnan f (o_mul o y (mk false (p2 k)))) as Q.
    { intros y k Fy Ny Hk. destruct (fin_p2 f W false k Hk) as (B1 & _). destruct (ops_mul f o O _ _ Fy B1) as [Fr (R & _)]. split; [exact Fr|]. apply R. left. exact Ny. }
    destruct (scalbn_path (fun y _ => is_float f y /\ is_nan f y) x n Hn (conj Fx Nx)) as (x' & n' & -> & (F' & N') & Hn').
    + intros y k (Fy & Ny) _. destruct (Q y (bias f) Fy Ny ltac:(lia)) as [? [? _]]. tauto.
    + intros y k' k (Fy & Ny) _ Hk _. destruct (Q y k Fy Ny ltac:(lia)) as [? [? _]]. tauto.
    + tauto.
    + tauto.
    + eexists. split; [reflexivity|]. destruct (Q x' n' F' N' Hn') as [Q1 Q2]. split; [exact Q1|]. rewrite finite_iff by assumption. split; [tauto|]. split; [|tauto].
      intros [I1 I2]. destruct Nx as [_ I3]. tauto.
  - set (X := mag m0). pose proof (mag_nonneg f W m0 ltac:(lia)) as X0. fold X in X0. pose proof (mag_lt_emax m0 ltac:(lia)) as XE. fold X in XE.
    destruct (scalbn_path (inv s X n) (mk s m0) n Hn) as (x' & n' & -> & I & Hn').
    + left. exists m0. split; [lia|]. split; reflexivity.
    + apply inv_up.
    + intros; apply inv_down; assumption.
    + (* clamp above *)
      intros x' n' I En Hn'. destruct I as [(m & Hm & -> & E)|[(-> & E)|[(m & Hm & -> & EB & E1 & E2)|[(m & Hm & -> & E1 & E2 & E3)|(m & Hm & -> & EB & E1 & E2)]]]]; [|right; left; split; [reflexivity|exact E]| |lia|lia].
      * destruct (Z.eq_dec m 0) as [->|M0].
        -- left. exists 0. split; [lia|]. split; [reflexivity|]. rewrite <- E, (mag_0 f W). ring.
        -- right; right; left. exists m. split; [exact Hm|]. split; [reflexivity|]. split; [reflexivity|].
           assert (0 < mag m)%R as MP by (apply (mag_pos f W); lia). pose proof (bpow_gt_0 radix2 n') as BN'. pose proof (bpow_gt_0 radix2 n) as BN.
           assert (0 < X)%R as XP. { pose proof (Rmult_lt_0_compat _ _ MP BN'). destruct (Rle_lt_or_eq_dec 0 X X0) as [|Z0]; [assumption|]. rewrite <- Z0 in E. lra. }
           assert (u <= X)%R as XU. { apply u_le_mag. destruct (Z.eq_dec m0 0) as [Z0|]; [|lia]. unfold X in XP. rewrite Z0, (mag_0 f W) in XP. lra. }
           assert (mag m = X * bpow radix2 (2 * bias f))%R as EM. { apply (Rmult_eq_reg_r (bpow radix2 n')); [|lra]. rewrite E, Rmult_assoc, <- bpow_plus. do 2 f_equal. lia. }
           split.
           ++ rewrite EM, Rmult_assoc, <- bpow_plus. apply Rle_trans with (u * bpow radix2 (2 * bias f + bias f))%R; [|apply Rmult_le_compat_r; [apply bpow_ge_0|exact XU]].
              rewrite <- bpow_plus. apply bpow_le. unfold emax, emin. lia.
           ++ apply Rle_trans with (u * bpow radix2 n)%R; [|apply Rmult_le_compat_r; [apply bpow_ge_0|exact XU]]. rewrite <- bpow_plus. apply bpow_le. unfold emax, emin. lia.
      * lia.
    + (* clamp below *)
      intros x' n' I Hn' HE. destruct I as [(m & Hm & -> & E)|[(-> & E)|[(m & Hm & -> & EB & E1 & E2)|[(m & Hm & -> & E1 & E2 & E3)|(m & Hm & -> & EB & E1 & E2)]]]]; [|right; left; split; [reflexivity|exact E]| | |lia].
      * right; right; right; right. exists m. split; [exact Hm|]. split; [reflexivity|]. pose proof (bpow_gt_0 radix2 n') as BN'.
        assert (mag m = X * bpow radix2 (n - n'))%R as EM. { apply (Rmult_eq_reg_r (bpow radix2 n')); [|lra]. rewrite E, Rmult_assoc, <- bpow_plus. do 2 f_equal. lia. }
        split; [reflexivity|split].
        -- rewrite EM, Rmult_assoc, <- bpow_plus. apply Rle_trans with (bpow radix2 (emax f) * bpow radix2 (n - n' + (1 - bias f)))%R; [apply Rmult_le_compat_r; [apply bpow_ge_0|lra]|]. rewrite <- bpow_plus. apply bpow_le. lia.
        -- apply Rle_trans with (bpow radix2 (emax f) * bpow radix2 n)%R; [apply Rmult_le_compat_r; [apply bpow_ge_0|lra]|]. rewrite <- bpow_plus. apply bpow_le. lia.
      * lia.
      * right; right; right; left. exists m. split; [exact Hm|]. split; [reflexivity|]. split; [exact E1|]. split; [lia|exact E3].
    + (* the last multiplication *)
      eexists. split; [reflexivity|]. rewrite is_nan_mk in Nx by assumption. rewrite is_finite_mk, is_inf_mk, is_nan_mk, sign_of_mk, value_mk by assumption. fold X.
      assert (rounds_to f s ((if s then - X else X) * bpow radix2 n) (o_mul o x' (mk false (p2 n')))) as R.
      { replace ((if s then - X else X) * bpow radix2 n)%R with (if s then - (X * bpow radix2 n) else X * bpow radix2 n)%R by (destruct s; ring).
        assert (0 <= X * bpow radix2 n)%R as XN by (apply Rmult_le_pos; [exact X0|apply bpow_ge_0]).
        destruct I as [(m & Hm & -> & E)|[(-> & E)|[(m & Hm & -> & EB & E1 & E2)|[(m & Hm & -> & E1 & E2 & E3)|(m & Hm & -> & EB & E1 & E2)]]]].
        - rewrite <- E. apply mul_p2; assumption.
        - rewrite mul_inf by assumption. apply (rounds_mag f W); [exact XN|apply (rmag_overflow f W); exact E|reflexivity].
        - pose proof (mul_p2 s m n' Hm Hn') as R. apply (op_result f W _ _ _ s _ (inf f)) with (2 := eq_refl) in R; [|apply Rmult_le_pos; [apply (mag_nonneg f W); lia|apply bpow_ge_0]|apply (rmag_overflow f W); exact E1|reflexivity].
          rewrite R. apply (rounds_mag f W); [exact XN|apply (rmag_overflow f W); exact E2|reflexivity].
        - pose proof (mul_p2 s m n' Hm Hn') as R. apply (op_result f W _ _ _ s _ 0) with (2 := eq_refl) in R; [|apply Rmult_le_pos; [apply (mag_nonneg f W); lia|apply bpow_ge_0]|apply rmag_tiny|reflexivity].
          + rewrite R. apply (rounds_mag f W); [exact XN|apply rmag_tiny; lra|reflexivity].
          + split; [apply Rmult_le_pos; [apply (mag_nonneg f W); lia|apply bpow_ge_0]|]. replace (emin f - 1) with (1 - bias f + (- fs f - 1)) by (unfold emin; lia). rewrite bpow_plus.
            apply Rmult_le_compat; [apply (mag_nonneg f W); lia|apply bpow_ge_0|exact E1|apply bpow_le; lia].
        - pose proof (mul_p2 s m n' Hm Hn') as R. apply (op_result f W _ _ _ s _ 0) with (2 := eq_refl) in R; [|apply Rmult_le_pos; [apply (mag_nonneg f W); lia|apply bpow_ge_0]|apply rmag_tiny|reflexivity].
          + rewrite R. apply (rounds_mag f W); [exact XN|apply rmag_tiny; lra|reflexivity].
          + split; [apply Rmult_le_pos; [apply (mag_nonneg f W); lia|apply bpow_ge_0]|exact E1]. }
      split; [exact (proj1 R)|]. split; [intros _; exact R|]. split; lia.
  - rewrite is_nan_mk in Nx by assumption. assert (m0 = inf f) as -> by lia.
    destruct (scalbn_path (fun y _ => y = mk s (inf f)) (mk s (inf f)) n Hn eq_refl) as (x' & n' & -> & -> & Hn').
    + intros y k -> _. apply mul_inf; lia.
    + intros y k' k -> _ Hk _. apply mul_inf; lia.
    + tauto.
    + tauto.
    + eexists. split; [reflexivity|]. rewrite mul_inf by assumption. rewrite is_finite_mk, is_nan_mk by assumption. split; [exact Fx|]. split; [lia|]. split; [reflexivity|lia].
Qed.
End Fmt.
