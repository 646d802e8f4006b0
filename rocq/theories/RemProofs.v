(** Proofs about fmod. *)
From Coq Require Import ZArith Reals Bool Lia Lra Psatz.
From Flocq Require Import Core.
From Verif Require Import Base BaseLemmas BigModel BigProofs BigProofs2 BigProofs3 FloatModel FloatSpec FloatConvSpec FloatProofs FloatProofs2 FloatProofs3 FloatConvProofs FloatLib FloatPowProofs LibmModel LibmSpec LibmProofs LibmProofs2 LibmProofs3 RemModel RemSpec.
Open Scope Z_scope.

Lemma fdict_ok f dbg : std f -> exists val V, dict_ok (fb f) (fdict f dbg) val V.
Proof.
  intros [->|[->|[->| ->]]].
  - exists (fun x => x), (fun x => 0 <= x < 2 ^ (2 * 16)). apply (prim_ok 16). lia.
  - exists (fun x => x), (fun x => 0 <= x < 2 ^ (2 * 32)). apply (prim_ok 32). lia.
  - exists (fun x => x), (fun x => 0 <= x < 2 ^ (2 * 64)). apply (prim_ok 64). lia.
  - exists bval, (okb (UI 128)). apply u256_ok.
Qed.

Lemma sub_or_mod x y : 0 < y -> 0 <= x < 2 * y -> sub_or x y x = x mod y.
Proof.
  intros Hy Hx. unfold sub_or. destruct (Z.leb_spec y x).
  - symmetry. replace x with ((x - y) + 1 * y) at 1 by lia. rewrite Z_mod_plus_full. apply Z.mod_small. lia.
  - symmetry. apply Z.mod_small. lia.
Qed.
Lemma land_shifted n c k : 0 <= k -> Z.land n (c * 2 ^ k) = Z.land (n / 2 ^ k) c * 2 ^ k.
Proof.
  intros Hk. rewrite <- !shiftl_mul, <- shiftr_div by lia. apply Z.bits_inj'. intros i Hi.
  rewrite Z.land_spec, !Z.shiftl_spec by lia. destruct (Z.lt_ge_cases i k).
  - rewrite !(Z.testbit_neg_r _ (i - k)) by lia. apply andb_false_r.
  - rewrite Z.land_spec, Z.shiftr_spec by lia. replace (i - k + k) with i by lia. reflexivity.
Qed.

Section P.
Context (f : fmt) (W : wf f).
Notation S := (2 ^ fs f).
Notation B := (2 ^ (fb f - 1)).
Notation u := (bpow radix2 (emin f)).
Notation mk s n := (b2z s * B + n).
Notation mag n := (IZR (V f n) * u)%R.

Lemma reduce_loop_ok k : forall x y, 0 < y < 2 * S -> 0 <= x < 2 * y -> 2 ^ (fs f + 2) <= 2 ^ fb f ->
  reduce_loop f k x y = Ok ((x * 2 ^ Z.of_nat k) mod y).
Proof using W.
  induction k as [|k IH]; intros x y Hy Hx HB; cbn [reduce_loop]; rewrite sub_or_mod by lia.
  - f_equal. f_equal. cbn. lia.
  - pose proof (Z.mod_pos_bound x y ltac:(lia)). rewrite Z.pow_add_r in HB by (destruct W; lia). change (2 ^ 2) with 4 in HB.
    unfold fI. rewrite cshl_u_exact by (change (2 ^ 1) with 2; destruct W; lia).
    cbn [bind]. change (2 ^ 1) with 2. rewrite IH; [|lia|lia|rewrite Z.pow_add_r by (destruct W; lia); lia]. f_equal.
    rewrite <- Z.mul_assoc, (Z.mul_mod_idemp_l x) by lia. f_equal. rewrite Nat2Z.inj_succ, Z.pow_succ_r by lia. lia.
Qed.

Lemma reduction_ok dbg x e y : std f -> 0 <= x < 2 * S -> 0 < y < 2 * S -> 0 <= e < 2 ^ eb f - 2 ->
  reduction f dbg x e y = Ok ((x * 2 ^ e) mod y).
Proof using W.
  intros St Hx Hy He. unfold reduction. pose proof (EB_big f W) as EB. pose proof (S_pos f W).
  assert (HB : 2 ^ (fs f + 3) <= 2 ^ fb f) by (apply pow2_le; destruct W; lia).
  rewrite Z.pow_add_r in HB by (destruct W; lia). change (2 ^ 3) with 8 in HB.
  destruct (Z.eqb_spec (fb f) 16) as [E16|N16].
  - assert (f = F16) as -> by (destruct St as [->|[->|[->| ->]]]; cbv in E16; congruence).
    change (EXP_MAX F16 - EXP_MIN F16 =? 29) with true. cbn [assert bind]. change (2 ^ eb F16 - 2) with 30 in He. change (2 * 2 ^ fs F16) with 2048 in *.
    replace (e <=? 29) with true by lia. cbn [assert bind]. unfold ccast. rewrite !chk_u by lia. cbn [bind].
    assert (2 ^ e <= 2 ^ 29) by (apply pow2_le; lia). pose proof (pow2_pos e ltac:(lia)).
    rewrite cshl_u_exact by nia. cbn [bind]. unfold crem. replace (y =? 0) with false by lia. cbn [bind].
    pose proof (Z.mod_pos_bound (x * 2 ^ e) y ltac:(lia)). unfold fI. change (fb F16) with 16. rewrite !norm_u_id; [reflexivity|lia|rewrite norm_u_id; lia].
  - unfold fI. rewrite (cshl_u_exact (fb f) y 1) by (change (2 ^ 1) with 2; destruct W; lia). cbn [bind]. change (2 ^ 1) with 2.
    assert (exists x', (if y * 2 <=? x then crem x y else Ok x) = Ok x' /\ 0 <= x' < 2 * y /\ (x' * 2 ^ e) mod y = (x * 2 ^ e) mod y) as (x' & -> & Hx' & E).
    { destruct (Z.leb_spec (y * 2) x).
      - unfold crem. replace (y =? 0) with false by lia. exists (x mod y). pose proof (Z.mod_pos_bound x y ltac:(lia)).
        split; [reflexivity|]. split; [lia|]. apply Z.mul_mod_idemp_l. lia.
      - exists x. split; [reflexivity|]. split; [lia|reflexivity]. }
    cbn [bind]. rewrite <- E. clear E.
    destruct ((fb f =? 64) && (e <? 32)) eqn:E64.
    { rewrite reduce_loop_ok; [rewrite Z2Nat.id by lia; reflexivity|lia|lia|apply pow2_le; destruct W; lia]. }
    clear E64. destruct (fdict_ok f dbg St) as (val & V & OK).
    assert (Hfb : 32 <= fb f <= 128) by (destruct St as [->|[->|[->| ->]]]; cbv in N16 |- *; try (exfalso; apply N16; reflexivity); split; discriminate).
    assert (Hfs : fs f + 3 <= fb f) by (destruct W; lia).
    destruct (Z.ltb_spec e (fb f)) as [Hlt|Hge].
    + destruct (L_flh _ _ _ _ OK x' 0 ltac:(lia) ltac:(lia)) as [V0 E0].
      destruct (L_shl _ _ _ _ OK _ e V0 ltac:(lia)) as (w & -> & Vw & Ew). cbn [bind].
      assert (E1 : val w = x' * 2 ^ e).
      { rewrite Ew, E0, Z.mul_0_l, Z.add_0_l. apply Z.mod_small. assert (2 ^ e <= 2 ^ (fb f)) by (apply pow2_le; lia). pose proof (pow2_pos e ltac:(lia)). nia. }
      rewrite (L_ndiv _ _ _ _ OK w y Vw ltac:(lia)).
      * cbn [bind option_map snd]. rewrite E1. reflexivity.
      * rewrite E1. apply Z.div_lt_upper_bound; [apply pow2_pos; lia|]. assert (2 ^ e <= 2 ^ (fb f - 1)) by (apply pow2_le; lia). pose proof (pow2_pos e ltac:(lia)).
        rewrite (pow2_S (fb f)) by lia. nia.
    + cbn [bind]. apply (lmr_ok (fb f) (fdict f dbg) val V ltac:(lia) OK); try lia.
      rewrite (Z.pow_sub_r 2 (fb f) 2) by lia. change (2 ^ 2) with 4.
      assert (2 ^ fb f / 4 = 2 * (2 ^ (fb f - 3))) as -> by (symmetry; apply Z.div_unique with 0; [lia|]; replace (fb f) with (3 + (fb f - 3)) at 1 by lia; rewrite Z.pow_add_r by lia; lia).
      assert (S <= 2 ^ (fb f - 3)) by (apply pow2_le; lia). lia.
Qed.

Lemma into_sig_exp_ok n : 0 <= n < inf f -> exists E q, into_sig_exp f n = Ok (q, E - 1) /\ n = enc f E q /\ 1 <= E < 2 ^ eb f - 1 /\ 0 <= q < 2 * S /\ (E = 1 \/ S <= q).
Proof using W.
  intros Hn. destruct (enc_dec f W n Hn) as (E & q & En & HE & Hq & HS). exists E, q. split; [|auto].
  pose proof (inf_pos f W). pose proof (S_pos f W). pose proof (EB_big f W). pose proof (fb_eq f W). unfold into_sig_exp. rewrite (inot_sign f W), abs_mask_eq by assumption.
  rewrite (land_ones_mod n (fb f - 1)) by (destruct W; lia). rewrite Z.mod_small by lia. rewrite IMPLICIT_BIT_eq by assumption. unfold sub_or. unfold enc in En.
  assert (E1 : (if S <=? n then n - S else 0) = (E - 1) * S + (if S <=? n then q - S else 0)).
  { destruct (Z.leb_spec S n); [lia|]. assert (E = 1) as -> by (destruct HS; nia). lia. }
  rewrite E1. set (c := if S <=? n then q - S else 0) in *.
  assert (Hc : 0 <= c < S) by (unfold c; destruct (Z.leb_spec S n); [destruct HS as [->|]; lia|lia]).
  assert (Ed : ((E - 1) * S + c) / S = E - 1) by (rewrite Z.add_comm, Z.div_add, Z.div_small; lia).
  rewrite shiftr_div, EXP_MASK_eq, inf_eq, land_shifted, Ed by (assumption || destruct W; lia).
  rewrite (land_ones_mod (E - 1) (eb f)) by (unfold eb; destruct W; lia). rewrite (Z.mod_small (E - 1)) by lia.
  unfold csub, fI. rewrite chk_u by nia. cbn [bind]. unfold ccast. rewrite chk_u by lia. cbn [bind]. f_equal. f_equal. lia.
Qed.

Lemma fmod_pack sx R E : 0 < R < 2 * S -> 1 <= E < 2 ^ eb f - 1 -> exists rb, V f rb = R * 2 ^ (E - 1) /\ 0 <= rb /\ (rb < inf f ->
  (let* t := chk (UI 32) (fs f - Z.log2 R) in
   let shift := Z.min (E - 1) t in
   let* a := cshl (fI f) R shift in
   let* t := chk (UI 32) (E - 1 - shift) in
   let* t := ccast (fI f) t in
   let* b := cshl (fI f) t (fs f) in
   let* bits := cadd (fI f) a b in
   cadd (fI f) sx bits) = cadd (fI f) sx rb).
Proof using W.
  intros HR HE. pose proof (S_pos f W). pose proof (EB_big f W) as EB.
  pose proof (Z.log2_spec R ltac:(lia)) as [L1 L2]. pose proof (Z.log2_nonneg R).
  assert (Z.log2 R <= fs f). { apply Z.lt_succ_r. apply Z.log2_lt_pow2; [lia|]. rewrite Z.pow_succ_r by (destruct W; lia). lia. }
  pose proof (fb_big f W) as FB. assert (fs f < fb f) by (destruct W; lia).
  rewrite chk_u by lia. cbn [bind]. set (sh := Z.min (E - 1) (fs f - Z.log2 R)).
  assert (Hsh : 0 <= sh) by (unfold sh; lia). assert (sh <= E - 1) by (unfold sh; lia). assert (sh <= fs f - Z.log2 R) by (unfold sh; lia).
  assert (Hlo : sh = E - 1 \/ S <= R * 2 ^ sh).
  { destruct (Z.le_gt_cases (E - 1) (fs f - Z.log2 R)); [left; unfold sh; lia|]. right. replace S with (2 ^ Z.log2 R * 2 ^ sh); [apply Z.mul_le_mono_nonneg_r; [apply Z.pow_nonneg; lia|lia]|]. rewrite <- Z.pow_add_r by lia. f_equal. unfold sh. lia. }
  assert (Hhi : R * 2 ^ sh < 2 * S).
  { apply Z.lt_le_trans with (2 ^ Z.succ (Z.log2 R) * 2 ^ sh); [apply Z.mul_lt_mono_pos_r; [apply pow2_pos; lia|lia]|]. rewrite <- Z.pow_add_r, <- Z.pow_succ_r by lia. apply pow2_le; lia. }
  clear L1 L2. pose proof (pow2_pos sh Hsh).
  assert (Hp : 0 < R * 2 ^ sh) by (apply Z.mul_pos_pos; lia).
  pose proof (B_eq f W) as BE. pose proof (fb_eq f W).
  assert (HSE : S * 32 <= S * 2 ^ eb f) by (apply Z.mul_le_mono_nonneg_l; lia).
  exists (enc f (E - 1 - sh + 1) (R * 2 ^ sh)).
  split; [|split].
  - rewrite V_enc; [|assumption|lia|lia|lia]. rewrite <- Z.mul_assoc, <- Z.pow_add_r by lia. f_equal. f_equal. lia.
  - unfold enc. assert (0 <= (E - 1 - sh + 1 - 1) * S) by (apply Z.mul_nonneg_nonneg; lia). lia.
  - pose proof (inf_pos f W). unfold enc. intros Hlt. unfold fI. rewrite cshl_u_exact by lia. cbn [bind]. rewrite chk_u by lia. cbn [bind]. unfold ccast. rewrite chk_u by lia. cbn [bind].
    replace (E - 1 - sh + 1 - 1) with (E - 1 - sh) in * by lia. assert (0 <= (E - 1 - sh) * S) by (apply Z.mul_nonneg_nonneg; lia).
    rewrite cshl_u_exact by lia. cbn [bind]. unfold cadd at 1. rewrite chk_u by lia. cbn [bind]. f_equal. lia.
Qed.

Lemma fmod_core o dbg s t n m : std f -> 0 <= n < inf f -> 0 < m < inf f ->
  exists r, fmod f o dbg (mk s n) (mk t m) = Ok (mk s r) /\ 0 <= r < inf f /\ V f r = V f n mod V f m.
Proof using W.
  intros St Hn Hm. pose proof (inf_pos f W). pose proof (S_pos f W). pose proof (EB_big f W) as EB. pose proof (fb_eq f W).
  unfold fmod. rewrite (inot_sign f W), !mag_of, sgn_of by (assumption || lia).
  assert (LM : forall k, 0 <= k < inf f -> (Z.land k (EXP_MASK f) =? EXP_MASK f) = false).
  { intros k Hk. rewrite EXP_MASK_eq, inf_eq, land_shifted by (assumption || destruct W; lia).
    assert (0 <= k / S < 2 ^ eb f - 1) by (rewrite inf_eq in Hk by assumption; split; [apply Z.div_pos; lia|apply Z.div_lt_upper_bound; lia]).
    rewrite (land_ones_mod _ (eb f)) by (unfold eb; destruct W; lia). rewrite Z.mod_small by lia. nia. }
  rewrite LM by lia. unfold wrapping_sub, fI. rewrite norm_u_id by lia. rewrite LM by lia. cbn [orb].
  destruct (Z.ltb_spec n m) as [Hlt|Hge].
  { exists n. split; [reflexivity|]. split; [lia|]. symmetry. apply Z.mod_small. split; [apply V_nonneg; assumption || lia|apply V_lt; assumption || lia]. }
  destruct (into_sig_exp_ok n ltac:(lia)) as (E & q & -> & En & HE & Hq & HS). cbn [bind].
  destruct (into_sig_exp_ok m ltac:(lia)) as (E' & q' & -> & En' & HE' & Hq' & HS'). cbn [bind].
  assert (V f n = q * 2 ^ (E - 1)) as -> by (rewrite En; apply V_enc; assumption || lia).
  assert (EVm : V f m = q' * 2 ^ (E' - 1)) by (rewrite En'; apply V_enc; assumption || lia). 
  unfold enc in En, En'. assert (Hq0 : 0 < q') by (destruct HS' as [->|]; lia).
  assert (E' <= E) by (destruct HS as [->|]; [destruct HS' as [->|]|]; nia).
  unfold csub. rewrite chk_u by lia. cbn [bind]. rewrite reduction_ok by (assumption || lia). cbn [bind].
  replace (E - 1 - (E' - 1)) with (E - E') by lia.
  set (R := (q * 2 ^ (E - E')) mod q'). pose proof (Z.mod_pos_bound (q * 2 ^ (E - E')) q' ltac:(lia)) as HR. fold R in HR.
  assert (ER : (q * 2 ^ (E - 1)) mod (q' * 2 ^ (E' - 1)) = R * 2 ^ (E' - 1)).
  { unfold R. rewrite <- Zmult_mod_distr_r. f_equal. rewrite <- Z.mul_assoc, <- Z.pow_add_r by lia. f_equal. f_equal. lia. }
  rewrite EVm, ER. destruct (Z.eqb_spec R 0) as [->|R0].
  { exists 0. rewrite (V_0 f W), Z.add_0_r. split; [reflexivity|]. split; lia. }
  destruct (fmod_pack (mk s 0) R E' ltac:(lia) ltac:(lia)) as (rb & EV & rb0 & C).
  assert (Hrb : rb < m). { apply (proj2 (V_inj_lt f W rb m rb0 ltac:(lia))). rewrite EV, EVm. apply Z.mul_lt_mono_pos_r; [apply pow2_pos; lia|lia]. }
  exists rb. rewrite Z.add_0_r in C. unfold fI, cadd in C |- *. rewrite C; [|lia]. rewrite chk_u by (destruct s; cbn [b2z]; lia). split; [reflexivity|]. split; [lia|exact EV].
Qed.

Lemma nan_quotient o x y : ieee_ops f o -> is_float f x -> is_float f y -> no_remainder f x y ->
  is_float f (o_div o (o_mul o x y) (o_mul o x y)) /\ is_qnan f (o_div o (o_mul o x y) (o_mul o x y)).
Proof using W.
  intros O Fx Fy H. destruct (ops_mul f o O x y Fx Fy) as (Fp & P1 & P2 & P3 & P4). set (p := o_mul o x y) in *. clearbody p.
  destruct (ops_div f o O p p Fp Fp) as (Fq & Q1 & Q2 & _). split; [exact Fq|].
  destruct (is_nan_dec f p) as [N|N]; [apply Q1; auto|].
  assert (Nx : ~ is_nan f x) by (intros K; apply N; destruct (P1 (or_introl K)); assumption).
  assert (Ny : ~ is_nan f y) by (intros K; apply N; destruct (P1 (or_intror K)); assumption).
  destruct H as [H|[H|[H|H]]]; try contradiction.
  - assert (~ is_zero f y) by (intros K; apply N; destruct (P2 (or_introl (conj H K))); assumption).
    apply Q2. left. destruct (P3 (or_introl (conj H (conj H0 Ny)))) as [K _]. auto.
  - destruct (is_inf_dec f W x Fx) as [I|I]. { exfalso. apply N. destruct (P2 (or_introl (conj I H))); assumption. }
    assert (Fy' : is_finite f y) by (unfold is_finite; destruct H as [H _]; rewrite H, (exp_all_ones_eq f W); pose proof (EB_big f W); lia).
    specialize (P4 (proj2 (finite_iff f W x Fx) (conj Nx I)) Fy').
    assert (value f y = 0%R) as E by (apply (value_zero f W); assumption).
    rewrite E, Rmult_0_r in P4. destruct P4 as (_ & _ & R). rewrite rne_0 in R. rewrite Rabs_R0, Rlt_bool_true in R by apply bpow_gt_0.
    destruct R as [R1 R2]. apply (value_zero f W) in R2; auto.
Qed.

Lemma quot_value (s t : bool) n m : 0 <= n < B -> 0 <= m < B -> V f m <> 0 ->
  (value f (mk s n) / value f (mk t m) = if xorb s t then - (IZR (V f n) / IZR (V f m)) else IZR (V f n) / IZR (V f m))%R.
Proof using W.
  intros Hn Hm Vm. rewrite !value_mk by assumption. pose proof (bpow_gt_0 radix2 (emin f)). apply IZR_neq in Vm. destruct s, t; cbn [xorb]; field; lra.
Qed.
Lemma sub_value (s t : bool) n m r N : 0 <= n < B -> 0 <= m < B -> 0 <= r < B -> V f n = N * V f m + V f r ->
  value f (mk s r) = (value f (mk s n) - IZR (if xorb s t then - N else N) * value f (mk t m))%R.
Proof using W.
  intros Hn Hm Hr E. rewrite !value_mk by assumption. rewrite E, plus_IZR, mult_IZR. destruct s, t; cbn [xorb]; rewrite ?opp_IZR; ring.
Qed.

Ltac cls := rewrite ?is_nan_mk, ?is_inf_mk, ?is_zero_mk, ?is_finite_mk by assumption.
Lemma fmod_ok o dbg x y : std f -> ieee_ops f o -> is_float f x -> is_float f y ->
  exists r, fmod f o dbg x y = Ok r /\ is_float f r /\
  (no_remainder f x y -> is_qnan f r) /\
  (is_finite f x -> is_inf f y -> r = x) /\
  (is_finite f x -> is_finite f y -> ~ is_zero f y -> exact_remainder f Ztrunc x y r /\ sign_of f r = sign_of f x).
Proof using W.
  intros St O Fx Fy. pose proof (nan_quotient o x y O Fx Fy) as NQ. unfold no_remainder in NQ |- *.
  destruct (split_float f W x Fx) as (s & n & -> & Hn). destruct (split_float f W y Fy) as (t & m & -> & Hm).
  rewrite !is_nan_mk, !is_inf_mk, !is_zero_mk in NQ by assumption.
  pose proof (inf_pos f W) as IP. pose proof (S_pos f W).  pose proof (fb_eq f W). pose proof (EB_big f W).
  assert (CX : (Z.land n (EXP_MASK f) =? EXP_MASK f) = (inf f <=? n)).
  { rewrite EXP_MASK_eq, inf_eq, land_shifted by (assumption || destruct W; lia).
    assert (0 <= n / S < 2 ^ eb f) by (split; [apply Z.div_pos; lia|apply Z.div_lt_upper_bound; [lia|]; rewrite <- (B_eq f W); lia]).
    rewrite (land_ones_mod _ (eb f)) by (unfold eb; destruct W; lia). rewrite Z.mod_small by lia.
    destruct (Z.leb_spec ((2 ^ eb f - 1) * S) n).
    - apply Z.eqb_eq. f_equal. assert (2 ^ eb f - 1 <= n / S) by (apply Z.div_le_lower_bound; lia). lia.
    - apply Z.eqb_neq. assert (n / S < 2 ^ eb f - 1) by (apply Z.div_lt_upper_bound; lia). nia. }
  destruct (Z.le_gt_cases (inf f) n) as [Nx|Fx'].
  { unfold fmod. rewrite (inot_sign f W), !mag_of by (assumption || lia). rewrite CX. replace (inf f <=? n) with true by lia. cbn [orb].
    destruct NQ as [Q1 Q2]; [lia|]. eexists. split; [reflexivity|]. split; [exact Q1|]. cls. split; [auto|]. split; lia. }
  destruct (Z.eq_dec m 0) as [M0|M0]; [|destruct (Z.le_gt_cases m (inf f)) as [Fy'|Ny]].
  3: assert (HN : inf f < m) by lia; clear Ny.
  - unfold fmod. rewrite (inot_sign f W), !mag_of by (assumption || lia). subst m. unfold wrapping_sub, fI. rewrite norm_u.
    replace ((0 - 1) mod 2 ^ fb f) with (2 ^ fb f - 1) by (apply Z.mod_unique with (-1); lia).
    replace (Z.land (2 ^ fb f - 1) (EXP_MASK f)) with (EXP_MASK f) by (rewrite Z.land_comm, land_ones_mod, EXP_MASK_eq, Z.mod_small; (assumption || (try (destruct W; lia)))).
    rewrite Z.eqb_refl, orb_true_r. destruct NQ as [Q1 Q2]; [lia|]. eexists. split; [reflexivity|]. split; [exact Q1|]. cls. split; [auto|]. split; lia.
  - destruct (Z.eq_dec m (inf f)) as [->|Mi].
    + unfold fmod. rewrite (inot_sign f W), !mag_of by (assumption || lia). rewrite CX. replace (inf f <=? n) with false by lia.
      unfold wrapping_sub, fI. rewrite norm_u_id by lia.
      assert (Z.land (inf f - 1) (EXP_MASK f) =? EXP_MASK f = false) as ->.
      { rewrite EXP_MASK_eq, inf_eq, land_shifted by (assumption || destruct W; lia).
        rewrite <- (Z.div_unique ((2 ^ eb f - 1) * S - 1) S (2 ^ eb f - 2) (S - 1)) by lia. rewrite (land_ones_mod _ (eb f)) by (unfold eb; destruct W; lia). rewrite Z.mod_small by lia. nia. }
      cbn [orb]. replace (n <? inf f) with true by lia. exists (mk s n). split; [reflexivity|]. split; [apply is_float_mk; assumption|]. cls. split; [lia|]. split; [reflexivity|lia].
    + destruct (fmod_core o dbg s t n m St ltac:(lia) ltac:(lia)) as (r & -> & Hr & EV). exists (mk s r). split; [reflexivity|].
      assert (FM := is_finite_mk f W s r ltac:(lia)). assert (SM := sign_of_mk f W s r ltac:(lia)). assert (FF := is_float_mk f W s r ltac:(lia)). assert (SN := sign_of_mk f W s n ltac:(lia)).
      split; [exact FF|]. cls. split; [lia|]. split; [lia|]. intros _ _ _. split; [|congruence]. unfold exact_remainder.
      split; [exact FF|]. split; [apply FM; lia|]. split; [|congruence].
      pose proof (V_pos f W m ltac:(lia)) as VP. pose proof (V_nonneg f W n ltac:(lia)) as VN.
      rewrite quot_value by lia. assert (ET : Ztrunc (if xorb s t then - (IZR (V f n) / IZR (V f m)) else IZR (V f n) / IZR (V f m))%R = if xorb s t then - (V f n / V f m) else V f n / V f m).
      { destruct (xorb s t); [rewrite Ztrunc_opp; f_equal|]; apply Ztrunc_quot; lia. }
      rewrite ET. apply sub_value; [lia|lia|lia|]. rewrite EV. pose proof (Z.div_mod (V f n) (V f m)). lia.
  - unfold fmod. rewrite (inot_sign f W), !mag_of by (assumption || lia). unfold wrapping_sub, fI. rewrite norm_u_id by lia.
    assert (Z.land (m - 1) (EXP_MASK f) =? EXP_MASK f = true) as ->.
    { rewrite EXP_MASK_eq, inf_eq, land_shifted by (assumption || destruct W; lia). rewrite inf_eq in HN by assumption.
      assert ((m - 1) / S = 2 ^ eb f - 1) as ->. { assert (2 ^ eb f - 1 <= (m - 1) / S) by (apply Z.div_le_lower_bound; lia). assert ((m - 1) / S < 2 ^ eb f) by (apply Z.div_lt_upper_bound; [lia|]; rewrite <- (B_eq f W); lia). lia. }
      rewrite (land_ones_mod _ (eb f)) by (unfold eb; destruct W; lia). rewrite Z.mod_small by lia. lia. }
    rewrite orb_true_r. destruct NQ as [Q1 Q2]; [lia|]. eexists. split; [reflexivity|]. split; [exact Q1|]. cls. split; [auto|]. split; lia.
Qed.
End P.
