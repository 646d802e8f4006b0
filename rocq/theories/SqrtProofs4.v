(** Proofs about sqrt: the special cases and the whole function. *)
From Coq Require Import ZArith Reals Bool List Lia Lra Psatz.
From Flocq Require Import Core.
From Verif Require Import Base BaseLemmas FloatModel FloatSpec FloatConvSpec FloatProofs FloatProofs2 FloatProofs3 FloatProofs5 FloatConvProofs FloatLib LibmModel LibmSpec LibmProofs LibmProofs2 LibmProofs3 LibmProofs4 LibmProofs6 SqrtModel SqrtSpec SqrtProofs SqrtProofs2 SqrtProofs3.
Open Scope Z_scope.

Lemma iterate_ok f usz ix m : std f -> EXP_BITS f + 7 <= usz -> fresh f ix m -> exists s, sqrt_iterate f usz ix m = Ok s /\ root_near f m s.
Proof.
  intros [->|[->|[->| ->]]] Hu FR.
  - apply iterate16; [exact Hu|exact FR].
  - apply iterate32; [exact Hu|exact FR].
  - apply iterate64; [exact Hu|exact FR].
  - apply iterate128; [exact Hu|exact FR].
Qed.
Lemma std_ws f : std f -> fs f + 1 <= bias f /\ (16 < fb f -> 3 * fs f + 10 <= bias f) /\ (32 < fb f -> fs f mod 2 = 0) /\ (fb f <= 32 -> fs f * 2 ^ fs f < 2 ^ 32 /\ fs f < 2 ^ eb f).
Proof. intros [->|[->|[->| ->]]]; cbv; intuition congruence. Qed.

Section Fmt.
Context (f : fmt) (W : wf f) (o : fops) (O : ieee_ops f o).
Context (WL : fs f + 1 <= bias f) (WP : 32 < fb f -> fs f mod 2 = 0) (WK : fb f <= 32 -> fs f * 2 ^ fs f < 2 ^ 32 /\ fs f < 2 ^ eb f).
Notation S := (2 ^ fs f).
Notation B := (2 ^ (fb f - 1)).
Notation u := (bpow radix2 (emin f)).
Notation mk s n := (b2z s * B + n).
Notation mag n := (IZR (V f n) * u)%R.
Notation reduced := (reduced f).

Definition dispatch (x : Z) : res (Z + Z * Z) :=
  if (S <=? x) && (x <? inf f) then Ok (inr (x, if fb f <=? 32 then 0 else x / S)) else sqrt_special f o x.
Lemma round_unfold usz x : is_float f x -> sqrt_round f usz o x =
  (let* r := dispatch x in
   match r with
   | inl y => Ok y
   | inr (ix, top) => let* (m_u2, exp) := sqrt_reduce f ix top in let* s_u2 := sqrt_iterate f usz ix m_u2 in sqrt_finish f o m_u2 s_u2 exp
   end).
Proof using W.
  clear O WL WP WK. intros Fx. pose proof (S_pos f W) as Sp. pose proof (inf_pos f W) as Ip. pose proof (inf_eq f W) as Ie. pose proof (B_eq f W) as Be. pose proof (fb_eq f W) as Fe. pose proof (EB_big f W) as Eb.
  assert (10 <= fs f /\ 5 <= eb f <= 15 /\ fb f = fs f + eb f + 1) as (F1 & F2 & F4) by (destruct W; lia). red in Fx.
  unfold sqrt_round, dispatch. unfold fI. rewrite cshl_u_exact by (try lia; rewrite Fe; lia). cbn [bind]. rewrite cshr_ok by (cbn; lia). cbn [bind]. rewrite Z.mul_1_l, (EXP_MASK_eq f W), (EXP_SAT_eq f W).
  assert (0 <= x / S < 2 * 2 ^ eb f) as TR. { split; [apply Z.div_pos; lia|]. apply Z.div_lt_upper_bound; [lia|]. rewrite Fe, Be in Fx. lia. }
  destruct (Z.leb_spec (fb f) 32) as [L|L].
  - cbn [bind]. assert ((inf f - S <=? wrapping_sub (UI (fb f)) x S) = negb ((S <=? x) && (x <? inf f))) as ->.
    { unfold wrapping_sub. rewrite norm_u. destruct (Z.leb_spec S x) as [G|G].
      - rewrite Z.mod_small by lia. cbn [andb]. destruct (Z.ltb_spec x (inf f)), (Z.leb_spec (inf f - S) (x - S)); cbn [negb]; (reflexivity || lia).
      - replace ((x - S) mod 2 ^ fb f) with (x - S + 2 ^ fb f) by (apply Z.mod_unique with (-1); lia). cbn [andb negb]. apply Z.leb_le. lia. }
    destruct ((S <=? x) && (x <? inf f)); cbn [negb bind]; reflexivity.
  - unfold ccast. rewrite chk_ok by (apply fits_u; lia). cbn [bind].
    assert ((2 ^ eb f - 1 - 1 <=? wrapping_sub (UI 32) (x / S) 1) = negb ((S <=? x) && (x <? inf f))) as ->.
    { unfold wrapping_sub. rewrite norm_u. destruct (Z.leb_spec S x) as [G|G].
      - assert (1 <= x / S) by (apply Z.div_le_lower_bound; lia). rewrite Z.mod_small by lia. cbn [andb]. destruct (Z.ltb_spec x (inf f)) as [H1|H1].
        + assert (x / S < 2 ^ eb f - 1) by (apply Z.div_lt_upper_bound; [lia|rewrite Ie in H1; lia]). cbn [negb]. apply Z.leb_gt. lia.
        + assert (2 ^ eb f - 1 <= x / S) by (apply Z.div_le_lower_bound; [lia|rewrite Ie in H1; lia]). cbn [negb]. apply Z.leb_le. lia.
      - rewrite Z.div_small by lia. cbn [andb negb]. apply Z.leb_le. change ((0 - 1) mod 2 ^ 32) with 4294967295. lia. }
    destruct ((S <=? x) && (x <? inf f)); cbn [negb bind]; reflexivity.
Qed.

Lemma dispatch_pos n : 0 < n < inf f -> exists ix top T F, dispatch n = Ok (inr (ix, top)) /\ reduced ix top T F /\ mag n = (IZR (S + F) * bpow radix2 (T - bias f - fs f))%R.
Proof using W O WL WP WK.
  intros Hn. pose proof (S_pos f W) as Sp. pose proof (inf_pos f W) as Ip. pose proof (inf_eq f W) as Ie. pose proof (B_eq f W) as Be. pose proof (fb_eq f W) as Fe. pose proof (EB_big f W) as Eb. pose proof (eb_bias f W) as Bb.
  assert (10 <= fs f /\ 5 <= eb f <= 15 /\ fb f = fs f + eb f + 1) as (F1 & F2 & F4) by (destruct W; lia). unfold dispatch.
  replace (n <? inf f) with true by lia. rewrite andb_true_r. destruct (Z.leb_spec S n) as [G|G].
  - pose proof (Z.div_mod n S ltac:(lia)) as D. pose proof (Z.mod_pos_bound n S ltac:(lia)) as M. assert (1 <= n / S) by (apply Z.div_le_lower_bound; lia). assert (n / S < 2 ^ eb f - 1) by (apply Z.div_lt_upper_bound; [lia|rewrite Ie in Hn; lia]).
    exists n, (if fb f <=? 32 then 0 else n / S), (n / S), (n mod S). split; [reflexivity|]. split.
    + unfold SqrtProofs3.reduced. repeat match goal with |- _ /\ _ => split end; try lia.
      * intros _. rewrite Z.mod_small by lia. lia.
      * intros L. replace (fb f <=? 32) with false by lia. rewrite Z.mod_small by lia. reflexivity.
    + replace n with (enc f (n / S) (S + n mod S)) at 1 by (unfold enc; lia). apply (mag_enc f W); lia.
  - (* subnormal *)
    set (L := Z.log2 n). pose proof (Z.log2_spec n ltac:(lia)) as LS. fold L in LS. assert (0 <= L) as L0 by apply Z.log2_nonneg. assert (L < fs f) as L1 by (apply Z.log2_lt_pow2; lia).
    set (q := n * 2 ^ (fs f - L)). assert (2 ^ L * 2 ^ (fs f - L) = S) as PL by (rewrite <- Z.pow_add_r by lia; f_equal; lia). assert (0 < 2 ^ (fs f - L)) as PP by (apply Z.pow_pos_nonneg; lia).
    assert (S <= q < 2 * S) as QR. { unfold q. rewrite <- PL. rewrite Z.pow_succ_r in LS by lia. split; [apply Z.mul_le_mono_nonneg_r; lia|]. rewrite Z.mul_assoc. apply Z.mul_lt_mono_pos_r; lia. }
    assert (mag n = IZR n * u)%R as MN. { replace n with (enc f 1 n) at 1 by (unfold enc; lia). rewrite (mag_enc f W) by lia. reflexivity. }
    assert (o_mul o (mk false n) (mk false (p2 f (fs f))) = mk false (enc f (L + 1) q)) as ML.
    { apply (op_exact f W _ _ _ false _ (mul_p2 f W o O false n (fs f) ltac:(lia) ltac:(lia))).
      - cbv beta iota. rewrite MN, (mag_enc f W) by lia. unfold q. rewrite mult_IZR. change (2 ^ (fs f - L)) with (Zpower radix2 (fs f - L)). rewrite (IZR_Zpower radix2) by lia. rewrite !Rmult_assoc, <- !bpow_plus. do 2 f_equal. unfold emin. lia.
      - unfold enc. split; [|rewrite Ie]; pose proof (mul_small L (fs f) S ltac:(lia) Sp); [lia|]. pose proof (Z.mul_le_mono_nonneg_r (fs f + 2) (2 ^ eb f - 1) S ltac:(lia) ltac:(lia)). lia.
      - reflexivity. }
    assert (0 <= enc f (L + 1) q < inf f) as RQ. { unfold enc. split; [|rewrite Ie]; pose proof (mul_small L (fs f) S ltac:(lia) Sp); [lia|]. pose proof (Z.mul_le_mono_nonneg_r (fs f + 2) (2 ^ eb f - 1) S ltac:(lia) ltac:(lia)). lia. }
    set (T := L + 1 - fs f). set (F := q - S).
    assert (enc f (L + 1) q = (T + fs f) * S + F) as QE by (unfold enc, T, F; lia). 
    assert ((enc f (L + 1) q) mod S = F) as QM by (symmetry; apply Z.mod_unique with (T + fs f); [left; unfold F; lia|lia]).
    assert ((enc f (L + 1) q) / S = T + fs f) as QD by (symmetry; apply Z.div_unique with F; [left; unfold F; lia|lia]).
    unfold sqrt_special. unfold fI at 1. rewrite cshl_ok by (change (bits (UI (fb f))) with (fb f); lia). cbn [bind]. rewrite norm_u, Z.mod_small by lia. replace (n * 2 ^ 1 =? 0) with false by lia. rewrite (EXP_MASK_eq f W).
    replace (n =? inf f) with false by lia. replace (inf f <? n) with false by lia. assert (EXP_BIAS f = bias f) as Bx by (rewrite (EXP_BIAS_eq f W), (bias_eq f W); reflexivity). rewrite Bx.
    rewrite cadd_u by lia. cbn [bind]. rewrite (Z.add_comm (fs f)). rewrite (from_parts_ok f W) by lia. cbn [bind]. assert (o_mul o n (mk false (p2 f (fs f))) = mk false (enc f (L + 1) q)) as ML' by (rewrite <- ML; f_equal; cbn [b2z]; lia). rewrite ML'.
    assert (mag n = IZR (S + F) * bpow radix2 (T - bias f - fs f))%R as MT.
    { rewrite MN. replace (S + F) with q by (unfold F; lia). unfold q. rewrite mult_IZR. change (2 ^ (fs f - L)) with (Zpower radix2 (fs f - L)). rewrite (IZR_Zpower radix2) by lia. rewrite !Rmult_assoc, <- !bpow_plus. do 2 f_equal. unfold emin, T. lia. }
    replace (mk false (enc f (L + 1) q)) with (enc f (L + 1) q) by (cbn [b2z]; lia).
    destruct (Z.leb_spec (fb f) 32) as [G2|G2].
    + destruct (WK G2) as (K1 & K2). rewrite cshl_u_exact by lia. cbn [bind]. unfold ccast. pose proof (mul_small (fs f) (2 ^ eb f) S ltac:(lia) Sp) as K3. unfold fI. rewrite chk_ok by (apply fits_u; rewrite Fe, Be; lia). cbn [bind].
      exists (wrapping_sub (UI (fb f)) (enc f (L + 1) q) (fs f * S)), 0, T, F. split; [reflexivity|]. split; [|exact MT]. unfold SqrtProofs3.reduced.
      assert (wrapping_sub (UI (fb f)) (enc f (L + 1) q) (fs f * S) = (T * S + F) mod 2 ^ fb f) as WE by (unfold wrapping_sub; rewrite norm_u, QE; f_equal; ring).
      assert (2 ^ fb f = S * (2 * 2 ^ eb f)) as FF by (rewrite Fe, Be; ring). rewrite WE.
      repeat match goal with |- _ /\ _ => split end; try (unfold F, T; lia).
      * apply Z.mod_pos_bound. lia.
      * apply Z.mod_pos_bound. lia.
      * rewrite FF, Zmod_mod_mul by lia. rewrite Z.add_comm, Z.mod_add by lia. apply Z.mod_small. unfold F. lia.
      * rewrite FF, Z.rem_mul_r by lia. rewrite (Z.mul_comm S), Z.div_add by lia. rewrite (Z.div_small ((T * S + F) mod S)) by (apply Z.mod_pos_bound; lia). rewrite Z.add_0_l, Z.div_add_l, (Z.div_small F) by (unfold F; lia). rewrite Z.add_0_r. apply Zmod_mod_mul; lia.
    + exists (enc f (L + 1) q), (wrapping_sub (UI 32) (ex f (enc f (L + 1) q)) (fs f)), T, F. split; [reflexivity|]. split; [|exact MT]. unfold SqrtProofs3.reduced.
      repeat match goal with |- _ /\ _ => split end; try (unfold F, T; lia).
      * rewrite QD. specialize (WP G2). rewrite Z.add_mod, WP, Z.add_0_r by lia. apply Zmod_mod.
      * intros _. replace (enc f (L + 1) q) with (mk false (enc f (L + 1) q)) by (cbn [b2z]; lia). rewrite (ex_mk f W) by lia. rewrite QD. unfold wrapping_sub. rewrite norm_u. f_equal. lia.
Qed.

Lemma sqrt_ok usz x : std f -> (16 < fb f -> 3 * fs f + 10 <= bias f) -> EXP_BITS f + 7 <= usz -> is_float f x -> exists r, sqrt_round f usz o x = Ok r /\ is_float f r /\ ieee_sqrt f x r.
Proof using W O WL WP WK.
  intros St WS Hu Fx. pose proof (S_pos f W) as Sp. pose proof (inf_pos f W) as Ip. pose proof (inf_eq f W) as Ie. pose proof (B_eq f W) as Be. pose proof (fb_eq f W) as Fe. pose proof (EB_big f W) as Eb. pose proof (eb_bias f W) as Bb.
  assert (10 <= fs f /\ 5 <= eb f <= 15 /\ fb f = fs f + eb f + 1 /\ eb f <= fs f) as (F1 & F2 & F4 & F3) by (destruct W; lia).
  rewrite round_unfold by exact Fx. destruct (split_float f W x Fx) as (s & n & -> & Hn).
  destruct (Z.eq_dec n 0) as [N0|N0]; [|destruct (Z_lt_ge_dec n (inf f)) as [NI|NI]; [destruct s|]].
  - (* zeros *)
    subst n. exists (mk s 0). split.
    + unfold dispatch. replace ((S <=? mk s 0) && (mk s 0 <? inf f)) with false by (destruct s; cbn [b2z]; lia). unfold sqrt_special. unfold fI at 1. rewrite cshl_ok by (change (bits (UI (fb f))) with (fb f); lia). cbn [bind].
      replace (norm (UI (fb f)) (mk s 0 * 2 ^ 1) =? 0) with true; [reflexivity|]. symmetry. apply Z.eqb_eq. rewrite norm_u, Fe. destruct s; cbn [b2z]; [|reflexivity]. replace ((1 * B + 0) * 2 ^ 1) with (1 * (2 * B)) by lia. apply Z_mod_mult.
    + split; [apply (is_float_mk f W); lia|]. unfold ieee_sqrt. rewrite (is_nan_mk f W), (is_zero_mk f W), (is_inf_mk f W), (is_finite_mk f W) by lia. repeat match goal with |- _ /\ _ => split end; try (intros; lia); reflexivity.
  - (* negative *)
    assert (is_qnan f (sqrt_NAN f) /\ is_float f (sqrt_NAN f)) as (QN & QF) by (destruct (qnan_rep_qnan f W) as (A1 & A2 & _); split; assumption). exists (sqrt_NAN f). split.
    + unfold dispatch. replace ((S <=? mk true n) && (mk true n <? inf f)) with false by (cbn [b2z]; lia). unfold sqrt_special. unfold fI at 1. rewrite cshl_ok by (change (bits (UI (fb f))) with (fb f); lia). cbn [bind].
      replace (norm (UI (fb f)) (mk true n * 2 ^ 1) =? 0) with false. 2:{ symmetry. apply Z.eqb_neq. rewrite norm_u, Fe. cbn [b2z]. replace ((1 * B + n) * 2 ^ 1) with (2 * n + 1 * (2 * B)) by lia. rewrite Z.mod_add by lia. rewrite Z.mod_small by lia. lia. }
      rewrite (EXP_MASK_eq f W). replace (mk true n =? inf f) with false by (cbn [b2z]; lia). replace (inf f <? mk true n) with true by (cbn [b2z]; lia). reflexivity.
    + split; [exact QF|]. unfold ieee_sqrt. rewrite (is_nan_mk f W), (is_zero_mk f W), (is_inf_mk f W), (is_finite_mk f W), (sign_of_mk f W) by lia. repeat match goal with |- _ /\ _ => split end; try (intros; lia); try (intros; exact QN).
  - (* positive *)
    assert (mk false n = n) as -> by (cbn [b2z]; lia). destruct (dispatch_pos n ltac:(lia)) as (ix & top & T & F & -> & RD & MV). cbn [bind].
    destruct (reduce_ok f W ix top T F WL RD) as (ex & -> & HX & HE). cbn [bind]. set (E := (T + bias f) / 2) in *. destruct RD as (R1 & R2 & R3 & R4 & R5 & _).
    pose proof (Z.mod_pos_bound T 2 ltac:(lia)) as T2. set (p := T mod 2) in *. set (m := (S + F) * 2 ^ (eb f - p)).
    assert (fresh f ix m) as FR. { split; [exact R1|]. unfold m. rewrite (EXP_BITS_eq f W), R2, R3. reflexivity. }
    destruct (iterate_ok f usz ix m St Hu FR) as (sq & -> & RNr). cbn [bind].
    assert (2 ^ eb f = 2 * 2 ^ (eb f - 1)) as Eb2 by (rewrite <- Z.pow_succ_r by lia; f_equal; lia).
    assert (2 ^ (eb f - 1) <= 2 ^ (eb f - p) <= 2 ^ eb f) as PB by (split; apply Z.pow_le_mono_r; lia).
    assert (2 ^ (fb f - 2) <= m <= (2 * S - 1) * 2 ^ eb f) as MR. { unfold m. replace (2 ^ (fb f - 2)) with (S * 2 ^ (eb f - 1)) by (rewrite <- Z.pow_add_r by lia; f_equal; lia). split; apply Z.mul_le_mono_nonneg; lia. }
    assert (16 < fb f -> fs f + 5 <= E) as HE5. { intros G. specialize (WS G). unfold E. apply Z.div_le_lower_bound; lia. }
    destruct (finish_ok f W o m sq ex E O MR RNr HX HE HE5) as (r & -> & Rr & RM). exists r. split; [reflexivity|]. replace r with (mk false r) by (cbn [b2z]; lia). split; [apply (is_float_mk f W); lia|].
    replace n with (mk false n) by (cbn [b2z]; lia). unfold ieee_sqrt. rewrite (is_nan_mk f W), (is_zero_mk f W), (is_inf_mk f W), (is_finite_mk f W), (sign_of_mk f W), (value_mk f W) by lia. repeat match goal with |- _ /\ _ => split end; try (intros; lia); try (intros; discriminate). intros _ _ _.
    assert (sqrt (mag n) = root (fb f) m * IZR S * bpow radix2 (E - 1 + emin f))%R as SQ.
    { assert (2 ^ (fb f - 2) <= m < 2 ^ fb f) as Hm' by (split; [lia|]; rewrite Fe, Be; lia). pose proof (root_range (fb f) m ltac:(lia) Hm') as Q. pose proof (root_sq (fb f) m ltac:(lia) Hm') as Q2. set (q := root (fb f) m) in *.
      assert (0 < IZR S)%R as SR by (apply IZR_lt; lia). pose proof (bpow_gt_0 radix2 (E - 1 + emin f)) as Bp. rewrite <- (sqrt_square (q * IZR S * bpow radix2 (E - 1 + emin f))) by (apply Rmult_le_pos; [apply Rmult_le_pos|]; lra). f_equal.
      replace (q * IZR S * bpow radix2 (E - 1 + emin f) * (q * IZR S * bpow radix2 (E - 1 + emin f)))%R with ((q * q) * (IZR S * IZR S) * (bpow radix2 (E - 1 + emin f) * bpow radix2 (E - 1 + emin f)))%R by ring.
      rewrite Q2, MV. unfold m, width. rewrite mult_IZR. change (2 ^ (eb f - p)) with (Zpower radix2 (eb f - p)). change (2 ^ fb f) with (Zpower radix2 (fb f)). change (IZR S) with (IZR (Zpower radix2 (fs f))). rewrite !(IZR_Zpower radix2) by lia. unfold Rdiv. rewrite <- bpow_opp. change 4%R with (bpow radix2 2).
      replace (bpow radix2 2 * (IZR (S + F) * bpow radix2 (eb f - p)) * bpow radix2 (- fb f) * (bpow radix2 (fs f) * bpow radix2 (fs f)) * (bpow radix2 (E - 1 + emin f) * bpow radix2 (E - 1 + emin f)))%R
        with (IZR (S + F) * (bpow radix2 2 * bpow radix2 (eb f - p) * bpow radix2 (- fb f) * (bpow radix2 (fs f) * bpow radix2 (fs f)) * (bpow radix2 (E - 1 + emin f) * bpow radix2 (E - 1 + emin f))))%R by ring.
      f_equal. rewrite <- !bpow_plus. f_equal. unfold emin. 
      assert (2 * E = T + bias f - 1 + p) as E2. { unfold E. pose proof (Z.div_mod (T + bias f) 2 ltac:(lia)) as D1. assert (bias f mod 2 = 1) as Bo. { symmetry. apply Z.mod_unique with (2 ^ (eb f - 2) - 1); [lia|]. rewrite (bias_eq f W). assert (2 ^ (eb f - 1) = 2 * 2 ^ (eb f - 2)) as -> by (rewrite <- Z.pow_succ_r by lia; f_equal; lia). lia. }
        assert ((T + bias f) mod 2 = 1 - p) as PM. { rewrite Z.add_mod, Bo by lia. fold p. assert (p = 0 \/ p = 1) as [-> | ->] by lia; reflexivity. } lia. }
      lia. }
    rewrite SQ. assert (0 <= root (fb f) m * IZR S * bpow radix2 (E - 1 + emin f))%R as NN by (rewrite <- SQ; apply sqrt_pos). apply (rounds_mag f W false _ r false NN RM). reflexivity.
  - (* infinities and NaNs *)
    assert (is_qnan f (sqrt_NAN f) /\ is_float f (sqrt_NAN f)) as (QN & QF) by (destruct (qnan_rep_qnan f W) as (A1 & A2 & _); split; assumption).
    assert (dispatch (mk s n) = Ok (inl (if (negb s && (n =? inf f))%bool then mk s n else sqrt_NAN f))) as ->.
    { unfold dispatch. replace ((S <=? mk s n) && (mk s n <? inf f)) with false by (destruct s; cbn [b2z]; lia). unfold sqrt_special. unfold fI at 1. rewrite cshl_ok by (change (bits (UI (fb f))) with (fb f); lia). cbn [bind].
      replace (norm (UI (fb f)) (mk s n * 2 ^ 1) =? 0) with false. 2:{ symmetry. apply Z.eqb_neq. rewrite norm_u, Fe. replace (mk s n * 2 ^ 1) with (2 * n + b2z s * (2 * B)) by lia. rewrite Z.mod_add by lia. rewrite Z.mod_small by lia. lia. }
      rewrite (EXP_MASK_eq f W). destruct s; cbn [negb andb b2z].
      - replace (1 * B + n =? inf f) with false by lia. replace (inf f <? 1 * B + n) with true by lia. reflexivity.
      - rewrite Z.mul_0_l, Z.add_0_l. destruct (Z.eqb_spec n (inf f)); [reflexivity|]. replace (inf f <? n) with true by lia. reflexivity. }
    cbn [bind]. eexists. split; [reflexivity|]. split; [destruct (negb s && (n =? inf f))%bool; [apply (is_float_mk f W); lia|exact QF]|].
    unfold ieee_sqrt. rewrite (is_nan_mk f W), (is_zero_mk f W), (is_inf_mk f W), (is_finite_mk f W), (sign_of_mk f W) by lia.
    repeat match goal with |- _ /\ _ => split end; try (intros; lia).
    + intros. replace (n =? inf f) with false by lia. rewrite andb_false_r. exact QN.
    + intros -> _. exact QN.
    + intros -> ->. rewrite Z.eqb_refl. reflexivity.
Qed.
End Fmt.
