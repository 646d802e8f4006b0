(** Proofs about remquo and remainder: the final decision and the main result. *)
From Coq Require Import ZArith Reals Bool Lia Lra Psatz.
From Flocq Require Import Core Sterbenz.
From Verif Require Import Base BaseLemmas FloatModel FloatSpec FloatConvSpec FloatProofs FloatProofs2 FloatProofs3 FloatConvProofs FloatLib FloatPowProofs LibmModel LibmSpec LibmProofs LibmProofs2 LibmProofs3 LibmProofs4 LibmProofs5 LibmProofs6 RemModel RemSpec RemProofs RemProofs2.
Open Scope Z_scope.

Section P.
Context (f : fmt) (W : wf f) (o : fops) (O : ieee_ops f o).
Notation S := (2 ^ fs f).
Notation B := (2 ^ (fb f - 1)).
Notation u := (bpow radix2 (emin f)).
Notation mk s n := (b2z s * B + n).
Notation mag n := (IZR (V f n) * u)%R.

(** The code after the reduction, remquo.rs:77-95. *)
Definition rq_tail (checks sx sy : bool) (y ey ex uxi q : Z) : res (Z * Z) :=
  let* bits := rq_bits f ex uxi in
  let ya := if sy then Z.lxor y (SIGN_MASK f) else y in
  let x2 := o_mul o (TWO f) bits in
  let* ex1 := cadd (SI 32) ex 1 in
  let* xq :=
    (if (ex =? ey) || (ex1 =? ey) && (o_lt o ya x2 || o_eq o x2 ya && negb (q mod 2 =? 0)) then
       let* q := (if (fb f =? 64) || negb checks then Ok (wrapping_add (UI 32) q 1) else cadd (UI 32) q 1) in
       Ok (o_sub o bits ya, q)
     else Ok (bits, q)) in
  let '(xr, q) := xq in
  let q := Z.land q (2 ^ 31 - 1) in
  let* quo := (if xorb sx sy then cneg (SI 32) (norm (SI 32) q) else Ok (norm (SI 32) q)) in
  Ok (if sx then Z.lxor xr (SIGN_MASK f) else xr, quo).

Lemma remquo_eq checks x y : remquo f o checks x y =
  let* ex := ccast (SI 32) (Z.land (Z.shiftr x (fs f)) (EXP_SAT f)) in
  let* ey := ccast (SI 32) (Z.land (Z.shiftr y (fs f)) (EXP_SAT f)) in
  let sx := negb (Z.shiftr x (fb f - 1) =? 0) in
  let sy := negb (Z.shiftr y (fb f - 1) =? 0) in
  let* y2 := cshl (fI f) y 1 in
  let* x2 := cshl (fI f) x 1 in
  if (y2 =? 0) || is_nanb f y || (ex =? EXP_SAT f) then Ok (o_div o (o_mul o x y) (o_mul o x y), 0)
  else if x2 =? 0 then Ok (x, 0)
  else
    let* nx := rq_normalize f ex x in
    let '(ex, uxi) := nx in
    let* ny := rq_normalize f ey y in
    let '(ey, uy) := ny in
    let* ex1 := cadd (SI 32) ex 1 in
    if negb (ex1 =? ey) && (ex <? ey) then Ok (x, 0)
    else
      let* st :=
        (if negb (ex1 =? ey) then
           let* p := rq_loop f (Z.to_nat (ex - ey)) uxi uy 0 in
           let '(uxi, q) := p in
           if uxi =? 0 then Ok (rq_sentinel f, uxi, q)
           else let* p := rq_renorm f (Z.to_nat (fb f)) ey uxi in Ok (p, q)
         else Ok (ex, uxi, 0)) in
      let '(ex, uxi, q) := st in
      rq_tail checks sx sy y ey ex uxi q.
Proof using. reflexivity. Qed.

Lemma TWO_eq : TWO f = mk false (p2 f 1).
Proof using W.
  unfold TWO. rewrite shiftl_mul by (destruct W; lia). rewrite EXP_BIAS_eq, <- bias_eq by assumption. unfold p2. cbn [b2z]. lia.
Qed.
Lemma two_mul n d : 0 <= n < inf f -> 0 <= d < inf f -> V f d = 2 * V f n -> o_mul o (TWO f) (mk false n) = mk false d.
Proof using W O.
  intros Hn Hd E. pose proof (inf_pos f W). pose proof (bias_pos f W). rewrite TWO_eq. destruct (fin_p2 f W false 1 ltac:(lia)) as (B1 & B2 & B3 & B4).
  destruct (ops_mul f o O _ (mk false n) B1 ltac:(apply is_float_mk; assumption || lia)) as [_ (_ & _ & _ & R)].
  specialize (R B2 ltac:(apply is_finite_mk; assumption || lia)). rewrite B4, sign_of_mk, (value_p2 f W false 1), value_mk in R by (assumption || lia). cbn [xorb] in R.
  apply (op_exact f W _ _ _ false d R); [|lia|auto]. rewrite E, mult_IZR. cbn [bpow]. change (Z.pow_pos radix2 1) with 2. ring.
Qed.

Lemma sub_exact n m : 0 <= n < inf f -> 0 <= m < inf f -> V f n < V f m -> V f m <= 2 * V f n ->
  let r := o_sub o (mk false n) (mk false m) in
  exists k, r = mk true k /\ 0 < k < inf f /\ V f k = V f m - V f n.
Proof using W O.
  intros Hn Hm Hlt Hle. pose proof (inf_pos f W) as IP. cbv zeta.
  destruct (ops_sub f o O (mk false n) (mk false m) ltac:(apply is_float_mk; assumption || lia) ltac:(apply is_float_mk; assumption || lia)) as [Fr (_ & _ & _ & _ & R)].
  specialize (R ltac:(apply is_finite_mk; assumption || lia) ltac:(apply is_finite_mk; assumption || lia)).
  rewrite !value_mk, !sign_of_mk in R by (assumption || lia). cbn [andb negb] in R.
  set (r := o_sub o (mk false n) (mk false m)) in *. clearbody r.
  destruct R as (_ & Rs & Rv). pose proof (bpow_gt_0 radix2 (emin f)) as UP.
  assert (GF : forall k, 0 <= k < inf f -> generic_format radix2 (FLT_exp (emin f) (prec f)) (mag k)).
  { intros k Hk. rewrite <- (rne_mag f W k Hk). unfold rne. apply generic_format_round; [apply FLT_exp_valid; unfold prec, Prec_gt_0; destruct W; lia|apply valid_rnd_N]. }
  assert (L1 : (mag n < mag m)%R) by (apply Rmult_lt_compat_r; [exact UP|apply IZR_lt; exact Hlt]).
  assert (L2 : (mag m <= 2 * mag n)%R) by (rewrite <- Rmult_assoc, <- mult_IZR; apply Rmult_le_compat_r; [lra|apply IZR_le; exact Hle]).
  assert (EX : rne f (mag n - mag m) = (mag n - mag m)%R).
  { apply round_generic; [apply valid_rnd_N|]. apply sterbenz; [apply FLT_exp_valid; unfold prec, Prec_gt_0; destruct W; lia|apply FLT_exp_monotone|apply GF; lia|apply GF; lia|lra]. }
  rewrite EX in Rv. rewrite Rcompare_Lt in Rs by lra.
  pose proof (mag_nonneg f W n ltac:(lia)). pose proof (mag_nonneg f W m ltac:(lia)). pose proof (mag_lt_emax f W m Hm).
  rewrite Rlt_bool_true in Rv by (rewrite Rabs_left by lra; lra). destruct Rv as [Ff Fv].
  destruct (split_float f W r Fr) as (s & k & -> & Hk). rewrite sign_of_mk in Rs by assumption. subst s. exists k. split; [reflexivity|].
  apply is_finite_mk in Ff; [|assumption..]. rewrite value_mk in Fv by assumption.
  assert (IZR (V f k) = IZR (V f m) - IZR (V f n))%R as E by (apply Rmult_eq_reg_r with u; lra).
  rewrite <- minus_IZR in E. apply eq_IZR in E. split; [|exact E]. split; [|exact Ff].
  destruct (Z.eq_dec k 0) as [->|]; [|lia]. rewrite (V_0 f W) in E. lia.
Qed.

Lemma lxor_sign s n : 0 <= n < B -> Z.lxor (mk s n) (SIGN_MASK f) = mk (negb s) n.
Proof using W.
  intros Hn. rewrite SIGN_MASK_eq by assumption. rewrite (mk1 (fb f - 1)) at 2. rewrite lxor_mk by (destruct W; lia || apply pow2_pos; destruct W; lia).
  rewrite Z.lxor_0_r, xorb_true_r. reflexivity.
Qed.
Lemma ZnearestE_xor (b : bool) (z : R) : ZnearestE (if b then - z else z) = if b then - ZnearestE z else ZnearestE z.
Proof using. apply ZnearestE_signed. Qed.

Lemma quo_ok (b : bool) N q : 0 <= N -> q = N mod 2 ^ 32 ->
  (if b then cneg (SI 32) (norm (SI 32) (Z.land q (2 ^ 31 - 1))) else Ok (norm (SI 32) (Z.land q (2 ^ 31 - 1)))) = Ok (Z.rem (if b then - N else N) (2 ^ 31)).
Proof using.
  intros HN ->. rewrite (land_ones_mod _ 31) by lia. rewrite <- (Znumtheory.Zmod_div_mod (2 ^ 31) (2 ^ 32)) by (lia || (exists 2; reflexivity)).
  pose proof (Z.mod_pos_bound N (2 ^ 31) ltac:(lia)). rewrite norm_s32 by lia. rewrite <- (Z.rem_mod_nonneg N (2 ^ 31)) in * by lia.
  destruct b; [|reflexivity]. unfold cneg. rewrite chk_s32 by lia. rewrite Z.rem_opp_l by lia. reflexivity.
Qed.

Lemma rq_tail_ok checks s t n m ex uxi ey n' :
  0 < n < inf f -> 0 < m < inf f ->
  let Q := V f n / V f m in let R := V f n mod V f m in
  rq_bits f ex uxi = Ok n' -> 0 <= n' < inf f -> V f n' = R ->
  - 2 ^ 30 <= ex <= 2 ^ 30 ->
  (ex = ey -> V f m < 2 * R) ->
  (ex + 1 = ey -> exists d, 0 <= d < inf f /\ V f d = 2 * R) ->
  (ex <> ey -> ex + 1 <> ey -> 2 * R < V f m) ->
  (fb f = 64 \/ (V f m <= 2 * R -> Q mod 2 ^ 32 <> 2 ^ 32 - 1)) ->
  exists r, rq_tail checks s t (mk t m) ey ex uxi (Q mod 2 ^ 32) = Ok (r, Z.rem (ZnearestE (value f (mk s n) / value f (mk t m))) (2 ^ 31)) /\
    exact_remainder f ZnearestE (mk s n) (mk t m) r.
Proof using W O.
  intros Hn Hm Q R Eb Hn' EV Hex C1 C2 C3 HO. pose proof (inf_pos f W) as IP.
  pose proof (V_pos f W m ltac:(lia)) as Ym. pose proof (V_nonneg f W n ltac:(lia)) as Yn.
  pose proof (Z.div_mod (V f n) (V f m) ltac:(lia)) as DM. pose proof (Z.mod_pos_bound (V f n) (V f m) Ym) as MB. fold Q R in DM, MB.
  assert (HQ : 0 <= Q) by (apply Z.div_pos; lia).
  rewrite (quot_value f W) by lia. rewrite ZnearestE_xor, ZnearestE_div by exact Ym. fold Q.
  set (up := rup (V f n) (V f m)) in *.
  assert (Ya : (if t then Z.lxor (mk t m) (SIGN_MASK f) else mk t m) = mk false m) by (destruct t; [rewrite lxor_sign by lia|]; reflexivity).
  assert (Qp : (Q mod 2 ^ 32) mod 2 = Q mod 2) by (rewrite <- (Znumtheory.Zmod_div_mod 2 (2 ^ 32)); lia || (try (exists (2 ^ 31); reflexivity))).
  unfold rq_tail. rewrite Eb. cbn [bind]. rewrite Ya. unfold cadd at 1. rewrite chk_s32 by lia. cbn [bind]. rewrite Qp.
  replace n' with (mk false n') by (cbn [b2z]; lia).
  assert (Dec : (ex =? ey) || (ex + 1 =? ey) && (o_lt o (mk false m) (o_mul o (TWO f) (mk false n')) || o_eq o (o_mul o (TWO f) (mk false n')) (mk false m) && negb (Q mod 2 =? 0)) = (up =? 1)).
  { unfold up, rup. fold Q R. destruct (Z.eqb_spec ex ey) as [E1|E1].
    - cbn [orb]. specialize (C1 E1). rewrite (proj2 (Z.compare_gt_iff _ _)) by lia. reflexivity.
    - cbn [orb]. destruct (Z.eqb_spec (ex + 1) ey) as [E2|E2].
      + cbn [andb]. destruct (C2 E2) as (d & Hd & Ed). rewrite (two_mul n' d) by (assumption || lia). rewrite (lt_mk f W o O), (eq_mk f W o O) by lia. unfold key. rewrite Ed.
        replace (m <=? inf f) with true by lia. replace (d <=? inf f) with true by lia. cbn [andb].
        destruct (Z.compare_spec (2 * R) (V f m)) as [K|K|K].
        * replace (V f m <? 2 * R) with false by lia. replace (2 * R =? V f m) with true by lia. cbn [orb andb]. pose proof (Z.mod_pos_bound Q 2 ltac:(lia)). destruct (Z.eqb_spec (Q mod 2) 0), (Z.eqb_spec (Q mod 2) 1); cbn [negb]; lia.
        * replace (V f m <? 2 * R) with false by lia. replace (2 * R =? V f m) with false by lia. reflexivity.
        * replace (V f m <? 2 * R) with true by lia. reflexivity.
      + cbn [andb]. specialize (C3 E1 E2). rewrite (proj2 (Z.compare_lt_iff _ _)) by lia. reflexivity. }
  rewrite Dec. clear Dec.
  destruct (Z.eqb_spec up 1) as [U1|U1].
  - assert (HR : V f m <= 2 * R).
    { unfold up, rup in U1. fold Q R in U1. destruct (Z.compare_spec (2 * R) (V f m)); lia. }
    assert (HQ1 : (if (fb f =? 64) || negb checks then Ok (wrapping_add (UI 32) (Q mod 2 ^ 32) 1) else cadd (UI 32) (Q mod 2 ^ 32) 1) = Ok ((Q + 1) mod 2 ^ 32)).
    { destruct ((fb f =? 64) || negb checks) eqn:Ec.
      - unfold wrapping_add. rewrite norm_u. rewrite Z.add_mod_idemp_l by lia. reflexivity.
      - destruct HO as [HO|HO]; [rewrite HO in Ec; discriminate|]. specialize (HO HR). pose proof (Z.mod_pos_bound Q (2 ^ 32) ltac:(lia)). unfold cadd. rewrite chk_u by lia. f_equal.
        rewrite <- (Z.add_mod_idemp_l Q) by lia. symmetry. apply Z.mod_small. lia. }
    rewrite HQ1. cbn [bind]. destruct (sub_exact n' m ltac:(lia) ltac:(lia) ltac:(lia) ltac:(lia)) as (k & -> & Hk & Ek).
    rewrite (quo_ok (xorb s t) (Q + 1) _ ltac:(lia) eq_refl). cbn [bind]. rewrite U1.
    eexists. split; [reflexivity|]. 
    assert (Ers : (if s then Z.lxor (mk true k) (SIGN_MASK f) else mk true k) = mk (negb s) k) by (destruct s; [rewrite lxor_sign by lia|]; reflexivity).
    rewrite Ers. assert (FM := is_finite_mk f W (negb s) k ltac:(lia)). assert (ZM := is_zero_mk f W (negb s) k ltac:(lia)). unfold exact_remainder.
    split; [apply is_float_mk; assumption || lia|]. split; [apply FM; lia|]. split; [|intros K; apply ZM in K; lia].
    rewrite (quot_value f W) by lia. rewrite ZnearestE_xor, ZnearestE_div by exact Ym. fold Q. fold up. rewrite U1.
    rewrite !value_mk by (assumption || lia). rewrite Ek, EV. rewrite DM. rewrite !minus_IZR, !plus_IZR, !mult_IZR. fold R. destruct s, t; cbn [xorb negb]; rewrite ?opp_IZR, ?plus_IZR; ring.
  - assert (U0 : up = 0). { unfold up, rup in U1 |- *. fold Q R in U1 |- *. pose proof (Z.mod_pos_bound Q 2 ltac:(lia)). destruct (Z.compare_spec (2 * R) (V f m)); lia. }
    cbn [bind]. rewrite (quo_ok (xorb s t) Q _ ltac:(lia) eq_refl). cbn [bind]. rewrite U0, Z.add_0_r.
    eexists. split; [reflexivity|].
    assert (Ers : (if s then Z.lxor (mk false n') (SIGN_MASK f) else mk false n') = mk s n') by (destruct s; [rewrite lxor_sign by lia|]; reflexivity).
    rewrite Ers. assert (FM := is_finite_mk f W s n' ltac:(lia)). assert (SM := sign_of_mk f W s n' ltac:(lia)). assert (SN := sign_of_mk f W s n ltac:(lia)). unfold exact_remainder.
    split; [apply is_float_mk; assumption || lia|]. split; [apply FM; lia|]. split; [|congruence].
    rewrite (quot_value f W) by lia. rewrite ZnearestE_xor, ZnearestE_div by exact Ym. fold Q. fold up. rewrite U0, Z.add_0_r.
    apply (sub_value f W); try assumption; try lia.
Qed.

(** Scaled quotients: with S*Vx = qx*2^(Ex-1+fs). *)
Lemma scaled_div (n m qx Ex qy Ey : Z) : 0 <= V f n -> 0 < V f m -> 0 <= qx -> 0 < qy -> 1 - fs f <= Ey <= Ex ->
  S * V f n = qx * 2 ^ (Ex - 1 + fs f) -> S * V f m = qy * 2 ^ (Ey - 1 + fs f) ->
  (qx * 2 ^ (Ex - Ey)) / qy = V f n / V f m /\ S * (V f n mod V f m) = (qx * 2 ^ (Ex - Ey)) mod qy * 2 ^ (Ey - 1 + fs f).
Proof using W.
  intros Hn Hm Hqx Hqy HE En Em. pose proof (S_pos f W) as SP. pose proof (pow2_pos (Ey - 1 + fs f) ltac:(lia)) as PP. set (p := 2 ^ (Ey - 1 + fs f)) in *.
  assert (Ep : qx * 2 ^ (Ex - 1 + fs f) = qx * 2 ^ (Ex - Ey) * p) by (unfold p; rewrite <- Z.mul_assoc, <- Z.pow_add_r by lia; f_equal; f_equal; lia).
  rewrite Ep in En. set (X := qx * 2 ^ (Ex - Ey)) in *. split.
  - rewrite <- (Z.div_mul_cancel_r X qy p) by lia. rewrite <- En, <- Em. apply Z.div_mul_cancel_l; lia.
  - rewrite <- Z.mul_mod_distr_l, En, Em by lia. rewrite Z.mul_mod_distr_r by lia. reflexivity.
Qed.

(** The increment of the quotient cannot overflow when the significand has at most 32 bits. *)
Lemma no_overflow n m qx Ex qy Ey : fs f <= 30 -> 0 <= V f n -> 0 < V f m -> S <= qx < 2 * S -> S <= qy < 2 * S -> 1 - fs f <= Ey <= Ex ->
  S * V f n = qx * 2 ^ (Ex - 1 + fs f) -> S * V f m = qy * 2 ^ (Ey - 1 + fs f) ->
  V f m <= 2 * (V f n mod V f m) -> (V f n / V f m) mod 2 ^ 32 <> 2 ^ 32 - 1.
Proof using W.
  intros Hfs Hn Hm Hqx Hqy HE En Em HR K. pose proof (S_pos f W) as SP.
  destruct (scaled_div n m qx Ex qy Ey) as [D M]; try assumption; try lia. rewrite <- D in K.
  pose proof (pow2_pos (Ey - 1 + fs f) ltac:(lia)) as PP. pose proof (pow2_pos (Ex - Ey) ltac:(lia)) as PK.
  assert (HR2 : qy <= 2 * ((qx * 2 ^ (Ex - Ey)) mod qy)).
  { apply Z.mul_le_mono_pos_r with (2 ^ (Ey - 1 + fs f)); [exact PP|]. rewrite <- Em, <- Z.mul_assoc, <- M. replace (2 * (S * (V f n mod V f m))) with (S * (2 * (V f n mod V f m))) by ring. apply Z.mul_le_mono_nonneg_l; lia. }
  clear En Em D M HR. pose proof (Z.div_mod (qx * 2 ^ (Ex - Ey)) qy ltac:(lia)) as DM. pose proof (Z.mod_pos_bound (qx * 2 ^ (Ex - Ey)) qy ltac:(lia)) as MB.
  assert (Hq0 : 0 <= qx * 2 ^ (Ex - Ey) / qy) by (apply Z.div_pos; [apply Z.mul_nonneg_nonneg; lia|lia]).
  set (r := (qx * 2 ^ (Ex - Ey)) mod qy) in *. set (Q := qx * 2 ^ (Ex - Ey) / qy) in *.
  pose proof (Z.div_mod Q (2 ^ 32) ltac:(lia)) as DQ. rewrite K in DQ.
  destruct (Z_lt_ge_dec (Ex - Ey) (fs f)) as [Hk|Hk].
  - assert (Q * S < 2 * S * 2 ^ 30). { apply Z.le_lt_trans with (qx * 2 ^ (Ex - Ey)); [nia|]. assert (2 ^ (Ex - Ey) <= 2 ^ 30) by (apply pow2_le; lia). nia. }
    assert (Q < 2 ^ 31) by nia. assert (0 <= Q / 2 ^ 32) by (apply Z.div_pos; lia). lia.
  - assert (Hd : (S | qy - r)).
    { replace (qy - r) with (qy * (Q + 1) - qx * 2 ^ (Ex - Ey)) by lia. apply Z.divide_sub_r.
      - apply Z.divide_mul_r. exists (2 ^ (32 - fs f) * (Q / 2 ^ 32 + 1)). assert (E : 2 ^ 32 = 2 ^ (32 - fs f) * S) by (rewrite <- Z.pow_add_r by (destruct W; lia); f_equal; lia).
        replace (2 ^ (32 - fs f) * (Q / 2 ^ 32 + 1) * S) with (2 ^ (32 - fs f) * S * (Q / 2 ^ 32 + 1)) by ring. rewrite <- E. lia.
      - apply Z.divide_mul_r. exists (2 ^ (Ex - Ey - fs f)). rewrite <- Z.pow_add_r by (destruct W; lia). f_equal. lia. }
    destruct Hd as [c Hc]. assert (0 < c) by nia. nia.
Qed.

Lemma sign_bit s n : 0 <= n < B -> negb (Z.shiftr (mk s n) (fb f - 1) =? 0) = s.
Proof using W.
  intros Hn. rewrite shiftr_div by (destruct W; lia). rewrite Z.add_comm, Z.div_add, Z.div_small by lia. destruct s; reflexivity.
Qed.
Lemma shl1_0 s n : 0 <= n < B -> exists r, cshl (fI f) (mk s n) 1 = Ok r /\ (r =? 0) = (n =? 0).
Proof using W.
  intros Hn. pose proof (fb_eq f W). unfold fI. rewrite cshl_ok by (rewrite bits_u; destruct W; lia). rewrite norm_u. change (2 ^ 1) with 2. eexists. split; [reflexivity|].
  replace ((mk s n * 2) mod 2 ^ fb f) with (2 * n); [destruct (Z.eqb_spec n 0); lia|]. apply Z.mod_unique with (b2z s); lia.
Qed.


(** Which of 2R and Y is larger, from the exponents. *)
Lemma cmp_exp R Y q E qy Ey : S <= q < 2 * S -> S <= qy < 2 * S -> 1 - fs f <= E -> 1 - fs f <= Ey -> S * R = q * 2 ^ (E - 1 + fs f) -> S * Y = qy * 2 ^ (Ey - 1 + fs f) ->
  (E = Ey -> Y < 2 * R) /\ (E + 1 < Ey -> 2 * R < Y) /\ (E < Ey -> R < Y).
Proof using W.
  intros Hq Hqy HE HEy ER EY. pose proof (S_pos f W) as SP. pose proof (pow2_pos (E - 1 + fs f) ltac:(lia)) as P1. pose proof (pow2_pos (Ey - 1 + fs f) ltac:(lia)) as P2.
  split; [|split]; intros H; apply Z.mul_lt_mono_pos_l with S; try exact SP.
  - subst Ey. replace (S * (2 * R)) with (2 * (S * R)) by ring. rewrite ER, EY. nia.
  - replace (S * (2 * R)) with (2 * (S * R)) by ring. rewrite ER, EY. assert (4 * 2 ^ (E - 1 + fs f) <= 2 ^ (Ey - 1 + fs f)).
    { change 4 with (2 ^ 2). rewrite <- Z.pow_add_r by lia. apply pow2_le; lia. } nia.
  - rewrite ER, EY. assert (2 * 2 ^ (E - 1 + fs f) <= 2 ^ (Ey - 1 + fs f)).
    { change 2 with (2 ^ 1) at 1. rewrite <- Z.pow_add_r by lia. apply pow2_le; lia. } nia.
Qed.

Lemma small_quot n m : 0 <= V f n -> 2 * V f n < V f m -> V f n / V f m = 0 /\ rup (V f n) (V f m) = 0.
Proof using.
  intros H1 H2. split; [apply Z.div_small; lia|]. unfold rup. rewrite (Z.mod_small (V f n)) by lia. rewrite (proj2 (Z.compare_lt_iff _ _)) by lia. reflexivity.
Qed.

Lemma remquo_core checks s t n m : fb f = 64 /\ fs f <= 58 \/ fs f <= 28 -> 32 <= fb f -> 0 < n < inf f -> 0 < m < inf f ->
  exists r, remquo f o checks (mk s n) (mk t m) = Ok (r, Z.rem (ZnearestE (value f (mk s n) / value f (mk t m))) (2 ^ 31)) /\
    exact_remainder f ZnearestE (mk s n) (mk t m) r.
Proof using W O.
  intros Hf Hfb Hn Hm. pose proof (inf_pos f W) as IP. pose proof (S_pos f W) as SP. pose proof (EB_big f W) as EB.
  rewrite remquo_eq, !exp_of by (assumption || lia). pose proof (div_range f W n ltac:(lia)) as RX. pose proof (div_range f W m ltac:(lia)) as RY.
  unfold ccast. rewrite !chk_s32 by lia. cbn [bind]. rewrite !sign_bit by lia.
  destruct (shl1_0 t m ltac:(lia)) as (y2 & -> & Ky2). destruct (shl1_0 s n ltac:(lia)) as (x2 & -> & Kx2). cbn [bind]. rewrite Ky2, Kx2.
  replace (m =? 0) with false by lia. replace (n =? 0) with false by lia. rewrite is_nanb_mk by (assumption || lia). replace (inf f <? m) with false by lia.
  rewrite EXP_SAT_eq by assumption. assert (NX : n / S =? 2 ^ eb f - 1 = false) by (apply Z.eqb_neq; intros K; apply (div_inf f W) in K; lia). rewrite NX. cbn [orb].
  destruct (rq_normalize_ok f W s n ltac:(lia)) as (Ex & qx & -> & Hqx & HEx & EVx & FEx & _). cbn [bind].
  destruct (rq_normalize_ok f W t m ltac:(lia)) as (Ey & qy & -> & Hqy & HEy & EVy & FEy & _). cbn [bind].
  specialize (FEx ltac:(lia)). specialize (FEy ltac:(lia)). clear NX RX RY.
  unfold cadd at 1. rewrite chk_s32 by lia. cbn [bind].
  pose proof (V_pos f W n ltac:(lia)) as Xp. pose proof (V_pos f W m ltac:(lia)) as Yp.
  destruct (cmp_exp (V f n) (V f m) qx Ex qy Ey Hqx Hqy ltac:(lia) ltac:(lia) EVx EVy) as (CE1 & CE2 & CE3).
  destruct (Z.eqb_spec (Ex + 1) Ey) as [E1|E1].
  - (* x has the exponent just below *)
    cbn [negb andb bind].
    assert (Lt : V f n < V f m) by (apply CE3; lia).
    destruct (rq_bits_ok f W Ex qx (V f n) Hqx ltac:(lia) EVx) as (n' & Eb & Hn' & EV').
    assert (D0 : V f n / V f m = 0) by (apply Z.div_small; lia). assert (M0 : V f n mod V f m = V f n) by (apply Z.mod_small; lia).
    pose proof (rq_tail_ok checks s t n m Ex qx Ey n' Hn Hm) as T. cbv zeta in T. rewrite D0, M0 in T. change (0 mod 2 ^ 32) with 0 in T. apply T; try assumption; try lia.
    + intros _. destruct (rq_bits_ok f W (Ex + 1) qx (2 * V f n) Hqx ltac:(lia)) as (d & _ & Hd & EVd); [|exists d; split; [lia|exact EVd]].
      replace (S * (2 * V f n)) with (2 * (S * V f n)) by ring. rewrite EVx. replace (Ex + 1 - 1 + fs f) with (Z.succ (Ex - 1 + fs f)) by lia. rewrite Z.pow_succ_r by lia. ring.
  - cbn [negb andb]. destruct (Z.ltb_spec Ex Ey) as [E2|E2].
    + (* x is too small *)
      assert (Lt : 2 * V f n < V f m) by (apply CE2; lia). destruct (small_quot n m ltac:(lia) Lt) as [D0 U0].
      assert (Hz : ZnearestE (value f (mk s n) / value f (mk t m)) = 0).
      { rewrite (quot_value f W) by lia. rewrite ZnearestE_xor, ZnearestE_div by lia. rewrite D0, U0. destruct (xorb s t); reflexivity. }
      assert (FM := is_finite_mk f W s n ltac:(lia)). assert (IF := is_float_mk f W s n ltac:(lia)).
      exists (mk s n). rewrite Hz. split; [reflexivity|]. unfold exact_remainder. rewrite Hz. split; [exact IF|]. split; [apply FM; lia|]. split; [ring|reflexivity].
    + (* the division loop *)
      rewrite (rq_loop_ok f W (Z.to_nat (Ex - Ey)) qx qy 0 0 ltac:(lia) ltac:(lia) eq_refl eq_refl). cbn [bind]. rewrite Z2Nat.id, Z.mul_0_l, Z.add_0_l by lia.
      destruct (scaled_div n m qx Ex qy Ey) as [D M]; try assumption; try lia. rewrite D.
      set (r := (qx * 2 ^ (Ex - Ey)) mod qy) in *. assert (Hr : 0 <= r < qy) by (apply Z.mod_pos_bound; lia). clearbody r. clear D.
      pose proof (Z.mod_pos_bound (V f n) (V f m) Yp) as MB.
      assert (NO : fb f = 64 \/ (V f m <= 2 * (V f n mod V f m) -> (V f n / V f m) mod 2 ^ 32 <> 2 ^ 32 - 1)).
      { destruct Hf as [[Hf _]|Hf]; [left; exact Hf|right]. apply (no_overflow n m qx Ex qy Ey); assumption || lia. }
      pose proof (rq_tail_ok checks s t n m) as T. cbv zeta in T.
      destruct (Z.eqb_spec r 0) as [R0|R0].
      * cbn [bind]. rewrite R0, Z.mul_0_l in M. assert (Rz : V f n mod V f m = 0) by (apply Z.mul_eq_0 in M; destruct M as [M|M]; [exfalso; clear - M SP; lia|exact M]).
        assert (Hs : rq_sentinel f + 1 < 1 - fs f /\ -61 <= rq_sentinel f <= 0) by (clear - Hf W; unfold rq_sentinel; destruct W; destruct (Z.eqb_spec (fb f) 64); destruct Hf as [[? ?]|]; lia).
        assert (Hfb' : -rq_sentinel f + 1 < fb f) by (clear - Hf Hfb; unfold rq_sentinel; destruct (Z.eqb_spec (fb f) 64); lia).
        clear CE1 CE2 CE3 EVx EVy M FEx FEy. rewrite Rz in *.
        apply (T (rq_sentinel f) r Ey 0); clear T; [exact Hn|exact Hm| |clear - IP; lia|exact (V_0 f W)|clear - Hs; lia|clear - Hs HEy; lia|clear - Hs HEy; lia|clear - Yp; lia|exact NO].
        subst r. unfold rq_bits. replace (0 <? rq_sentinel f) with false by (clear - Hs; lia). unfold cneg, cadd. rewrite chk_s32 by (clear - Hs; lia). cbn [bind]. rewrite chk_s32 by (clear - Hs; lia). cbn [bind]. unfold fI.
        rewrite cshr_ok by (rewrite bits_u; clear - Hs Hfb'; lia). rewrite Z.div_0_l; [reflexivity|]. apply Z.pow_nonzero; clear - Hs; lia.
      * destruct (rq_renorm_ok f W (Z.to_nat (fb f)) Ey r ltac:(lia) ltac:(rewrite Z2Nat.id by lia; pose proof (Z.log2_nonneg r); destruct W; lia) ltac:(lia)) as (Hh & Er & Hrh). cbv zeta in *.
        set (h := fs f - Z.log2 r) in *. rewrite Er. cbn [bind].
        assert (PE : 0 < 2 ^ (Ey - 1 + fs f)) by (apply pow2_pos; clear - HEy; lia).
        assert (Rp : 0 < V f n mod V f m). { clear - M R0 PE MB Hr. destruct (Z.eq_dec (V f n mod V f m) 0) as [K|K]; [|lia]. rewrite K, Z.mul_0_r in M. nia. }
        assert (HEh : 1 - fs f <= Ey - h).
        { destruct (Z_lt_ge_dec (Ey - h) (1 - fs f)) as [K|K]; [|lia]. exfalso.
          assert (P2 : 2 * 2 ^ (Ey - 1 + fs f) <= 2 ^ h) by (clear - K HEy Hh; change 2 with (2 ^ 1) at 1; rewrite <- Z.pow_add_r by lia; apply pow2_le; lia).
          clear - M P2 Hr Hrh Rp SP. assert (2 * S <= r * 2 ^ h); [|lia]. apply Z.le_trans with (2 * (S * (V f n mod V f m))); [nia|]. rewrite M. nia. }
        assert (M' : S * (V f n mod V f m) = r * 2 ^ h * 2 ^ (Ey - h - 1 + fs f)). { rewrite M, <- Z.mul_assoc, <- Z.pow_add_r by (clear - Hh HEh; lia). f_equal. f_equal. clear; lia. }
        assert (Hrg : 1 - fs f <= Ey - h < 2 ^ eb f - 1) by (clear - HEh Hh FEy; lia).
        clear CE1 CE2 CE3 EVx FEx M Er.
        destruct (rq_bits_ok f W (Ey - h) (r * 2 ^ h) (V f n mod V f m) Hrh Hrg M') as (n' & Eb & Hn' & EV').
        destruct (cmp_exp (V f n mod V f m) (V f m) (r * 2 ^ h) (Ey - h) qy Ey Hrh Hqy HEh (proj1 HEy) M' EVy) as (D1 & D2 & D3).
        apply (T (Ey - h) (r * 2 ^ h) Ey n'); clear T; [exact Hn|exact Hm|exact Eb|clear - Hn'; lia|exact EV'|clear - Hrg EB W; destruct W; lia|exact D1| |clear - D2 Hh; lia|exact NO].
        intros K. destruct (rq_bits_ok f W (Ey - h + 1) (r * 2 ^ h) (2 * (V f n mod V f m)) Hrh) as (d & _ & Hd & EVd); [clear - K Hrg FEy HEy; lia| |exists d; split; [clear - Hd; lia|exact EVd]].
        replace (S * (2 * (V f n mod V f m))) with (2 * (S * (V f n mod V f m))) by ring. rewrite M'. replace (Ey - h + 1 - 1 + fs f) with (Z.succ (Ey - h - 1 + fs f)) by (clear; lia). rewrite Z.pow_succ_r by (clear - HEh; lia). ring.
Qed.

Lemma remquo_inf checks s t n : 0 < n < inf f -> remquo f o checks (mk s n) (mk t (inf f)) = Ok (mk s n, 0).
Proof using W O.
  intros Hn. pose proof (inf_pos f W) as IP. pose proof (S_pos f W) as SP. pose proof (EB_big f W) as EB. pose proof (eb_bias f W) as EBB. pose proof (bias_pos f W) as BP. assert (FS : 10 <= fs f <= 127) by (clear - W; destruct W; lia).
  rewrite remquo_eq, !exp_of by (assumption || lia). pose proof (div_range f W n ltac:(lia)) as RX. pose proof (div_range f W (inf f) ltac:(lia)) as RY.
  unfold ccast. rewrite !chk_s32 by lia. cbn [bind]. rewrite !sign_bit by lia.
  destruct (shl1_0 t (inf f) ltac:(lia)) as (y2 & -> & Ky2). destruct (shl1_0 s n ltac:(lia)) as (x2 & -> & Kx2). cbn [bind]. rewrite Ky2, Kx2.
  replace (inf f =? 0) with false by lia. replace (n =? 0) with false by lia. rewrite is_nanb_mk by (assumption || lia). rewrite Z.ltb_irrefl.
  rewrite EXP_SAT_eq by assumption. assert (NX : n / S =? 2 ^ eb f - 1 = false) by (apply Z.eqb_neq; intros K; apply (div_inf f W) in K; lia). rewrite NX. cbn [orb].
  destruct (rq_normalize_ok f W s n ltac:(lia)) as (Ex & qx & -> & Hqx & HEx & EVx & FEx & _). cbn [bind].
  destruct (rq_normalize_ok f W t (inf f) ltac:(lia)) as (Ey & qy & -> & Hqy & HEy & EVy & _ & FEy). cbn [bind].
  specialize (FEx ltac:(lia)). specialize (FEy eq_refl). clear NX RX RY.
  unfold cadd at 1. rewrite chk_s32 by lia. cbn [bind].
  destruct (Z.eqb_spec (Ex + 1) Ey) as [E1|E1].
  - cbn [negb andb bind]. destruct (rq_bits_ok f W Ex qx (V f n) Hqx ltac:(lia) EVx) as (n' & Eb & Hn' & EV').
    assert (n' = n). { assert (~ n < n') by (intros K; pose proof (V_lt f W n n' ltac:(lia)); lia). assert (~ n' < n) by (intros K; pose proof (V_lt f W n' n ltac:(lia)); lia). lia. } subst n'.
    unfold rq_tail. rewrite Eb. cbn [bind]. unfold cadd at 1. rewrite chk_s32 by lia. cbn [bind].
    assert (Ya : (if t then Z.lxor (mk t (inf f)) (SIGN_MASK f) else mk t (inf f)) = mk false (inf f)) by (destruct t; [rewrite lxor_sign by lia|]; reflexivity). rewrite Ya.
    assert (X2 : o_mul o (TWO f) n = mk false (inf f)).
    { replace n with (mk false n) at 1 by (cbn [b2z]; lia). rewrite TWO_eq. destruct (fin_p2 f W false 1 ltac:(lia)) as (B1 & B2 & B3 & B4).
      destruct (ops_mul f o O _ (mk false n) B1 ltac:(apply is_float_mk; assumption || lia)) as [Fr (_ & _ & _ & R)].
      specialize (R B2 ltac:(apply is_finite_mk; assumption || lia)). rewrite B4, sign_of_mk, (value_p2 f W false 1), value_mk in R by (assumption || lia). cbn [xorb] in R.
      apply (op_result f W _ _ _ false (mag n * 2)%R (inf f) R).
      - change (bpow radix2 1) with 2%R. ring.
      - pose proof (mag_pos f W n ltac:(lia)). lra.
      - apply (rmag_overflow f W). replace (mag n * 2)%R with (IZR (2 * V f n) * u)%R by (rewrite mult_IZR; ring). rewrite <- (V_inf f W). apply Rmult_le_compat_r; [apply bpow_ge_0|]. apply IZR_le.
        apply Z.mul_le_mono_pos_l with S; [exact SP|]. 
        assert (EVi : S * V f (inf f) = S * 2 ^ (Ey - 1 + fs f)).
        { rewrite EVy. f_equal. assert (V f (inf f) = S * 2 ^ (2 ^ eb f - 1 - 1)) as K. { replace (inf f) with (enc f (2 ^ eb f - 1) S) by (rewrite inf_eq by assumption; unfold enc; ring). apply V_enc; assumption || lia. }
          rewrite K in EVy. subst Ey. replace (2 ^ eb f - 1 - 1 + fs f) with (fs f + (2 ^ eb f - 1 - 1)) in EVy by lia. rewrite Z.pow_add_r in EVy by (destruct W; lia).
          rewrite Z.mul_assoc in EVy. pose proof (pow2_pos (2 ^ eb f - 1 - 1) ltac:(lia)). nia. }
        rewrite EVi. replace (S * (2 * V f n)) with (2 * (S * V f n)) by ring. rewrite EVx. replace (Ey - 1 + fs f) with (Z.succ (Ex - 1 + fs f)) by lia. rewrite Z.pow_succ_r by (destruct W; lia). pose proof (pow2_pos (Ex - 1 + fs f) ltac:(lia)). nia.
      - reflexivity. }
    rewrite X2. rewrite (lt_mk f W o O), (eq_mk f W o O) by lia. rewrite Z.ltb_irrefl. change (0 mod 2 =? 0) with true. cbn [negb]. rewrite ?andb_false_r. cbn [orb andb]. rewrite ?andb_false_r. replace (Ex =? Ey) with false by lia. cbn [orb bind].
    rewrite (quo_ok (xorb s t) 0 0 ltac:(lia) eq_refl). cbn [bind]. assert (Z.rem (if xorb s t then - 0 else 0) (2 ^ 31) = 0) as -> by (destruct (xorb s t); reflexivity).
    f_equal. f_equal. destruct s; [|cbn [b2z]; lia]. replace n with (mk false n) at 1 by (cbn [b2z]; lia). rewrite lxor_sign by lia. reflexivity.
  - cbn [negb andb]. replace (Ex <? Ey) with true by lia. reflexivity.
Qed.

Ltac cls := rewrite ?is_nan_mk, ?is_inf_mk, ?is_zero_mk, ?is_finite_mk by assumption.
Lemma remquo_ok checks x y : fb f = 64 /\ fs f <= 58 \/ fs f <= 28 -> 32 <= fb f -> is_float f x -> is_float f y ->
  exists r q, remquo f o checks x y = Ok (r, q) /\ is_float f r /\
  (no_remainder f x y -> is_qnan f r /\ q = 0) /\
  (is_finite f x -> is_inf f y -> r = x /\ q = 0) /\
  (is_finite f x -> is_finite f y -> ~ is_zero f y ->
   exact_remainder f ZnearestE x y r /\ q = Z.rem (ZnearestE (value f x / value f y)) (2 ^ 31)).
Proof using W O.
  intros Hf Hfb Fx Fy. pose proof (nan_quotient f W o x y O Fx Fy) as NQ. unfold no_remainder in NQ |- *.
  destruct (split_float f W x Fx) as (s & n & -> & Hn). destruct (split_float f W y Fy) as (t & m & -> & Hm).
  rewrite !is_nan_mk, !is_inf_mk, !is_zero_mk in NQ by assumption.
  pose proof (inf_pos f W) as IP. pose proof (S_pos f W) as SP. pose proof (EB_big f W) as EB.
  destruct (Z_lt_ge_dec 0 n) as [Hn0|Hn0]; [destruct (Z_lt_ge_dec n (inf f)) as [Hni|Hni]; [destruct (Z_lt_ge_dec 0 m) as [Hm0|Hm0]; [destruct (Z_lt_ge_dec m (inf f)) as [Hmi|Hmi]; [|destruct (Z.eq_dec m (inf f)) as [->|Hmn]]|]|]|].
  1: { destruct (remquo_core checks s t n m Hf Hfb ltac:(lia) ltac:(lia)) as (r & -> & ER). do 2 eexists. split; [reflexivity|]. split; [exact (proj1 ER)|]. cls. split; [lia|]. split; [lia|]. auto. }
  1: { rewrite remquo_inf by lia. do 2 eexists. split; [reflexivity|]. split; [apply is_float_mk; assumption|]. cls. split; [lia|]. split; [auto|]. lia. }
  all: rewrite remquo_eq, !exp_of by (assumption || lia); pose proof (div_range f W n ltac:(lia)) as RX; pose proof (div_range f W m ltac:(lia)) as RY;
    unfold ccast; rewrite !chk_s32 by lia; cbn [bind]; rewrite !sign_bit by lia;
    destruct (shl1_0 t m ltac:(lia)) as (y2 & -> & Ky2); destruct (shl1_0 s n ltac:(lia)) as (x2 & -> & Kx2); cbn [bind]; rewrite Ky2, Kx2;
    rewrite is_nanb_mk by (assumption || lia); rewrite EXP_SAT_eq by assumption.
  - replace (inf f <? m) with true by lia. rewrite orb_true_r. cbn [orb]. destruct NQ as [Q1 Q2]; [lia|]. do 2 eexists. split; [reflexivity|]. split; [exact Q1|]. cls. split; [auto|]. split; lia.
  - replace (m =? 0) with true by lia. cbn [orb]. destruct NQ as [Q1 Q2]; [lia|]. do 2 eexists. split; [reflexivity|]. split; [exact Q1|]. cls. split; [auto|]. split; lia.
  - assert (n / S =? 2 ^ eb f - 1 = true) as -> by (apply Z.eqb_eq, (div_inf f W); lia). rewrite orb_true_r. destruct NQ as [Q1 Q2]; [lia|]. do 2 eexists. split; [reflexivity|]. split; [exact Q1|]. cls. split; [auto|]. split; lia.
  - assert (n = 0) by lia. subst n. rewrite (Z.div_small 0) by lia. replace (0 =? 2 ^ eb f - 1) with false by lia. rewrite orb_false_r. cbn [Z.eqb].
    destruct (Z.eqb_spec m 0) as [M0|M0]; [|destruct (Z.ltb_spec (inf f) m) as [MN|MN]]; cbn [orb].
    + destruct NQ as [Q1 Q2]; [lia|]. do 2 eexists. split; [reflexivity|]. split; [exact Q1|]. cls. split; [auto|]. split; lia.
    + destruct NQ as [Q1 Q2]; [lia|]. do 2 eexists. split; [reflexivity|]. split; [exact Q1|]. cls. split; [auto|]. split; lia.
    + do 2 eexists. split; [reflexivity|]. split; [apply is_float_mk; assumption|]. cls. split; [lia|]. split; [auto|]. intros _ _ _.
      assert (value f (mk s 0) = 0%R) as VZ by (rewrite value_mk, (V_0 f W) by assumption; destruct s; ring). assert (FM := is_finite_mk f W s 0 ltac:(lia)).
      assert (ZZ : ZnearestE 0 = 0) by (apply (Zrnd_IZR ZnearestE 0)).
      unfold exact_remainder. rewrite !VZ. unfold Rdiv. rewrite Rmult_0_l, ZZ. split; [|reflexivity]. split; [apply is_float_mk; assumption|]. split; [apply FM; lia|]. split; [ring|reflexivity].
Qed.
End P.
