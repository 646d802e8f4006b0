(** Proofs about remquo and remainder. *)
From Coq Require Import ZArith Reals Bool Lia Lra Psatz.
From Flocq Require Import Core Sterbenz.
From Verif Require Import Base BaseLemmas FloatModel FloatSpec FloatConvSpec FloatProofs FloatProofs2 FloatProofs3 FloatConvProofs FloatLib FloatPowProofs LibmModel LibmSpec LibmProofs LibmProofs2 LibmProofs3 LibmProofs4 LibmProofs5 LibmProofs6 RemModel RemSpec RemProofs.
Open Scope Z_scope.

Lemma top_loop_ilogb f k : forall e i, top_loop f k e i = ilogb_loop f k e i.
Proof. induction k as [|k IH]; intros e i; cbn [top_loop ilogb_loop]; [reflexivity|]. destruct (cshr (fI f) i (fb f - 1)) as [t|]; cbn [bind]; [|reflexivity]. destruct (t =? 0); [|reflexivity].
  destruct (csub (SI 32) e 1); cbn [bind]; [|reflexivity]. destruct (cshl (fI f) i 1); cbn [bind]; [|reflexivity]. apply IH. Qed.

Section P.
Context (f : fmt) (W : wf f).
Notation S := (2 ^ fs f).
Notation B := (2 ^ (fb f - 1)).
Notation u := (bpow radix2 (emin f)).
Notation mk s n := (b2z s * B + n).
Notation mag n := (IZR (V f n) * u)%R.

Lemma rq_normalize_ok s n : 0 < n <= inf f -> exists E q, rq_normalize f (n / S) (mk s n) = Ok (E, q) /\
  S <= q < 2 * S /\ 1 - fs f <= E <= 2 ^ eb f - 1 /\ S * V f n = q * 2 ^ (E - 1 + fs f) /\ (n < inf f -> E < 2 ^ eb f - 1) /\ (n = inf f -> E = 2 ^ eb f - 1).
Proof using W.
  intros Hn. pose proof (inf_pos f W). pose proof (S_pos f W) as SP. pose proof (EB_big f W) as EB. pose proof (fb_eq f W) as FE. pose proof (B_eq f W) as BE.
  assert (Hfs : 10 <= fs f /\ 5 <= eb f <= 15 /\ fb f = fs f + eb f + 1 /\ fb f <= 128) by (unfold eb; destruct W; lia).
  unfold rq_normalize, fI. rewrite EXP_BITS_eq by assumption. destruct (Z.eqb_spec (n / S) 0) as [E0|E0].
  - assert (Hs : n < S) by (apply Z.div_small_iff in E0; lia).
    assert (L : 0 <= Z.log2 n < fs f) by (split; [apply Z.log2_nonneg|apply Z.log2_lt_pow2; lia]). pose proof (Z.log2_spec n ltac:(lia)) as [L1 L2].
    rewrite cshl_ok by (rewrite bits_u; lia). cbn [bind]. rewrite norm_u.
    assert (Ei : (mk s n * 2 ^ (eb f + 1)) mod 2 ^ fb f = n * 2 ^ (eb f + 1)).
    { assert (E1 : 2 ^ (eb f + 1) = 2 * 2 ^ eb f) by (rewrite Z.pow_add_r by lia; lia).
      symmetry. apply Z.mod_unique with (b2z s * 2 ^ eb f); [left; rewrite FE, BE, E1; split; [apply Z.mul_nonneg_nonneg; lia|]; nia|]. rewrite FE, E1. ring. }
    rewrite Ei, E0, top_loop_ilogb. assert (Lg : Z.log2 (n * 2 ^ (eb f + 1)) = Z.log2 n + eb f + 1) by (rewrite Z.log2_mul_pow2; lia).
    rewrite (ilogb_loop_ok f W); [|rewrite <- Ei; pose proof (Z.mod_pos_bound (mk s n * 2 ^ (eb f + 1)) (2 ^ fb f) ltac:(lia))|..].
    + rewrite Lg. cbn [bind]. unfold cneg, cadd. rewrite !chk_s32 by lia. cbn [bind]. rewrite chk_s32 by lia. cbn [bind].
      set (h := fs f - Z.log2 n). replace (- (0 - (fb f - 1 - (Z.log2 n + eb f + 1))) + 1) with h by (unfold h; lia).
      rewrite cshl_ok by (rewrite bits_u; unfold h; lia). cbn [bind]. rewrite norm_u.
      assert (Hh : 1 <= h <= fs f) by (unfold h; lia).
      assert (Hlo : S <= n * 2 ^ h) by (replace S with (2 ^ Z.log2 n * 2 ^ h); [apply Z.mul_le_mono_nonneg_r; [apply Z.pow_nonneg; lia|lia]|rewrite <- Z.pow_add_r by lia; f_equal; unfold h; lia]).
      assert (Hhi : n * 2 ^ h < 2 * S).
      { replace (2 * S) with (2 ^ Z.succ (Z.log2 n) * 2 ^ h); [apply Z.mul_lt_mono_pos_r; [apply pow2_pos; lia|lia]|].
        rewrite <- Z.pow_add_r, <- Z.pow_succ_r by lia. f_equal. unfold h. lia. }
      assert (Eq : (mk s n * 2 ^ h) mod 2 ^ fb f = n * 2 ^ h).
      { symmetry. apply Z.mod_unique with (b2z s * 2 ^ (h - 1)).
        - left. rewrite FE, BE. split; [lia|]. assert (S * 32 <= S * 2 ^ eb f) by (apply Z.mul_le_mono_nonneg_l; lia). lia.
        - rewrite FE. rewrite (pow2_S h) by lia. ring. }
      rewrite Eq. exists (1 - h), (n * 2 ^ h). split; [f_equal; f_equal; unfold h; lia|]. split; [lia|]. split; [lia|]. split; [|split; lia].
      assert (V f n = n) as ->.
      { replace n with (enc f 1 n) at 1 by (unfold enc; lia). rewrite V_enc by (assumption || lia). cbn. lia. }
      rewrite <- Z.mul_assoc, <- Z.pow_add_r by lia. rewrite Z.mul_comm. f_equal. f_equal. lia.
    + split; [|lia]. assert (0 < n * 2 ^ (eb f + 1)) by (apply Z.mul_pos_pos; [lia|apply pow2_pos; lia]). lia.
    + rewrite Lg. rewrite Z2Nat.id by lia. lia.
    + rewrite Lg. lia.
    + lia.
  - assert (Hs : S <= n) by (destruct (Z_lt_ge_dec n S); [exfalso; apply E0; apply Z.div_small; lia|lia]).
    rewrite cshr_ok by (rewrite bits_u; lia). rewrite cshl_u_exact by (assert (S < 2 ^ fb f) by (apply pow2_lt; lia); lia). cbn [bind].
    assert ((2 ^ fb f - 1) / 2 ^ (eb f + 1) = S - 1) as ->.
    { symmetry. apply Z.div_unique with (2 ^ (eb f + 1) - 1); [pose proof (pow2_pos (eb f + 1) ltac:(lia)); lia|]. replace (fb f) with (fs f + (eb f + 1)) by lia. rewrite Z.pow_add_r by lia. ring. }
    rewrite <- (SIG_MASK_eq f W), frac_of by assumption. pose proof (Z.mod_pos_bound n S SP). rewrite Z.mul_1_l.
    assert (Z.lor (n mod S) S = S + n mod S) as ->.
    { replace S with (1 * S) at 2 by lia. rewrite (lor_add_low (n mod S) 1 (fs f)) by lia. lia. }
    exists (n / S), (S + n mod S). split; [reflexivity|]. pose proof (Z.div_mod n S ltac:(lia)) as DM.
    assert (1 <= n / S) by (apply Z.div_le_lower_bound; lia).
    assert (n / S <= 2 ^ eb f - 1) by (apply Z.lt_succ_r; apply Z.div_lt_upper_bound; [lia|]; rewrite inf_eq in Hn by assumption; nia).
    split; [lia|]. split; [lia|]. split; [|split].
    + assert (n = enc f (n / S) (S + n mod S)) as En by (unfold enc; lia). rewrite En at 1. rewrite V_enc by (assumption || lia).
      replace (n / S - 1 + fs f) with (fs f + (n / S - 1)) by lia. rewrite Z.pow_add_r by lia. ring.
    + intros Hl. destruct (Z.eq_dec (n / S) (2 ^ eb f - 1)) as [K|K]; [|lia]. apply (div_inf f W) in K; lia.
    + intros ->. apply (div_inf f W); lia.
Qed.

Lemma rq_sub_ok uxi uy q : 0 < uy < 2 * S -> 0 <= uxi < 2 * uy -> 0 <= q < 2 ^ 32 - 1 ->
  rq_sub f uxi uy q = Ok (uxi mod uy, q + uxi / uy).
Proof using W.
  intros Hy Hx Hq. unfold rq_sub, fI. pose proof (S_pos f W) as SP. pose proof (EB_big f W) as EB. pose proof (fb_eq f W) as FE. pose proof (B_eq f W) as BE.
  assert (S * 32 <= S * 2 ^ eb f) by (apply Z.mul_le_mono_nonneg_l; lia).
  rewrite cshr_ok by (rewrite bits_u; destruct W; lia). cbn [bind]. unfold wrapping_sub. rewrite norm_u.
  destruct (Z_lt_ge_dec uxi uy).
  - replace ((uxi - uy) mod 2 ^ fb f) with (uxi - uy + 2 ^ fb f) by (apply Z.mod_unique with (-1); lia).
    replace ((uxi - uy + 2 ^ fb f) / B =? 0) with false. { rewrite Z.mod_small, Z.div_small by lia. f_equal. f_equal. lia. }
    symmetry. apply Z.eqb_neq. assert (1 <= (uxi - uy + 2 ^ fb f) / B) by (apply Z.div_le_lower_bound; lia). lia.
  - rewrite Z.mod_small by lia. rewrite (Z.div_small (uxi - uy) B) by lia. cbn [Z.eqb]. unfold cadd. rewrite chk_u by lia. cbn [bind].
    rewrite <- (Z.div_unique uxi uy 1 (uxi - uy)) by lia. rewrite <- (Z.mod_unique uxi uy 1 (uxi - uy)) by lia. reflexivity.
Qed.

Lemma rq_loop_ok k : forall uxi uy q Q, 0 < uy < 2 * S -> 0 <= uxi < 2 * uy -> q = Q mod 2 ^ 32 -> q mod 2 = 0 ->
  rq_loop f k uxi uy q = Ok ((uxi * 2 ^ Z.of_nat k) mod uy, (Q * 2 ^ Z.of_nat k + (uxi * 2 ^ Z.of_nat k) / uy) mod 2 ^ 32).
Proof using W.
  pose proof (S_pos f W) as SP. pose proof (EB_big f W) as EB. pose proof (fb_eq f W) as FE. pose proof (B_eq f W) as BE.
  assert (HSB : S * 32 <= S * 2 ^ eb f) by (apply Z.mul_le_mono_nonneg_l; lia).
  induction k as [|k IH]; intros uxi uy q Q Hy Hx Eq Hq; cbn [rq_loop];
    pose proof (Z.mod_pos_bound Q (2 ^ 32) ltac:(lia)) as QR; assert (Qle : q <= 2 ^ 32 - 2) by (destruct (Z.eq_dec q (2 ^ 32 - 1)) as [K|K]; [rewrite K in Hq; discriminate Hq|lia]);
    rewrite rq_sub_ok by lia; assert (Hd : 0 <= uxi / uy <= 1) by (split; [apply Z.div_pos; lia|apply Z.lt_succ_r, Z.div_lt_upper_bound; lia]).
  - cbn [Z.of_nat]. change (2 ^ 0) with 1. rewrite !Z.mul_1_r. f_equal. f_equal. rewrite <- (Z.add_mod_idemp_l Q) by lia. rewrite <- Eq. symmetry. apply Z.mod_small. lia.
  - cbn [bind fst snd]. pose proof (Z.mod_pos_bound uxi uy ltac:(lia)) as MB. unfold fI. rewrite cshl_u_exact by (destruct W; lia). cbn [bind].
    rewrite cshl_ok by (cbn; lia). cbn [bind]. rewrite norm_u. change (2 ^ 1) with 2.
    rewrite (IH (uxi mod uy * 2) uy _ (2 * (Q + uxi / uy))); [|lia|lia| |].
    + rewrite Nat2Z.inj_succ, Z.pow_succ_r by lia. pose proof (pow2_pos (Z.of_nat k) ltac:(lia)) as PK.
      pose proof (Z.div_mod uxi uy ltac:(lia)) as DM. set (a := uxi / uy) in *. set (b := uxi mod uy) in *. set (p := 2 ^ Z.of_nat k) in *.
      assert (E : uxi * (2 * p) = b * 2 * p + (2 * a * p) * uy) by (rewrite DM; ring). rewrite E, Z_mod_plus_full, Z.div_add by lia. f_equal. f_equal. f_equal. ring.
    + rewrite Eq. rewrite <- Z.mul_mod_idemp_l, Z.add_mod_idemp_l, Z.mul_mod_idemp_l by lia. f_equal. ring.
    + rewrite <- (Znumtheory.Zmod_div_mod 2); [|lia|lia|exists (2 ^ 31); reflexivity]. apply Z_mod_mult.
Qed.

Lemma rq_renorm_ok k : forall e uxi, 0 < uxi < 2 * S -> fs f - Z.log2 uxi < Z.of_nat k -> - 2 ^ 30 <= e <= 2 ^ 30 ->
  let h := fs f - Z.log2 uxi in 0 <= h <= fs f /\ rq_renorm f k e uxi = Ok (e - h, uxi * 2 ^ h) /\ S <= uxi * 2 ^ h < 2 * S.
Proof using W.
  pose proof (S_pos f W) as SP. pose proof (EB_big f W) as EB. pose proof (fb_eq f W) as FE. pose proof (B_eq f W) as BE.
  assert (HSB : S * 32 <= S * 2 ^ eb f) by (apply Z.mul_le_mono_nonneg_l; lia).
  assert (Hfs : 10 <= fs f <= 128 /\ fs f < fb f) by (destruct W; lia).
  assert (Main : forall k e uxi, 0 < uxi < 2 * S -> fs f - Z.log2 uxi < Z.of_nat k -> - 2 ^ 30 - (128 - (fs f - Z.log2 uxi)) <= e <= 2 ^ 30 ->
     let h := fs f - Z.log2 uxi in rq_renorm f k e uxi = Ok (e - h, uxi * 2 ^ h)).
  { clear k. induction k as [|k IH]; intros e uxi Hx Hk He.
    - assert (Z.log2 uxi <= fs f) by (apply Z.lt_succ_r, Z.log2_lt_pow2; [lia|]; rewrite Z.pow_succ_r by lia; lia). lia.
    - cbn [rq_renorm]. unfold fI. rewrite cshr_ok by (rewrite bits_u; lia). cbn [bind]. cbv zeta.
      assert (Z.log2 uxi <= fs f) by (apply Z.lt_succ_r, Z.log2_lt_pow2; [lia|]; rewrite Z.pow_succ_r by lia; lia). pose proof (Z.log2_nonneg uxi).
      destruct (Z.eqb_spec (uxi / S) 0) as [E|E].
      + apply Z.div_small_iff in E; [|lia]. assert (Z.log2 uxi < fs f) by (apply Z.log2_lt_pow2; lia).
        rewrite cshl_u_exact by lia. cbn [bind]. unfold csub. rewrite chk_s32 by lia. cbn [bind]. change (2 ^ 1) with 2. rewrite (Z.mul_comm uxi 2).
        rewrite IH by (rewrite ?Z.log2_double by lia; lia). rewrite Z.log2_double by lia. f_equal. f_equal; [lia|].
        replace (fs f - Z.log2 uxi) with (Z.succ (fs f - Z.succ (Z.log2 uxi))) by lia. rewrite Z.pow_succ_r by lia. ring.
      + assert (S <= uxi) by (destruct (Z_lt_ge_dec uxi S); [exfalso; apply E, Z.div_small; lia|lia]).
        assert (fs f <= Z.log2 uxi) by (apply Z.log2_le_pow2; lia). replace (fs f - Z.log2 uxi) with 0 by lia. change (2 ^ 0) with 1. f_equal. f_equal; lia. }
  intros e uxi Hx Hk He. cbv zeta. 
  assert (Z.log2 uxi <= fs f) by (apply Z.lt_succ_r, Z.log2_lt_pow2; [lia|]; rewrite Z.pow_succ_r by lia; lia). pose proof (Z.log2_nonneg uxi). pose proof (Z.log2_spec uxi ltac:(lia)) as [L1 L2].
  split; [lia|]. split; [apply Main; lia|]. set (h := fs f - Z.log2 uxi). split.
  - replace S with (2 ^ Z.log2 uxi * 2 ^ h); [apply Z.mul_le_mono_nonneg_r; [apply Z.pow_nonneg; lia|lia]|rewrite <- Z.pow_add_r by (unfold h; lia); f_equal; unfold h; lia].
  - replace (2 * S) with (2 ^ Z.succ (Z.log2 uxi) * 2 ^ h); [apply Z.mul_lt_mono_pos_r; [apply pow2_pos; unfold h; lia|lia]|].
    rewrite <- Z.pow_add_r, <- Z.pow_succ_r by (unfold h; lia). f_equal. unfold h. lia.
Qed.

(** The code that assembles the remainder. *)
Definition rq_bits (ex uxi : Z) : res Z :=
  if 0 <? ex then
    let* b := cshl (fI f) 1 (fs f) in
    let* uxi := csub (fI f) uxi b in
    let* e := cshl (fI f) (norm (fI f) ex) (fs f) in
    Ok (Z.lor uxi e)
  else
    let* s := cneg (SI 32) ex in
    let* s := cadd (SI 32) s 1 in
    cshr (fI f) uxi s.
Lemma rq_bits_ok E q R : S <= q < 2 * S -> 1 - fs f <= E < 2 ^ eb f - 1 -> S * R = q * 2 ^ (E - 1 + fs f) ->
  exists n, rq_bits E q = Ok n /\ 0 < n < inf f /\ V f n = R.
Proof using W.
  intros Hq HE HR. pose proof (inf_pos f W) as IP. pose proof (S_pos f W) as SP. pose proof (EB_big f W) as EB. pose proof (fb_eq f W) as FE. pose proof (B_eq f W) as BE. pose proof (inf_eq f W) as IE.
  assert (HSB : S * 32 <= S * 2 ^ eb f) by (apply Z.mul_le_mono_nonneg_l; lia).
  assert (Hfs : 10 <= fs f <= 128 /\ fs f < fb f) by (destruct W; lia). pose proof (fb_big f W) as FB.
  unfold rq_bits, fI. destruct (Z.ltb_spec 0 E).
  - assert (RE : R = q * 2 ^ (E - 1)). { replace (E - 1 + fs f) with (fs f + (E - 1)) in HR by lia. rewrite Z.pow_add_r in HR by lia. apply Z.mul_cancel_l with S; lia. }
    assert (HES : 0 < E * S <= (2 ^ eb f - 2) * S) by (split; [apply Z.mul_pos_pos; lia|apply Z.mul_le_mono_nonneg_r; lia]).
    rewrite cshl_u_exact by lia. cbn [bind]. unfold csub. rewrite chk_u by lia. cbn [bind]. rewrite norm_u_id by lia. rewrite cshl_u_exact by lia. cbn [bind].
    rewrite (lor_add_low (q - 1 * S) E (fs f)) by lia.
    exists (q - 1 * S + E * S). split; [reflexivity|]. split; [lia|]. replace (q - 1 * S + E * S) with (enc f E q) by (unfold enc; lia). rewrite V_enc by (assumption || lia). lia.
  - unfold cneg, cadd. rewrite chk_s32 by lia. cbn [bind]. rewrite chk_s32 by lia. cbn [bind]. rewrite cshr_ok by (rewrite bits_u; lia).
    assert (RE : q = R * 2 ^ (- E + 1)).
    { apply Z.mul_cancel_l with S; [lia|]. rewrite Z.mul_assoc, HR, <- Z.mul_assoc, <- Z.pow_add_r by lia. replace (E - 1 + fs f + (- E + 1)) with (fs f) by lia. lia. }
    assert (P2 : 2 <= 2 ^ (- E + 1)) by (change 2 with (2 ^ 1) at 1; apply pow2_le; lia).
    rewrite RE, Z.div_mul by lia. exists R. assert (0 < R) by nia. assert (R < S) by nia. split; [reflexivity|]. split; [lia|].
    replace R with (enc f 1 R) at 1 by (unfold enc; lia). rewrite V_enc by (assumption || lia). cbn. lia.
Qed.
End P.
