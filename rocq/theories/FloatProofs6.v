(** Correctness of multiplication (no modelling here). *)
From Coq Require Import ZArith Reals Bool Lia Lra Psatz.
From Flocq Require Import Core.
From Verif Require Import Base BaseLemmas IntProofs IntProofs3 BigModel BigProofs FloatModel FloatSpec FloatProofs FloatProofs2 FloatProofs3 FloatProofs4 FloatProofs5.
Open Scope Z_scope.

Section Fmt.
Context (f : fmt) (W : wf f).
Notation S := (2 ^ fs f).
Notation B := (2 ^ (fb f - 1)).
Notation u := (bpow radix2 (emin f)).

Lemma wmul_ok a b : 0 <= a < 2 ^ fb f -> 0 <= b < 2 ^ fb f ->
  wmul_lo_hi f a b = Ok ((a * b) mod 2 ^ fb f, (a * b) / 2 ^ fb f).
Proof using W.
  intros Ha Hb. unfold wmul_lo_hi. destruct W. assert (0 < fb f) as F by lia. pose proof (pow2_pos (fb f) ltac:(lia)).
  destruct (Z.eqb_spec (fb f) 128) as [e|e].
  - rewrite e in *. destruct (u128_widen_mul_spec a b Ha Hb) as (r & -> & [Hh Hl] & Hv). cbn [bind].
    unfold u256_lo, big_hi. unfold bval in Hv. apply fits_u in Hh. 
    assert ((a * b) / 2 ^ 128 = b_hi r /\ (a * b) mod 2 ^ 128 = b_lo r) as [-> ->]; [|reflexivity].
    apply div_mod_unique; lia.
  - unfold fI. rewrite widen_mul_u by lia. rewrite lo_u by lia. rewrite hi_u; [reflexivity|lia|].
    rewrite pow2_dbl by lia. nia.
Qed.

(** The value, exponent and significand of a finite nonzero operand. *)
Lemma mul_special_ok s t n m : 0 < n < inf f -> 0 < m < inf f -> exists ma0 mb0 sc ea eb',
  mul_special f (b2z s * B + n) (b2z t * B + m) = Ok (inr (ma0, mb0, sc)) /\
  (let ma := Z.lor ma0 (IMPLICIT_BIT f) in let mb := Z.lor mb0 (IMPLICIT_BIT f) in
   S <= ma < 2 * S /\ S <= mb < 2 * S /\ 1 - fs f <= ea < 2 ^ eb f - 1 /\ 1 - fs f <= eb' < 2 ^ eb f - 1 /\
   n / S + m / S + sc = ea + eb' /\ - 1024 <= sc <= 0 /\
   IZR (V f n) = (IZR ma * bpow radix2 (ea - 1))%R /\ IZR (V f m) = (IZR mb * bpow radix2 (eb' - 1))%R).
Proof using W.
  intros Hn Hm. pose proof (inf_pos f W). pose proof (S_pos f W). pose proof (wf_s f W). pose proof (wf_128 f W). pose proof (wf_b f W). pose proof (wf_e f W). pose proof (EB_big f W) as EBg. pose proof (inf_eq f W).
  pose proof (fb_big f W) as (F1 & F2 & F3). change (2 ^ 16) with 65536 in F2.
  assert (forall x s, 0 < x < inf f -> exists e m0 sc, (if x <? IMPLICIT_BIT f then normalize f (x mod S) else Ok (0, x mod S)) = Ok (sc, m0) /\
     (let m := Z.lor m0 (IMPLICIT_BIT f) in S <= m < 2 * S /\ 1 - fs f <= e < 2 ^ eb f - 1 /\ x / S + sc = e /\ - 512 <= sc <= 0 /\
      IZR (V f x) = (IZR m * bpow radix2 (e - 1))%R) /\ (0 < x / S -> m0 = x mod S /\ sc = 0) /\ 0 <= x / S < 2 ^ eb f - 1 /\
      add_unpack f (b2z s * B + x) = Ok (e, m0)) as K.
  { intros x s' Hx. destruct (add_unpack_ok f W s' x Hx) as (e & m0 & U & Hmr & He & HV).
    pose proof (Z.div_mod x S ltac:(lia)) as D. pose proof (Z.mod_pos_bound x S ltac:(lia)) as R.
    assert (0 <= x / S < 2 ^ eb f - 1) as Q by (split; [apply Z.div_pos; lia|apply Z.div_lt_upper_bound; lia]).
    pose proof U as U0. unfold add_unpack in U. rewrite expm_of, frac_of in U by (assumption || lia).
    unfold ccast in U. rewrite chk_s32 in U by (change (2 ^ 31) with 2147483648; lia). cbn [bind] in U.
    rewrite IMPLICIT_BIT_eq in * by assumption.
    destruct (Z.eqb_spec (x / S) 0) as [e0|e0].
    - replace (x <? S) with true by (symmetry; apply Z.ltb_lt; lia). exists e, m0, e.
      destruct (normalize_ok f W (x mod S)) as (h & Nh & Hh & Hr); [lia|]. rewrite Nh in U. assert (e = 1 - h) by congruence.
      split; [rewrite Nh; exact U|]. cbv zeta. split; [split; [exact Hmr|split; [exact He|split; [lia|split; [lia|exact HV]]]]|].
      split; [lia|split; [lia|exact U0]].
    - replace (x <? S) with false by (symmetry; apply Z.ltb_ge; nia). injection U as U1 U2. subst e m0.
      exists (x / S), (x mod S), 0. split; [reflexivity|]. cbv zeta. split; [split; [exact Hmr|split; [exact He|split; [lia|split; [lia|exact HV]]]]|]. split; [tauto|split; [lia|exact U0]]. }
  unfold mul_special. rewrite !exp_of, !frac_of, !mag_of by (assumption || lia). rewrite EXP_SAT_eq, EXP_MASK_eq by assumption.
  destruct (K n s Hn) as (ea & ma0 & sa & Na & (Ra & Ea & Da & Sa & Va) & Za & Qa & _).
  destruct (K m t Hm) as (eb' & mb0 & sb & Nb & (Rb & Eb & Db & Sb & Vb) & Zb & Qb & _). clear K.
  assert (forall x, 0 <= x < 2 ^ eb f - 1 -> (2 ^ eb f - 1 - 1 <=? wrapping_sub (fI f) x 1) = (x =? 0)) as T.
  { intros x Hx. unfold wrapping_sub, fI. destruct (Z.eqb_spec x 0) as [->|].
    - replace (norm (UI (fb f)) (0 - 1)) with (2 ^ fb f - 1); [apply Z.leb_le; lia|].
      symmetry. apply norm_unique with (k := 1); [cbn [bits UI]; lia|apply fits_u; lia|cbn [bits UI]; lia].
    - rewrite norm_u_id by lia. apply Z.leb_gt. lia. }
  rewrite !T by assumption.
  assert (exists sc, (if (n / S =? 0) || (m / S =? 0) then
      (if inf f <? n then Ok (inl (Z.lor (b2z s * B + n) (quiet_bit f)))
       else if inf f <? m then Ok (inl (Z.lor (b2z t * B + m) (quiet_bit f)))
       else if n =? inf f then
         if negb (m =? 0) then Ok (inl (Z.lor n (Z.land (Z.lxor (b2z s * B + n) (b2z t * B + m)) (SIGN_MASK f)))) else Ok (inl (qnan_rep f))
       else if m =? inf f then
         if negb (n =? 0) then Ok (inl (Z.lor m (Z.land (Z.lxor (b2z s * B + n) (b2z t * B + m)) (SIGN_MASK f)))) else Ok (inl (qnan_rep f))
       else if n =? 0 then Ok (inl (Z.land (Z.lxor (b2z s * B + n) (b2z t * B + m)) (SIGN_MASK f)))
       else if m =? 0 then Ok (inl (Z.land (Z.lxor (b2z s * B + n) (b2z t * B + m)) (SIGN_MASK f)))
       else
         let* p := (if n <? IMPLICIT_BIT f then normalize f (n mod S) else Ok (0, n mod S)) in
         let '(ea, a_sig) := p in
         let* scale := cadd (SI 32) 0 ea in
         let* p := (if m <? IMPLICIT_BIT f then normalize f (m mod S) else Ok (0, m mod S)) in
         let '(eb, b_sig) := p in
         let* scale := cadd (SI 32) scale eb in
         Ok (inr (a_sig, b_sig, scale)))
     else Ok (inr (n mod S, m mod S, 0))) = Ok (inr (ma0, mb0, sc)) /\ sc = sa + sb) as (sc & -> & ->).
  2:{ exists ma0, mb0, (sa + sb), ea, eb'. split; [reflexivity|]. cbv zeta. repeat (split; [assumption || lia|]). assumption. }
  exists (sa + sb). split; [|reflexivity].
  destruct ((n / S =? 0) || (m / S =? 0)) eqn:Z0.
  - replace (inf f <? n) with false by (symmetry; apply Z.ltb_ge; lia). replace (inf f <? m) with false by (symmetry; apply Z.ltb_ge; lia).
    replace (n =? inf f) with false by (symmetry; apply Z.eqb_neq; lia). replace (m =? inf f) with false by (symmetry; apply Z.eqb_neq; lia).
    replace (n =? 0) with false by (symmetry; apply Z.eqb_neq; lia). replace (m =? 0) with false by (symmetry; apply Z.eqb_neq; lia).
    rewrite Na. cbn [bind]. unfold cadd. rewrite chk_s32 by (change (2 ^ 31) with 2147483648; lia). cbn [bind]. rewrite Nb. cbn [bind].
    rewrite chk_s32 by (change (2 ^ 31) with 2147483648; lia). reflexivity.
  - apply orb_false_iff in Z0. destruct Z0 as [Z1 Z2]. apply Z.eqb_neq in Z1, Z2.
    destruct (Za ltac:(lia)) as [-> ->]. destruct (Zb ltac:(lia)) as [-> ->]. reflexivity.
Qed.

Lemma rup_fb A : rup A (2 ^ fb f) = (if B <? A mod 2 ^ fb f then 1 else 0) + (if A mod 2 ^ fb f =? B then (A / 2 ^ fb f) mod 2 else 0).
Proof using W.
  unfold rup. pose proof (fb_eq f W) as FE. set (l := A mod 2 ^ fb f). rewrite FE at 1.
  destruct (Z.compare_spec (2 * l) (2 * B)), (Z.ltb_spec B l), (Z.eqb_spec l B); lia.
Qed.

(** The final rounding of mul.rs:165-180. *)
Lemma mul_round s k A : 0 <= k < inf f -> (exists j, k = A / 2 ^ fb f + j * S) ->
  (let* high := (if SIGN_MASK f <? A mod 2 ^ fb f then cadd (fI f) (Z.lor k (b2z s * B)) 1 else Ok (Z.lor k (b2z s * B))) in
   if A mod 2 ^ fb f =? SIGN_MASK f then cadd (fI f) high (Z.land high 1) else Ok high)
  = Ok (b2z s * B + (k + rup A (2 ^ fb f))).
Proof using W.
  intros Hk (j & Hj). pose proof (inf_pos f W). pose proof (fb_eq f W). pose proof (S_even f W). pose proof (B_eq f W). pose proof (S_pos f W).
  rewrite SIGN_MASK_eq, rup_fb by assumption. rewrite lor_add_low by (destruct W; lia).
  assert (b2z s * B <= B) by (destruct s; cbn [b2z]; lia). assert (0 <= b2z s * B) by (destruct s; cbn [b2z]; lia).
  assert (Z.land (k + b2z s * B) 1 = (A / 2 ^ fb f) mod 2) as Par.
  { rewrite land_1. replace (k + b2z s * B) with (A / 2 ^ fb f + (j * 2 ^ (fs f - 1) + b2z s * 2 ^ eb f * 2 ^ (fs f - 1)) * 2) by nia.
    apply Z.mod_add. lia. }
  pose proof (Z.mod_pos_bound (A / 2 ^ fb f) 2 ltac:(lia)).
  destruct (Z.ltb_spec B (A mod 2 ^ fb f)), (Z.eqb_spec (A mod 2 ^ fb f) B); try lia; unfold fI; cbn [bind].
  - rewrite cadd_u by lia. cbn [bind]. f_equal. lia.
  - rewrite Par, cadd_u by lia. f_equal. lia.
  - f_equal. lia.
Qed.

(** The alignment of a subnormal product, mul.rs:127-157. *)
Lemma mul_subnormal high low sh : 0 <= low < 2 ^ fb f -> 0 <= high -> 1 <= sh < fb f ->
  let P := high * 2 ^ fb f + low in
  let M := stkr P sh in
  high / 2 ^ sh = M / 2 ^ fb f /\
  Z.lor (Z.lor (norm (fI f) (high * 2 ^ (fb f - sh))) (low / 2 ^ sh)) (b2z (negb (norm (fI f) (low * 2 ^ (fb f - sh)) =? 0))) = M mod 2 ^ fb f.
Proof using W.
  intros Hl Hh Hs. cbv zeta. unfold fI. rewrite !norm_u.
  pose proof (pow2_pos sh ltac:(lia)) as P1. pose proof (pow2_pos (fb f - sh) ltac:(lia)) as P2.
  assert (2 ^ fb f = 2 ^ sh * 2 ^ (fb f - sh)) as PF by (rewrite <- pow2_add by lia; f_equal; lia).
  assert (2 ^ (fb f - sh) = 2 * 2 ^ (fb f - sh - 1)) as PE by (apply pow2_S; lia).
  rewrite PF. rewrite !Zmult_mod_distr_r. rewrite <- PF.
  unfold stkr.
  set (a := 2 ^ sh) in *. set (b := 2 ^ (fb f - sh)) in *.
  assert ((high * 2 ^ fb f + low) / a = high * b + low / a) as ->.
  { rewrite PF. replace (high * (a * b) + low) with (low + high * b * a) by ring. rewrite Z.div_add by lia. ring. }
  assert ((high * 2 ^ fb f + low) mod a = low mod a) as ->.
  { rewrite PF. replace (high * (a * b) + low) with (low + high * b * a) by ring. apply Z.mod_add. lia. }
  pose proof (Z.div_mod high a ltac:(lia)) as Dh. pose proof (Z.mod_pos_bound high a P1) as Rh.
  assert (0 <= low / a < b) as Ql by (split; [apply Z.div_pos; lia|apply Z.div_lt_upper_bound; lia]).
  assert (Z.lor (high mod a * b) (low / a) = low / a + high mod a * b) as -> by (rewrite Z.lor_comm; apply lor_add_low; [lia|fold b; lia]).
  set (L := low / a + high mod a * b).
  assert (0 <= L < 2 ^ fb f) as HL by (unfold L; rewrite PF; nia).
  assert (high * b + low / a = high / a * 2 ^ fb f + L) as -> by (unfold L; rewrite PF; rewrite Dh at 1; ring).
  assert (0 <= high / a) as Qh by (apply Z.div_pos; lia).
  assert (negb (low mod a * b =? 0) = negb (low mod a =? 0)) as ->.
  { f_equal. destruct (Z.eqb_spec (low mod a) 0) as [->|]; [reflexivity|]. apply Z.eqb_neq. nia. }
  rewrite !lor_b2z by nia.
  assert ((high / a * 2 ^ fb f + L) mod 2 = L mod 2) as ->.
  { rewrite PF, PE. replace (high / a * (a * (2 * 2 ^ (fb f - sh - 1))) + L) with (L + (high / a * a * 2 ^ (fb f - sh - 1)) * 2) by ring. apply Z.mod_add. lia. }
  pose proof (Z.mod_pos_bound L 2 ltac:(lia)) as R2. pose proof (Z.div_mod L 2 ltac:(lia)) as D2.
  assert (2 ^ fb f = 2 * (a * 2 ^ (fb f - sh - 1))) as PF2 by (rewrite PF, PE; ring).
  destruct (negb (low mod a =? 0)).
  - assert ((high / a * 2 ^ fb f + L + 1 - L mod 2) / 2 ^ fb f = high / a /\ (high / a * 2 ^ fb f + L + 1 - L mod 2) mod 2 ^ fb f = L + 1 - L mod 2) as [-> ->]; [|auto].
    apply div_mod_unique; lia.
  - assert ((high / a * 2 ^ fb f + L) / 2 ^ fb f = high / a /\ (high / a * 2 ^ fb f + L) mod 2 ^ fb f = L) as [-> ->]; [|auto].
    apply div_mod_unique; lia.
Qed.

(** The part of [mul] after the product is normalised. *)
Lemma mul_tail s E high low : S <= high < 2 * S -> 0 <= low < 2 ^ fb f -> - 70000 < E < 70000 -> (fb f = 16 -> - 1000 < E) ->
  exists r,
  (if EXP_SAT f <=? E then Ok (Z.lor (EXP_MASK f) (b2z s * B))
   else
     let* st := (if E <=? 0 then
                   let* shift := ccast (UI 32) (wrapping_sub (fI f) 1 (norm (fI f) E)) in
                   if fb f <=? shift then Ok None
                   else
                     let* x := cshl (fI f) low (fb f - shift) in
                     let sticky := b2z (negb (x =? 0)) in
                     let* y := cshl (fI f) high (fb f - shift) in
                     let* z := cshr (fI f) low shift in
                     let* h := cshr (fI f) high shift in
                     Ok (Some (Z.lor (Z.lor y z) sticky, h))
                 else
                   let* ee := ccast (fI f) E in
                   let* ee := cshl (fI f) ee (fs f) in
                   Ok (Some (low, Z.lor (Z.land high (SIG_MASK f)) ee))) in
     match st with
     | None => Ok (b2z s * B)
     | Some (low, high) =>
         let high := Z.lor high (b2z s * B) in
         let* high := (if SIGN_MASK f <? low then cadd (fI f) high 1 else Ok high) in
         if low =? SIGN_MASK f then cadd (fI f) high (Z.land high 1) else Ok high
     end) = Ok (b2z s * B + r) /\
  rmag f (IZR (high * 2 ^ fb f + low) / IZR (2 ^ fb f) * bpow radix2 (E - 1) * u) r.
Proof using W.
  intros Hh Hl HE H16. pose proof (wf_s f W). pose proof (wf_128 f W). pose proof (wf_b f W). pose proof (wf_e f W).
  pose proof (S_pos f W) as SP. pose proof (S_big f W). pose proof (EB_big f W) as EBg. pose proof (B_eq f W) as BE. pose proof (fb_eq f W) as FE. pose proof (inf_pos f W) as IP. pose proof (inf_eq f W) as IE.
  pose proof (fb_big f W) as (F1 & F2 & F3). change (2 ^ 16) with 65536 in F2. change (2 ^ 8) with 256 in F3.
  assert (4 * S <= 2 ^ fb f) as F4 by (rewrite FE, BE; nia).
  rewrite EXP_SAT_eq, EXP_MASK_eq by assumption.
  destruct (Z.leb_spec (2 ^ eb f - 1) E).
  { exists (inf f). split; [rewrite lor_add_low by lia; f_equal; lia|]. apply pack_over; [assumption|lia|lia|nia]. }
  assert ((high * 2 ^ fb f + low) / 2 ^ fb f = high /\ (high * 2 ^ fb f + low) mod 2 ^ fb f = low) as [Q1 Q2] by (apply div_mod_unique; lia).
  assert (S * 2 ^ fb f <= high * 2 ^ fb f + low < 2 * S * 2 ^ fb f) as HP'.
  { pose proof (Z.mul_le_mono_nonneg_r (high + 1) (2 * S) (2 ^ fb f)). pose proof (Z.mul_le_mono_nonneg_r S high (2 ^ fb f)). lia. }
  assert (0 <= high * 2 ^ fb f + low < 2 * S * 2 ^ fb f) as HP by lia.
  destruct (Z.leb_spec E 0).
  - assert (wrapping_sub (fI f) 1 (norm (fI f) E) = 1 - E) as ->.
    { unfold wrapping_sub. rewrite norm_sub_r by (cbn; lia). apply norm_u_id.
      destruct (Z.eq_dec (fb f) 16) as [e|e]; [specialize (H16 e); rewrite e; change (2 ^ 16) with 65536; lia|].
      split; [lia|]. destruct (Z_lt_ge_dec (fb f) 17) as [l|l].
      - assert (fb f = 16) by lia. lia.
      - pose proof (pow2_le 17 (fb f) ltac:(lia)) as P. change (2 ^ 17) with 131072 in P. lia. }
    unfold ccast. rewrite chk_u by (change (2 ^ 32) with 4294967296; lia). cbn [bind].
    destruct (Z.leb_spec (fb f) (1 - E)).
    + cbn [bind]. exists 0. split; [f_equal; lia|]. apply pack_tiny; [assumption| |].
      * apply Rmult_le_pos; [|apply bpow_ge_0]. apply Rmult_le_pos; [apply IZR_le; lia|]. left. apply Rinv_0_lt_compat, IZR_lt. lia.
      * apply Rlt_le_trans with (IZR (2 * S) * bpow radix2 (E - 1))%R.
        { apply Rmult_lt_compat_r; [apply bpow_gt_0|]. assert (0 < IZR (2 ^ fb f))%R by (apply IZR_lt; lia).
          apply Rmult_lt_reg_r with (IZR (2 ^ fb f)); [assumption|]. unfold Rdiv. rewrite Rmult_assoc, Rinv_l, Rmult_1_r, <- mult_IZR by lra. apply IZR_lt. lia. }
        replace (2 * S) with (2 ^ (1 + fs f)) by (rewrite pow2_add by lia; reflexivity). rewrite (IZR_Zpower radix2), <- bpow_plus by lia.
        change (/ 2)%R with (bpow radix2 (-1)). apply bpow_le. lia.
    + rewrite !cshl_ok, !cshr_ok by (cbn [bits fI UI]; lia). cbn [bind].
      destruct (mul_subnormal high low (1 - E) Hl ltac:(lia) ltac:(lia)) as (M1 & M2). cbv zeta in M1, M2. rewrite M1, M2.
      pose proof (stk_shr 0 (high * 2 ^ fb f + low) 1 (high * 2 ^ fb f + low) (1 - E) ltac:(lia) ltac:(lia) ltac:(lia) ltac:(lia) ltac:(left; lia)) as SM.
      set (M := stkr (high * 2 ^ fb f + low) (1 - E)) in *.
      pose proof (pow2_S (1 - E) ltac:(lia)) as PS. pose proof (pow2_pos (1 - E - 1) ltac:(lia)) as PP.
      assert (0 <= M < 2 * (S * B)) as HM.
      { apply stkr_bound; [lia|]. split; [lia|]. apply Z.lt_le_trans with (1 := proj2 HP).
        rewrite PS, FE. pose proof (Z.mul_le_mono_nonneg_l 1 (2 ^ (1 - E - 1)) (2 * (S * B) * 2)). pose proof (Z.mul_pos_pos S B). lia. }
      assert (0 <= M / 2 ^ fb f < S) as HMd by (split; [apply Z.div_pos; lia|apply Z.div_lt_upper_bound; [lia|rewrite FE; lia]]).
      exists (enc f 1 (M / 2 ^ fb f) + rup M (2 ^ fb f)). split.
      * apply (mul_round s (enc f 1 (M / 2 ^ fb f)) M); unfold enc; [lia|exists 0; lia].
      * replace (IZR (high * 2 ^ fb f + low) / IZR (2 ^ fb f) * bpow radix2 (E - 1) * u)%R
          with (IZR (high * 2 ^ fb f + low) / IZR (2 ^ fb f * (2 ^ (1 - E) * 1)) * bpow radix2 (1 - 1) * u)%R.
        -- apply (pack_stk f W 1 0 _ (2 ^ (1 - E) * 1) M (fb f)); try assumption; try lia.
        -- f_equal. rewrite Z.mul_1_r, (mult_IZR (2 ^ fb f)), !(IZR_Zpower radix2) by lia.
           replace (E - 1) with (- (1 - E)) by lia. rewrite bpow_opp. change (bpow radix2 (1 - 1)) with 1%R.
           pose proof (bpow_gt_0 radix2 (fb f)). pose proof (bpow_gt_0 radix2 (1 - E)). field. split; lra.
  - unfold ccast. unfold fI at 1 2. rewrite chk_u by lia. cbn [bind]. rewrite cshl_u_exact; [|lia|lia|nia]. cbn [bind].
    rewrite SIG_MASK_eq, land_ones_mod by (assumption || lia).
    rewrite (lor_add_low (high mod S)) by (try lia; apply Z.mod_pos_bound; lia).
    assert (high mod S = high - S) as -> by (symmetry; apply Z.mod_unique with 1; lia).
    exists (enc f E high + rup (high * 2 ^ fb f + low) (2 ^ fb f)). split.
    + replace (high - S + E * S) with (enc f E high) by (unfold enc; ring).
      pose proof (mul_round s (enc f E high) (high * 2 ^ fb f + low)) as MR. rewrite Q2 in MR. apply MR.
      * unfold enc. rewrite IE. pose proof (Z.mul_le_mono_nonneg_r E (2 ^ eb f - 2) S). pose proof (Z.mul_le_mono_nonneg_r 1 E S). lia.
      * rewrite Q1. exists (E - 1). unfold enc. ring.
    + pose proof (pack f W E (high * 2 ^ fb f + low) (2 ^ fb f)) as PK. rewrite Q1 in PK. apply PK; lia.
Qed.
End Fmt.
