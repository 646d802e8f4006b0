(** Correctness of addition (no modelling here). *)
From Coq Require Import ZArith Reals Bool Lia Lra Psatz.
From Flocq Require Import Core.
From Verif Require Import Base BaseLemmas FloatModel FloatSpec FloatProofs FloatProofs2.
Open Scope Z_scope.

Lemma norm_s32 x : - 2 ^ 31 <= x < 2 ^ 31 -> norm (SI 32) x = x.
Proof. intros. apply norm_id; [reflexivity|]. apply fits_s. change (32 - 1) with 31. lia. Qed.
Lemma chk_s32 x : - 2 ^ 31 <= x < 2 ^ 31 -> chk (SI 32) x = Ok x.
Proof. intros. apply chk_ok. apply fits_s. change (32 - 1) with 31. lia. Qed.
Lemma chk_u n x : 0 <= x < 2 ^ n -> chk (UI n) x = Ok x.
Proof. intros. apply chk_ok. apply fits_u. assumption. Qed.
Lemma norm_u_id n x : 0 <= x < 2 ^ n -> norm (UI n) x = x.
Proof. intros. rewrite norm_u. apply Z.mod_small. assumption. Qed.
Lemma pow_ge n : 7 <= n -> n < 2 ^ n /\ 128 <= 2 ^ n.
Proof. intros. split; [apply Z.pow_gt_lin_r; lia|]. change 128 with (2 ^ 7). apply pow2_le. lia. Qed.
Lemma low3 x : Z.land (norm (SI 32) x) 7 = x mod 8.
Proof.
  change 7 with (2 ^ 3 - 1). rewrite land_ones_mod by lia. change (2 ^ 3) with 8.
  destruct (norm_eq_mod (SI 32) ltac:(reflexivity) x) as [k ->]. cbn [bits SI].
  replace (x + k * 2 ^ 32) with (x + (k * 2 ^ 29) * 8) by (change (2 ^ 32) with (2 ^ 29 * 8); ring).
  apply Z.mod_add. lia.
Qed.
Lemma stkr_bound M s K : 0 <= s -> 0 <= M < 2 * K * 2 ^ s -> 0 <= stkr M s < 2 * K.
Proof.
  intros Hs HM. pose proof (pow2_pos s Hs). assert (0 <= M / 2 ^ s < 2 * K) by (split; [apply Z.div_pos; lia|apply Z.div_lt_upper_bound; lia]).
  unfold stkr. rewrite lor_b2z by lia. set (q := M / 2 ^ s) in *. clearbody q.
  pose proof (Z.mod_pos_bound q 2 ltac:(lia)). pose proof (Z.div_mod q 2 ltac:(lia)).
  destruct (M mod 2 ^ s =? 0); cbn [negb]; lia.
Qed.
Lemma rup_8 M : rup M (2 ^ 3) = (if 4 <? M mod 8 then 1 else 0) + (if M mod 8 =? 4 then (M / 8) mod 2 else 0).
Proof.
  unfold rup. change (2 ^ 3) with 8.
  destruct (Z.compare_spec (2 * (M mod 8)) 8), (Z.ltb_spec 4 (M mod 8)), (Z.eqb_spec (M mod 8) 4); lia.
Qed.

Section Fmt.
Context (f : fmt) (W : wf f).
Notation S := (2 ^ fs f).
Notation B := (2 ^ (fb f - 1)).
Notation u := (bpow radix2 (emin f)).

Lemma fb_big : fb f < 2 ^ fb f /\ 2 ^ 16 <= 2 ^ fb f /\ fb f < 2 ^ 8.
Proof using W.
  destruct W. split; [apply Z.pow_gt_lin_r; lia|]. split; [apply pow2_le; lia|]. change (2 ^ 8) with 256. lia.
Qed.

Lemma normalize_ok n : 0 < n < S -> exists h, normalize f n = Ok (1 - h, n * 2 ^ h) /\ 1 <= h <= fs f /\ S <= n * 2 ^ h < 2 * S.
Proof using W.
  intros Hn. destruct W. pose proof fb_big as (F1 & F2 & F3). change (2 ^ 8) with 256 in F3. pose proof (fb_eq f W). pose proof (B_eq f W). pose proof (EB_big f W).
  assert (0 < n < 2 ^ fb f) as Hn' by nia. destruct (nlz_spec (fb f) n Hn') as (L1 & L2).
  unfold normalize. set (z := nlz (fb f) n) in *. clearbody z. rewrite EXP_BITS_eq by assumption.
  assert (fb f - 1 - z < fs f) by (apply Z.pow_lt_mono_r_iff with 2; lia).
  exists (z - eb f).
  assert (S = 2 ^ (fb f - 1 - z) * 2 ^ (z - eb f)) as E1 by (rewrite <- pow2_add by lia; f_equal; lia).
  assert (2 * S = 2 ^ (fb f - z) * 2 ^ (z - eb f)) as E2.
  { rewrite <- pow2_add by lia. replace (fb f - z + (z - eb f)) with (1 + fs f) by lia. rewrite pow2_add by lia. reflexivity. }
  pose proof (pow2_pos (z - eb f) ltac:(lia)).
  unfold wrapping_sub. assert (fb f < 2 ^ 31) by (change (2 ^ 31) with 2147483648; lia). change (2 ^ 32) with (2 * 2 ^ 31).
  rewrite (norm_u_id 32 (z - eb f)) by (change (2 ^ 32) with (2 * 2 ^ 31); lia).
  unfold fI. rewrite cshl_u_exact by nia. cbn [bind].
  rewrite !norm_s32 by (rewrite ?norm_s32; lia). split; [reflexivity|]. split; [lia|]. rewrite E1 at 1. rewrite E2. nia.
Qed.

Lemma IZR_V E q n : n = enc f E q -> 1 <= E -> 0 <= q <= 2 * S -> (E = 1 \/ S <= q) -> IZR (V f n) = (IZR q * bpow radix2 (E - 1))%R.
Proof using W.
  intros -> HE Hq Hn. rewrite V_enc by assumption. rewrite mult_IZR. rewrite (IZR_Zpower radix2) by lia. reflexivity.
Qed.

Lemma add_unpack_ok s n : 0 < n < inf f -> exists e m0, add_unpack f (b2z s * B + n) = Ok (e, m0) /\
  let m := Z.lor m0 (IMPLICIT_BIT f) in
  S <= m < 2 * S /\ 1 - fs f <= e < 2 ^ eb f - 1 /\ IZR (V f n) = (IZR m * bpow radix2 (e - 1))%R.
Proof using W.
  intros Hn. pose proof (inf_pos f W). pose proof (S_pos f W). pose proof (wf_s f W). pose proof (EB_big f W). pose proof (inf_eq f W).
  unfold add_unpack. rewrite expm_of, frac_of by (assumption || lia).
  assert (0 <= n / S < 2 ^ eb f - 1) by (split; [apply Z.div_pos; lia|apply Z.div_lt_upper_bound; lia]).
  unfold ccast. rewrite chk_s32 by (change (2 ^ 31) with 2147483648; lia). cbn [bind].
  pose proof (Z.div_mod n S ltac:(lia)) as E. pose proof (Z.mod_pos_bound n S ltac:(lia)) as R.
  rewrite IMPLICIT_BIT_eq by assumption.
  destruct (Z.eqb_spec (n / S) 0) as [e0|e0].
  - destruct (normalize_ok (n mod S)) as (h & -> & Hh & Hr); [lia|].
    exists (1 - h), (n mod S * 2 ^ h). split; [reflexivity|]. cbv zeta.
    assert (Z.lor (n mod S * 2 ^ h) S = n mod S * 2 ^ h) as ->.
    { apply lor_top; lia. }
    split; [lia|]. split; [lia|].
    rewrite (IZR_V 1 n n) by (try (unfold enc; ring); lia).
    rewrite mult_IZR, (IZR_Zpower radix2), Rmult_assoc, <- bpow_plus by lia.
    replace (n mod S) with n by lia. do 2 f_equal. lia.
  - exists (n / S), (n mod S). split; [reflexivity|]. cbv zeta.
    assert (Z.lor (n mod S) S = n mod S + S) as -> by (pose proof (lor_add_low (n mod S) 1 (fs f)) as L; rewrite !Z.mul_1_l in L; apply L; lia).
    split; [lia|]. split; [lia|].
    apply IZR_V; [unfold enc; lia|lia|lia|]. right. lia.
Qed.

Lemma shr_sticky_ok x s : 0 <= x < 2 ^ fb f -> 1 <= s < fb f -> shr_sticky f x s = Ok (stkr x s).
Proof using W.
  intros Hx Hs. pose proof fb_big. unfold shr_sticky, fI, wrapping_sub.
  rewrite norm_u_id by lia. rewrite cshl_ok by (cbn [bits UI]; lia). cbn [bind]. rewrite cshr_ok by (cbn [bits UI]; lia). cbn [bind].
  unfold stkr. do 4 f_equal. rewrite norm_u. replace (2 ^ fb f) with (2 ^ s * 2 ^ (fb f - s)) by (rewrite <- pow2_add by lia; f_equal; lia).
  pose proof (pow2_pos (fb f - s) ltac:(lia)). pose proof (pow2_pos s ltac:(lia)).
  rewrite Zmult_mod_distr_r. destruct (Z.eqb_spec (x mod 2 ^ s) 0) as [->|]; [reflexivity|].
  apply Z.eqb_neq. nia.
Qed.

Lemma round_step s E q M : 0 <= q < 2 * S -> (q < S -> E = 0) -> (S <= q -> 1 <= E < 2 ^ eb f - 1) -> M / 8 = q -> 0 <= M ->
  (let rgs := Z.land (norm (SI 32) M) 7 in
    let* r := cshr (fI f) M 3 in
    let result := Z.land r (SIG_MASK f) in
    let* e := ccast (fI f) E in
    let* e := cshl (fI f) e (fs f) in
    let result := Z.lor (Z.lor result e) (b2z s * B) in
    let* result := (if 4 <? rgs then cadd (fI f) result 1 else Ok result) in
    if rgs =? 4 then cadd (fI f) result (Z.land result 1) else Ok result)
  = Ok (b2z s * B + (enc f (Z.max E 1) q + rup M (2 ^ 3))).
Proof using W.
  intros Hq Hlo Hhi HM HM0. cbv zeta. rewrite low3, rup_8.
  pose proof (wf_s f W). pose proof (wf_b f W). pose proof (wf_e f W). pose proof (S_pos f W). pose proof (S_even f W). pose proof (EB_big f W). pose proof (B_eq f W). pose proof (fb_eq f W).
  pose proof (inf_eq f W). pose proof fb_big as (F1 & F2 & F3). change (2 ^ 16) with 65536 in F2.
  unfold fI. rewrite cshr_ok by (cbn [bits UI]; lia). cbn [bind]. change (2 ^ 3) with 8. rewrite HM.
  rewrite SIG_MASK_eq, land_ones_mod by (assumption || lia).
  assert (0 <= E < 2 ^ eb f - 1) as HE by (destruct (Z_lt_ge_dec q S); [rewrite Hlo by lia|]; lia).
  unfold ccast. rewrite chk_u by lia. cbn [bind].
  rewrite cshl_u_exact; [|lia|lia|nia]. cbn [bind].
  rewrite (lor_add_low (q mod S)) by (try lia; apply Z.mod_pos_bound; lia).
  set (k := q mod S + E * S).
  assert (k = enc f (Z.max E 1) q) as Hk.
  { unfold k, enc. destruct (Z_lt_ge_dec q S).
    - rewrite Z.mod_small by lia. rewrite Hlo by lia. cbn [Z.max Z.compare]. lia.
    - rewrite Z.max_l by lia. replace q with (q - S + 1 * S) at 1 by lia. rewrite Z.mod_add, Z.mod_small by lia. lia. }
  assert (0 <= k < B - S) as HkB.
  { pose proof (Z.mod_pos_bound q S ltac:(lia)). unfold k. nia. }
  rewrite lor_add_low by lia.
  assert (b2z s * B <= B) by (destruct s; cbn [b2z]; lia). assert (0 <= b2z s * B) by (destruct s; cbn [b2z]; lia).
  assert (Z.land (k + b2z s * B) 1 = q mod 2) as Par.
  { rewrite land_1. unfold k. assert (exists j, E * S + b2z s * B = j * 2) as (j & J).
    { exists (E * 2 ^ (fs f - 1) + b2z s * 2 ^ eb f * 2 ^ (fs f - 1)). nia. }
    rewrite Z.mod_eq by lia. rewrite (Z.mod_eq q 2) by lia.
    rewrite (Z.mod_eq q S) by lia.
    replace (q - S * (q / S) + E * S + b2z s * B) with (q + (j - 2 ^ (fs f - 1) * (q / S)) * 2) by nia.
    rewrite Z.div_add by lia. lia. }
  pose proof (Z.mod_pos_bound q 2 ltac:(lia)).
  destruct (Z.ltb_spec 4 (M mod 8)), (Z.eqb_spec (M mod 8) 4); try lia; cbn [bind].
  - rewrite cadd_u by lia. cbn [bind]. f_equal. lia.
  - rewrite Par, cadd_u by lia. f_equal. lia.
  - f_equal. lia.
Qed.

Lemma add_finish_ok s E k A D M : 0 <= k <= 1 -> 0 < D -> stk k A D M -> 8 * S <= M < 16 * S -> 1 - fs f <= E < 2 ^ 16 ->
  exists r, add_finish f (b2z s * B) E M = Ok (b2z s * B + r) /\
    rmag f (IZR A / IZR (8 * D) * bpow radix2 (E - 1) * u) r.
Proof using W.
  intros Hk HD HM HMr HE.
  pose proof (wf_s f W). pose proof (wf_b f W). pose proof (wf_e f W). pose proof (S_pos f W). pose proof (EB_big f W). pose proof (B_eq f W). pose proof (fb_eq f W).
  pose proof (inf_eq f W). pose proof fb_big as (F1 & F2 & F3). change (2 ^ 16) with 65536 in *. change (2 ^ 8) with 256 in F3.
  pose proof (inf_pos f W).
  assert (16 * S < 2 ^ fb f) by nia.
  unfold add_finish. rewrite EXP_SAT_eq, EXP_MASK_eq by assumption.
  destruct (stk_round k A D M 3 ltac:(lia) HD HM) as (Hq & _ & Hc). change (2 ^ 3) with 8 in Hq, Hc.
  destruct (Z.leb_spec (2 ^ eb f - 1) E).
  - exists (inf f). split; [rewrite lor_add_low by lia; f_equal; lia|].
    apply pack_over; [assumption|lia|lia|]. pose proof (Hc S). lia.
  - destruct (Z.leb_spec E 0).
    + unfold csub, ccast. rewrite chk_s32 by (change (2 ^ 31) with 2147483648; lia). cbn [bind].
      unfold fI at 1. rewrite chk_u by lia. cbn [bind].
      rewrite shr_sticky_ok by lia. cbn [bind].
      pose proof (stk_shr k A D M (1 - E) Hk ltac:(lia) HD ltac:(lia) HM) as HM'.
      pose proof (pow2_pos (1 - E) ltac:(lia)). pose proof (pow2_S (1 - E) ltac:(lia)) as PS.
      assert (0 <= stkr M (1 - E) < 2 * (4 * S)) as HB' by (apply stkr_bound; [lia|nia]).
      set (M' := stkr M (1 - E)) in *. clearbody M'.
      assert (0 <= M' / 8 < S) by (split; [apply Z.div_pos; lia|apply Z.div_lt_upper_bound; lia]).
      eexists. split; [apply (round_step s 0 (M' / 8) M'); lia|].
      cbn [Z.max Z.compare].
      replace (IZR A / IZR (8 * D) * bpow radix2 (E - 1) * u)%R
        with (IZR A / IZR (2 ^ 3 * (2 ^ (1 - E) * D)) * bpow radix2 (1 - 1) * u)%R.
      * apply (pack_stk f W 1 0 A (2 ^ (1 - E) * D) M' 3); try assumption; change (2 ^ 3) with 8; lia || nia.
      * f_equal. change (2 ^ 3) with 8. replace (8 * (2 ^ (1 - E) * D)) with (8 * D * 2 ^ (1 - E)) by ring.
        rewrite (mult_IZR (8 * D)), (IZR_Zpower radix2) by lia. replace (E - 1) with (- (1 - E)) by lia. rewrite bpow_opp.
        replace (bpow radix2 (1 - 1)) with 1%R by reflexivity.
        assert (IZR (8 * D) <> 0)%R by (apply not_0_IZR; lia). pose proof (bpow_gt_0 radix2 (1 - E)).
        field. split; lra.
    + assert (S <= M / 8 < 2 * S) by (split; [apply Z.div_le_lower_bound; lia|apply Z.div_lt_upper_bound; lia]).
      cbn [bind]. eexists. split; [apply (round_step s E (M / 8) M); lia|].
      rewrite Z.max_l by lia. apply (pack_stk f W E k A D M 3); try assumption; change (2 ^ 3) with 8; lia.
Qed.
End Fmt.
