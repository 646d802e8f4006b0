(** Correctness of division (no modelling here). *)
From Coq Require Import ZArith Reals Bool Lia Lra Psatz.
From Flocq Require Import Core.
From Verif Require Import Base BaseLemmas FloatModel FloatSpec FloatDivModel FloatProofs FloatProofs2 FloatProofs3 FloatProofs4 FloatProofs5 FloatProofs6 FloatProofs7 FloatDivProofs2 FloatDivProofs3.
Open Scope Z_scope.

(** The quotient from the reciprocal estimate. *)
Lemma quot_math S EB D a b x q tau : 2 <= S -> 2 <= EB -> 0 <= D < EB -> S <= a < 2 * S -> S <= b < 2 * S ->
  recip_post (2 * S * EB) D (b * EB) x -> 2 * a * x = q * (2 * S * EB) + tau -> 0 <= tau < 2 * S * EB ->
  let r1 := 2 * a * S - q * b in
  0 < r1 /\ EB * r1 < b * (EB + D) /\ S <= q < 4 * S /\ (q < 2 * S -> a <= b).
Proof.
  intros HS HEB HD Ha Hb (Hx0 & Hx1 & Hx2) E Ht r1. set (N := 2 * S * EB) in *.
  assert (0 < N) as N0 by (unfold N; nia).
  assert (2 * b * x < 2 * S * N) as U.
  { apply Z.mul_lt_mono_pos_r with (p := EB); [lia|]. replace (2 * S * N * EB) with (N * N) by (unfold N; ring). lia. }
  assert (2 * S * N - D * b <= 2 * b * x) as L.
  { apply Z.mul_le_mono_pos_r with (p := EB); [lia|]. replace ((2 * S * N - D * b) * EB) with (N * N - D * (b * EB)) by (unfold N; ring). lia. }
  assert (N * r1 = a * (2 * S * N - 2 * b * x) + tau * b) as I.
  { unfold r1. replace (a * (2 * S * N - 2 * b * x)) with (2 * a * S * N - b * (2 * a * x)) by ring. rewrite E. ring. }
  set (z := 2 * S * N - 2 * b * x) in *. assert (0 < z <= D * b) as Hz by lia. clearbody z.
  assert (0 <= tau * b) as t0 by (apply Z.mul_nonneg_nonneg; lia).
  assert (0 < a * z) as az0 by (apply Z.mul_pos_pos; lia).
  assert (a * z <= a * (D * b)) as az by (apply Z.mul_le_mono_nonneg_l; lia).
  assert (tau * b <= (N - 1) * b) as t1 by (apply Z.mul_le_mono_nonneg_r; lia).
  assert (0 < r1) as R0 by (apply Z.mul_pos_cancel_l with (n := N); lia).
  assert (N * r1 < N * b + a * (D * b)) as R1 by lia.
  assert (0 <= D * b) as Db by (apply Z.mul_nonneg_nonneg; lia).
  assert (EB * r1 < b * (EB + D)) as R2.
  { apply Z.mul_lt_mono_pos_l with (p := 2 * S); [lia|].
    assert (a * (D * b) <= 2 * S * (D * b)) by (apply Z.mul_le_mono_nonneg_r; lia). unfold N in R1. lia. }
  assert (r1 < 2 * b) as R3. { apply Z.mul_lt_mono_pos_l with (p := EB); [lia|]. assert (b * D < b * EB) by (apply Z.mul_lt_mono_pos_l; lia). lia. }
  split; [assumption|]. split; [assumption|].
  assert (q < 4 * S) as Q4.
  { apply Z.mul_lt_mono_pos_r with (p := N); [lia|]. assert (2 * a * x <= 2 * a * N) by (apply Z.mul_le_mono_nonneg_l; lia).
    assert (2 * a * N < 4 * S * N) by (apply Z.mul_lt_mono_pos_r; lia). lia. }
  split; [split; [|assumption]|].
  - destruct (Z_le_gt_dec S q) as [|G]; [assumption|exfalso].
    set (d := 2 * a - b). assert (1 <= d) as D1 by (unfold d; lia).
    assert (S * d + b <= r1) as A1.
    { unfold r1, d. assert (q * b <= (S - 1) * b) by (apply Z.mul_le_mono_nonneg_r; lia). lia. }
    assert (N * (S * d + b) <= N * r1) as A2 by (apply Z.mul_le_mono_nonneg_l; lia).
    assert (N * (S * d) < a * (D * b)) as A3 by lia.
    assert (a * (D * b) <= a * (EB * b)) as A4 by (apply Z.mul_le_mono_nonneg_l; [lia|apply Z.mul_le_mono_nonneg_r; lia]).
    assert (2 * S * S * d < a * b) as A5 by (apply Z.mul_lt_mono_pos_l with (p := EB); [lia|]; unfold N in A3; lia).
    assert (4 * S * S * d < b * b + b * d) as A6 by (unfold d in *; lia).
    assert (b * b <= (2 * S - 1) * (2 * S - 1)) as A7 by (apply Z.mul_le_mono_nonneg; lia).
    assert (b * d <= 2 * S * d) as A8 by (apply Z.mul_le_mono_nonneg_r; lia).
    assert (S * 1 <= S * d) as A10 by (apply Z.mul_le_mono_nonneg_l; lia).
    assert (2 * S * S * 1 <= 2 * S * S * d) as A11 by (apply Z.mul_le_mono_nonneg_l; [apply Z.mul_nonneg_nonneg; lia|lia]).
    assert ((4 * S * S - 2 * S) * 1 <= (4 * S * S - 2 * S) * d) as A12 by (apply Z.mul_le_mono_nonneg_l; [clear - HS; nia|lia]).
    clear - A6 A7 A8 A12 HS. lia.
  - intros G. destruct (Z_le_gt_dec a b) as [|G2]; [assumption|exfalso].
    assert (q * b <= (2 * S - 1) * b) by (apply Z.mul_le_mono_nonneg_r; lia).
    assert (2 * S * 1 <= 2 * S * (a - b)) by (apply Z.mul_le_mono_nonneg_l; lia). unfold r1 in *. lia.
Qed.

Section Fmt.
Context (f : fmt) (W : wf f).
Notation S := (2 ^ fs f).
Notation B := (2 ^ (fb f - 1)).
Notation u := (bpow radix2 (emin f)).

(** The number of increments is enough for the error [D] of the reciprocal. *)
Definition enough_inc (half D : Z) : Prop :=
  D < 2 ^ eb f /\ (((fb f =? 128) || (fb f =? 32) && (0 <? half)) = false -> 2 * D < 2 ^ eb f).

Lemma div_finish_ok half s a b e x D : 0 <= D -> enough_inc half D -> S <= a < 2 * S -> S <= b < 2 * S -> - 90000 < e < 90000 ->
  recip_post (2 ^ fb f) D (b * 2 ^ eb f) x ->
  exists m, div_finish f half (b2z s * B) a b e x = Ok (b2z s * B + m) /\ rmag f (IZR (a * S) / IZR b * bpow radix2 (e - 1) * u) m.
Proof using W.
  intros HD (HI1 & HI2) Ha Hb He HR.
  pose proof (S_big f W) as SB. pose proof (EB_big f W) as EBg. pose proof (wf_s f W) as w1. pose proof (wf_b f W) as w2. pose proof (wf_e f W) as w3.
  assert (2 ^ fb f = 2 * S * 2 ^ eb f) as FE by (rewrite fb_eq, B_eq by assumption; ring).
  assert (64 * S <= 2 ^ fb f) as NB by (rewrite FE; pose proof (Z.mul_le_mono_nonneg_l 32 (2 ^ eb f) (2 * S)); lia).
  pose proof HR as (Hx & _ & _).
  set (q := x * (a * 2) / 2 ^ fb f).
  assert (2 * a * x = q * 2 ^ fb f + x * (a * 2) mod 2 ^ fb f) as Eq by (unfold q; pose proof (Z.div_mod (x * (a * 2)) (2 ^ fb f)); lia).
  pose proof (Z.mod_pos_bound (x * (a * 2)) (2 ^ fb f) ltac:(lia)) as Ht.
  rewrite FE in HR, Eq, Ht.
  destruct (quot_math S (2 ^ eb f) D a b x q _ ltac:(lia) ltac:(lia) ltac:(lia) Ha Hb HR Eq Ht) as (R0 & R1 & HQ & HQ2). clear Eq Ht HR.
  
  unfold div_finish. cbv zeta. rewrite (IMPLICIT_BIT_eq f W). unfold fI at 1.
  rewrite cshl_u_exact by (change (2 ^ 1) with 2; lia). cbn [bind]. change (2 ^ 1) with 2.
  rewrite (wmul_ok f W) by lia. cbn [bind snd]. fold q. clearbody q.
  unfold fI at 1. rewrite (cshl_u_exact (fb f) S 1) by (change (2 ^ 1) with 2; lia). cbn [bind]. change (2 ^ 1) with 2.
  assert (forall c d, 0 < c - d < 2 ^ fb f -> wrapping_sub (fI f) (norm (fI f) c) (wrapping_mul (fI f) d 1) = c - d) as WS.
  { intros c d Hcd. unfold wrapping_sub, wrapping_mul, fI. rewrite !norm_u, <- Zminus_mod, Z.mul_1_r. apply Z.mod_small. lia. }
  assert (0 <= b * D) as bD by (apply Z.mul_nonneg_nonneg; lia).
  destruct (Z.ltb_spec q (S * 2)) as [L|G].
  - specialize (HQ2 ltac:(lia)).
    assert (2 * a * S - q * b < 2 * b) as R2.
    { apply Z.mul_lt_mono_pos_l with (p := 2 ^ eb f); [lia|]. pose proof (Z.mul_lt_mono_pos_l b D (2 ^ eb f)). lia. }
    rewrite cshl_ok by (unfold fI; cbn [bits UI]; lia). cbn [bind].
    assert (wrapping_sub (fI f) (norm (fI f) (a * 2 ^ (fs f + 1))) (wrapping_mul (fI f) q b) = 2 * a * S - q * b) as ->.
    { specialize (WS (a * 2 ^ (fs f + 1)) (q * b)). unfold wrapping_mul in *. rewrite Z.mul_1_r in WS. rewrite pow2_add in * by lia. rewrite WS; lia. }
    unfold csub. rewrite chk_s32 by (change (2 ^ 31) with 2147483648; lia). cbn [bind].
    unfold fI at 1. rewrite cshl_u_exact by (change (2 ^ 1) with 2; lia). cbn [bind]. change (2 ^ 1) with 2.
    destruct (div_tail_ok f W half s (a * 2) b q (2 * a * S - q * b) (e - 1) ltac:(lia) ltac:(lia) Hb ltac:(lia) ltac:(lia) ltac:(lia)) as (m & Em & Hm).
    { intros Hf. specialize (HI2 Hf). apply Z.mul_lt_mono_pos_l with (p := 2 ^ eb f); [lia|]. pose proof (Z.mul_lt_mono_pos_l b (2 * D) (2 ^ eb f)). lia. }
    { lia. }
    exists m. split; [exact Em|].
    replace (IZR (a * S) / IZR b * bpow radix2 (e - 1) * u)%R with (IZR (a * 2 * S) / IZR b * bpow radix2 (e - 1 - 1) * u)%R; [exact Hm|].
    f_equal. replace (e - 1) with (1 + (e - 1 - 1)) at 2 by lia. rewrite bpow_plus. change (bpow radix2 1) with 2%R. replace (a * 2 * S) with (2 * (a * S)) by ring. rewrite (mult_IZR 2). unfold Rdiv. ring.
  - unfold fI at 1. rewrite cshr_ok by (cbn [bits UI]; lia). cbn [bind]. change (2 ^ 1) with 2.
    pose proof (Z.div_mod q 2 ltac:(lia)) as D2. pose proof (Z.mod_pos_bound q 2 ltac:(lia)) as M2. set (Q := q / 2) in *. clearbody Q.
    assert (2 * (a * S - Q * b) = 2 * a * S - q * b + (q mod 2) * b) as Er by (rewrite D2 at 1; ring).
    assert (0 <= (q mod 2) * b <= b) as eb' by (assert (q mod 2 = 0 \/ q mod 2 = 1) as [-> | ->] by lia; lia).
    assert (2 ^ eb f * (2 * (a * S - Q * b)) < b * (2 * 2 ^ eb f + D)) as R2.
    { rewrite Er. assert (2 ^ eb f * (q mod 2 * b) <= 2 ^ eb f * b) by (apply Z.mul_le_mono_nonneg_l; lia). lia. }
    assert (a * S - Q * b < 2 * b) as R3.
    { apply Z.mul_lt_mono_pos_l with (p := 2 ^ eb f); [lia|]. pose proof (Z.mul_lt_mono_pos_l b D (2 ^ eb f)). lia. }
    rewrite cshl_ok by (unfold fI; cbn [bits UI]; lia). cbn [bind].
    assert (wrapping_sub (fI f) (norm (fI f) (a * S)) (wrapping_mul (fI f) Q b) = a * S - Q * b) as ->.
    { specialize (WS (a * S) (Q * b)). unfold wrapping_mul in *. rewrite Z.mul_1_r in WS. rewrite WS; lia. }
    apply (div_tail_ok f W half s a b Q (a * S - Q * b) e); try lia.
    intros Hf. specialize (HI2 Hf). apply Z.mul_lt_mono_pos_l with (p := 2 ^ eb f); [lia|]. pose proof (Z.mul_lt_mono_pos_l b (2 * D) (2 ^ eb f)). lia.
Qed.

Lemma div_special_ok s t n m e0 : 0 < n < inf f -> 0 < m < inf f -> - 40000 <= e0 <= 80000 -> exists ma0 mb0 e ea eb',
  div_special f (b2z s * B + n) (b2z t * B + m) e0 = Ok (inr (ma0, mb0, e)) /\
  (let ma := Z.lor ma0 (IMPLICIT_BIT f) in let mb := Z.lor mb0 (IMPLICIT_BIT f) in
   S <= ma < 2 * S /\ S <= mb < 2 * S /\ 1 - fs f <= ea < 2 ^ eb f - 1 /\ 1 - fs f <= eb' < 2 ^ eb f - 1 /\
   e = e0 + (ea - n / S) - (eb' - m / S) /\
   IZR (V f n) = (IZR ma * bpow radix2 (ea - 1))%R /\ IZR (V f m) = (IZR mb * bpow radix2 (eb' - 1))%R).
Proof using W.
  intros Hn Hm H0. pose proof (inf_pos f W). pose proof (S_pos f W). pose proof (wf_s f W). pose proof (wf_128 f W). pose proof (wf_b f W). pose proof (wf_e f W). pose proof (EB_big f W) as EBg. pose proof (inf_eq f W).
  pose proof (fb_big f W) as (F1 & F2 & F3). change (2 ^ 16) with 65536 in F2.
  assert (forall x s, 0 < x < inf f -> exists e m0 sc, (if x <? IMPLICIT_BIT f then normalize f (x mod S) else Ok (0, x mod S)) = Ok (sc, m0) /\
     (let m := Z.lor m0 (IMPLICIT_BIT f) in S <= m < 2 * S /\ 1 - fs f <= e < 2 ^ eb f - 1 /\ x / S + sc = e /\ - 512 <= sc <= 0 /\
      IZR (V f x) = (IZR m * bpow radix2 (e - 1))%R) /\ (0 < x / S -> m0 = x mod S /\ sc = 0) /\ 0 <= x / S < 2 ^ eb f - 1 /\
      add_unpack f (b2z s * B + x) = Ok (e, m0)) as K.
  { intros x s' Hx. destruct (add_unpack_ok f W s' x Hx) as (e & m0 & U & Hmr & He & HV).
    pose proof (Z.div_mod x S ltac:(lia)) as D. pose proof (Z.mod_pos_bound x S ltac:(lia)) as R.
    assert (0 <= x / S < 2 ^ eb f - 1) as Q by (split; [apply Z.div_pos; lia|apply Z.div_lt_upper_bound; lia]).
    pose proof U as U0. unfold add_unpack in U. rewrite expm_of, frac_of in U by (assumption || lia).
    unfold ccast in U. rewrite chk_s32 in U by (change (2 ^ 31) with 2147483648; lia). cbn [bind] in U.
    rewrite IMPLICIT_BIT_eq in * by assumption.
    destruct (Z.eqb_spec (x / S) 0) as [e0'|e0'].
    - replace (x <? S) with true by (symmetry; apply Z.ltb_lt; lia). exists e, m0, e.
      destruct (normalize_ok f W (x mod S)) as (h & Nh & Hh & Hr); [lia|]. rewrite Nh in U. assert (e = 1 - h) by congruence.
      split; [rewrite Nh; exact U|]. cbv zeta. split; [split; [exact Hmr|split; [exact He|split; [lia|split; [lia|exact HV]]]]|].
      split; [lia|split; [lia|exact U0]].
    - replace (x <? S) with false by (symmetry; apply Z.ltb_ge; nia). injection U as U1 U2. subst e m0.
      exists (x / S), (x mod S), 0. split; [reflexivity|]. cbv zeta. split; [split; [exact Hmr|split; [exact He|split; [lia|split; [lia|exact HV]]]]|]. split; [tauto|split; [lia|exact U0]]. }
  unfold div_special. rewrite !exp_of, !frac_of, !mag_of by (assumption || lia). rewrite EXP_SAT_eq, EXP_MASK_eq by assumption.
  destruct (K n s Hn) as (ea & ma0 & sa & Na & (Ra & Ea & Da & Sa & Va) & Za & Qa & _).
  destruct (K m t Hm) as (eb' & mb0 & sb & Nb & (Rb & Eb & Db & Sb & Vb) & Zb & Qb & _). clear K.
  assert (forall x, 0 <= x < 2 ^ eb f - 1 -> (2 ^ eb f - 1 - 1 <=? wrapping_sub (fI f) x 1) = (x =? 0)) as T.
  { intros x Hx. unfold wrapping_sub, fI. destruct (Z.eqb_spec x 0) as [->|].
    - replace (norm (UI (fb f)) (0 - 1)) with (2 ^ fb f - 1); [apply Z.leb_le; lia|].
      symmetry. apply norm_unique with (k := 1); [cbn [bits UI]; lia|apply fits_u; lia|cbn [bits UI]; lia].
    - rewrite norm_u_id by lia. apply Z.leb_gt. lia. }
  rewrite !T by assumption. clear T.
  exists ma0, mb0, (e0 + sa - sb), ea, eb'. split.
  2:{ cbv zeta. repeat (split; [assumption || lia|]). assumption. }
  destruct ((n / S =? 0) || (m / S =? 0)) eqn:Z0.
  - replace (inf f <? n) with false by (symmetry; apply Z.ltb_ge; lia). replace (inf f <? m) with false by (symmetry; apply Z.ltb_ge; lia).
    replace (n =? inf f) with false by (symmetry; apply Z.eqb_neq; lia). replace (m =? inf f) with false by (symmetry; apply Z.eqb_neq; lia).
    replace (n =? 0) with false by (symmetry; apply Z.eqb_neq; lia). replace (m =? 0) with false by (symmetry; apply Z.eqb_neq; lia).
    assert ((if n <? IMPLICIT_BIT f then let* p := normalize f (n mod S) in let* e := cadd (SI 32) e0 (fst p) in Ok (e, snd p) else Ok (e0, n mod S)) = Ok (e0 + sa, ma0)) as ->.
    { destruct (n <? IMPLICIT_BIT f).
      - rewrite Na. cbn [bind fst snd]. unfold cadd. rewrite chk_s32 by (change (2 ^ 31) with 2147483648; lia). reflexivity.
      - injection Na as <- <-. do 2 f_equal. lia. }
    cbn [bind].
    assert ((if m <? IMPLICIT_BIT f then let* p := normalize f (m mod S) in let* e := csub (SI 32) (e0 + sa) (fst p) in Ok (e, snd p) else Ok (e0 + sa, m mod S)) = Ok (e0 + sa - sb, mb0)) as ->.
    { destruct (m <? IMPLICIT_BIT f).
      - rewrite Nb. cbn [bind fst snd]. unfold csub. rewrite chk_s32 by (change (2 ^ 31) with 2147483648; lia). reflexivity.
      - injection Nb as <- <-. do 2 f_equal. lia. }
    reflexivity.
  - apply orb_false_iff in Z0. destruct Z0 as [Z1 Z2]. apply Z.eqb_neq in Z1, Z2.
    destruct (Za ltac:(lia)) as [-> ->]. destruct (Zb ltac:(lia)) as [-> ->]. do 4 f_equal. lia.
Qed.

(** A reciprocal routine good enough for the format. *)
Definition recip_ok (half full P : Z) : Prop := exists D, 0 <= D /\ enough_inc half D /\
  forall b, S <= b < 2 * S -> exists x, recip f half full P (b * 2 ^ eb f) = Ok x /\ recip_post (2 ^ fb f) D (b * 2 ^ eb f) x.
(** The iteration counts and the precision chosen for [p]. *)
Definition config (p half full P : Z) : Prop := exists h0,
  get_iterations f p = (h0, full) /\ reciprocal_precision f p = Ok P /\ half = (if fb f =? 128 then h0 + 1 else h0).

Lemma div_finite p half full P s t n m : config p half full P -> recip_ok half full P -> 0 < n < inf f -> 0 < m < inf f -> exists r,
  div f p (b2z s * B + n) (b2z t * B + m) = Ok (b2z (xorb s t) * B + r) /\ rmag f (IZR (V f n) * u / (IZR (V f m) * u)) r.
Proof using W.
  intros (h0 & C1 & C2 & C3) (D & HD & HI & HR) Hn Hm.
  pose proof (wf_s f W) as w1. pose proof (wf_b f W) as w2. pose proof (wf_e f W) as w3. pose proof (S_pos f W) as w4. pose proof (S_big f W) as w5. pose proof (EB_big f W) as w6. pose proof (B_eq f W) as w7. pose proof (fb_eq f W) as w8. pose proof (inf_pos f W) as w9. pose proof (wf_128 f W) as w10. pose proof (inf_eq f W) as w11.
  pose proof (bias_range f W) as (b1 & b2 & b3).
  unfold div. rewrite C1, C2. cbn [bind]. cbv zeta. rewrite <- C3. rewrite !exp_of by (assumption || lia).
  assert (0 <= n / S < 2 ^ eb f) as q1 by (split; [apply Z.div_pos; lia|apply Z.div_lt_upper_bound; lia]).
  assert (0 <= m / S < 2 ^ eb f) as q2 by (split; [apply Z.div_pos; lia|apply Z.div_lt_upper_bound; lia]).
  unfold ccast. rewrite !chk_s32 by (change (2 ^ 31) with 2147483648; lia). cbn [bind].
  unfold csub at 1. rewrite chk_s32 by (change (2 ^ 31) with 2147483648; lia). cbn [bind].
  unfold cadd at 1. rewrite chk_s32 by (change (2 ^ 31) with 2147483648; lia). cbn [bind].
  destruct (div_special_ok s t n m (n / S - m / S + EXP_BIAS f) Hn Hm ltac:(lia)) as (ma0 & mb0 & e & ea & eb' & Sp & Ra & Rb & Ea & Eb & Ee & Va & Vb).
  rewrite Sp. cbn [bind]. clear Sp.
  set (ma := Z.lor ma0 (IMPLICIT_BIT f)) in *. set (mb := Z.lor mb0 (IMPLICIT_BIT f)) in *. clearbody ma mb.
  replace (fb f - fs f - 1) with (eb f) by (unfold eb; lia).
  assert (0 < mb * 2 ^ eb f < 2 ^ fb f) as Hbs. { rewrite w8, w7. split; [apply Z.mul_pos_pos; lia|]. pose proof (Z.mul_lt_mono_pos_r (2 ^ eb f) mb (2 * S)). lia. }
  unfold fI at 1. rewrite cshl_u_exact by lia. cbn [bind].
  destruct (HR mb Rb) as (x & -> & Hx). cbn [bind].
  rewrite lxor_mk by lia. rewrite (sgn_of f W (xorb s t)) by (try assumption; apply lxor_small; lia).
  destruct (div_finish_ok half (xorb s t) ma mb e x D HD HI Ra Rb ltac:(lia) Hx) as (r & Er & Hr).
  exists r. split; [exact Er|].
  replace (IZR (V f n) * u / (IZR (V f m) * u))%R with (IZR (ma * S) / IZR mb * bpow radix2 (e - 1) * u)%R; [exact Hr|].
  rewrite Va, Vb. assert (0 < IZR mb)%R by (apply IZR_lt; lia). rewrite mult_IZR. change S with (Zpower radix2 (fs f)). rewrite (IZR_Zpower radix2) by lia.
  replace (ea - 1) with (fs f + (e - 1) + emin f + (eb' - 1)) by (unfold emin; lia).
  rewrite !bpow_plus. pose proof (bpow_gt_0 radix2 (emin f)). pose proof (bpow_gt_0 radix2 (eb' - 1)). change (bpow radix2 (-1)) with (/ 2)%R. field; repeat split; lra.
Qed.

Lemma div_special_val p half full P s t n m : config p half full P -> 0 <= n < B -> 0 <= m < B -> (n = 0 \/ inf f <= n \/ m = 0 \/ inf f <= m) ->
  div f p (b2z s * B + n) (b2z t * B + m) =
    Ok (if inf f <? n then Z.lor (b2z s * B + n) (quiet_bit f)
       else if inf f <? m then Z.lor (b2z t * B + m) (quiet_bit f)
       else if n =? inf f then if m =? inf f then qnan_rep f else b2z (xorb s t) * B + n
       else if m =? inf f then b2z (xorb s t) * B
       else if n =? 0 then if m =? 0 then qnan_rep f else b2z (xorb s t) * B
       else b2z (xorb s t) * B + inf f).
Proof using W.
  intros (h0 & C1 & C2 & C3) Hn Hm Hz.
  pose proof (wf_s f W) as w1. pose proof (wf_b f W) as w2. pose proof (wf_e f W) as w3. pose proof (bias_range f W) as (b1 & b2 & b3).
  pose proof (S_pos f W) as SP. pose proof (EB_big f W) as EBg. pose proof (inf_pos f W) as IP. pose proof (fb_big f W) as (F1 & F2 & F3). change (2 ^ 16) with 65536 in F2. pose proof (B_eq f W) as w7.
  unfold div. rewrite C1, C2. cbn [bind]. cbv zeta. rewrite !exp_of by (assumption || lia).
  assert (0 <= n / S < 2 ^ eb f) as q1 by (split; [apply Z.div_pos; lia|apply Z.div_lt_upper_bound; lia]).
  assert (0 <= m / S < 2 ^ eb f) as q2 by (split; [apply Z.div_pos; lia|apply Z.div_lt_upper_bound; lia]).
  unfold ccast. rewrite !chk_s32 by (change (2 ^ 31) with 2147483648; lia). cbn [bind].
  unfold csub at 1. rewrite chk_s32 by (change (2 ^ 31) with 2147483648; lia). cbn [bind].
  unfold cadd at 1. rewrite chk_s32 by (change (2 ^ 31) with 2147483648; lia). cbn [bind].
  unfold div_special. rewrite !exp_of, !mag_of by assumption.
  rewrite lxor_mk by (destruct W; lia).
  rewrite (sgn_of f W (xorb s t)) by (try assumption; apply lxor_small; destruct W; lia).
  rewrite EXP_SAT_eq, EXP_MASK_eq by assumption.
  assert (forall x, 0 <= x < B -> (x = 0 \/ inf f <= x) -> (2 ^ eb f - 1 - 1 <=? wrapping_sub (fI f) (x / S) 1) = true) as T.
  { intros x Hx [->|Hi]; apply Z.leb_le; unfold wrapping_sub, fI.
    - rewrite Z.div_0_l by lia. replace (norm (UI (fb f)) (0 - 1)) with (2 ^ fb f - 1); [lia|].
      symmetry. apply norm_unique with (k := 1); [cbn [bits UI]; destruct W; lia|apply fits_u; lia|cbn [bits UI]; lia].
    - rewrite (proj2 (div_inf f W x Hx) Hi). rewrite norm_u_id by lia. lia. }
  assert ((2 ^ eb f - 1 - 1 <=? wrapping_sub (fI f) (n / S) 1) || (2 ^ eb f - 1 - 1 <=? wrapping_sub (fI f) (m / S) 1) = true) as ->.
  { apply orb_true_iff. destruct Hz as [Hz|[Hz|Hz]]; [left; apply T; auto|left; apply T; auto|right; apply T; auto]. }
  destruct (Z.ltb_spec (inf f) n); [reflexivity|]. destruct (Z.ltb_spec (inf f) m); [reflexivity|].
  destruct (Z.eqb_spec n (inf f)).
  { destruct (m =? inf f); cbn [bind]; [reflexivity|]. rewrite lor_add_low by (destruct W; lia). f_equal. lia. }
  destruct (Z.eqb_spec m (inf f)); [reflexivity|].
  destruct (Z.eqb_spec n 0); [destruct (m =? 0); reflexivity|].
  destruct (Z.eqb_spec m 0); [|exfalso; lia]. cbn [bind]. rewrite lor_add_low by (destruct W; lia). f_equal. lia.
Qed.

Theorem div_correct p half full P a b : config p half full P -> recip_ok half full P -> is_float f a -> is_float f b ->
  exists r, div f p a b = Ok r /\ is_float f r /\ ieee_div f a b r.
Proof using W.
  intros HC HRC Ha Hb. destruct (split_float f W a Ha) as (s & n & -> & Hn). destruct (split_float f W b Hb) as (t & m & -> & Hm).
  pose proof (inf_pos f W) as IP. pose proof (S_pos f W) as SP.
  enough (exists r, div f p (b2z s * B + n) (b2z t * B + m) = Ok r /\ is_float f r /\
    (inf f < n \/ inf f < m -> is_qnan f r) /\
    (n = inf f /\ m = inf f \/ n = 0 /\ m = 0 -> is_qnan f r) /\
    (n = inf f /\ m < inf f \/ n < inf f /\ n <> 0 /\ m = 0 -> is_inf f r /\ sign_of f r = xorb s t) /\
    (n < inf f /\ m = inf f -> is_zero f r /\ sign_of f r = xorb s t) /\
    (n < inf f -> m < inf f -> m <> 0 -> rounds_to f (xorb s t) (value f (b2z s * B + n) / value f (b2z t * B + m)) r)) as (r & E & Hr & P0).
  { exists r. split; [exact E|]. split; [exact Hr|]. unfold ieee_div. rewrite !is_nan_mk, !is_inf_mk, !is_finite_mk, !is_zero_mk, !sign_of_mk by assumption. exact P0. }
  destruct (Z_lt_ge_dec 0 n) as [N0|N0]; [destruct (Z_lt_ge_dec n (inf f)) as [N1|N1]; [destruct (Z_lt_ge_dec 0 m) as [M0|M0]; [destruct (Z_lt_ge_dec m (inf f)) as [M1|M1]|]|]|].
  { destruct (div_finite p half full P s t n m HC HRC ltac:(lia) ltac:(lia)) as (r & -> & Hr). eexists. split; [reflexivity|].
    assert (rounds_to f (xorb s t) (value f (b2z s * B + n) / value f (b2z t * B + m)) (b2z (xorb s t) * B + r)) as R.
    { rewrite !value_mk by (assumption || lia).
      assert (0 < IZR (V f n) * u)%R by (apply Rmult_lt_0_compat; [apply IZR_lt, V_pos; [assumption|lia]|apply bpow_gt_0]).
      assert (0 < IZR (V f m) * u)%R by (apply Rmult_lt_0_compat; [apply IZR_lt, V_pos; [assumption|lia]|apply bpow_gt_0]).
      replace ((if s then - (IZR (V f n) * u) else IZR (V f n) * u) / (if t then - (IZR (V f m) * u) else IZR (V f m) * u))%R
        with (if xorb s t then - (IZR (V f n) * u / (IZR (V f m) * u)) else IZR (V f n) * u / (IZR (V f m) * u))%R
        by (destruct s, t; cbn [xorb]; set (y := (IZR (V f m) * u)%R) in *; set (x := (IZR (V f n) * u)%R) in *; clearbody x y; field; lra).
      apply rounds_mag; [assumption| |assumption|reflexivity]. apply Rlt_le, Rmult_lt_0_compat; [assumption|]. apply Rinv_0_lt_compat. assumption. }
    split; [apply R|]. split; [lia|]. split; [lia|]. split; [lia|]. split; [lia|]. auto. }
  all: rewrite (div_special_val p half full P) by (assumption || lia); eexists; split; [reflexivity|].
  all: assert (forall c k, inf f < k < B -> is_float f (Z.lor (b2z c * B + k) (quiet_bit f)) /\ is_qnan f (Z.lor (b2z c * B + k) (quiet_bit f))) as QN
    by (intros c k Hk; pose proof (quiet_mag f W k Hk) as Q; rewrite lor_sign by (try assumption; try apply quiet_lt; assumption || lia);
        split; [apply is_float_mk; [assumption|lia]|apply is_qnan_mk; [assumption|lia|lia]]).
  all: pose proof (qnan_rep_qnan f W) as (Q1 & Q2 & _).
  all: assert (rounds_to f (xorb s t) (if xorb s t then - (IZR (V f 0) * u) else IZR (V f 0) * u)%R (b2z (xorb s t) * B + 0)) as RZ
    by (apply rounds_mag; [assumption| |apply rmag_exact; [assumption|lia]|reflexivity]; rewrite V_0 by assumption; lra).
  all: assert (is_inf f (b2z (xorb s t) * B + inf f) /\ sign_of f (b2z (xorb s t) * B + inf f) = xorb s t) as RI by (rewrite is_inf_mk, sign_of_mk by (assumption || lia); auto).
  all: assert (is_zero f (b2z (xorb s t) * B + 0) /\ sign_of f (b2z (xorb s t) * B + 0) = xorb s t) as RZ2 by (rewrite is_zero_mk, sign_of_mk by (assumption || lia); auto).
  all: destruct (Z.ltb_spec (inf f) n); [destruct (QN s n ltac:(lia)); split; [assumption|split; [tauto|split; [tauto|split; lia]]]|].
  all: destruct (Z.ltb_spec (inf f) m); [destruct (QN t m ltac:(lia)); split; [assumption|split; [tauto|split; [tauto|split; lia]]]|].
  all: destruct (Z.eqb_spec n (inf f)) as [En|]; try lia.
  all: destruct (Z.eqb_spec m (inf f)) as [Em|]; try lia.
  all: try (destruct (Z.eqb_spec n 0) as [Zn|]; try lia).
  all: try (destruct (Z.eqb_spec m 0) as [Zm|]; try lia).
  all: try (rewrite En).
  all: assert (is_float f (b2z (xorb s t) * B + 0)) as F0 by (apply is_float_mk; [assumption|lia]); rewrite Z.add_0_r in F0, RZ, RZ2.
  all: split; [first [exact Q1 | exact F0 | apply is_float_mk; [assumption|lia]]|].
  all: split; [first [lia|tauto]|split; [first [lia|intros _; exact Q2|tauto]|split; [first [lia|intros _; exact RI]|split; [first [lia|intros _; exact RZ2]|]]]].
  all: intros L1 L2 L3; try lia.
  all: rewrite !value_mk by (assumption || lia).
  all: replace ((if s then - (IZR (V f n) * u) else IZR (V f n) * u) / (if t then - (IZR (V f m) * u) else IZR (V f m) * u))%R
        with (if xorb s t then - (IZR (V f 0) * u) else IZR (V f 0) * u)%R; [exact RZ|].
  all: subst n; rewrite V_0 by assumption; destruct s, t; cbn [xorb]; unfold Rdiv; ring.
Qed.
End Fmt.
