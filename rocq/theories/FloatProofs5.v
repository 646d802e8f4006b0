(** Correctness of addition and subtraction: special operands (no modelling here). *)
From Coq Require Import ZArith Reals Bool Lia Lra Psatz.
From Flocq Require Import Core.
From Verif Require Import Base BaseLemmas FloatModel FloatSpec FloatProofs FloatProofs2 FloatProofs3 FloatProofs4.
Open Scope Z_scope.

Lemma lor_mk_top k s n : 0 <= k -> 0 <= n < 2 ^ k -> Z.lor (b2z s * 2 ^ k + n) (2 ^ k) = 2 ^ k + n.
Proof.
  intros. pose proof (lor_mk k s true n 0 ltac:(lia) ltac:(lia) ltac:(lia)) as L. rewrite Z.lor_0_r, orb_true_r in L.
  cbn [b2z] in L. rewrite Z.mul_1_l, Z.add_0_r in L. exact L.
Qed.
Lemma lxor_mk_top k s n : 0 <= k -> 0 <= n < 2 ^ k -> Z.lxor (b2z s * 2 ^ k + n) (2 ^ k) = b2z (negb s) * 2 ^ k + n.
Proof.
  intros. pose proof (lxor_mk k s true n 0 ltac:(lia) ltac:(lia) ltac:(lia)) as L. rewrite Z.lxor_0_r, xorb_true_r in L.
  unfold b2z at 2 in L. rewrite Z.mul_1_l, Z.add_0_r in L. exact L.
Qed.

Section Fmt.
Context (f : fmt) (W : wf f).
Notation S := (2 ^ fs f).
Notation B := (2 ^ (fb f - 1)).
Notation u := (bpow radix2 (emin f)).

Lemma quiet_mag n : inf f < n < B -> inf f + 2 ^ (fs f - 1) <= Z.lor n (quiet_bit f) < B.
Proof using W.
  intros Hn. rewrite quiet_bit_eq by assumption. pose proof (wf_s f W). pose proof (wf_b f W). pose proof (wf_e f W).
  pose proof (S_even f W) as SE. pose proof (inf_eq f W) as IE. pose proof (B_eq f W) as BE. pose proof (pow2_pos (fs f - 1) ltac:(lia)) as PQ.
  pose proof (EB_big f W).
  set (Q := 2 ^ (fs f - 1)) in *.
  assert (exists c l, n = inf f + b2z c * Q + l /\ 0 <= l < Q) as (c & l & -> & Hl).
  { destruct (Z_lt_ge_dec (n - inf f) Q); [exists false, (n - inf f)|exists true, (n - inf f - Q)]; cbn [b2z]; lia. }
  assert (Z.lor (inf f + b2z c * Q + l) Q = inf f + Q + l) as ->; [|rewrite IE in *; nia].
  rewrite IE. replace ((2 ^ eb f - 1) * S + b2z c * Q + l) with ((b2z c * Q + l) + (2 ^ eb f - 1) * S) by ring.
  rewrite <- lor_add_low by (destruct c; cbn [b2z]; lia).
  rewrite <- Z.lor_assoc, (Z.lor_comm _ Q), Z.lor_assoc.
  replace (Z.lor (b2z c * Q + l) Q) with (Q + l).
  - rewrite lor_add_low by lia. lia.
  - symmetry. apply lor_mk_top; lia.
Qed.
Lemma lor_sign s n m : 0 <= n < B -> 0 <= m < B -> Z.lor (b2z s * B + n) m = b2z s * B + Z.lor n m.
Proof using W.
  intros. destruct W. rewrite (mk0 (fb f - 1) m) at 1. rewrite lor_mk by lia. rewrite orb_false_r. reflexivity.
Qed.
Lemma quiet_lt : 0 <= quiet_bit f < B.
Proof using W.
  rewrite quiet_bit_eq by assumption. destruct W. split; [apply Z.lt_le_incl, pow2_pos; lia|apply pow2_lt; lia].
Qed.
Lemma qnan_rep_eq : qnan_rep f = inf f + 2 ^ (fs f - 1).
Proof using W.
  unfold qnan_rep. rewrite EXP_MASK_eq, quiet_bit_eq, Z.lor_comm, inf_eq by assumption. pose proof (wf_s f W).
  rewrite lor_add_low; [lia|lia|]. pose proof (pow2_pos (fs f - 1)). pose proof (S_even f W). lia.
Qed.
Lemma qnan_rep_qnan : is_float f (qnan_rep f) /\ is_qnan f (qnan_rep f) /\ 0 <= qnan_rep f < B.
Proof using W.
  pose proof (inf_pos f W). pose proof (S_even f W). pose proof (S_pos f W). pose proof (inf_eq f W). pose proof (B_eq f W).
  rewrite qnan_rep_eq. replace (inf f + 2 ^ (fs f - 1)) with (b2z false * B + (inf f + 2 ^ (fs f - 1))) by (cbn [b2z]; lia).
  split; [apply is_float_mk; [assumption|lia]|]. split; [|cbn [b2z]; lia]. rewrite is_qnan_mk by (assumption || lia). lia.
Qed.

Lemma special_test n : 0 <= n < B -> (inf f - 1 <=? wrapping_sub (fI f) n 1) = (n =? 0) || (inf f <=? n).
Proof using W.
  intros Hn. pose proof (inf_pos f W). pose proof (fb_eq f W). unfold wrapping_sub, fI.
  destruct (Z.eqb_spec n 0) as [->|]; cbn [orb].
  - replace (norm (UI (fb f)) (0 - 1)) with (2 ^ fb f - 1); [apply Z.leb_le; lia|].
    symmetry. apply norm_unique with (k := 1); [cbn [bits UI]; destruct W; lia|apply fits_u; lia|cbn [bits UI]; lia].
  - rewrite norm_u_id by lia. destruct (Z.leb_spec (inf f - 1) (n - 1)), (Z.leb_spec (inf f) n); reflexivity || lia.
Qed.

Lemma V_zero_iff n : 0 <= n -> V f n = 0 -> n = 0.
Proof using W. intros. destruct (Z.eq_dec n 0); [assumption|]. pose proof (V_pos f W n). lia. Qed.

Lemma signed_sum (s t : bool) (x y : R) :
  ((if s then - x else x) + (if t then - y else y) = if s then - (x + (if Bool.eqb s t then y else - y)) else x + (if Bool.eqb s t then y else - y))%R.
Proof using. destruct s, t; cbn [Bool.eqb]; ring. Qed.

Lemma add_main_full s t n m : 0 < m <= n -> n < inf f -> exists r, add_main f (b2z s * B + n) (b2z t * B + m) = Ok r /\
  rounds_to f (s && t) (value f (b2z s * B + n) + value f (b2z t * B + m)) r.
Proof using W.
  intros Hm Hn. pose proof (inf_pos f W).
  destruct (add_main_ok f W s t n m Hm Hn) as (r & -> & Hr). cbv zeta in Hr.
  rewrite !value_mk by (assumption || lia). rewrite signed_sum.
  set (d := V f n + (if Bool.eqb s t then V f m else - V f m)) in *.
  assert (IZR (V f n) * u + (if Bool.eqb s t then IZR (V f m) * u else - (IZR (V f m) * u)) = IZR d * u)%R as ->.
  { unfold d. rewrite plus_IZR. destruct (Bool.eqb s t); [|rewrite opp_IZR]; ring. }
  assert (0 <= d) as Hd.
  { unfold d. pose proof (V_mono f W m n ltac:(lia)). pose proof (V_nonneg f W m ltac:(lia)). destruct (Bool.eqb s t); lia. }
  destruct (Req_bool_spec (IZR d) 0) as [E|E].
  - exists 0. split; [reflexivity|]. rewrite E in *. replace (0 * u)%R with 0%R in * by ring.
    replace (if s then -0 else 0)%R with 0%R by (destruct s; ring).
    replace (s && t) with false.
    2:{ destruct (Bool.eqb_spec s t) as [e|e]; [|destruct s, t; reflexivity || congruence].
        exfalso. apply eq_IZR in E. unfold d in E. pose proof (V_pos f W m). pose proof (V_nonneg f W n). lia. }
    replace 0 with (b2z false * B + 0) by (cbn [b2z]; lia).
    apply (rounds_mag f W false 0%R 0 false); [lra| |reflexivity].
    replace 0%R with (0 * u)%R by ring. apply pack_tiny; [assumption|lra|lra].
  - eexists. split; [reflexivity|]. assert (0 < IZR d)%R as Hd'.
    { apply IZR_lt. destruct (Z.eq_dec d 0) as [e|]; [rewrite e in E; lra|lia]. }
    pose proof (bpow_gt_0 radix2 (emin f)).
    apply rounds_mag; [assumption| |assumption|].
    + apply Rlt_le, Rmult_lt_0_compat; assumption.
    + intros Z0. apply Rmult_integral in Z0. lra.
Qed.

Lemma rounds_to_comm zs x y r : rounds_to f zs (x + y) r -> rounds_to f zs (y + x) r.
Proof using. rewrite Rplus_comm. auto. Qed.

Theorem add_correct a b : is_float f a -> is_float f b -> exists r, add f a b = Ok r /\ is_float f r /\ ieee_add f a b r.
Proof using W.
  intros Ha Hb. destruct (split_float f W a Ha) as (s & n & -> & Hn). destruct (split_float f W b Hb) as (t & m & -> & Hm).
  pose proof (inf_pos f W) as IP.
  enough (exists r, add f (b2z s * B + n) (b2z t * B + m) = Ok r /\ is_float f r /\
    (inf f < n \/ inf f < m -> is_qnan f r) /\
    (n = inf f -> m = inf f -> if Bool.eqb s t then r = b2z s * B + n else is_qnan f r) /\
    (n = inf f -> m < inf f -> r = b2z s * B + n) /\
    (n < inf f -> m = inf f -> r = b2z t * B + m) /\
    (n < inf f -> m < inf f -> rounds_to f (s && t) (value f (b2z s * B + n) + value f (b2z t * B + m)) r)) as (r & E & Hr & P).
  { exists r. split; [exact E|]. split; [exact Hr|]. unfold ieee_add. rewrite !is_nan_mk, !is_inf_mk, !is_finite_mk, !sign_of_mk by assumption. exact P. }
  unfold add, add_special. rewrite !mag_of by assumption. rewrite EXP_MASK_eq, !special_test by assumption.
  destruct ((n =? 0) || (inf f <=? n) || ((m =? 0) || (inf f <=? m))) eqn:Sp.
  - destruct (Z.ltb_spec (inf f) n).
    { eexists. split; [reflexivity|]. pose proof (quiet_mag n ltac:(lia)) as Q.
      rewrite (mk0 (fb f - 1) (Z.lor n (quiet_bit f))).
      split; [apply is_float_mk; [assumption|lia]|]. 
      split; [intros _; apply is_qnan_mk; assumption || lia|]. split; [lia|]. split; [lia|]. split; lia. }
    destruct (Z.ltb_spec (inf f) m).
    { eexists. split; [reflexivity|]. pose proof (quiet_mag m ltac:(lia)) as Q.
      rewrite (mk0 (fb f - 1) (Z.lor m (quiet_bit f))).
      split; [apply is_float_mk; [assumption|lia]|]. 
      split; [intros _; apply is_qnan_mk; assumption || lia|]. split; [lia|]. split; [lia|]. split; lia. }
    destruct (Z.eqb_spec n (inf f)) as [E|E].
    { rewrite lxor_mk by (destruct W; lia). rewrite SIGN_MASK_eq by assumption.
      pose proof (lxor_small (fb f - 1) n m ltac:(destruct W; lia) Hn Hm) as L.
      destruct (Z.eqb_spec (b2z (xorb s t) * B + Z.lxor n m) B) as [X|X].
      - assert (xorb s t = true /\ Z.lxor n m = 0) as [Xs Xn] by (destruct (xorb s t); cbn [b2z] in X; lia).
        apply Z.lxor_eq in Xn. eexists. split; [reflexivity|]. pose proof qnan_rep_qnan as (Q1 & Q2 & _).
        split; [exact Q1|]. split; [lia|]. split; [|lia]. intros _ _. destruct s, t; try discriminate Xs; exact Q2.
      - eexists. split; [reflexivity|]. split; [assumption|]. split; [lia|]. split; [|split; [reflexivity|split; lia]].
        intros _ Hmi. destruct (Bool.eqb_spec s t) as [e|e]; [reflexivity|]. exfalso. apply X.
        rewrite E, Hmi, Z.lxor_nilpotent. destruct s, t; cbn [xorb b2z]; congruence || lia. }
    destruct (Z.eqb_spec m (inf f)).
    { eexists. split; [reflexivity|]. split; [assumption|]. split; [lia|]. split; [lia|]. split; [lia|]. split; [reflexivity|lia]. }
    destruct (Z.eqb_spec n 0) as [N0|N0].
    { destruct (Z.eqb_spec m 0) as [M0|M0].
      - eexists. split; [reflexivity|]. subst n m. rewrite land_mk by (destruct W; lia). rewrite Z.land_0_l.
        split; [apply is_float_mk; [assumption|lia]|]. split; [lia|]. split; [lia|]. split; [lia|]. split; [lia|]. intros _ _.
        rewrite !value_mk by (assumption || lia). rewrite V_0 by assumption.
        replace ((if s then - (0 * u) else 0 * u) + (if t then - (0 * u) else 0 * u))%R with (if s && t then - (IZR (V f 0) * u) else IZR (V f 0) * u)%R.
        + apply rounds_mag; [assumption| |apply rmag_exact; [assumption|lia]|reflexivity]. rewrite V_0 by assumption. lra.
        + rewrite V_0 by assumption. destruct s, t; cbn [andb]; ring.
      - eexists. split; [reflexivity|]. split; [assumption|]. split; [lia|]. split; [lia|]. split; [lia|]. split; [lia|]. intros _ _.
        subst n. rewrite !value_mk by (assumption || lia). rewrite V_0 by assumption.
        replace ((if s then - (0 * u) else 0 * u) + (if t then - (IZR (V f m) * u) else IZR (V f m) * u))%R with (if t then - (IZR (V f m) * u) else IZR (V f m) * u)%R by (destruct s; ring).
        assert (0 < IZR (V f m) * u)%R by (apply Rmult_lt_0_compat; [apply IZR_lt, V_pos; [assumption|lia]|apply bpow_gt_0]).
        apply rounds_mag; [assumption|lra|apply rmag_exact; [assumption|lia]|lra]. }
    destruct (Z.eqb_spec m 0) as [M0|M0].
    { eexists. split; [reflexivity|]. split; [assumption|]. split; [lia|]. split; [lia|]. split; [lia|]. split; [lia|]. intros _ _.
      subst m. rewrite !value_mk by (assumption || lia). rewrite V_0 by assumption.
      replace ((if s then - (IZR (V f n) * u) else IZR (V f n) * u) + (if t then - (0 * u) else 0 * u))%R with (if s then - (IZR (V f n) * u) else IZR (V f n) * u)%R by (destruct t; ring).
      assert (0 < IZR (V f n) * u)%R by (apply Rmult_lt_0_compat; [apply IZR_lt, V_pos; [assumption|lia]|apply bpow_gt_0]).
      apply rounds_mag; [assumption|lra|apply rmag_exact; [assumption|lia]|lra]. }
    exfalso. apply orb_true_iff in Sp. rewrite !orb_true_iff in Sp. lia.
  - apply orb_false_iff in Sp. rewrite !orb_false_iff in Sp.
    assert (exists r, (if n <? m then add_main f (b2z t * B + m) (b2z s * B + n) else add_main f (b2z s * B + n) (b2z t * B + m)) = Ok r /\
      rounds_to f (s && t) (value f (b2z s * B + n) + value f (b2z t * B + m)) r) as (r & -> & R).
    { destruct (Z.ltb_spec n m).
      - destruct (add_main_full t s m n ltac:(lia) ltac:(lia)) as (r & -> & R). exists r. split; [reflexivity|].
        rewrite andb_comm, Rplus_comm. exact R.
      - destruct (add_main_full s t n m ltac:(lia) ltac:(lia)) as (r & -> & R). exists r. split; [reflexivity|exact R]. }
    exists r. split; [reflexivity|]. split; [apply R|]. split; [lia|]. split; [lia|]. split; [lia|]. split; [lia|]. auto.
Qed.

Lemma negate_mk s n : 0 <= n < B -> negate f (b2z s * B + n) = b2z (negb s) * B + n.
Proof using W. intros. unfold negate. rewrite sign_of_mk by assumption. destruct s; cbn [b2z negb]; lia. Qed.

Theorem sub_correct a b : is_float f a -> is_float f b -> exists r, sub f a b = Ok r /\ is_float f r /\ ieee_sub f a b r.
Proof using W.
  intros Ha Hb. destruct (split_float f W b Hb) as (t & m & -> & Hm). unfold sub.
  assert (Z.lxor (b2z t * B + m) (SIGN_MASK f) = b2z (negb t) * B + m) as ->.
  { rewrite SIGN_MASK_eq by assumption. apply lxor_mk_top; [destruct W; lia|assumption]. }
  destruct (add_correct a (b2z (negb t) * B + m) Ha (is_float_mk f W _ m Hm)) as (r & E & Hr & P1 & P2 & P3 & P4 & P5).
  exists r. split; [exact E|]. split; [exact Hr|].
  unfold ieee_sub. rewrite negate_mk by assumption.
  rewrite is_nan_mk, is_inf_mk, is_finite_mk, sign_of_mk in * by assumption.
  split; [exact P1|]. split; [|split; [exact P3|split; [exact P4|]]].
  - intros I1 I2. specialize (P2 I1 I2). destruct (sign_of f a), t; exact P2.
  - intros I1 I2. specialize (P5 I1 I2). rewrite value_mk in * by assumption.
    destruct t; cbn [negb] in *; unfold Rminus; [rewrite Ropp_involutive|]; exact P5.
Qed.
End Fmt.
