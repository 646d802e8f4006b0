(** Facts about bit patterns, their values and [rounds_to], shared by the later files. *)
From Coq Require Import ZArith Reals Bool Lia Lra.
From Flocq Require Import Core.
From Verif Require Import Base BaseLemmas FloatModel FloatSpec FloatProofs FloatProofs2 FloatProofs4 FloatConvProofs.
Open Scope Z_scope.

Section Fmt.
Context (f : fmt) (W : wf f).
Notation B := (2 ^ (fb f - 1)).
Notation u := (bpow radix2 (emin f)).

Lemma is_inf_dec a : is_float f a -> {is_inf f a} + {~ is_inf f a}.
Proof using W.
  intros HA. unfold is_inf. destruct (Z.eq_dec (exp_field f a) (exp_all_ones f)); [|right; tauto].
  destruct (Z.eq_dec (frac_field f a) 0); [left; tauto|right; tauto].
Qed.
Lemma is_nan_dec a : {is_nan f a} + {~ is_nan f a}.
Proof using.
  unfold is_nan. destruct (Z.eq_dec (exp_field f a) (exp_all_ones f)); [|right; tauto].
  destruct (Z.eq_dec (frac_field f a) 0); [right; tauto|left; tauto].
Qed.
Lemma finite_iff a : is_float f a -> (is_finite f a <-> ~ is_nan f a /\ ~ is_inf f a).
Proof using W.
  intros HA. destruct (split_float f W a HA) as (s & n & -> & Hn). rewrite (is_nan_mk f W), (is_inf_mk f W), (is_finite_mk f W) by assumption. lia.
Qed.
Lemma inf_unique a b : is_float f a -> is_float f b -> is_inf f a -> is_inf f b -> sign_of f a = sign_of f b -> a = b.
Proof using W.
  intros HA HB. destruct (split_float f W a HA) as (s & n & -> & Hn). destruct (split_float f W b HB) as (t & m & -> & Hm).
  rewrite !(is_inf_mk f W), !(sign_of_mk f W) by assumption. intros -> -> ->. reflexivity.
Qed.
Lemma value_inj a b : is_float f a -> is_float f b -> is_finite f a -> is_finite f b ->
  sign_of f a = sign_of f b -> value f a = value f b -> a = b.
Proof using W.
  intros HA HB. destruct (split_float f W a HA) as (s & n & -> & Hn). destruct (split_float f W b HB) as (t & m & -> & Hm).
  rewrite !(is_finite_mk f W), !(sign_of_mk f W), !(value_mk f W) by assumption. intros Fn Fm -> E. f_equal.
  assert (IZR (V f n) * u = IZR (V f m) * u)%R as E2 by (destruct t; lra).
  apply Rmult_eq_reg_r in E2; [|pose proof (bpow_gt_0 radix2 (emin f)); lra]. apply eq_IZR in E2.
  destruct (Z.lt_trichotomy n m) as [L|[L|L]]; [|exact L|]; apply (V_inj_lt f W) in L; lia.
Qed.
Lemma rounds_to_unique zs x r r' : rounds_to f zs x r -> rounds_to f zs x r' -> r = r'.
Proof using W.
  intros (H1 & S1 & P1) (H2 & S2 & P2). destruct (Rlt_bool _ _).
  - apply value_inj; intuition congruence.
  - apply inf_unique; intuition congruence.
Qed.
Lemma rounds_exact a : is_float f a -> is_finite f a -> rounds_to f (sign_of f a) (value f a) a.
Proof using W.
  intros HA. destruct (split_float f W a HA) as (s & n & -> & Hn). rewrite (is_finite_mk f W), (sign_of_mk f W), (value_mk f W) by assumption.
  intros F. apply (rounds_mag f W); [|apply (rmag_exact f W); lia|reflexivity].
  apply Rmult_le_pos; [apply IZR_le, (V_nonneg f W); lia|apply bpow_ge_0].
Qed.
End Fmt.
