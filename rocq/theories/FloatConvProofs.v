(** Proofs for the comparisons (cmp.rs). *)
From Coq Require Import ZArith Reals Bool List Lia Lra.
From Flocq Require Import Core.
From Verif Require Import Base BaseLemmas FloatModel FloatSpec FloatProofs FloatProofs2 FloatProofs3 FloatConvModel FloatConvSpec.
Open Scope Z_scope.

Section Fmt.
Context (f : fmt) (W : wf f).
Notation S := (2 ^ fs f).
Notation B := (2 ^ (fb f - 1)).
Notation u := (bpow radix2 (emin f)).

(** A non-NaN's place on a linear scale. *)
Definition key (s : bool) (n : Z) : Z := if s then - V f n else V f n.

Lemma norm_s_mk s n : 0 <= n < B -> norm (SI (fb f)) (b2z s * B + n) = if s then n - B else n.
Proof using W.
  intros Hn. unfold norm. cbn [signed bits SI]. rewrite (fb_eq f W). destruct s; cbn [b2z].
  - replace (1 * B + n + B) with (n + 1 * (2 * B)) by lia. rewrite Z.mod_add, Z.mod_small by lia. lia.
  - rewrite Z.mod_small by lia. lia.
Qed.

Lemma V_inj_lt n m : 0 <= n -> 0 <= m -> (n < m <-> V f n < V f m).
Proof using W.
  intros Hn Hm. split; intros H.
  - apply (V_lt f W). lia.
  - destruct (Z_lt_le_dec n m); [assumption|]. pose proof (V_mono f W m n ltac:(lia)). lia.
Qed.

Lemma cmp_ok s n t m : 0 <= n < B -> 0 <= m < B ->
  cmp f (b2z s * B + n) (b2z t * B + m) =
    if (inf f <? n) || (inf f <? m) then Unordered
    else match key s n ?= key t m with Lt => Less | Eq => Equal | Gt => Greater end.
Proof using W.
  intros Hn Hm. unfold cmp. rewrite !(mag_of f W) by assumption. rewrite (EXP_MASK_eq f W).
  destruct ((inf f <? n) || (inf f <? m)) eqn:Hnan; [reflexivity|].
  rewrite !norm_s_mk by assumption.
  pose proof (V_nonneg f W n ltac:(lia)) as Vn. pose proof (V_nonneg f W m ltac:(lia)) as Vm.
  pose proof (V_0 f W) as V0.
  pose proof (V_inj_lt n m ltac:(lia) ltac:(lia)) as L1. pose proof (V_inj_lt m n ltac:(lia) ltac:(lia)) as L2.
  pose proof (V_inj_lt 0 n ltac:(lia) ltac:(lia)) as L3. pose proof (V_inj_lt 0 m ltac:(lia) ltac:(lia)) as L4.
  destruct (Z.eqb_spec (Z.lor n m) 0) as [E|E].
  - apply Z.lor_eq_0_iff in E as [-> ->]. unfold key. rewrite V0. destruct s, t; reflexivity.
  - assert (~ (n = 0 /\ m = 0)) as NZ by (intros [-> ->]; apply E; reflexivity).
    clear E. set (x := if s then n - B else n). set (y := if t then m - B else m).
    assert ((0 <=? Z.land x y) = (negb s || negb t)) as ->.
    { apply eq_true_iff_eq. rewrite Z.leb_le, Z.land_nonneg. subst x y. destruct s, t; cbn; split; intros; try lia; try discriminate; auto. }
    unfold key. subst x y.
    destruct s, t; cbn [negb orb];
    repeat match goal with |- context [?a <? ?b] => destruct (Z.ltb_spec a b) | |- context [?a =? ?b] => destruct (Z.eqb_spec a b) end;
    try match goal with |- _ = match ?a ?= ?b with _ => _ end => destruct (Z.compare_spec a b) end; try reflexivity; exfalso; lia.
Qed.

Lemma unord_ok s n t m : 0 <= n < B -> 0 <= m < B ->
  unord f (b2z s * B + n) (b2z t * B + m) = (inf f <? n) || (inf f <? m).
Proof using W. intros Hn Hm. unfold unord. rewrite !(mag_of f W) by assumption. rewrite (EXP_MASK_eq f W). reflexivity. Qed.

Lemma value_lt s n t m : 0 <= n < B -> 0 <= m < B ->
  (value f (b2z s * B + n) < value f (b2z t * B + m))%R <-> key s n < key t m.
Proof using W.
  intros Hn Hm. rewrite !(value_mk f W) by assumption. pose proof (bpow_gt_0 radix2 (emin f)) as Hu.
  assert (forall (s : bool) n, (if s then - (IZR (V f n) * u) else IZR (V f n) * u)%R = (IZR (key s n) * u)%R) as K.
  { intros [] k; unfold key; [rewrite opp_IZR; ring|reflexivity]. }
  rewrite !K. split; intros H.
  - apply lt_IZR. apply Rmult_lt_reg_r with u; assumption.
  - apply Rmult_lt_compat_r; [assumption|]. apply IZR_lt, H.
Qed.
Lemma value_eq s n t m : 0 <= n < B -> 0 <= m < B ->
  value f (b2z s * B + n) = value f (b2z t * B + m) <-> key s n = key t m.
Proof using W.
  intros Hn Hm. pose proof (value_lt s n t m Hn Hm) as A. pose proof (value_lt t m s n Hm Hn) as C.
  split; intros H.
  - destruct (Z.lt_trichotomy (key s n) (key t m)) as [L|[L|L]]; [|assumption|]; exfalso.
    + apply A in L. lra. + apply C in L. lra.
  - apply Rle_antisym; apply Rnot_lt_le; intros L; [apply C in L|apply A in L]; lia.
Qed.

Lemma num_lt_mk s n t m : 0 <= n < B -> 0 <= m < B ->
  (num_lt f (b2z s * B + n) (b2z t * B + m) <-> n <= inf f /\ m <= inf f /\ key s n < key t m).
Proof using W.
  intros Hn Hm. unfold num_lt, ordered, neg_inf, pos_inf.
  rewrite !(is_nan_mk f W), !(is_finite_mk f W), !(is_inf_mk f W), !(sign_of_mk f W), value_lt by assumption.
  pose proof (inf_pos f W) as HI.
  pose proof (V_nonneg f W n ltac:(lia)) as Vn. pose proof (V_nonneg f W m ltac:(lia)) as Vm.
  pose proof (V_pos f W (inf f) ltac:(pose proof (S_pos f W); lia)) as VI.
  pose proof (V_inj_lt n (inf f) ltac:(lia) ltac:(lia)) as L1. pose proof (V_inj_lt m (inf f) ltac:(lia) ltac:(lia)) as L2.
  unfold key.
  assert (n = inf f -> V f n = V f (inf f)) by (intros ->; reflexivity).
  assert (m = inf f -> V f m = V f (inf f)) by (intros ->; reflexivity).
  destruct s, t; split; intros H'; try lia.
  all: repeat split; try lia.
  all: destruct H' as (? & ? & ?); destruct (Z.eq_dec n (inf f)), (Z.eq_dec m (inf f)); try lia.
  all: try (left; lia).
  all: try (right; left; split; [split; [lia|reflexivity]|intros [? ?]; try discriminate; lia]).
  all: try (right; right; split; [intros [? ?]; try discriminate; lia|split; [lia|reflexivity]]).
Qed.
Lemma num_eq_mk s n t m : 0 <= n < B -> 0 <= m < B ->
  (num_eq f (b2z s * B + n) (b2z t * B + m) <-> n <= inf f /\ m <= inf f /\ key s n = key t m).
Proof using W.
  intros Hn Hm. unfold num_eq, ordered.
  rewrite !(is_nan_mk f W), !(is_finite_mk f W), !(is_inf_mk f W), !(sign_of_mk f W), value_eq by assumption.
  pose proof (inf_pos f W) as HI.
  pose proof (V_nonneg f W n ltac:(lia)) as Vn. pose proof (V_nonneg f W m ltac:(lia)) as Vm.
  pose proof (V_pos f W (inf f) ltac:(pose proof (S_pos f W); lia)) as VI.
  pose proof (V_inj_lt n (inf f) ltac:(lia) ltac:(lia)) as L1. pose proof (V_inj_lt m (inf f) ltac:(lia) ltac:(lia)) as L2.
  unfold key.
  assert (n = inf f -> V f n = V f (inf f)) by (intros ->; reflexivity).
  assert (m = inf f -> V f m = V f (inf f)) by (intros ->; reflexivity).
  destruct s, t; split; intros H'; try lia.
  all: repeat split; try lia.
  all: destruct H' as (? & ? & ?); destruct (Z.eq_dec n (inf f)), (Z.eq_dec m (inf f)); try lia.
  all: try (left; lia).
  all: try (right; repeat split; lia).
Qed.

(** The whole comparison interface. *)
Lemma cmp_correct a b : is_float f a -> is_float f b ->
  (lt2 f a b < 0 <-> num_lt f a b) /\ (le2 f a b <= 0 <-> num_le f a b) /\
  (gt2 f a b > 0 <-> num_lt f b a) /\ (ge2 f a b >= 0 <-> num_le f b a) /\
  (eq2 f a b = 0 <-> num_eq f a b) /\ (ne2 f a b <> 0 <-> ~ num_eq f a b) /\
  (unord2 f a b <> 0 <-> is_nan f a \/ is_nan f b).
Proof using W.
  intros Ha Hb. destruct (split_float f W a Ha) as (s & n & -> & Hn). destruct (split_float f W b Hb) as (t & m & -> & Hm).
  unfold num_le, lt2, le2, gt2, ge2, eq2, ne2, unord2.
  rewrite !num_lt_mk, !num_eq_mk, !(is_nan_mk f W), unord_ok, cmp_ok by assumption.
  destruct (Z.ltb_spec (inf f) n), (Z.ltb_spec (inf f) m); cbn [orb b2z to_default_cmp_result to_gt_ge_cmp_result]; try lia.
  destruct (Z.compare_spec (key s n) (key t m)); cbn [to_default_cmp_result to_gt_ge_cmp_result]; lia.
Qed.
End Fmt.
