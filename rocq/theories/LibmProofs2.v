(** Libm functions that use float operators: C30, C31, C33, C38. *)
From Coq Require Import ZArith Reals Bool Lia Lra.
From Flocq Require Import Core.
From Verif Require Import Base BaseLemmas FloatModel FloatSpec FloatConvSpec FloatConvModel FloatProofs FloatProofs2 FloatProofs3 FloatProofs5 FloatProofs7 FloatConvProofs FloatLib LibmModel LibmSpec LibmProofs.
Open Scope Z_scope.

Section Fmt.
Context (f : fmt) (W : wf f) (WL : fs f + 2 <= bias f).
Notation S := (2 ^ fs f).
Notation B := (2 ^ (fb f - 1)).
Notation u := (bpow radix2 (emin f)).
Notation mk s n := (b2z s * B + n).
Notation mag n := (IZR (V f n) * u)%R.
Notation p2 := (p2 f).
Notation key := (key f).

Lemma p2_B k : - bias f <= k <= bias f -> 0 <= p2 k < B.
Proof using W. intros. pose proof (p2_range f W k). pose proof (inf_pos f W). lia. Qed.
Lemma value_p2 s k : 1 - bias f <= k <= bias f -> value f (mk s (p2 k)) = if s then (- bpow radix2 k)%R else bpow radix2 k.
Proof using W. intros. pose proof (p2_B k). rewrite value_mk, mag_p2 by (assumption || lia). reflexivity. Qed.
Lemma p2_pos k : 1 - bias f <= k <= bias f -> 0 < p2 k.
Proof using W. intros. unfold LibmProofs.p2. pose proof (S_pos f W). apply Z.mul_pos_pos; lia. Qed.
Lemma bias_pos : 15 <= bias f.
Proof using W. pose proof (bias_range f W) as (? & -> & _). lia. Qed.
Lemma float_ONE : is_float f (ONE f) /\ ONE f = mk false (p2 0).
Proof using W.
  rewrite ONE_eq by assumption. pose proof bias_pos. pose proof (p2_B 0 ltac:(lia)).
  split; [apply (is_float_mk f W false); assumption|cbn [b2z]; lia].
Qed.

Lemma num_le_mk s n t m : 0 <= n < B -> 0 <= m < B -> (num_le f (mk s n) (mk t m) <-> n <= inf f /\ m <= inf f /\ key s n <= key t m).
Proof using W. intros. unfold num_le. rewrite num_lt_mk, num_eq_mk by assumption. lia. Qed.

Context (o : fops) (O : ieee_ops f o).

Lemma lt_mk s n t m : 0 <= n < B -> 0 <= m < B -> o_lt o (mk s n) (mk t m) = (n <=? inf f) && (m <=? inf f) && (key s n <? key t m).
Proof using W O.
  intros. apply eq_true_iff_eq. rewrite (ops_lt f o O), num_lt_mk, !andb_true_iff, !Z.leb_le, Z.ltb_lt by (assumption || (apply is_float_mk; assumption)). tauto.
Qed.
Lemma le_mk s n t m : 0 <= n < B -> 0 <= m < B -> o_le o (mk s n) (mk t m) = (n <=? inf f) && (m <=? inf f) && (key s n <=? key t m).
Proof using W O.
  intros. apply eq_true_iff_eq. rewrite (ops_le f o O), num_le_mk, !andb_true_iff, !Z.leb_le by (assumption || (apply is_float_mk; assumption)). tauto.
Qed.
Lemma eq_mk s n t m : 0 <= n < B -> 0 <= m < B -> o_eq o (mk s n) (mk t m) = (n <=? inf f) && (m <=? inf f) && (key s n =? key t m).
Proof using W O.
  intros. apply eq_true_iff_eq. rewrite (ops_eq f o O), num_eq_mk, !andb_true_iff, !Z.leb_le, Z.eqb_eq by (assumption || (apply is_float_mk; assumption)). tauto.
Qed.

Lemma canon x : is_float f x -> is_float f (canonicalize f o x) /\ (~ is_nan f x -> canonicalize f o x = x) /\
  (is_nan f x -> is_qnan f (canonicalize f o x)).
Proof using W O.
  intros Fx. unfold canonicalize. destruct float_ONE as [F1 E1]. pose proof bias_pos as Hb. pose proof (p2_B 0 ltac:(lia)) as P0.
  destruct (ops_mul f o O x (ONE f) Fx F1) as [Fr (N & _ & I & R)]. split; [assumption|].
  assert (is_finite f (ONE f)) as Fin1. { rewrite E1. apply is_finite_mk; [assumption..|]. pose proof (p2_range f W 0). lia. }
  assert (sign_of f (ONE f) = false) as S1 by (rewrite E1; apply sign_of_mk; assumption).
  rewrite S1, xorb_false_r in *. split; [|intros; apply N; left; assumption].
  intros NN. destruct (is_inf_dec f W x Fx) as [Hi|Hi].
  - assert (is_inf f (o_mul o x (ONE f)) /\ sign_of f (o_mul o x (ONE f)) = sign_of f x) as [I1 I2].
    { apply I. left. split; [assumption|]. rewrite E1, is_zero_mk, is_nan_mk by assumption. pose proof (p2_range f W 0). pose proof (p2_pos 0 ltac:(lia)). lia. }
    apply (inf_unique f W); assumption.
  - assert (is_finite f x) as Fin by (apply finite_iff; tauto). specialize (R Fin Fin1).
    rewrite E1 in R at 1. rewrite (value_p2 false 0) in R by lia. cbn [bpow] in R. rewrite Rmult_1_r in R.
    apply (rounds_to_unique f W) with (1 := R). apply (rounds_exact f W); assumption.
Qed.

Lemma nan_mk s n : 0 <= n < B -> (is_nan f (mk s n) <-> inf f < n).
Proof using W. apply is_nan_mk; assumption. Qed.

Lemma is_neg_zero s n : 0 <= n < B -> (mk s n =? NEG_ZERO f) = s && (n =? 0).
Proof using W.
  intros. unfold NEG_ZERO. rewrite SIGN_MASK_eq by assumption. destruct s; cbn [b2z andb]; [|apply Z.eqb_neq; lia].
  apply eq_true_iff_eq. rewrite !Z.eqb_eq. lia.
Qed.
Lemma key_sign (s : bool) n : 0 <= n -> if s then key s n <= 0 else 0 <= key s n.
Proof using W. intros. pose proof (V_nonneg f W n). unfold FloatConvProofs.key. destruct s; lia. Qed.
Lemma key_0 s : key s 0 = 0.
Proof using W. unfold FloatConvProofs.key. rewrite (V_0 f W). destruct s; reflexivity. Qed.

Ltac start x y Fx Fy :=
  let s := fresh "s" in let n := fresh "n" in let Hn := fresh "Hn" in let t := fresh "t" in let m := fresh "m" in let Hm := fresh "Hm" in
  destruct (split_float f W x Fx) as (s & n & -> & Hn); destruct (split_float f W y Fy) as (t & m & -> & Hm);
  pose proof (key_sign s n ltac:(lia)); pose proof (key_sign t m ltac:(lia)).

Lemma fmin_ok x y : is_float f x -> is_float f y -> let r := fmin f o x y in
  is_float f r /\ nan_ignored f x y r /\ (~ is_nan f x -> ~ is_nan f y -> lower_of f x y r).
Proof using W O.
  intros Fx Fy r; subst r. unfold fmin, nan_ignored, lower_of.
  start x y Fx Fy. rewrite is_nanb_mk, lt_mk by assumption.
  destruct (canon (mk s n) Fx) as (X1 & X2 & X3). destruct (canon (mk t m) Fy) as (Y1 & Y2 & Y3). rewrite !nan_mk in * by assumption.
  destruct (Z.ltb_spec (inf f) m), (Z.leb_spec n (inf f)), (Z.leb_spec m (inf f)), (Z.ltb_spec (key s n) (key t m)); cbn [andb orb]; try lia;
    (split; [assumption|]; split; [split; [|split]; intros; try lia; try tauto; rewrite ?X2, ?Y2 by lia; reflexivity|]);
    intros; try lia; rewrite ?X2, ?Y2 by lia; rewrite ?num_le_mk by assumption; (split; [tauto|lia]).
Qed.
Lemma fmax_ok x y : is_float f x -> is_float f y -> let r := fmax f o x y in
  is_float f r /\ nan_ignored f x y r /\ (~ is_nan f x -> ~ is_nan f y -> upper_of f x y r).
Proof using W O.
  intros Fx Fy r; subst r. unfold fmax, nan_ignored, upper_of.
  start x y Fx Fy. rewrite is_nanb_mk, lt_mk by assumption.
  destruct (canon (mk s n) Fx) as (X1 & X2 & X3). destruct (canon (mk t m) Fy) as (Y1 & Y2 & Y3). rewrite !nan_mk in * by assumption.
  destruct (Z.ltb_spec (inf f) n), (Z.leb_spec n (inf f)), (Z.leb_spec m (inf f)), (Z.ltb_spec (key s n) (key t m)); cbn [andb orb]; try lia;
    (split; [assumption|]; split; [split; [|split]; intros; try lia; try tauto; rewrite ?X2, ?Y2 by lia; reflexivity|]);
    intros; try lia; rewrite ?X2, ?Y2 by lia; rewrite ?num_le_mk by assumption; (split; [tauto|lia]).
Qed.
Lemma fminimum_ok x y : is_float f x -> is_float f y -> let r := fminimum f o x y in
  is_float f r /\ nan_propagated f x y r /\
  (~ is_nan f x -> ~ is_nan f y -> lower_of f x y r /\ (is_zero f x -> is_zero f y -> sign_of f r = sign_of f x || sign_of f y)).
Proof using W O.
  intros Fx Fy r; subst r. unfold fminimum, nan_propagated, lower_of.
  start x y Fx Fy. rewrite !is_nanb_mk, lt_mk, is_neg_zero, sign_positive_mk by assumption.
  destruct (canon (mk s n) Fx) as (X1 & X2 & X3). destruct (canon (mk t m) Fy) as (Y1 & Y2 & Y3). rewrite !nan_mk, !is_zero_mk in * by assumption.
  destruct (Z.ltb_spec (inf f) n). { split; [assumption|]. split; [tauto|]. lia. }
  destruct (Z.ltb_spec (inf f) m). { split; [assumption|]. split; [tauto|]. lia. }
  destruct (Z.leb_spec n (inf f)), (Z.leb_spec m (inf f)); try lia. cbn [andb].
  assert (n = 0 -> key s n = 0) by (intros ->; apply key_0). assert (m = 0 -> key t m = 0) by (intros ->; apply key_0).
  destruct (Z.ltb_spec (key s n) (key t m)), s, t, (Z.eqb_spec n 0); cbn [andb orb negb]; try lia; rewrite ?X2, ?Y2 by lia;
    (split; [assumption|]; split; [lia|]; intros _ _; rewrite !num_le_mk, !sign_of_mk by assumption;
     split; [split; [tauto|lia]|intros; cbn; try reflexivity; lia]).
Qed.
Lemma fmaximum_ok x y : is_float f x -> is_float f y -> let r := fmaximum f o x y in
  is_float f r /\ nan_propagated f x y r /\
  (~ is_nan f x -> ~ is_nan f y -> upper_of f x y r /\ (is_zero f x -> is_zero f y -> sign_of f r = sign_of f x && sign_of f y)).
Proof using W O.
  intros Fx Fy r; subst r. unfold fmaximum, nan_propagated, upper_of.
  start x y Fx Fy. rewrite !is_nanb_mk, lt_mk, is_neg_zero, sign_positive_mk by assumption.
  destruct (canon (mk s n) Fx) as (X1 & X2 & X3). destruct (canon (mk t m) Fy) as (Y1 & Y2 & Y3). rewrite !nan_mk, !is_zero_mk in * by assumption.
  destruct (Z.ltb_spec (inf f) n). { split; [assumption|]. split; [tauto|]. lia. }
  destruct (Z.ltb_spec (inf f) m). { split; [assumption|]. split; [tauto|]. lia. }
  destruct (Z.leb_spec n (inf f)), (Z.leb_spec m (inf f)); try lia. cbn [andb].
  assert (n = 0 -> key s n = 0) by (intros ->; apply key_0). assert (m = 0 -> key t m = 0) by (intros ->; apply key_0).
  destruct (Z.ltb_spec (key t m) (key s n)), s, t, (Z.eqb_spec m 0); cbn [andb orb negb]; try lia; rewrite ?X2, ?Y2 by lia;
    (split; [assumption|]; split; [lia|]; intros _ _; rewrite !num_le_mk, !sign_of_mk by assumption;
     split; [split; [tauto|lia]|intros; cbn; try reflexivity; lia]).
Qed.
Lemma fminimum_num_ok x y : is_float f x -> is_float f y -> let r := fminimum_num f o x y in
  is_float f r /\ nan_ignored f x y r /\
  (~ is_nan f x -> ~ is_nan f y -> lower_of f x y r /\ (is_zero f x -> is_zero f y -> sign_of f r = sign_of f x || sign_of f y)).
Proof using W O.
  intros Fx Fy r; subst r. unfold fminimum_num, nan_ignored, lower_of.
  start x y Fx Fy. rewrite !is_nanb_mk, !lt_mk, sign_positive_mk by assumption.
  destruct (canon (mk s n) Fx) as (X1 & X2 & X3). destruct (canon (mk t m) Fy) as (Y1 & Y2 & Y3). rewrite !nan_mk, !is_zero_mk in * by assumption.
  assert (n = 0 -> key s n = 0) by (intros ->; apply key_0). assert (m = 0 -> key t m = 0) by (intros ->; apply key_0).
  destruct (Z.ltb_spec (inf f) n), (Z.ltb_spec (inf f) m), (Z.leb_spec n (inf f)), (Z.leb_spec m (inf f)); try lia;
    cbn [andb orb].
  1-3: split; [assumption|]; split; [|lia]; split; [|split]; intros; try lia; try tauto; rewrite ?X2, ?Y2 by lia; reflexivity.
  destruct (Z.ltb_spec (key t m) (key s n)), (Z.ltb_spec (key s n) (key t m)), s, t; cbn [andb orb negb]; try lia; rewrite ?X2, ?Y2 by lia;
    (split; [assumption|]; split; [lia|]; intros _ _; rewrite !num_le_mk, !sign_of_mk by assumption;
     split; [split; [tauto|lia]|intros; cbn; try reflexivity; lia]).
Qed.
Lemma fmaximum_num_ok x y : is_float f x -> is_float f y -> let r := fmaximum_num f o x y in
  is_float f r /\ nan_ignored f x y r /\
  (~ is_nan f x -> ~ is_nan f y -> upper_of f x y r /\ (is_zero f x -> is_zero f y -> sign_of f r = sign_of f x && sign_of f y)).
Proof using W O.
  intros Fx Fy r; subst r. unfold fmaximum_num, nan_ignored, upper_of.
  start x y Fx Fy. rewrite !is_nanb_mk, !lt_mk, sign_positive_mk by assumption.
  destruct (canon (mk s n) Fx) as (X1 & X2 & X3). destruct (canon (mk t m) Fy) as (Y1 & Y2 & Y3). rewrite !nan_mk, !is_zero_mk in * by assumption.
  assert (n = 0 -> key s n = 0) by (intros ->; apply key_0). assert (m = 0 -> key t m = 0) by (intros ->; apply key_0).
  destruct (Z.ltb_spec (inf f) n), (Z.ltb_spec (inf f) m), (Z.leb_spec n (inf f)), (Z.leb_spec m (inf f)); try lia;
    cbn [andb orb].
  1-3: split; [assumption|]; split; [|lia]; split; [|split]; intros; try lia; try tauto; rewrite ?X2, ?Y2 by lia; reflexivity.
  destruct (Z.ltb_spec (key t m) (key s n)), (Z.ltb_spec (key s n) (key t m)), s, t; cbn [andb orb negb]; try lia; rewrite ?X2, ?Y2 by lia;
    (split; [assumption|]; split; [lia|]; intros _ _; rewrite !num_le_mk, !sign_of_mk by assumption;
     split; [split; [tauto|lia]|intros; cbn; try reflexivity; lia]).
Qed.
End Fmt.
