(** Facts about doubles used by the proofs about the elementary functions. *)
From Coq Require Import ZArith Reals Bool List Lia Lra Psatz.
From Flocq Require Import Core.
From Verif Require Import Base BaseLemmas FloatModel FloatSpec FloatProofs FloatProofs2 FloatConvModel FloatConvSpec FloatConvProofs FloatLib
  LibmModel LibmSpec LibmProofs LibmProofs2 LibmProofs3 LibmProofs4 FloatErr ElemModel.
Open Scope Z_scope.

Lemma W64 : wf F64. Proof. apply std_wf. unfold std. tauto. Qed.
Notation INF := 0x7ff0000000000000.
Lemma inf64 : inf F64 = INF. Proof. reflexivity. Qed.
(** The double with sign [s] and magnitude bits [n]. *)
Definition mk64 (s : bool) (n : Z) : Z := b2z s * 2 ^ 63 + n.
Definition mag64 (n : Z) : R := (IZR (V F64 n) * bpow radix2 (-1074))%R.

Lemma split64 x : is_float F64 x -> exists s n, x = mk64 s n /\ 0 <= n < 2 ^ 63.
Proof. intros H. destruct (split_float F64 W64 x H) as (s & n & E & Hn). exists s, n. split; assumption. Qed.
Lemma float64 s n : 0 <= n < 2 ^ 63 -> is_float F64 (mk64 s n).
Proof. intros H. apply (is_float_mk F64 W64 s n H). Qed.
Lemma value64 s n : 0 <= n < 2 ^ 63 -> value F64 (mk64 s n) = (if s then - mag64 n else mag64 n)%R.
Proof. intros H. apply (value_mk F64 W64 s n H). Qed.
Lemma finite64 s n : 0 <= n < 2 ^ 63 -> (is_finite F64 (mk64 s n) <-> n < INF).
Proof. intros H. apply (is_finite_mk F64 W64 s n H). Qed.
Lemma nan64 s n : 0 <= n < 2 ^ 63 -> (is_nan F64 (mk64 s n) <-> INF < n).
Proof. intros H. apply (is_nan_mk F64 W64 s n H). Qed.
Lemma isinf64 s n : 0 <= n < 2 ^ 63 -> (is_inf F64 (mk64 s n) <-> n = INF).
Proof. intros H. apply (is_inf_mk F64 W64 s n H). Qed.
Lemma zero64 s n : 0 <= n < 2 ^ 63 -> (is_zero F64 (mk64 s n) <-> n = 0).
Proof. intros H. apply (is_zero_mk F64 W64 s n H). Qed.
Lemma sign64 s n : 0 <= n < 2 ^ 63 -> sign_of F64 (mk64 s n) = s.
Proof. intros H. apply (sign_of_mk F64 W64 s n H). Qed.
Lemma mag_lt64 n m : 0 <= n < m -> (mag64 n < mag64 m)%R.
Proof. exact (mag_lt F64 W64 n m). Qed.
Lemma mag_le64 n m : 0 <= n <= m -> (mag64 n <= mag64 m)%R.
Proof. intros H. destruct (Z.eq_dec n m) as [->|]; [lra|]. left. apply mag_lt64. lia. Qed.
Lemma mag_nonneg64 n : 0 <= n -> (0 <= mag64 n)%R.
Proof. exact (mag_nonneg F64 W64 n). Qed.
Lemma mag0_64 : mag64 0 = 0%R. Proof. exact (mag_0 F64 W64). Qed.
Lemma mag_value n : 0 <= n < 2 ^ 63 -> mag64 n = value F64 n.
Proof. intros H. rewrite <- (value64 false n H). unfold mk64. cbn [b2z]. rewrite Z.mul_0_l. reflexivity. Qed.
Lemma rne_mag64 n : 0 <= n < INF -> rne F64 (mag64 n) = mag64 n.
Proof. intros H. apply (rne_mag F64 W64 n). rewrite inf64. exact H. Qed.
Lemma rne_opp x : rne F64 (- x) = (- rne F64 x)%R.
Proof. unfold rne. apply round_NE_opp. Qed.
Lemma rne_value x : is_float F64 x -> is_finite F64 x -> rne F64 (value F64 x) = value F64 x.
Proof.
  intros F N. destruct (split64 x F) as (s & n & -> & Hn). rewrite finite64 in N by exact Hn. rewrite value64 by exact Hn.
  destruct s; [rewrite rne_opp|]; rewrite rne_mag64 by lia; reflexivity.
Qed.
Notation fexp64 := (FLT_exp (-1074) 53).
Lemma format64 x : is_float F64 x -> is_finite F64 x -> generic_format radix2 fexp64 (value F64 x).
Proof.
  intros F N. rewrite <- rne_value by assumption. unfold rne. apply generic_format_round; [|auto with typeclass_instances].
  apply FLT_exp_valid. reflexivity.
Qed.
(** Bounds of the value of a double, in fixed point. *)
Lemma kval P c a : kbits P F64 c = Some a -> (fx P (lo a) <= value F64 c <= fx P (hi a))%R.
Proof. intros H. destruct (kbits_ok P F64 c a H) as (_ & _ & B & _). exact B. Qed.

(** The upper word. *)
Lemma high_mk s n : 0 <= n < 2 ^ 63 -> high_word (mk64 s n) = b2z s * 2 ^ 31 + n / 2 ^ 32.
Proof.
  intros H. unfold high_word, mk64. rewrite Z.shiftr_div_pow2 by lia.
  replace (b2z s * 2 ^ 63 + n) with (n + (b2z s * 2 ^ 31) * 2 ^ 32) by (destruct s; unfold b2z; lia). rewrite Z.div_add by lia.
  assert (0 <= n / 2 ^ 32 < 2 ^ 31). { split; [apply Z.div_pos; lia|apply Z.div_lt_upper_bound; lia]. }
  rewrite norm_id; [ring|cbn; lia|]. apply fits_u. destruct s; cbn [b2z]; lia.
Qed.
Lemma high_sign s n : 0 <= n < 2 ^ 63 -> Z.shiftr (high_word (mk64 s n)) 31 = b2z s.
Proof.
  intros H. rewrite high_mk by exact H. rewrite Z.shiftr_div_pow2 by lia.
  assert (0 <= n / 2 ^ 32 < 2 ^ 31). { split; [apply Z.div_pos; lia|apply Z.div_lt_upper_bound; lia]. }
  rewrite Z.add_comm, Z.div_add, Z.div_small by lia. ring.
Qed.
Lemma high_abs s n : 0 <= n < 2 ^ 63 -> Z.land (high_word (mk64 s n)) 0x7fffffff = n / 2 ^ 32.
Proof.
  intros H. rewrite high_mk by exact H. change 0x7fffffff with (Z.ones 31). rewrite Z.land_ones by lia.
  assert (0 <= n / 2 ^ 32 < 2 ^ 31). { split; [apply Z.div_pos; lia|apply Z.div_lt_upper_bound; lia]. }
  rewrite Z.add_comm, Z.mod_add, Z.mod_small by lia. reflexivity.
Qed.
Lemma hx_leb c n : (c <=? n / 2 ^ 32) = (c * 2 ^ 32 <=? n).
Proof.
  pose proof (Z.div_mod n (2 ^ 32) ltac:(lia)). pose proof (Z.mod_pos_bound n (2 ^ 32) ltac:(lia)).
  destruct (Z.leb_spec c (n / 2 ^ 32)), (Z.leb_spec (c * 2 ^ 32) n); try reflexivity; nia.
Qed.
Lemma hx_ltb c n : (c <? n / 2 ^ 32) = ((c + 1) * 2 ^ 32 <=? n).
Proof. rewrite <- hx_leb. destruct (Z.ltb_spec c (n / 2 ^ 32)), (Z.leb_spec (c + 1) (n / 2 ^ 32)); try reflexivity; lia. Qed.
Lemma is_nanb64 s n : 0 <= n < 2 ^ 63 -> is_nanb F64 (mk64 s n) = (INF <? n).
Proof. intros H. apply (is_nanb_mk F64 W64 s n H). Qed.

Section Ops.
Context (o : fops) (Ho : ieee_ops F64 o).
Lemma lt_val a b : is_float F64 a -> is_float F64 b -> is_finite F64 a -> is_finite F64 b ->
  o_lt o a b = Rlt_bool (value F64 a) (value F64 b).
Proof.
  intros Fa Fb Na Nb. apply eq_true_iff_eq. rewrite (ops_lt F64 o Ho) by assumption. unfold num_lt, ordered, neg_inf, pos_inf.
  pose proof (proj1 (finite_iff F64 W64 a Fa) Na) as Ja. pose proof (proj1 (finite_iff F64 W64 b Fb) Nb) as Jb. split.
  - intros (_ & [(_ & _ & H)|[((H & _) & _)|(_ & H & _)]]); [apply Rlt_bool_true, H|tauto|tauto].
  - intros H. split; [tauto|]. left. split; [assumption|split; [assumption|]]. destruct (Rlt_bool_spec (value F64 a) (value F64 b)); [assumption|discriminate].
Qed.
Lemma lt_key s n t m : 0 <= n < 2 ^ 63 -> 0 <= m < 2 ^ 63 ->
  o_lt o (mk64 s n) (mk64 t m) = (n <=? INF) && (m <=? INF) && ((if s then - n else n) <? (if t then - m else m)).
Proof.
  intros Hn Hm. apply eq_true_iff_eq. rewrite (ops_lt F64 o Ho) by (apply float64; assumption).
  unfold mk64. rewrite (num_lt_mk F64 W64 s n t m Hn Hm). rewrite !andb_true_iff, !Z.leb_le, Z.ltb_lt. change (inf F64) with INF.
  assert (forall a b, 0 <= a -> 0 <= b -> (a < b <-> V F64 a < V F64 b)) as VL by (intros; apply (V_inj_lt F64 W64); assumption).
  assert (V F64 0 = 0) as V00 by reflexivity.
  pose proof (VL n m ltac:(lia) ltac:(lia)). pose proof (VL m n ltac:(lia) ltac:(lia)). pose proof (VL 0 n ltac:(lia) ltac:(lia)). pose proof (VL 0 m ltac:(lia) ltac:(lia)).
  pose proof (VL n 0 ltac:(lia) ltac:(lia)). pose proof (VL m 0 ltac:(lia) ltac:(lia)). rewrite V00 in *.
  unfold key. destruct s, t; lia.
Qed.
End Ops.
