(** The two-argument arc tangent: its case analysis. *)
From Coq Require Import ZArith Reals Bool List Lia Lra Psatz.
From Flocq Require Import Core.
From Verif Require Import Base BaseLemmas FloatModel FloatSpec FloatProofs FloatLib FloatProps LibmModel LibmSpec LibmProps Elem FloatErr PolyBound ElemModel ElemSpec TrigModel F64Lib ExpProofs3 ExpProofs4 ExpProofs5 ExpProofs7 ExpProofs8 LogProofs LogProofs2 TrigRed TrigRed5 TrigLg11 HypotProofs3 HypotProofs10 AtanModel AtanProofs AtanProofs2 AtanProofs3 Atan2Model Atan2Proofs.
Open Scope Z_scope.

(** * The tests on the words *)
Lemma norm_u32 v : norm (UI 32) v = v mod 2 ^ 32.
Proof. reflexivity. Qed.
Lemma low_mk s n : 0 <= n < 2 ^ 63 -> low_word (mk64 s n) = n mod 2 ^ 32.
Proof.
  intros H. unfold low_word, mk64. rewrite norm_u32. replace (b2z s * 2 ^ 63 + n) with (n + (b2z s * 2 ^ 31) * 2 ^ 32) by (destruct s; unfold b2z; lia).
  rewrite Z.mod_add by lia. reflexivity.
Qed.
Lemma words_zero n : (Z.lor (n / 2 ^ 32) (n mod 2 ^ 32) =? 0) = (n =? 0).
Proof.
  apply eq_true_iff_eq. rewrite !Z.eqb_eq, Z.lor_eq_0_iff. pose proof (Z_div_mod_eq_full n (2 ^ 32)). split; [intros [A B]; lia|intros ->; split; reflexivity].
Qed.
Lemma words_one s n : 0 <= n < 2 ^ 63 -> (Z.lor (norm (UI 32) (high_word (mk64 s n) - 0x3ff00000)) (low_word (mk64 s n)) =? 0) = negb s && (n =? 0x3ff0000000000000).
Proof.
  intros H. rewrite low_mk, high_mk by exact H. apply eq_true_iff_eq. rewrite Z.eqb_eq, Z.lor_eq_0_iff, andb_true_iff, negb_true_iff, Z.eqb_eq.
  rewrite norm_u32. pose proof (Z_div_mod_eq_full n (2 ^ 32)) as D. assert (0 <= n / 2 ^ 32 < 2 ^ 31) as B. { split; [apply Z.div_pos; lia|apply Z.div_lt_upper_bound; lia]. }
  destruct s; cbn [b2z].
  - split; [|intros [A _]; discriminate]. intros [A _]. rewrite Z.mod_small in A by lia. lia.
  - split; [|intros [_ ->]; split; reflexivity]. intros [A C]. split; [reflexivity|]. destruct (Z_lt_le_dec (n / 2 ^ 32) 0x3ff00000) as [L|L].
    + replace (0 * 2 ^ 31 + n / 2 ^ 32 - 0x3ff00000) with ((n / 2 ^ 32 - 0x3ff00000 + 2 ^ 32) + (-1) * 2 ^ 32) in A by lia. rewrite Z.mod_add, Z.mod_small in A by lia. lia.
    + rewrite Z.mod_small in A by lia. lia.
Qed.
Lemma quadrant s n t k : 0 <= n < 2 ^ 63 -> 0 <= k < 2 ^ 63 ->
  Z.lor (Z.land (Z.shiftr (high_word (mk64 t k)) 31) 1) (Z.land (Z.shiftr (high_word (mk64 s n)) 30) 2) = b2z t + 2 * b2z s.
Proof.
  intros Hn Hk. rewrite high_sign by exact Hk. rewrite high_mk by exact Hn. rewrite Z.shiftr_div_pow2 by lia. assert (0 <= n / 2 ^ 32 < 2 ^ 31) as B. { split; [apply Z.div_pos; lia|apply Z.div_lt_upper_bound; lia]. }
  replace (b2z s * 2 ^ 31 + n / 2 ^ 32) with (n / 2 ^ 32 + (2 * b2z s) * 2 ^ 30) by lia. rewrite Z.div_add by lia.
  assert (n / 2 ^ 32 / 2 ^ 30 = 0 \/ n / 2 ^ 32 / 2 ^ 30 = 1) as [-> | ->]. { assert (0 <= n / 2 ^ 32 / 2 ^ 30 < 2) by (split; [apply Z.div_pos; lia|apply Z.div_lt_upper_bound; lia]). lia. }
  all: destruct s, t; reflexivity.
Qed.
Lemma words_gap n : 0 <= n < 2 ^ 63 -> norm (UI 32) (n / 2 ^ 32 + Z.shiftl 64 20) = n / 2 ^ 32 + 2 ^ 26.
Proof.
  intros H. assert (0 <= n / 2 ^ 32 < 2 ^ 31) as B. { split; [apply Z.div_pos; lia|apply Z.div_lt_upper_bound; lia]. }
  change (Z.shiftl 64 20) with (2 ^ 26). rewrite norm_u32. apply Z.mod_small. lia.
Qed.
Lemma inf_word n : 0 <= n <= INF -> (n / 2 ^ 32 =? 0x7ff00000) = (n =? INF).
Proof. intros H. rewrite hx_eq. apply eq_true_iff_eq. rewrite andb_true_iff, Z.leb_le, Z.ltb_lt, Z.eqb_eq. lia. Qed.
(** A gap of 64 in the exponents *)
Lemma V64 n : V F64 n = if n / 2 ^ 52 =? 0 then n mod 2 ^ 52 else (2 ^ 52 + n mod 2 ^ 52) * 2 ^ (n / 2 ^ 52 - 1).
Proof. reflexivity. Qed.
Lemma V_gap n : 0 <= n < 2 ^ 63 -> 2 ^ 64 * V F64 n <= V F64 (n + 2 ^ 58).
Proof.
  intros H. rewrite !V64. replace (n + 2 ^ 58) with (n + 64 * 2 ^ 52) by lia. rewrite Z.div_add, Z.mod_add by lia. assert (0 <= n / 2 ^ 52) by (apply Z.div_pos; lia). pose proof (Z.mod_pos_bound n (2 ^ 52) ltac:(lia)).
  destruct (Z.eqb_spec (n / 2 ^ 52) 0) as [E|E].
  - rewrite E. cbn [Z.add Z.eqb]. change (2 ^ (64 - 1)) with (2 ^ 63). lia.
  - destruct (Z.eqb_spec (n / 2 ^ 52 + 64) 0); [lia|]. replace (n / 2 ^ 52 + 64 - 1) with (64 + (n / 2 ^ 52 - 1)) by lia. rewrite Z.pow_add_r by lia. lia.
Qed.
Lemma mag_gap n k : 0 <= n < 2 ^ 63 -> 0 <= k < 2 ^ 63 -> n / 2 ^ 32 + 2 ^ 26 < k / 2 ^ 32 -> (bpow radix2 64 * mag64 n <= mag64 k)%R.
Proof.
  intros Hn Hk G. assert (n + 2 ^ 58 <= k) as L. { pose proof (Z_div_mod_eq_full n (2 ^ 32)). pose proof (Z_div_mod_eq_full k (2 ^ 32)). pose proof (Z.mod_pos_bound n (2 ^ 32) ltac:(lia)). pose proof (Z.mod_pos_bound k (2 ^ 32) ltac:(lia)). lia. }
  eapply Rle_trans; [|apply (mag_le64 (n + 2 ^ 58) k); lia]. unfold mag64. rewrite <- Rmult_assoc. apply Rmult_le_compat_r; [apply bpow_ge_0|]. change (bpow radix2 64) with (IZR (2 ^ 64)). rewrite <- mult_IZR. apply IZR_le, V_gap, Hn.
Qed.
Lemma V_near n k : 0 < n < 2 ^ 63 -> 0 <= k < n + 2 ^ 58 + 2 ^ 32 -> V F64 k <= 2 ^ 118 * V F64 n.
Proof.
  intros Hn Hk. rewrite !V64. assert (0 <= n / 2 ^ 52) by (apply Z.div_pos; lia). assert (0 <= k / 2 ^ 52) by (apply Z.div_pos; lia). pose proof (Z.mod_pos_bound n (2 ^ 52) ltac:(lia)). pose proof (Z.mod_pos_bound k (2 ^ 52) ltac:(lia)).
  pose proof (Z_div_mod_eq_full n (2 ^ 52)) as Dn. pose proof (Z_div_mod_eq_full k (2 ^ 52)) as Dk. assert (k / 2 ^ 52 <= n / 2 ^ 52 + 65) as L by lia.
  assert ((if k / 2 ^ 52 =? 0 then k mod 2 ^ 52 else (2 ^ 52 + k mod 2 ^ 52) * 2 ^ (k / 2 ^ 52 - 1)) <= 2 ^ 52 * 2 ^ (k / 2 ^ 52)) as A.
  { destruct (Z.eqb_spec (k / 2 ^ 52) 0) as [->|N]; [lia|]. replace (2 ^ (k / 2 ^ 52)) with (2 * 2 ^ (k / 2 ^ 52 - 1)) by (rewrite <- Z.pow_succ_r by lia; f_equal; lia). assert (0 < 2 ^ (k / 2 ^ 52 - 1)) by (apply Z.pow_pos_nonneg; lia). nia. }
  assert (2 ^ (n / 2 ^ 52) <= 2 * (if n / 2 ^ 52 =? 0 then n mod 2 ^ 52 else (2 ^ 52 + n mod 2 ^ 52) * 2 ^ (n / 2 ^ 52 - 1))) as B.
  { destruct (Z.eqb_spec (n / 2 ^ 52) 0) as [E|N]; [rewrite E in *; lia|]. replace (2 ^ (n / 2 ^ 52)) with (2 * 2 ^ (n / 2 ^ 52 - 1)) by (rewrite <- Z.pow_succ_r by lia; f_equal; lia). assert (0 < 2 ^ (n / 2 ^ 52 - 1)) by (apply Z.pow_pos_nonneg; lia). nia. }
  pose proof (Z.pow_le_mono_r 2 _ _ ltac:(lia) L) as P. rewrite Z.pow_add_r in P by lia. change (2 ^ 118) with (2 ^ 52 * 2 ^ 65 * 2). eapply Z.le_trans; [exact A|]. 
  apply Z.le_trans with (2 ^ 52 * (2 ^ (n / 2 ^ 52) * 2 ^ 65)); [apply Z.mul_le_mono_nonneg_l; [lia|exact P]|]. lia.
Qed.
Lemma mag_near n k : 0 < n < 2 ^ 63 -> 0 <= k < 2 ^ 63 -> k / 2 ^ 32 <= n / 2 ^ 32 + 2 ^ 26 -> (mag64 k <= bpow radix2 118 * mag64 n)%R.
Proof.
  intros Hn Hk G. unfold mag64. rewrite <- Rmult_assoc. apply Rmult_le_compat_r; [apply bpow_ge_0|]. change (bpow radix2 118) with (IZR (2 ^ 118)). rewrite <- mult_IZR. apply IZR_le, V_near; [exact Hn|].
  pose proof (Z_div_mod_eq_full n (2 ^ 32)). pose proof (Z_div_mod_eq_full k (2 ^ 32)). pose proof (Z.mod_pos_bound n (2 ^ 32) ltac:(lia)). pose proof (Z.mod_pos_bound k (2 ^ 32) ltac:(lia)). lia.
Qed.

(** * The operations on constants *)
Section Ops.
Context (o : fops) (Ho : ieee_ops F64 o).
Lemma soft_ok : ieee_ops F64 (soft_ops F64 8).
Proof using. clear. apply soft_ops_ieee; [tauto|lia]. Qed.
Lemma div_soft a b : good a -> good b -> ~ is_zero F64 b -> o_div o a b = o_div (soft_ops F64 8) a b.
Proof using Ho.
  intros [Fa Na] [Fb Nb] Z. destruct (ops_div F64 o Ho a b Fa Fb) as (_ & _ & _ & _ & _ & R1). destruct (ops_div F64 _ soft_ok a b Fa Fb) as (_ & _ & _ & _ & _ & R2).
  exact (rounds_to_unique F64 W64 _ _ _ _ (R1 Na Nb Z) (R2 Na Nb Z)).
Qed.
Lemma mul_soft a b : good a -> good b -> o_mul o a b = o_mul (soft_ops F64 8) a b.
Proof using Ho.
  intros [Fa Na] [Fb Nb]. destruct (ops_mul F64 o Ho a b Fa Fb) as (_ & _ & _ & _ & R1). destruct (ops_mul F64 _ soft_ok a b Fa Fb) as (_ & _ & _ & _ & R2).
  exact (rounds_to_unique F64 W64 _ _ _ _ (R1 Na Nb) (R2 Na Nb)).
Qed.
Lemma gp s n : 0 <= n < INF -> good (mk64 s n). Proof using. clear. apply good_mk. Qed.
Lemma nzk n : 0 < n < 2 ^ 63 -> ~ is_zero F64 n.
Proof using. clear. intros H. change n with (mk64 false n). rewrite zero64 by lia. lia. Qed.
Ltac gd := match goal with |- good ?c => first [apply (gp false c); vm_compute; intuition discriminate|let m := eval vm_compute in (c - 2 ^ 63) in apply (gp true m); vm_compute; intuition discriminate] end.
Lemma c_half : o_div o PI64 two = HI3.
Proof using Ho. rewrite div_soft by (first [gd|apply nzk; vm_compute; intuition]). vm_compute. reflexivity. Qed.
Lemma c_mhalf : o_div o (fneg PI64) two = fneg HI3.
Proof using Ho. rewrite div_soft by (first [gd|apply nzk; vm_compute; intuition]). vm_compute. reflexivity. Qed.
Lemma c_quarter : o_div o PI64 lit4 = 0x3fe921fb54442d18 /\ o_div o (fneg PI64) lit4 = 0xbfe921fb54442d18 /\
  o_div o (o_mul o lit3 PI64) lit4 = 0x4002d97c7f3321d2 /\ o_div o (o_mul o litm3 PI64) lit4 = 0xc002d97c7f3321d2.
Proof using Ho.
  rewrite (mul_soft lit3) by gd. rewrite (mul_soft litm3) by gd. rewrite !div_soft by (first [gd|apply nzk; vm_compute; intuition]). repeat split; vm_compute; reflexivity.
Qed.
End Ops.
