(** Two runs side by side: for arguments of opposite signs every intermediate result of the sine and
    of the cosine is the same up to sign, apart from the sign of a zero. *)
From Coq Require Import ZArith Reals Bool List Lia Lra Psatz.
From Flocq Require Import Core.
From Verif Require Import Base BaseLemmas FloatModel FloatSpec FloatProofs FloatProofs5 LibmModel LibmSpec LibmProps FloatConvSpec FloatErr PolyBound Elem ElemModel ElemSpec TrigModel F64Lib ExpProofs3 ExpProofs4 ExpProofs5 ExpProofs7 ExpProofs8 LogProofs LogProofs2 LogProofs4 TrigProofs TrigProofs2 TrigProofs3 TrigProofs4 TrigPi TrigDist TrigRed TrigRed2 TrigRed3 TrigRed4 TrigRed5 TrigLg TrigLg2 TrigLg10 TrigLg11 OddProofs.
Open Scope Z_scope.

Definition sg (s : bool) (v : R) : R := if s then (- v)%R else v.
(** [b] is [a], negated when [s]; zeros of either sign are the same, and so are all NaNs. *)
Definition rel (s : bool) (a b : Z) : Prop := is_float F64 a /\ is_float F64 b /\
  (is_finite F64 a /\ is_finite F64 b /\ value F64 b = sg s (value F64 a) \/
   is_inf F64 a /\ is_inf F64 b /\ sign_of F64 b = xorb s (sign_of F64 a) \/
   is_nan F64 a /\ is_nan F64 b).
Lemma rel_float s a b : rel s a b -> is_float F64 a /\ is_float F64 b. Proof. intros (A & B & _). auto. Qed.
Lemma rel_refl a : is_float F64 a -> rel false a a.
Proof. intros F. split; [exact F|]. split; [exact F|]. destruct (class a F) as [C|[C|C]]; cbn [sg]; [tauto| |tauto]. right; left. destruct (sign_of F64 a); auto. Qed.
Lemma rel_mk n : 0 <= n < 2 ^ 63 -> rel true (mk64 false n) (mk64 true n).
Proof.
  intros H. split; [apply float64; exact H|]. split; [apply float64; exact H|]. rewrite !finite64, !isinf64, !nan64, !sign64, !value64 by exact H. cbn [sg xorb].
  destruct (Z.lt_trichotomy n INF) as [L|[L|L]]; auto.
Qed.
Lemma rel_neg_r s a b : rel s a b -> rel (negb s) a (fneg b).
Proof.
  intros (Fa & Fb & H). split; [exact Fa|]. split; [apply fneg_float; exact Fb|]. destruct (split64 b Fb) as (t & m & -> & Hm). rewrite fneg_mk by exact Hm.
  rewrite finite64, isinf64, nan64, sign64, value64 in * by exact Hm. destruct H as [(A & B & C)|[(A & B & C)|(A & B)]].
  - left. split; [exact A|]. split; [exact B|]. revert C. destruct s, t; cbn; intros C; lra.
  - right; left. split; [exact A|]. split; [exact B|]. rewrite C. destruct s, (sign_of F64 a); reflexivity.
  - tauto.
Qed.
Lemma rel_neg_l s a b : rel s a b -> rel (negb s) (fneg a) b.
Proof.
  intros (Fa & Fb & H). split; [apply fneg_float; exact Fa|]. split; [exact Fb|]. destruct (split64 a Fa) as (t & m & -> & Hm). rewrite fneg_mk by exact Hm.
  rewrite finite64, isinf64, nan64, sign64, value64 in * by exact Hm. destruct H as [(A & B & C)|[(A & B & C)|(A & B)]].
  - left. split; [exact A|]. split; [exact B|]. revert C. destruct s, t; cbn; intros C; lra.
  - right; left. split; [exact A|]. split; [exact B|]. rewrite C. destruct s, t; reflexivity.
  - tauto.
Qed.
Lemma rel_fneg s a b : rel s a b -> rel s (fneg a) (fneg b).
Proof. intros H. apply rel_neg_l in H. apply rel_neg_r in H. rewrite negb_involutive in H. exact H. Qed.
Lemma sg_rne s v : rne F64 (sg s v) = sg s (rne F64 v). Proof. destruct s; [apply rne_opp|reflexivity]. Qed.
Lemma sg_abs s v : Rabs (sg s v) = Rabs v. Proof. destruct s; [apply Rabs_Ropp|reflexivity]. Qed.
Lemma rel_rounds s z z' v r r' : rounds_to F64 z v r -> rounds_to F64 z' (sg s v) r' -> rel s r r'.
Proof.
  intros (F & S & P) (F' & S' & P'). split; [exact F|]. split; [exact F'|]. rewrite sg_rne, sg_abs in P'. destruct (Rlt_bool_spec (Rabs (rne F64 v)) (bpow radix2 (emax F64))) as [L|L].
  - destruct P as [N V], P' as [N' V']. left. split; [exact N|]. split; [exact N'|]. rewrite V, V'. reflexivity.
  - right; left. split; [exact P|]. split; [exact P'|]. rewrite S, S'. destruct (Rcompare_spec v 0) as [C|C|C].
    + destruct s; cbn [sg]; [rewrite Rcompare_Gt by lra|rewrite Rcompare_Lt by lra]; reflexivity.
    + exfalso. subst v. unfold rne in L. rewrite round_0, Rabs_R0 in L by apply valid_rnd_N. pose proof (bpow_gt_0 radix2 (emax F64)). lra.
    + destruct s; cbn [sg]; [rewrite Rcompare_Lt by lra|rewrite Rcompare_Gt by lra]; reflexivity.
Qed.
Lemma rel_nan s a b : is_float F64 a -> is_float F64 b -> is_qnan F64 a -> is_qnan F64 b -> rel s a b.
Proof. intros A B C D. split; [exact A|]. split; [exact B|]. right; right. split; apply qnan_nan; assumption. Qed.
Lemma rel_inf s a b : is_float F64 a -> is_float F64 b -> is_inf F64 a -> is_inf F64 b -> sign_of F64 b = xorb s (sign_of F64 a) -> rel s a b.
Proof. intros A B C D E. split; [exact A|]. split; [exact B|]. tauto. Qed.
Lemma zero_val a : is_float F64 a -> is_finite F64 a -> (is_zero F64 a <-> value F64 a = 0%R).
Proof.
  intros F. destruct (split64 a F) as (s & n & -> & H). rewrite finite64, zero64, value64 by exact H. intros L. destruct (Z.eq_dec n 0) as [->|N].
  - rewrite mag0_64. split; [|reflexivity]. intros _. destruct s; ring.
  - split; [lia|]. intros E. exfalso. pose proof (mag_pos64 n ltac:(lia)). destruct s; lra.
Qed.
Lemma fin_sign a : is_float F64 a -> is_finite F64 a -> ~ is_zero F64 a -> sign_of F64 a = match Rcompare (value F64 a) 0 with Lt => true | _ => false end.
Proof.
  intros F. destruct (split64 a F) as (s & n & -> & H). rewrite finite64, zero64, value64, sign64 by exact H. intros L N. pose proof (mag_pos64 n ltac:(lia)). destruct s; [rewrite Rcompare_Lt by lra|rewrite Rcompare_Gt by lra]; reflexivity.
Qed.
Lemma rel_nz s a b : rel s a b -> is_finite F64 a -> ~ is_zero F64 a -> sign_of F64 b = xorb s (sign_of F64 a) /\ ~ is_zero F64 b.
Proof.
  intros (Fa & Fb & H) N Z. destruct H as [(A & B & C)|[(A & _)|(A & _)]]; [|exfalso; apply (not_finite a Fa); tauto..].
  assert (Zb : ~ is_zero F64 b). { rewrite zero_val in * by assumption. rewrite C. destruct s; cbn [sg]; lra. }
  split; [|exact Zb]. rewrite !fin_sign by assumption. rewrite C. rewrite zero_val in Z by assumption. destruct (Rcompare_spec (value F64 a) 0) as [L|L|L]; [|contradiction|]; destruct s; cbn [sg];
   first [rewrite Rcompare_Lt by lra|rewrite Rcompare_Gt by lra]; reflexivity.
Qed.
Lemma mag_same m n : mag64 m = mag64 n -> 0 <= m -> 0 <= n -> m = n.
Proof. intros E Hm Hn. destruct (Z.lt_trichotomy m n) as [L|[L|L]]; [pose proof (mag_lt64 m n ltac:(lia)); lra|exact L|pose proof (mag_lt64 n m ltac:(lia)); lra]. Qed.
(** A related pair has the same bits apart from the sign. *)
Lemma rel_bits s a b : rel s a b -> is_finite F64 a -> value F64 a <> 0%R -> b = if s then fneg a else a.
Proof.
  intros H N Z. assert (Fa := proj1 H). assert (Z' : ~ is_zero F64 a) by (rewrite zero_val by assumption; exact Z). destruct (rel_nz s a b H N Z') as [S _]. destruct H as (_ & Fb & [(A & B & C)|[(A & _)|(A & _)]]); [|exfalso; apply (not_finite a Fa); tauto..].
  destruct (split64 a Fa) as (t & n & -> & Hn), (split64 b Fb) as (u & m & -> & Hm). rewrite fneg_mk by exact Hn. rewrite !sign64 in S by assumption. subst u.
  assert (E : mag64 m = mag64 n) by (rewrite <- (Rabs64 (xorb s t) m Hm), <- (Rabs64 t n Hn), C; apply sg_abs). apply mag_same in E; try lia. subst m. destruct s, t; reflexivity.
Qed.
Lemma rel_exp s a b : rel s a b -> exp_bits a = exp_bits b.
Proof.
  intros (Fa & Fb & H). destruct (split64 a Fa) as (t & n & -> & Hn), (split64 b Fb) as (u & m & -> & Hm). rewrite !exp_bits_mk by assumption. rewrite !finite64, !isinf64, !nan64 in H by assumption. destruct H as [(A & B & C)|[(A & B & _)|(A & B)]].
  - assert (E : mag64 m = mag64 n) by (rewrite <- (Rabs64 u m Hm), <- (Rabs64 t n Hn), C; apply sg_abs). apply mag_same in E; try lia. subst m. reflexivity.
  - congruence.
  - transitivity 2047; [symmetry; apply (Z.div_unique _ _ _ (n - 2047 * 2 ^ 52))|apply (Z.div_unique _ _ _ (m - 2047 * 2 ^ 52))]; change (2 ^ 52) with 4503599627370496 in *; lia.
Qed.

Section Ops.
Context (o : fops) (Ho : ieee_ops F64 o).
Ltac cls H := let A := fresh "A" in let B := fresh "B" in let C := fresh "C" in destruct H as [(A & B & C)|[(A & B & C)|(A & B)]].
Lemma rel_add s a b a' b' : rel s a b -> rel s a' b' -> rel s (o_add o a a') (o_add o b b').
Proof using Ho.
  intros (Fa & Fb & H) (Fa' & Fb' & H'). destruct (ops_add F64 o Ho a a' Fa Fa') as (F & S1 & S2 & S3 & S4 & S5). destruct (ops_add F64 o Ho b b' Fb Fb') as (F' & T1 & T2 & T3 & T4 & T5).
  cls H; cls H'; try (apply rel_nan; [exact F|exact F'|apply S1; solve [auto]|apply T1; solve [auto]]).
  - specialize (S5 A A0). specialize (T5 B B0). eapply rel_rounds; [exact S5|]. rewrite C, C0 in T5. replace (sg s (value F64 a) + sg s (value F64 a'))%R with (sg s (value F64 a + value F64 a')) in T5 by (destruct s; cbn [sg]; ring). exact T5.
  - rewrite (S4 A A0), (T4 B B0). apply rel_inf; assumption.
  - rewrite (S3 A A0), (T3 B B0). apply rel_inf; assumption.
  - specialize (S2 A A0). specialize (T2 B B0). rewrite C, C0 in T2. replace (eqb (xorb s (sign_of F64 a)) (xorb s (sign_of F64 a'))) with (eqb (sign_of F64 a) (sign_of F64 a')) in T2 by (destruct s, (sign_of F64 a), (sign_of F64 a'); reflexivity).
    destruct (eqb _ _); [rewrite S2, T2; apply rel_inf; assumption|apply rel_nan; assumption].
Qed.
Lemma rel_negate_inf s a b : is_float F64 a -> is_float F64 b -> is_inf F64 a -> is_inf F64 b -> sign_of F64 b = xorb s (sign_of F64 a) -> rel s (negate F64 a) (negate F64 b).
Proof using. intros Fa Fb A B C. rewrite !negate_fneg by assumption. apply rel_fneg, rel_inf; assumption. Qed.
Lemma rel_sub s a b a' b' : rel s a b -> rel s a' b' -> rel s (o_sub o a a') (o_sub o b b').
Proof using Ho.
  intros (Fa & Fb & H) (Fa' & Fb' & H'). destruct (ops_sub F64 o Ho a a' Fa Fa') as (F & S1 & S2 & S3 & S4 & S5). destruct (ops_sub F64 o Ho b b' Fb Fb') as (F' & T1 & T2 & T3 & T4 & T5).
  cls H; cls H'; try (apply rel_nan; [exact F|exact F'|apply S1; solve [auto]|apply T1; solve [auto]]).
  - specialize (S5 A A0). specialize (T5 B B0). eapply rel_rounds; [exact S5|]. rewrite C, C0 in T5. replace (sg s (value F64 a) - sg s (value F64 a'))%R with (sg s (value F64 a - value F64 a')) in T5 by (destruct s; cbn [sg]; ring). exact T5.
  - rewrite (S4 A A0), (T4 B B0). apply rel_negate_inf; assumption.
  - rewrite (S3 A A0), (T3 B B0). apply rel_inf; assumption.
  - specialize (S2 A A0). specialize (T2 B B0). rewrite C, C0 in T2. replace (eqb (xorb s (sign_of F64 a)) (xorb s (sign_of F64 a'))) with (eqb (sign_of F64 a) (sign_of F64 a')) in T2 by (destruct s, (sign_of F64 a), (sign_of F64 a'); reflexivity).
    destruct (eqb _ _); [apply rel_nan; assumption|rewrite S2, T2; apply rel_inf; assumption].
Qed.
Lemma rel_sub_add s a b a' b' : rel s a b -> rel (negb s) a' b' -> rel s (o_sub o a a') (o_add o b b').
Proof using Ho.
  intros (Fa & Fb & H) (Fa' & Fb' & H'). destruct (ops_sub F64 o Ho a a' Fa Fa') as (F & S1 & S2 & S3 & S4 & S5). destruct (ops_add F64 o Ho b b' Fb Fb') as (F' & T1 & T2 & T3 & T4 & T5).
  cls H; cls H'; try (apply rel_nan; [exact F|exact F'|apply S1; solve [auto]|apply T1; solve [auto]]).
  - specialize (S5 A A0). specialize (T5 B B0). eapply rel_rounds; [exact S5|]. rewrite C, C0 in T5. replace (sg s (value F64 a) + sg (negb s) (value F64 a'))%R with (sg s (value F64 a - value F64 a')) in T5 by (destruct s; cbn [sg negb]; ring). exact T5.
  - rewrite (S4 A A0), (T4 B B0). rewrite negate_fneg by assumption. rewrite <- (negb_involutive s). apply rel_neg_l, rel_inf; assumption.
  - rewrite (S3 A A0), (T3 B B0). apply rel_inf; assumption.
  - specialize (S2 A A0). specialize (T2 B B0). rewrite C, C0 in T2. replace (eqb (xorb s (sign_of F64 a)) (xorb (negb s) (sign_of F64 a'))) with (negb (eqb (sign_of F64 a) (sign_of F64 a'))) in T2 by (destruct s, (sign_of F64 a), (sign_of F64 a'); reflexivity).
    destruct (eqb _ _); cbn [negb] in T2; [apply rel_nan; assumption|rewrite S2, T2; apply rel_inf; assumption].
Qed.
Lemma not_nan a : is_float F64 a -> is_finite F64 a -> ~ is_nan F64 a. Proof using. clear. intros F N H. apply (not_finite a F); tauto. Qed.
Lemma inf_nz a : is_float F64 a -> is_inf F64 a -> ~ is_zero F64 a /\ ~ is_nan F64 a.
Proof using. clear. intros F. destruct (split64 a F) as (s & n & -> & H). rewrite isinf64, zero64, nan64 by exact H. change INF with (2047 * 2 ^ 52). lia. Qed.
Lemma rel_mul s t a b a' b' : rel s a b -> rel t a' b' -> rel (xorb s t) (o_mul o a a') (o_mul o b b').
Proof using Ho.
  intros R R'. assert (R0 := R). assert (R0' := R'). destruct R as (Fa & Fb & H), R' as (Fa' & Fb' & H'). destruct (ops_mul F64 o Ho a a' Fa Fa') as (F & S1 & S2 & S3 & S4). destruct (ops_mul F64 o Ho b b' Fb Fb') as (F' & T1 & T2 & T3 & T4).
  cls H; cls H'; try (apply rel_nan; [exact F|exact F'|apply S1; solve [auto]|apply T1; solve [auto]]).
  - specialize (S4 A A0). specialize (T4 B B0). eapply rel_rounds; [exact S4|]. rewrite C, C0 in T4. replace (sg s (value F64 a) * sg t (value F64 a'))%R with (sg (xorb s t) (value F64 a * value F64 a')) in T4 by (destruct s, t; cbn [sg xorb]; ring). exact T4.
  - destruct (Req_dec (value F64 a) 0) as [Z|Z].
    + assert (is_zero F64 a) by (apply zero_val; assumption). assert (is_zero F64 b) by (apply zero_val; try assumption; rewrite C, Z; destruct s; cbn; ring). apply rel_nan; [exact F|exact F'|apply S2; auto 6|apply T2; auto 6].
    + rewrite <- zero_val in Z by assumption. destruct (rel_nz s a b R0 A Z) as [Sb Zb]. destruct S3 as [I1 E1]; [right; pose proof (not_nan a Fa A); auto 6|]. destruct T3 as [I2 E2]; [right; pose proof (not_nan b Fb B); auto 6|].
      apply rel_inf; try assumption. rewrite E1, E2, C0, Sb. destruct s, t, (sign_of F64 a), (sign_of F64 a'); reflexivity.
  - destruct (Req_dec (value F64 a') 0) as [Z|Z].
    + assert (is_zero F64 a') by (apply zero_val; assumption). assert (is_zero F64 b') by (apply zero_val; try assumption; rewrite C0, Z; destruct t; cbn; ring). apply rel_nan; [exact F|exact F'|apply S2; auto 6|apply T2; auto 6].
    + rewrite <- zero_val in Z by assumption. destruct (rel_nz t a' b' R0' A0 Z) as [Sb Zb]. destruct S3 as [I1 E1]; [left; pose proof (not_nan a' Fa' A0); auto 6|]. destruct T3 as [I2 E2]; [left; pose proof (not_nan b' Fb' B0); auto 6|].
      apply rel_inf; try assumption. rewrite E1, E2, C, Sb. destruct s, t, (sign_of F64 a), (sign_of F64 a'); reflexivity.
  - destruct (inf_nz a Fa A), (inf_nz b Fb B), (inf_nz a' Fa' A0), (inf_nz b' Fb' B0). destruct S3 as [I1 E1]; [auto 6|]. destruct T3 as [I2 E2]; [auto 6|]. apply rel_inf; try assumption. rewrite E1, E2, C, C0. destruct s, t, (sign_of F64 a), (sign_of F64 a'); reflexivity.
Qed.

(** * The kernels *)
Lemma rel_const k : is_float F64 k -> rel false k k. Proof using. apply rel_refl. Qed.
Ltac kf := match goal with |- rel false ?k ?k => apply rel_refl; vm_compute; split; congruence end.
Lemma mulF s a b a' b' : rel s a b -> rel false a' b' -> rel s (o_mul o a a') (o_mul o b b').
Proof using Ho. intros H H'. pose proof (rel_mul s false a b a' b' H H') as Q. rewrite xorb_false_r in Q. exact Q. Qed.
Lemma mulT s a b a' b' : rel s a b -> rel true a' b' -> rel (negb s) (o_mul o a a') (o_mul o b b').
Proof using Ho. intros H H'. pose proof (rel_mul s true a b a' b' H H') as Q. rewrite xorb_true_r in Q. exact Q. Qed.
Lemma mulTT a b a' b' : rel true a b -> rel true a' b' -> rel false (o_mul o a a') (o_mul o b b').
Proof using Ho. intros H H'. exact (mulT true a b a' b' H H'). Qed.
Lemma mulFT a b a' b' : rel false a b -> rel true a' b' -> rel true (o_mul o a a') (o_mul o b b').
Proof using Ho. intros H H'. exact (mulT false a b a' b' H H'). Qed.
Ltac go := repeat match goal with
  | H : rel ?s ?a ?b |- rel ?s ?a ?b => exact H
  | |- rel _ (o_add _ _ _) (o_add _ _ _) => apply rel_add
  | |- rel _ (o_sub _ _ _) (o_sub _ _ _) => apply rel_sub
  | |- rel _ (o_mul _ _ _) (o_mul _ _ _) => apply mulF
  | |- rel false ?k ?k => kf
  end.
Lemma rel_k_sin x y x' y' : rel true x x' -> rel true y y' -> rel true (k_sin o x y 1) (k_sin o x' y' 1) .
Proof using Ho.
  intros X Y. unfold k_sin. cbn [Z.eqb]. pose proof (mulTT _ _ _ _ X X) as Z. set (z := o_mul o x x) in *. set (z' := o_mul o x' x') in *. clearbody z z'.
  match goal with |- rel _ (o_sub o x (o_sub o (o_sub o (o_mul o z (o_sub o _ (o_mul o _ ?r))) _) _)) (o_sub o x' (o_sub o (o_sub o (o_mul o z' (o_sub o _ (o_mul o _ ?r'))) _) _)) => assert (R : rel false r r') by (go); set (rr := r) in *; set (rr' := r') in * end. clearbody rr rr'.
  pose proof (mulFT _ _ _ _ Z X) as V. set (v := o_mul o z x) in *. set (v' := o_mul o z' x') in *. clearbody v v'.
  apply rel_sub; [exact X|]. apply rel_sub; [apply rel_sub; [apply mulFT; [exact Z|apply rel_sub; [apply mulFT; [kf|exact Y]|apply mulF; assumption]]|exact Y]|apply mulF; [exact V|kf]].
Qed.
Lemma rel_k_sin0 x x' : rel true x x' -> rel true (k_sin o x 0 0) (k_sin o x' 0 0).
Proof using Ho.
  intros X. unfold k_sin. cbn [Z.eqb]. pose proof (mulTT _ _ _ _ X X) as Z. set (z := o_mul o x x) in *. set (z' := o_mul o x' x') in *. clearbody z z'.
  pose proof (mulFT _ _ _ _ Z X) as V. apply rel_add; [exact X|]. apply mulF; [exact V|]. go.
Qed.
Lemma rel_k_cos x y x' y' : rel true x x' -> rel true y y' -> rel false (k_cos o x y) (k_cos o x' y').
Proof using Ho.
  intros X Y. unfold k_cos. pose proof (mulTT _ _ _ _ X X) as Z. set (z := o_mul o x x) in *. set (z' := o_mul o x' x') in *. clearbody z z'. pose proof (mulTT _ _ _ _ X Y) as XY. go.
Qed.
End Ops.
