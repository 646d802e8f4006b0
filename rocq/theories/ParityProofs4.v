(** tan is odd. *)
From Coq Require Import ZArith Reals Bool List Lia Lra Psatz.
From Flocq Require Import Core.
From Verif Require Import Base BaseLemmas FloatModel FloatSpec FloatProofs FloatProofs5 LibmModel LibmSpec LibmProps FloatConvSpec FloatErr PolyBound Elem ElemModel ElemSpec TrigModel F64Lib ExpProofs3 ExpProofs4 ExpProofs5 ExpProofs7 ExpProofs8 LogProofs LogProofs2 LogProofs4 TrigProofs TrigProofs2 TrigProofs3 TrigProofs4 TrigPi TrigDist TrigRed TrigRed2 TrigRed3 TrigRed4 TrigRed5 TrigLg TrigLg2 TrigLg10 TrigLg11 OddProofs ParityProofs ParityProofs2 ParityProofs3 TanModel TanProofs3 AtanProofs3 TanProofs5.
Open Scope Z_scope.

Lemma zl_mk s n : 0 <= n < 2 ^ 63 -> zero_low (mk64 s n) = mk64 s (n - n mod 2 ^ 32) /\ 0 <= n - n mod 2 ^ 32 < 2 ^ 63 /\ (n < INF <-> n - n mod 2 ^ 32 < INF).
Proof.
  intros H. pose proof (Z_div_mod_eq_full n (2 ^ 32)) as D. pose proof (Z.mod_pos_bound n (2 ^ 32) ltac:(lia)) as B. rewrite zero_low_eq by (unfold mk64; destruct s; cbn [b2z]; lia).
  split; [|split; [lia|]].
  - unfold mk64. replace (b2z s * 2 ^ 63 + n) with (n + b2z s * 2 ^ 31 * 2 ^ 32) at 2 by lia. rewrite Z.mod_add by lia. lia.
  - change INF with (0x7ff00000 * 2 ^ 32). lia.
Qed.
Lemma rel_zl s a b : rel s a b -> is_finite F64 a -> rel s (zero_low a) (zero_low b).
Proof.
  intros (Fa & Fb & H) N. destruct (split64 a Fa) as (t & n & -> & Hn), (split64 b Fb) as (u & m & -> & Hm). rewrite !finite64, !isinf64, !nan64, !value64, !sign64 in * by assumption.
  destruct H as [(A & B & C)|[(A & _)|(A & _)]]; [|lia..].
  assert (E : mag64 m = mag64 n) by (rewrite <- (Rabs64 u m Hm), <- (Rabs64 t n Hn), !value64, C by assumption; apply sg_abs). apply mag_same in E; try lia. subst m.
  destruct (zl_mk t n Hn) as (-> & H1 & H2). destruct (zl_mk u n Hn) as (-> & _). set (k := n - n mod 2 ^ 32) in *. split; [apply float64; exact H1|]. split; [apply float64; exact H1|]. left. rewrite !finite64, !value64 by exact H1. split; [tauto|]. split; [tauto|].
  destruct (Z.eq_dec n 0) as [->|NZ]; [change k with 0; rewrite mag0_64; destruct s, t, u; cbn [sg]; ring|]. pose proof (mag_pos64 n ltac:(lia)). destruct s, t, u; cbn [sg] in *; lra.
Qed.
Lemma zl_fin a : is_float F64 a -> is_finite F64 (zero_low a) -> is_finite F64 a.
Proof. intros F. destruct (split64 a F) as (t & n & -> & Hn). destruct (zl_mk t n Hn) as (-> & H1 & H2). rewrite !finite64 by assumption. tauto. Qed.
Lemma zl_float a : is_float F64 a -> is_float F64 (zero_low a).
Proof. intros F. destruct (split64 a F) as (t & n & -> & Hn). destruct (zl_mk t n Hn) as (-> & H1 & H2). apply float64; exact H1. Qed.
Lemma fneg_fin a : is_float F64 a -> is_finite F64 (fneg a) -> is_finite F64 a.
Proof. intros F. destruct (split64 a F) as (t & n & -> & Hn). rewrite fneg_mk, !finite64 by exact Hn. tauto. Qed.

Section Tan.
Context (o : fops) (Ho : ieee_ops F64 o) (c : icast) (Hc : icast_ok c) (tbl : list Z) (Ht : forall j, 0 <= j < 66 -> tab tbl j = Ok (tt j)).
Lemma af a b : is_float F64 a -> is_float F64 b -> is_float F64 (o_add o a b). Proof using Ho. intros A B. exact (proj1 (ops_add F64 o Ho a b A B)). Qed.
Lemma sf a b : is_float F64 a -> is_float F64 b -> is_float F64 (o_sub o a b). Proof using Ho. intros A B. exact (proj1 (ops_sub F64 o Ho a b A B)). Qed.
Lemma mf a b : is_float F64 a -> is_float F64 b -> is_float F64 (o_mul o a b). Proof using Ho. intros A B. exact (proj1 (ops_mul F64 o Ho a b A B)). Qed.
Lemma df a b : is_float F64 a -> is_float F64 b -> is_float F64 (o_div o a b). Proof using Ho. intros A B. exact (proj1 (ops_div F64 o Ho a b A B)). Qed.
(** A finite result has finite operands. *)
Ltac nofin F := exfalso; apply (not_finite _ F); [|assumption].
Lemma add_both a b : is_float F64 a -> is_float F64 b -> is_finite F64 (o_add o a b) -> is_finite F64 a /\ is_finite F64 b.
Proof using Ho.
  intros Fa Fb N. destruct (ops_add F64 o Ho a b Fa Fb) as (F & S1 & S2 & S3 & S4 & _). destruct (class a Fa) as [C|[C|C]]; [nofin F; left; apply qnan_nan, S1; auto| |]; (destruct (class b Fb) as [D|[D|D]]; [nofin F; left; apply qnan_nan, S1; auto| |]).
  - specialize (S2 C D). destruct (eqb _ _); nofin F; [right; rewrite S2; exact C|left; apply qnan_nan; exact S2].
  - nofin F. right. rewrite (S3 C D). exact C.
  - nofin F. right. rewrite (S4 C D). exact D.
  - auto.
Qed.
Lemma sub_both a b : is_float F64 a -> is_float F64 b -> is_finite F64 (o_sub o a b) -> is_finite F64 a /\ is_finite F64 b.
Proof using Ho.
  intros Fa Fb N. destruct (ops_sub F64 o Ho a b Fa Fb) as (F & S1 & S2 & S3 & S4 & _). destruct (class a Fa) as [C|[C|C]]; [nofin F; left; apply qnan_nan, S1; auto| |]; (destruct (class b Fb) as [D|[D|D]]; [nofin F; left; apply qnan_nan, S1; auto| |]).
  - specialize (S2 C D). destruct (eqb _ _); nofin F; [left; apply qnan_nan; exact S2|right; rewrite S2; exact C].
  - nofin F. right. rewrite (S3 C D). exact C.
  - nofin F. right. rewrite (S4 C D). apply neg_inf; assumption.
  - auto.
Qed.
Lemma mul_both a b : is_float F64 a -> is_float F64 b -> is_finite F64 (o_mul o a b) -> is_finite F64 a /\ is_finite F64 b.
Proof using Ho.
  intros Fa Fb N. destruct (ops_mul F64 o Ho a b Fa Fb) as (F & S1 & S2 & S3 & _). destruct (class a Fa) as [C|[C|C]]; [nofin F; left; apply qnan_nan, S1; auto| |]; (destruct (class b Fb) as [D|[D|D]]; [nofin F; left; apply qnan_nan, S1; auto| |]).
  - nofin F. right. destruct (inf_nz b Fb D). apply S3. auto.
  - nofin F. destruct (Req_dec (value F64 b) 0) as [Z|Z]; rewrite <- zero_val in Z by assumption; [left; apply qnan_nan, S2; auto|right; apply S3; pose proof (not_nan b Fb D); auto].
  - nofin F. destruct (Req_dec (value F64 a) 0) as [Z|Z]; rewrite <- zero_val in Z by assumption; [left; apply qnan_nan, S2; auto|right; apply S3; pose proof (not_nan a Fa C); auto].
  - auto.
Qed.
Lemma div_both a b : is_float F64 a -> is_float F64 b -> is_finite F64 (o_div o a b) -> is_finite F64 a /\ ~ is_zero F64 b.
Proof using Ho.
  intros Fa Fb N. destruct (ops_div F64 o Ho a b Fa Fb) as (F & S1 & S2 & S3 & S4 & _). destruct (class a Fa) as [C|[C|C]]; [nofin F; left; apply qnan_nan, S1; auto| |]; (destruct (class b Fb) as [D|[D|D]]; [nofin F; left; apply qnan_nan, S1; auto| |]).
  - nofin F. left. apply qnan_nan, S2. auto.
  - nofin F. right. apply S3. auto.
  - split; [exact C|]. apply (inf_nz b Fb D).
  - split; [exact C|]. intros Z. destruct (Req_dec (value F64 a) 0) as [Q|Q]; rewrite <- zero_val in Q by assumption; nofin F; [left; apply qnan_nan, S2; auto|right; apply S3; auto].
Qed.
Lemma zero_fin a : is_float F64 a -> is_zero F64 a -> is_finite F64 a /\ value F64 a = 0%R.
Proof using. clear. intros F. destruct (split64 a F) as (t & n & -> & Hn). rewrite zero64, finite64, value64 by exact Hn. intros ->. split; [reflexivity|]. rewrite mag0_64. destruct t; ring. Qed.
Lemma rel_div s t a b a' b' : rel s a b -> rel t a' b' -> is_finite F64 (o_div o a a') -> rel (xorb s t) (o_div o a a') (o_div o b b').
Proof using Ho.
  intros R R' N. assert (Fa := proj1 R). assert (Fb := proj1 (proj2 R)). assert (Fa' := proj1 R'). assert (Fb' := proj1 (proj2 R')). destruct (div_both a a' Fa Fa' N) as [Na Za'].
  destruct (ops_div F64 o Ho a a' Fa Fa') as (F & _ & _ & _ & S4 & S5). destruct (ops_div F64 o Ho b b' Fb Fb') as (F' & _ & _ & _ & T4 & T5).
  destruct R as (_ & _ & [(A & B & C)|[(A & _)|(A & _)]]); [|exfalso; apply (not_finite a Fa); auto..]. destruct (proj2 (proj2 R')) as [(A' & B' & C')|[(A' & B' & C')|(A' & B')]].
  - destruct (rel_nz t a' b' R' A' Za') as [_ Zb']. specialize (S5 A A' Za'). specialize (T5 B B' Zb'). eapply rel_rounds; [exact S5|]. rewrite C, C' in T5. rewrite zero_val in Za' by assumption.
    replace (sg s (value F64 a) / sg t (value F64 a'))%R with (sg (xorb s t) (value F64 a / value F64 a')) in T5 by (destruct s, t; cbn [sg xorb]; field; exact Za'). exact T5.
  - destruct (S4 (conj A A')) as [Z1 _]. destruct (T4 (conj B B')) as [Z2 _]. destruct (zero_fin _ F Z1) as [N1 V1]. destruct (zero_fin _ F' Z2) as [N2 V2]. split; [exact F|]. split; [exact F'|]. left. split; [exact N1|]. split; [exact N2|]. rewrite V1, V2. destruct (xorb s t); cbn [sg]; ring.
  - exfalso. destruct (ops_div F64 o Ho a a' Fa Fa') as (_ & S1 & _). apply (not_finite _ F); [left; apply qnan_nan, S1; auto|exact N].
Qed.
Ltac kf := match goal with |- rel false ?k ?k => apply rel_refl; vm_compute; split; congruence end.
Ltac go := repeat match goal with
  | H : rel ?s ?a ?b |- rel ?s ?a ?b => exact H
  | |- rel _ (o_add _ _ _) (o_add _ _ _) => apply (rel_add o Ho)
  | |- rel _ (o_sub _ _ _) (o_sub _ _ _) => apply (rel_sub o Ho)
  | |- rel _ (o_mul _ _ _) (o_mul _ _ _) => apply (mulF o Ho)
  | |- rel false ?k ?k => kf
  end.
Lemma rel_poly z z' : rel false z z' -> rel false (tan_poly o z) (tan_poly o z').
Proof using Ho. intros Z. unfold tan_poly. cbv zeta. go. Qed.
Lemma mulFs s a b a' b' : rel false a b -> rel s a' b' -> rel s (o_mul o a a') (o_mul o b b').
Proof using Ho. intros A B. pose proof (rel_mul o Ho _ _ _ _ _ _ A B) as Q. rewrite xorb_false_l in Q. exact Q. Qed.
Lemma rel_tan_r s x x' y y' : rel s x x' -> rel s y y' -> rel s (tan_r o x y) (tan_r o x' y').
Proof using Ho.
  intros X Y. unfold tan_r. cbv zeta. assert (Z : rel false (o_mul o x x) (o_mul o x' x')) by (pose proof (rel_mul o Ho _ _ _ _ _ _ X X) as Q; rewrite xorb_nilpotent in Q; exact Q). set (z := o_mul o x x) in *. set (z' := o_mul o x' x') in *. clearbody z z'.
  pose proof (rel_poly _ _ Z) as P. set (p := tan_poly o z) in *. set (p' := tan_poly o z') in *. clearbody p p'. assert (S : rel s (o_mul o z x) (o_mul o z' x')) by (exact (mulFs s _ _ _ _ Z X)). set (u := o_mul o z x) in *. set (u' := o_mul o z' x') in *. clearbody u u'.
  apply (rel_add o Ho); [|go]. apply (rel_add o Ho); [exact Y|]. apply mulFs; [exact Z|]. go.
Qed.
Lemma rel_big x y y' S (k := fun y => let x := o_add o (o_sub o PIO4_HI x) (o_sub o PIO4_LO y) in let r := tan_r o x 0 in let w := o_add o x r in
    o_sub o S (o_mul o two (o_add o x (o_sub o r (o_div o (o_mul o w w) (o_add o w S)))))) :
  is_float F64 x -> is_float F64 S -> rel false y y' -> is_float F64 (k y) /\ (is_finite F64 (k y) -> rel false (k y) (k y')).
Proof using Ho.
  intros Fx FS Y. unfold k in *. clear k. cbv zeta in *. apply rel_refl in Fx, FS. assert (F0 : rel false 0 0) by (apply rel_refl; vm_compute; split; congruence).
  assert (X : rel false (o_add o (o_sub o PIO4_HI x) (o_sub o PIO4_LO y)) (o_add o (o_sub o PIO4_HI x) (o_sub o PIO4_LO y'))) by go. set (u := o_add o _ (o_sub o _ y)) in *. set (u' := o_add o _ (o_sub o _ y')) in *. clearbody u u'.
  pose proof (rel_tan_r false _ _ _ _ X F0) as R. set (r := tan_r o u 0) in *. set (r' := tan_r o u' 0) in *. clearbody r r'. assert (W : rel false (o_add o u r) (o_add o u' r')) by go. set (w := o_add o u r) in *. set (w' := o_add o u' r') in *. clearbody w w'.
  assert (FWW : is_float F64 (o_mul o w w)) by (apply mf; apply W). assert (FWS : is_float F64 (o_add o w S)) by (apply af; [apply W|apply FS]). assert (FD := df _ _ FWW FWS). assert (F1 := sf r _ (proj1 R) FD). assert (F2 := af u _ (proj1 X) F1). assert (FT : is_float F64 two) by (vm_compute; split; congruence). assert (F3 := mf two _ FT F2).
  split; [exact (sf _ _ (proj1 FS) F3)|]. intros N. apply sub_both in N; [|apply FS|exact F3]. destruct N as [_ N]. apply mul_both in N; [|exact FT|exact F2]. destruct N as [_ N]. apply add_both in N; [|apply X|exact F1]. destruct N as [_ N]. apply sub_both in N; [|apply R|exact FD]. destruct N as [_ N].
  assert (D : rel false (o_div o (o_mul o w w) (o_add o w S)) (o_div o (o_mul o w' w') (o_add o w' S))) by (apply (rel_div false false); [go|go|exact N]). set (d := o_div o _ (o_add o w S)) in *. set (d' := o_div o _ (o_add o w' S)) in *. clearbody d d'. go.
Qed.
Lemma rel_cot x x' r r' (k := fun x r => let w := o_add o x r in let w0 := zero_low w in let v := o_sub o r (o_sub o w0 x) in let a := o_div o tan_m1 w in let a0 := zero_low a in
    o_add o a0 (o_mul o a (o_add o (o_add o one (o_mul o a0 w0)) (o_mul o a0 v)))) :
  rel true x x' -> rel true r r' -> is_finite F64 (k x r) -> rel true (k x r) (k x' r').
Proof using Ho.
  intros X R N. unfold k in *. clear k. cbv zeta in *. assert (W : rel true (o_add o x r) (o_add o x' r')) by go. set (w := o_add o x r) in *. set (w' := o_add o x' r') in *. clearbody w w'. assert (Fw := proj1 W). assert (Fw0 := zl_float w Fw).
  assert (FM : is_float F64 tan_m1) by (vm_compute; split; congruence). assert (FO : is_float F64 one) by (vm_compute; split; congruence). assert (Fa := df _ _ FM Fw). assert (Fa0 := zl_float _ Fa). assert (Fv : is_float F64 (o_sub o r (o_sub o (zero_low w) x))) by (apply sf; [apply R|apply sf; [exact Fw0|apply X]]).
  assert (F1 := mf _ _ Fa0 Fw0). assert (F2 := mf _ _ Fa0 Fv). assert (F3 := af _ _ FO F1). assert (F4 := af _ _ F3 F2). assert (F5 := mf _ _ Fa F4).
  apply add_both in N; [|exact Fa0|exact F5]. destruct N as [N0 N]. apply mul_both in N; [|exact Fa|exact F4]. destruct N as [Na N]. apply add_both in N; [|exact F3|exact F2]. destruct N as [N _]. apply add_both in N; [|exact FO|exact F1]. destruct N as [_ N]. apply mul_both in N; [|exact Fa0|exact Fw0]. destruct N as [_ N]. apply zl_fin in N; [|exact Fw].
  assert (A : rel true (o_div o tan_m1 w) (o_div o tan_m1 w')) by (apply (rel_div false true); [kf|exact W|exact Na]). pose proof (rel_zl _ _ _ W N) as W0. pose proof (rel_zl _ _ _ A Na) as A0.
  set (a := o_div o tan_m1 w) in *. set (a' := o_div o tan_m1 w') in *. set (w0 := zero_low w) in *. set (w0' := zero_low w') in *. set (a0 := zero_low a) in *. set (a0' := zero_low a') in *. clearbody a a' w0 w0' a0 a0'.
  assert (V : rel true (o_sub o r (o_sub o w0 x)) (o_sub o r' (o_sub o w0' x'))) by go. set (v := o_sub o r _) in *. set (v' := o_sub o r' _) in *. clearbody v v'.
  apply (rel_add o Ho); [exact A0|]. apply (mulF o Ho); [exact A|]. apply (rel_add o Ho); [apply (rel_add o Ho); [kf|]|]; apply (mulTT o Ho); assumption.
Qed.
Lemma rel_k_tan x y x' y' odd : odd = 0 \/ odd = 1 -> rel true x x' -> good x -> value F64 x <> 0%R -> rel true y y' -> is_finite F64 (k_tan o c x y odd) -> rel true (k_tan o c x y odd) (k_tan o c x' y' odd).
Proof using Ho Hc.
  intros Hodd X G NZ Y N. pose proof (rel_bits true x x' X (proj2 G) NZ) as EX. cbn in EX. destruct (split64 x (proj1 G)) as (s & n & E & Hn). rewrite E, fneg_mk in EX by exact Hn. subst x x'. unfold k_tan in *. rewrite !high_abs, !high_sign in * by exact Hn.
  destruct (0x3FE59428 <=? n / 2 ^ 32) eqn:B; cbv zeta in *.
  - rewrite !flip_sign in *. assert (FL : forall t, flip t (mk64 t n) = n) by (intros t; unfold flip; destruct t; [rewrite fneg_mk by exact Hn|]; unfold mk64; cbn; lia). rewrite !FL in *.
    assert (Fn : is_float F64 n) by (pose proof (float64 false n Hn) as Q; unfold mk64, b2z in Q; rewrite Z.mul_0_l in Q; exact Q). destruct (sign_val o Ho c Hc odd Hodd) as [[FS _] _]. set (S := o_sub o one (o_mul o two (c_ofi c odd))) in *. clearbody S.
    assert (YY : rel false (flip s y) (flip (negb s) y')) by (destruct s; cbn [flip negb]; [apply (rel_neg_l true)|apply (rel_neg_r true)]; exact Y).
    assert (K := rel_big n _ _ S Fn FS YY). cbv beta zeta in K. match type of K with _ /\ (is_finite F64 ?v -> rel false ?v ?v') => set (r := v) in *; set (r' := v') in * end. destruct K as [Fr K].
    destruct s; cbn [flip negb] in *.
    + assert (Nr : is_finite F64 r) by (apply fneg_fin; [exact Fr|exact N]). apply (rel_neg_l false), K, Nr.
    + apply (rel_neg_r false), K, N.
  - pose proof (rel_tan_r true _ _ _ _ X Y) as R. set (r := tan_r o (mk64 s n) y) in *. set (r' := tan_r o (mk64 (negb s) n) y') in *. clearbody r r'. destruct (odd =? 0); [go|]. apply (rel_cot _ _ _ _ X R N).
Qed.
Lemma bits_odd2 r r' y : rel true r r' -> within (3 / 2) r y -> (bpow radix2 (-80) <= Rabs y)%R -> r' = fneg r.
Proof using.
  clear. intros R W B. apply (rel_bits true); [exact R|apply W|]. destruct W as (_ & _ & E). intros Z. rewrite Z, Rminus_0_l, Rabs_Ropp in E. assert (P : Prec_gt_0 (prec F64)) by exact Hp64.
  assert (U : (ulp64 y <= Rabs y * bpow radix2 (1 - 53))%R). { apply (ulp_FLT_le radix2 (-1074) 53). eapply Rle_trans; [|exact B]. apply bpow_le. lia. }
  change (bpow radix2 (1 - 53)) with (/ 4503599627370496)%R in U. pose proof (bpow_gt_0 radix2 (-80)). lra.
Qed.
Lemma tan_lower X : (cos X <> 0 -> bpow radix2 (-80) <= Rabs (sin X) -> bpow radix2 (-80) <= Rabs (tan X))%R.
Proof using.
  clear. intros C S. eapply Rle_trans; [exact S|]. unfold tan, Rdiv. rewrite Rabs_mult, Rabs_inv. assert (A : (0 < Rabs (cos X))%R) by (apply Rabs_pos_lt; exact C). assert (B : (Rabs (cos X) <= 1)%R) by (apply Rabs_le; apply COS_bound).
  rewrite <- (Rmult_1_r (Rabs (sin X))) at 1. apply Rmult_le_compat_l; [apply Rabs_pos|]. rewrite <- Rinv_1. apply Rinv_le; assumption.
Qed.
Lemma sin_lower n : 0x3e40000000000000 <= n < INF -> (bpow radix2 (-80) <= Rabs (sin (value F64 (mk64 false n))))%R.
Proof using Ho Hc Ht.
  intros Hn. destruct (Z_lt_ge_dec n 0x3e46a09e00000000) as [L|L]; [|apply (trig_lower o Ho c Hc tbl Ht false n); lia]. apply sc_lower. rewrite Rabs64 by lia. split.
  - apply Rle_trans with (mag64 0x3e40000000000000); [|apply mag_le64; lia]. change 0x3e40000000000000 with (0x3e4 * 2 ^ 52). rewrite mag_pow2 by lia. apply bpow_le. lia.
  - apply Rlt_le, Rlt_le_trans with (fx 19 0x6487f); [|unfold fx; change (bpow radix2 (- (19))) with (/ 524288)%R; lra]. apply (mag_lt 0x3fe921fc00000000); [vm_compute; reflexivity|lia|lia].
Qed.
Lemma tan_parity fuel n : (4 <= fuel)%nat -> 0 <= n < INF -> exists r,
  libm_tan o c tbl fuel (mk64 false n) = Ok r /\ libm_tan o c tbl fuel (mk64 true n) = Ok (fneg r) /\ is_float F64 r.
Proof using Ho Hc Ht.
  intros Hf Hn. assert (Hn' : 0 <= n < 2 ^ 63) by lia. assert (F0 := float64 false n Hn'). destruct (tan_all o Ho c Hc tbl Ht fuel _ Hf F0) as (r & E & Fr & _ & W & _). exists r. split; [exact E|]. split; [|exact Fr].
  destruct W as [W CN]; [apply finite64; lia|]. destruct (Z_lt_ge_dec n 0x3e40000000000000) as [L|L].
  { revert E. unfold libm_tan. rewrite !high_abs by exact Hn'. rewrite hx_div', !ix_lt by lia. replace (n <? (0x3fe921fb + 1) * 2 ^ 32) with true by lia. replace (n <? 0x3e400000 * 2 ^ 32) with true by lia. intros E. injection E as <-. rewrite fneg_mk by exact Hn'. reflexivity. }
  assert (TL : (bpow radix2 (-80) <= Rabs (tan (value F64 (mk64 false n))))%R). { apply tan_lower; [exact CN|]. apply (sin_lower n); lia. }
  revert E. unfold libm_tan. rewrite !high_abs by exact Hn'. rewrite hx_div', hx_div, !ix_lt by lia. pose proof (rel_mk n Hn') as R. replace (0x7ff00000 * 2 ^ 32 <=? n) with false by lia. replace (n <? 0x3e400000 * 2 ^ 32) with false by lia. destruct (Z.ltb_spec n ((0x3fe921fb + 1) * 2 ^ 32)) as [L2|L2].
  - intros E. injection E as E. f_equal. apply (bits_odd2 _ _ _) with (2 := W); [|exact TL]. subst r. apply rel_k_tan; [tauto|exact R|apply good64; lia| |apply rel_zero|apply W]. rewrite value64 by exact Hn'. pose proof (mag_pos64 n ltac:(lia)). lra.
  - destruct (rem_pio2_ok o Ho c Hc tbl Ht fuel false n Hf ltac:(lia)) as (k & y0 & y1 & j & E & (_ & G0 & _ & _ & LB & _)). destruct (rem_sym o Ho c Hc tbl Ht fuel n Hf ltac:(lia)) as (p & q & E1 & E2 & O). rewrite E in E1. injection E1 as <-.
    destruct q as [[m z0] z1]. destruct O as (-> & R0 & R1). rewrite E, E2. cbn [bind]. intros Q. injection Q as Q. f_equal. apply (bits_odd2 _ _ _) with (2 := W); [|exact TL]. subst r.
    assert (PK : Z.land (- k) 1 = Z.land k 1). { change 1 with (Z.ones 1). rewrite !Z.land_ones by lia. change (2 ^ 1) with 2. pose proof (Z.mod_pos_bound k 2 ltac:(lia)). destruct (Z.eq_dec (k mod 2) 0) as [Z|Z]; [rewrite Z; apply Z_mod_zero_opp_full; exact Z|rewrite Z_mod_nz_opp_full by exact Z; lia]. }
    rewrite PK. apply rel_k_tan; [|exact R0|exact G0| |exact R1|apply W].
    + rewrite land1. pose proof (Z.mod_pos_bound k 2 ltac:(lia)). lia.
    + intros Z. rewrite Z, Rabs_R0 in LB. pose proof (bpow_gt_0 radix2 (-70)). lra.
Qed.
End Tan.
