(** Exact symmetry under a change of sign: the results for x and for -x differ in the sign bit only. *)
From Coq Require Import ZArith Reals Bool List Lia Lra Psatz.
From Flocq Require Import Core.
From Verif Require Import Base BaseLemmas FloatModel FloatSpec FloatProofs FloatLib LibmModel LibmSpec Elem FloatErr PolyBound ElemModel ElemSpec TrigModel F64Lib ExpProofs3 ExpProofs4 ExpProofs5 ExpProofs6 ExpProofs7 ExpProofs8 LogProofs LogProofs2 TrigProofs TrigRed TrigRed5 TrigLg11
  HypotModel HypotProofs3 AtanModel AtanProofs AtanProofs2 AtanProofs3 Atan2Model Atan2Proofs Atan2Proofs2 Atan2Proofs3 AsinModel AsinProofs2 AsinProofs3 AsinProofs4 AsinProofs5.
Open Scope Z_scope.

Lemma negate_mk s n : 0 <= n < 2 ^ 63 -> negate F64 (mk64 s n) = mk64 (negb s) n.
Proof. intros H. unfold negate. rewrite sign64 by exact H. change (2 ^ (fb F64 - 1)) with (2 ^ 63). unfold mk64. destruct s; cbn [negb]; unfold b2z; ring. Qed.
Lemma negate_fneg x : is_float F64 x -> negate F64 x = fneg x.
Proof. intros F. destruct (split64 x F) as (s & n & -> & H). rewrite negate_mk, fneg_mk by exact H. reflexivity. Qed.
Lemma fneg_sign x : is_float F64 x -> sign_of F64 (fneg x) = negb (sign_of F64 x).
Proof. intros F. destruct (split64 x F) as (s & n & -> & H). rewrite fneg_mk, !sign64 by exact H. reflexivity. Qed.
Lemma fneg_float x : is_float F64 x -> is_float F64 (fneg x).
Proof. intros F. destruct (split64 x F) as (s & n & -> & H). rewrite fneg_mk by exact H. apply float64; exact H. Qed.
Lemma fneg_twice x : is_float F64 x -> fneg (fneg x) = x.
Proof. intros F. destruct (split64 x F) as (s & n & -> & H). rewrite !fneg_mk, negb_involutive by exact H. reflexivity. Qed.
Lemma rounds_neg zs zs' v r : rounds_to F64 zs v r -> (v = 0%R -> zs' = negb zs) -> rounds_to F64 zs' (- v) (fneg r).
Proof.
  intros (F & S & P) Z. destruct (split64 r F) as (s & n & -> & Hn). rewrite fneg_mk by exact Hn. split; [apply float64; exact Hn|]. rewrite sign64 in * by exact Hn. split.
  - rewrite S. destruct (Rcompare_spec v 0) as [C|C|C].
    + rewrite Rcompare_Gt by lra. reflexivity.
    + rewrite Rcompare_Eq by lra. symmetry. exact (Z C).
    + rewrite Rcompare_Lt by lra. reflexivity.
  - rewrite rne_opp, Rabs_Ropp. destruct (Rlt_bool _ _).
    + rewrite finite64 in * by exact Hn. split; [apply P|]. destruct P as [_ P]. rewrite <- P, !value64 by exact Hn. destruct s; cbn [negb]; ring.
    + rewrite isinf64 in * by exact Hn. exact P.
Qed.

Section Odd.
Context (o : fops) (Ho : ieee_ops F64 o).
Lemma mul_neg a b : good a -> good b -> o_mul o (fneg a) b = fneg (o_mul o a b).
Proof using Ho.
  intros Ga Gb. destruct (fneg_val a Ga) as [Gn Vn]. destruct Ga as [Fa Na], Gb as [Fb Nb], Gn as [Fn Nn].
  destruct (ops_mul F64 o Ho a b Fa Fb) as (_ & _ & _ & _ & R1). destruct (ops_mul F64 o Ho (fneg a) b Fn Fb) as (_ & _ & _ & _ & R2). specialize (R1 Na Nb). specialize (R2 Nn Nb).
  apply (rounds_to_unique F64 W64 _ _ _ _ R2). rewrite Vn. replace (- value F64 a * value F64 b)%R with (- (value F64 a * value F64 b))%R by ring. apply (rounds_neg _ _ _ _ R1). intros _. rewrite fneg_sign by exact Fa. destruct (sign_of F64 a), (sign_of F64 b); reflexivity.
Qed.
Lemma mul_nn a : good a -> o_mul o (fneg a) (fneg a) = o_mul o a a.
Proof using Ho.
  intros Ga. destruct (fneg_val a Ga) as [Gn Vn]. destruct Ga as [Fa Na], Gn as [Fn Nn].
  destruct (ops_mul F64 o Ho a a Fa Fa) as (_ & _ & _ & _ & R1). destruct (ops_mul F64 o Ho (fneg a) (fneg a) Fn Fn) as (_ & _ & _ & _ & R2). specialize (R1 Na Na). specialize (R2 Nn Nn).
  rewrite Vn in R2. replace (- value F64 a * - value F64 a)%R with (value F64 a * value F64 a)%R in R2 by ring. rewrite fneg_sign in R2 by exact Fa. replace (xorb (negb _) _) with (xorb (sign_of F64 a) (sign_of F64 a)) in R2 by (destruct (sign_of F64 a); reflexivity). exact (rounds_to_unique F64 W64 _ _ _ _ R2 R1).
Qed.
Lemma add_nn a b : good a -> good b -> (value F64 a + value F64 b <> 0)%R -> o_add o (fneg a) (fneg b) = fneg (o_add o a b).
Proof using Ho.
  intros Ga Gb N. destruct (fneg_val a Ga) as [Gn Vn]. destruct (fneg_val b Gb) as [Gm Vm]. destruct Ga as [Fa Na], Gb as [Fb Nb], Gn as [Fn Nn], Gm as [Fm Nm].
  destruct (ops_add F64 o Ho a b Fa Fb) as (_ & _ & _ & _ & _ & R1). destruct (ops_add F64 o Ho (fneg a) (fneg b) Fn Fm) as (_ & _ & _ & _ & _ & R2). specialize (R1 Na Nb). specialize (R2 Nn Nm).
  apply (rounds_to_unique F64 W64 _ _ _ _ R2). rewrite Vn, Vm. replace (- value F64 a + - value F64 b)%R with (- (value F64 a + value F64 b))%R by ring. apply (rounds_neg _ _ _ _ R1). intros Z. contradiction.
Qed.
Lemma sub_nn a b : good a -> good b -> (value F64 a - value F64 b <> 0)%R -> o_sub o (fneg a) (fneg b) = fneg (o_sub o a b).
Proof using Ho.
  intros Ga Gb N. destruct (fneg_val a Ga) as [Gn Vn]. destruct (fneg_val b Gb) as [Gm Vm]. destruct Ga as [Fa Na], Gb as [Fb Nb], Gn as [Fn Nn], Gm as [Fm Nm].
  destruct (ops_sub F64 o Ho a b Fa Fb) as (_ & _ & _ & _ & _ & R1). destruct (ops_sub F64 o Ho (fneg a) (fneg b) Fn Fm) as (_ & _ & _ & _ & _ & R2). specialize (R1 Na Nb). specialize (R2 Nn Nm).
  apply (rounds_to_unique F64 W64 _ _ _ _ R2). rewrite Vn, Vm. replace (- value F64 a - - value F64 b)%R with (- (value F64 a - value F64 b))%R by ring. apply (rounds_neg _ _ _ _ R1). intros Z. contradiction.
Qed.
Lemma sub_swap a b : good a -> good b -> (value F64 a - value F64 b <> 0)%R -> o_sub o b a = fneg (o_sub o a b).
Proof using Ho.
  intros [Fa Na] [Fb Nb] N. destruct (ops_sub F64 o Ho a b Fa Fb) as (_ & _ & _ & _ & _ & R1). destruct (ops_sub F64 o Ho b a Fb Fa) as (_ & _ & _ & _ & _ & R2). specialize (R1 Na Nb). specialize (R2 Nb Na).
  apply (rounds_to_unique F64 W64 _ _ _ _ R2). replace (value F64 b - value F64 a)%R with (- (value F64 a - value F64 b))%R by ring. apply (rounds_neg _ _ _ _ R1). intros Z. contradiction.
Qed.
Lemma div_neg a b : good a -> good b -> ~ is_zero F64 b -> o_div o (fneg a) b = fneg (o_div o a b).
Proof using Ho.
  intros Ga Gb Z. destruct (fneg_val a Ga) as [Gn Vn]. destruct Ga as [Fa Na], Gb as [Fb Nb], Gn as [Fn Nn].
  destruct (ops_div F64 o Ho a b Fa Fb) as (_ & _ & _ & _ & _ & R1). destruct (ops_div F64 o Ho (fneg a) b Fn Fb) as (_ & _ & _ & _ & _ & R2). specialize (R1 Na Nb Z). specialize (R2 Nn Nb Z).
  apply (rounds_to_unique F64 W64 _ _ _ _ R2). rewrite Vn. replace (- value F64 a / value F64 b)%R with (- (value F64 a / value F64 b))%R by (unfold Rdiv; ring). apply (rounds_neg _ _ _ _ R1). intros _. rewrite fneg_sign by exact Fa. destruct (sign_of F64 a), (sign_of F64 b); reflexivity.
Qed.
(** A finite result has finite operands. *)
Lemma class x : is_float F64 x -> is_nan F64 x \/ is_inf F64 x \/ is_finite F64 x.
Proof using. clear. intros F. destruct (split64 x F) as (s & n & -> & H). rewrite nan64, isinf64, finite64 by exact H. lia. Qed.
Lemma not_finite x : is_float F64 x -> is_nan F64 x \/ is_inf F64 x -> is_finite F64 x -> False.
Proof using. clear. intros F. destruct (split64 x F) as (s & n & -> & H). rewrite nan64, isinf64, finite64 by exact H. lia. Qed.
Lemma qnan_nan x : is_qnan F64 x -> is_nan F64 x. Proof using. clear. intros [A _]. exact A. Qed.
Lemma neg_inf x : is_float F64 x -> is_inf F64 x -> is_inf F64 (negate F64 x).
Proof using. clear. intros F. destruct (split64 x F) as (s & n & -> & H). rewrite negate_mk, !isinf64 by exact H. tauto. Qed.
Lemma sub_fin a b : good a -> is_float F64 b -> is_finite F64 (o_sub o a b) -> good b.
Proof using Ho.
  intros [Fa Na] Fb N. split; [exact Fb|]. destruct (ops_sub F64 o Ho a b Fa Fb) as (F & S1 & _ & _ & S2 & _). destruct (class b Fb) as [C|[C|C]]; [| |exact C]; exfalso; apply (not_finite _ F); try exact N.
  - left. apply qnan_nan, S1. right. exact C.
  - right. rewrite (S2 Na C). apply neg_inf; assumption.
Qed.
Lemma add_fin a b : good a -> is_float F64 b -> is_finite F64 (o_add o a b) -> good b.
Proof using Ho.
  intros [Fa Na] Fb N. split; [exact Fb|]. destruct (ops_add F64 o Ho a b Fa Fb) as (F & S1 & _ & _ & S2 & _). destruct (class b Fb) as [C|[C|C]]; [| |exact C]; exfalso; apply (not_finite _ F); try exact N.
  - left. apply qnan_nan, S1. right. exact C.
  - right. rewrite (S2 Na C). exact C.
Qed.
Lemma mul_fin a b : good a -> ~ is_zero F64 a -> is_float F64 b -> is_finite F64 (o_mul o a b) -> good b.
Proof using Ho.
  intros [Fa Na] Z Fb N. split; [exact Fb|]. destruct (ops_mul F64 o Ho a b Fa Fb) as (F & S1 & _ & S2 & _). destruct (class b Fb) as [C|[C|C]]; [| |exact C]; exfalso; apply (not_finite _ F); try exact N.
  - left. apply qnan_nan, S1. right. exact C.
  - right. apply S2. right. split; [exact C|]. split; [exact Z|]. intros Q. apply (not_finite _ Fa); [left; exact Q|exact Na].
Qed.
Lemma fadd a b : is_float F64 a -> is_float F64 b -> is_float F64 (o_add o a b). Proof using Ho. intros A B. exact (proj1 (ops_add F64 o Ho a b A B)). Qed.
Lemma fsub a b : is_float F64 a -> is_float F64 b -> is_float F64 (o_sub o a b). Proof using Ho. intros A B. exact (proj1 (ops_sub F64 o Ho a b A B)). Qed.
Lemma fmul a b : is_float F64 a -> is_float F64 b -> is_float F64 (o_mul o a b). Proof using Ho. intros A B. exact (proj1 (ops_mul F64 o Ho a b A B)). Qed.
Lemma fdiv a b : is_float F64 a -> is_float F64 b -> is_float F64 (o_div o a b). Proof using Ho. intros A B. exact (proj1 (ops_div F64 o Ho a b A B)). Qed.
Ltac fl := repeat first [assumption | apply fadd | apply fmul | apply fdiv | apply fsub | (apply (float64 false); vm_compute; intuition discriminate) | (apply (float64 true); vm_compute; intuition discriminate) | (vm_compute; intuition discriminate)].
Lemma fpoly x : is_float F64 x -> is_float F64 (atan_poly o x).
Proof using Ho. intros F. unfold atan_poly. cbv zeta. fl. Qed.
Lemma fcomp x : is_float F64 x -> is_float F64 (comp_r o x).
Proof using Ho. intros F. unfold comp_r. cbv zeta. fl. Qed.
(** A result that is accurate is not zero. *)
Lemma within_nz k r y : (k <= 4)%R -> within k r y -> (bpow radix2 (-30) <= Rabs y < 4)%R -> value F64 r <> 0%R.
Proof using.
  clear. intros K (_ & _ & E) B Z. rewrite Z, Rminus_0_l, Rabs_Ropp in E. pose proof (ulp64_ub 2 y ltac:(change (bpow radix2 2) with 4%R; lra) ltac:(lia)) as U. pose proof (ulp_ge_0 radix2 (FLT_exp (-1074) 53) y) as U0.
  assert (0 <= ulp64 y)%R as U1 by exact U0. assert (k * ulp64 y <= 4 * bpow radix2 (2 - 53))%R as Q by (apply Rle_trans with (4 * ulp64 y)%R; [apply Rmult_le_compat_r; assumption|lra]).
  assert (4 * bpow radix2 (2 - 53) < bpow radix2 (-30))%R as Q2. { change 4%R with (bpow radix2 2). rewrite <- bpow_plus. apply bpow_lt. lia. } lra.
Qed.

(** atan *)
Lemma quarter_odd n : 0x3e400000 * 2 ^ 32 <= n < 0x3fdc0000 * 2 ^ 32 -> let x := mk64 false n in
  o_sub o (fneg x) (o_mul o (fneg x) (atan_poly o (fneg x))) = fneg (o_sub o x (o_mul o x (atan_poly o x))).
Proof using Ho.
  intros H. cbv zeta. set (x := mk64 false n). assert (good x) as G by (apply good_mk; lia). assert (value F64 x = mag64 n) as VX by (apply value64; lia).
  pose proof (bound_le 0x3fdc000000000000 7 4 n ltac:(vm_compute; reflexivity) ltac:(lia) ltac:(lia)) as Q. change (bpow radix2 (- (4))) with (/ 16)%R in Q. pose proof (bound_ge 0x3e40000000000000 1 27 n ltac:(vm_compute; reflexivity) ltac:(lia) ltac:(lia)) as Q2. rewrite Rmult_1_l in Q2. change (bpow radix2 (- (27))) with (bpow radix2 (-27)) in Q2. pose proof (bpow_gt_0 radix2 (-27)) as P27.
  pose proof (caseQ o Ho x G) as W. rewrite VX, Rabs_pos_eq in W by lra. specialize (W ltac:(lra)).
  assert (bpow radix2 (-30) <= Rabs (atan (mag64 n)) < 4)%R as B.
  { pose proof (atan_ge (mag64 n) ltac:(lra)) as L. pose proof (atan_le (mag64 n) ltac:(lra)) as U. assert (mag64 n / 2 <= mag64 n / (1 + mag64 n * mag64 n))%R as L2. { unfold Rdiv. apply Rmult_le_compat_l; [lra|]. apply Rinv_le; nra. }
    assert (bpow radix2 (-30) <= bpow radix2 (-27) / 2)%R as L3. { apply Rle_trans with (bpow radix2 (-28)); [apply bpow_le; lia|]. change (-27) with (1 + -28). rewrite bpow_plus. change (bpow radix2 1) with 2%R. lra. } rewrite Rabs_pos_eq; lra. }
  pose proof (within_nz 1 _ _ ltac:(lra) W B) as NZ. destruct W as (Fr & Nr & _).
  assert (is_float F64 x) as Fx by apply G. set (p := atan_poly o x) in *. assert (is_float F64 p) as Fp by (apply fpoly; exact Fx).
  assert (good (o_mul o x p)) as Gm by (apply (sub_fin x); [exact G|apply fmul; assumption|exact Nr]).
  assert (good p) as Gp. { apply (mul_fin x); [exact G| |exact Fp|apply Gm]. unfold x. rewrite zero64 by lia. lia. }
  assert (atan_poly o (fneg x) = p) as ->. { unfold p, atan_poly. rewrite (mul_nn x G). reflexivity. }
  rewrite mul_neg by assumption. apply sub_nn; [exact G|exact Gm|]. intros Z. apply NZ.
  destruct (ops_sub F64 o Ho x (o_mul o x p) Fx (proj1 Gm)) as (_ & _ & _ & _ & _ & R1). specialize (R1 (proj2 G) (proj2 Gm)). destruct R1 as (_ & _ & R1). rewrite Z, FloatErr.rne_0, Rabs_R0 in R1. rewrite Rlt_bool_true in R1 by apply bpow_gt_0. apply R1.
Qed.
Lemma atan_odd n : 0 <= n < 2 ^ 63 -> libm_atan o (mk64 true n) = (let* r := libm_atan o (mk64 false n) in Ok (fneg r)).
Proof using Ho.
  intros Hn. unfold libm_atan. cbv zeta. rewrite !high_sign, !high_abs, !is_nanb64, !fabs_mk by exact Hn. rewrite hx_leb.
  assert (forall a, (n / 2 ^ 32 <? a) = (n <? a * 2 ^ 32)) as LT by (intros a; rewrite !Z.ltb_antisym, hx_leb; reflexivity). rewrite !LT.
  destruct (Z.leb_spec (0x44100000 * 2 ^ 32) n) as [L|L].
  { destruct (INF <? n); cbn [bind]; [rewrite fneg_mk by exact Hn; reflexivity|reflexivity]. }
  destruct (Z.ltb_spec n (0x3fdc0000 * 2 ^ 32)) as [L1|L1].
  { destruct (Z.ltb_spec n (0x3e400000 * 2 ^ 32)) as [L2|L2]; cbn [bind]; [rewrite fneg_mk by exact Hn; reflexivity|].
    unfold atan_end. change (-1 <? 0) with true. cbv iota. cbn [bind]. f_equal. pose proof (quarter_odd n ltac:(lia)) as Q. cbv zeta in Q. rewrite fneg_mk in Q by exact Hn. exact Q. }
  destruct (n <? 0x3ff30000 * 2 ^ 32); [destruct (n <? 0x3fe60000 * 2 ^ 32)|destruct (n <? 0x40038000 * 2 ^ 32)]; reflexivity.
Qed.

(** asin *)
Lemma rounded_zero a b r : good a -> good b -> ieee_add F64 a b r -> (value F64 a + value F64 b = 0)%R -> value F64 r = 0%R.
Proof using.
  clear. intros Ga Gb (_ & _ & _ & _ & R1) Z. specialize (R1 (proj2 Ga) (proj2 Gb)). destruct R1 as (_ & _ & R1). rewrite Z, FloatErr.rne_0, Rabs_R0 in R1. rewrite Rlt_bool_true in R1 by apply bpow_gt_0. apply R1.
Qed.
Lemma asin_sub_val s n (x := mk64 s n) : 0 <= n < 2 ^ 52 -> good (comp_r o (o_mul o x x)) /\ good (o_mul o x (comp_r o (o_mul o x x))) /\ value F64 (o_mul o x (comp_r o (o_mul o x x))) = 0%R.
Proof using Ho.
  intros H. assert (good x) as G by (apply good_mk; lia). assert (Rabs (value F64 x) = mag64 n) as AX by (apply Rabs64; lia).
  assert (mag64 n <= bpow radix2 (-1022))%R as M. { apply Rle_trans with (mag64 (2 ^ 52)); [apply mag_le64; lia|]. unfold mag64. change (V F64 (2 ^ 52)) with (2 ^ 52). change (IZR (2 ^ 52)) with (bpow radix2 52). rewrite <- bpow_plus. apply bpow_le. change (emin F64) with (-1074). lia. }
  set (X := value F64 x) in *. assert (bpow radix2 (-1022) <= / 1000)%R as K1 by (apply Rle_trans with (bpow radix2 (-10)); [apply bpow_le; lia|change (bpow radix2 (-10)) with (/ 1024)%R; lra]). pose proof (Rabs_pos X) as P0.
  destruct (mul64 o Ho x x G G) as [Gz Vz]; [fold X; apply (small_ok _ 0); [lia|rewrite Rabs_mult; change (bpow radix2 0) with 1%R; nra]|]. fold X in Vz. set (z := o_mul o x x) in *.
  assert (value F64 z = 0%R) as Z0.
  { destruct (good_split z Gz) as (sz & nz & Ez & Hz). destruct (Z.eq_dec nz 0) as [->|N]; [rewrite Ez, value64, mag0_64 by lia; destruct sz; lra|]. exfalso.
    assert (Rabs (value F64 z) = mag64 nz) as AZ by (rewrite Ez; apply Rabs64; lia). assert (mag64 1 <= mag64 nz)%R as L by (apply mag_le64; lia). change (mag64 1) with (1 * bpow radix2 (-1074))%R in L.
    pose proof (rne_abs (X * X)) as A. rewrite <- Vz in A. assert (Rabs (X * X) <= bpow radix2 (-1080))%R as XX. { rewrite Rabs_mult. apply Rle_trans with (bpow radix2 (-1022) * bpow radix2 (-1022))%R; [apply Rmult_le_compat; lra|rewrite <- bpow_plus; apply bpow_le; lia]. }
    pose proof (Rabs_triang (value F64 z - X * X) (X * X)) as T. replace (value F64 z - X * X + X * X)%R with (value F64 z) in T by ring. assert (bpow radix2 (-1074) = 2 * bpow radix2 (-1075))%R as E1 by (change (-1074) with (1 + -1075); rewrite bpow_plus; reflexivity). assert (bpow radix2 (-1075) = 32 * bpow radix2 (-1080))%R as E2 by (change (-1075) with (5 + -1080); rewrite bpow_plus; reflexivity). pose proof (bpow_gt_0 radix2 (-1080)).
    pose proof u53_small as US. unfold u53 in US. assert (bpow radix2 (-53) * Rabs (X * X) <= 1 * Rabs (X * X))%R by (apply Rmult_le_compat_r; [apply Rabs_pos|lra]). lra. }
  destruct (comp_zero o Ho z Gz Z0) as [Gr Vr0]. destruct (mul64 o Ho x (comp_r o z) G Gr) as [Gm Vm]; [rewrite Vr0, Rmult_0_r, Rabs_R0; apply bpow_ge_0|]. rewrite Vr0, Rmult_0_r, FloatErr.rne_0 in Vm. split; [exact Gr|]. split; assumption.
Qed.
Lemma asin_low_odd n : 0 <= n < 0x3fe00000 * 2 ^ 32 -> n < 2 ^ 52 \/ 0x3e500000 * 2 ^ 32 <= n -> let x := mk64 false n in
  o_add o (fneg x) (o_mul o (fneg x) (comp_r o (o_mul o (fneg x) (fneg x)))) = fneg (o_add o x (o_mul o x (comp_r o (o_mul o x x)))).
Proof using Ho.
  intros H C. cbv zeta. set (x := mk64 false n). assert (good x) as G by (apply good_mk; lia). assert (value F64 x = mag64 n) as VX by (apply value64; lia). rewrite mul_nn by exact G. set (p := comp_r o (o_mul o x x)).
  destruct (Z.eq_dec n 0) as [->|N0]. { pose proof (asin_zero o Ho true) as A. pose proof (asin_zero o Ho false) as B. unfold p, x. rewrite B. rewrite fneg_mk by lia. cbn [negb]. replace (o_mul o (mk64 false 0) (mk64 false 0)) with (o_mul o (mk64 true 0) (mk64 true 0)); [exact A|]. rewrite <- (mul_nn (mk64 false 0)), fneg_mk by (try lia; apply good_mk; lia). reflexivity. }
  assert (good p /\ good (o_mul o x p) /\ (value F64 x + value F64 (o_mul o x p) <> 0)%R) as (Gp & Gm & NZ).
  { destruct C as [C|C].
    - destruct (asin_sub_val false n ltac:(lia)) as (A & B & E). fold x in A, B, E. fold p in A, B, E. split; [exact A|]. split; [exact B|]. rewrite E, VX. pose proof (mag_lt64 0 n ltac:(lia)) as P. rewrite mag0_64 in P. lra.
    - pose proof (bound_le 0x3fe0000000000000 1 1 n ltac:(vm_compute; reflexivity) ltac:(lia) ltac:(lia)) as B0. change (bpow radix2 (- (1))) with (/ 2)%R in B0. pose proof (bound_ge 0x3e50000000000000 1 26 n ltac:(vm_compute; reflexivity) ltac:(lia) ltac:(lia)) as Q. rewrite Rmult_1_l in Q. pose proof (bpow_le radix2 (-27) (-26) ltac:(lia)). change (bpow radix2 (- (26))) with (bpow radix2 (-26)) in Q. pose proof (bpow_gt_0 radix2 (-27)) as P27.
      pose proof (asin_small o Ho x G) as W. rewrite VX, Rabs_pos_eq in W by lra. specialize (W ltac:(lra)). fold p in W.
      assert (mag64 n <= asin (mag64 n) < 4)%R as B. { pose proof (asin_bound (mag64 n)) as AB. pose proof PI_num as PN. split; [|lra]. destruct (Rle_lt_dec (mag64 n) (asin (mag64 n))) as [L|L]; [exact L|exfalso]. destruct (Rle_lt_dec (asin (mag64 n)) 0) as [M|M].
        - assert (sin (asin (mag64 n)) <= 0)%R as S. { replace (asin (mag64 n)) with (- - asin (mag64 n))%R by ring. rewrite sin_neg. pose proof (sin_ge_0 (- asin (mag64 n)) ltac:(lra) ltac:(lra)). lra. } rewrite sin_asin in S by lra. lra.
        - pose proof (sin_lt_x (asin (mag64 n)) M) as S. rewrite sin_asin in S by lra. lra. }
      assert (bpow radix2 (-30) <= bpow radix2 (-27))%R by (apply bpow_le; lia).
      assert (value F64 (o_add o x (o_mul o x p)) <> 0%R) as NZ by (apply (within_nz (5 / 4) _ (asin (mag64 n))); [lra|exact W|rewrite Rabs_pos_eq; lra]). destruct W as (Fr & Nr & _). assert (is_float F64 x) as Fx by apply G.
      assert (is_float F64 p) as Fp by (apply fcomp, fmul; exact Fx). assert (good (o_mul o x p)) as Gm by (apply (add_fin x); [exact G|apply fmul; assumption|exact Nr]).
      split; [|split; [exact Gm|]]. { apply (mul_fin x); [exact G| |exact Fp|apply Gm]. unfold x. rewrite zero64 by lia. lia. }
      intros Z. apply NZ. apply (rounded_zero x (o_mul o x p)); [exact G|exact Gm| |exact Z]. apply (proj2 (ops_add F64 o Ho _ _ Fx (proj1 Gm))). }
  rewrite mul_neg by assumption. apply add_nn; assumption.
Qed.
Lemma asin_odd n : 0 <= n <= one -> libm_asin o (mk64 true n) = (let* r := libm_asin o (mk64 false n) in Ok (fneg r)).
Proof using Ho.
  intros Ho1. assert (0 <= n < 2 ^ 63) as Hn by (unfold one in *; lia). unfold libm_asin. cbv zeta. rewrite !high_sign, !high_abs, !low_mk, !fabs_mk by exact Hn. rewrite !hx_leb.
  assert (forall a, (n / 2 ^ 32 <? a) = (n <? a * 2 ^ 32)) as LT by (intros a; rewrite !Z.ltb_antisym, hx_leb; reflexivity). rewrite !LT.
  destruct (Z.leb_spec (0x3ff00000 * 2 ^ 32) n) as [L|L].
  { destruct (words1 n Hn L) as (d & -> & E). cbn [bind]. rewrite E. destruct (Z.eqb_spec n one) as [->|N]; [|unfold one in *; lia]. rewrite !asin_one by exact Ho. reflexivity. }
  destruct (Z.ltb_spec n (0x3fe00000 * 2 ^ 32)) as [L1|L1].
  { assert (n < 2 ^ 52 \/ 0x3e500000 * 2 ^ 32 <= n -> o_add o (mk64 true n) (o_mul o (mk64 true n) (comp_r o (o_mul o (mk64 true n) (mk64 true n)))) = fneg (o_add o (mk64 false n) (o_mul o (mk64 false n) (comp_r o (o_mul o (mk64 false n) (mk64 false n)))))) as Q.
    { intros C. pose proof (asin_low_odd n ltac:(lia) C) as Q. cbv zeta in Q. rewrite fneg_mk in Q by exact Hn. exact Q. }
    destruct (Z.leb_spec (0x00100000 * 2 ^ 32) n) as [L2|L2]; cbn [andb]; [destruct (Z.ltb_spec n (0x3e500000 * 2 ^ 32)) as [L3|L3]|]; cbn [bind].
    - rewrite fneg_mk by exact Hn. reflexivity.
    - rewrite Q by lia. reflexivity.
    - rewrite Q by lia. reflexivity. }
  destruct (hsqrt o _) as [r|]; cbn [bind]; reflexivity.
Qed.

(** atan2, in its first argument *)
Lemma fabs_fneg x : is_float F64 x -> atan_fabs (fneg x) = atan_fabs x.
Proof using. clear. intros F. destruct (split64 x F) as (s & n & -> & H). rewrite fneg_mk, !fabs_mk by exact H. reflexivity. Qed.
Lemma atan2_odd s n k : 0 <= n <= INF -> 0 <= k <= INF ->
  libm_atan2 o (mk64 true k) (mk64 s n) = (let* r := libm_atan2 o (mk64 false k) (mk64 s n) in Ok (fneg r)).
Proof using Ho.
  intros Hn Hk. unfold libm_atan2. cbv zeta. rewrite !is_nanb64 by lia. destruct (Z.ltb_spec INF n); [lia|]. destruct (Z.ltb_spec INF k); [lia|]. cbn [orb].
  rewrite !words_one by lia. destruct (negb s && (n =? 0x3ff0000000000000)) eqn:E1; [apply atan_odd; lia|]. rewrite !quadrant, !high_abs, !low_mk, !words_zero, !inf_word, !words_gap by lia.
  destruct (Z.eqb_spec k 0) as [->|Nk]; [destruct s; reflexivity|]. destruct (c_quarter o Ho) as (Q1 & Q2 & Q3 & Q4). rewrite !c_half, !c_mhalf, Q1, Q2, Q3, Q4 by exact Ho.
  destruct (Z.eqb_spec n 0) as [->|Nn]; [destruct s; reflexivity|]. destruct (Z.eqb_spec n INF) as [->|Ni]; [destruct (k =? INF); destruct s; reflexivity|].
  destruct (_ || _) eqn:C; [destruct s; reflexivity|]. apply orb_false_iff in C. destruct C as [C1 C2]. apply Z.ltb_ge in C1. apply Z.eqb_neq in C2.
  assert (good (mk64 false k)) as Gk by (apply good_mk; lia). assert (good (mk64 s n)) as Gn by (apply good_mk; lia). assert (~ is_zero F64 (mk64 s n)) as Zn by (rewrite zero64 by lia; lia).
  assert (atan_fabs (o_div o (mk64 true k) (mk64 s n)) = atan_fabs (o_div o (mk64 false k) (mk64 s n))) as ->. { replace (mk64 true k) with (fneg (mk64 false k)) by (rewrite fneg_mk by lia; reflexivity). rewrite div_neg by assumption. apply fabs_fneg. apply fdiv; [apply Gk|apply Gn]. }
  destruct (quotient o Ho s n false k ltac:(lia) ltac:(lia) C1) as (z & Ez & Gz & Bz). pose proof (mag_lt64 0 n ltac:(lia)) as Pn. pose proof (mag_lt64 0 k ltac:(lia)) as Pk. rewrite mag0_64 in Pn, Pk. set (q := (mag64 k / mag64 n)%R) in *. assert (0 < q)%R as Pq by (apply Rdiv_lt_0_compat; assumption).
  destruct s.
  2:{ rewrite !Ez. reflexivity. }
  change (negb (Z.land (b2z true + 2 * b2z true) 2 =? 0)) with true. change (negb (Z.land (b2z false + 2 * b2z true) 2 =? 0)) with true. cbn [andb].
  assert (exists z', (if k / 2 ^ 32 + 2 ^ 26 <? n / 2 ^ 32 then Ok 0 else libm_atan o (atan_fabs (o_div o (mk64 false k) (mk64 true n)))) = Ok z' /\ good z' /\ (Rabs (value F64 z' - atan q) <= 5 * bpow radix2 (-54))%R) as (z' & Ez' & Gz' & Bz').
  { destruct (Z.ltb_spec (k / 2 ^ 32 + 2 ^ 26) (n / 2 ^ 32)) as [C|C].
    - exists 0. split; [reflexivity|]. split; [apply (good_mk false 0); lia|]. rewrite value_zero. rewrite Rminus_0_l, Rabs_Ropp.
      pose proof (mag_gap k n ltac:(lia) ltac:(lia) C) as M. eapply Rle_trans; [apply atan_abs|]. rewrite Rabs_pos_eq by lra.
      apply Rle_trans with (bpow radix2 (-64)); [|pose proof (bpow_le radix2 (-64) (-54) ltac:(lia)); pose proof (bpow_gt_0 radix2 (-54)); lra].
      apply (Rmult_le_reg_r (mag64 n)); [exact Pn|]. unfold q, Rdiv. rewrite Rmult_assoc, Rinv_l, Rmult_1_r by lra. apply (Rmult_le_reg_l (bpow radix2 64)); [apply bpow_gt_0|]. rewrite <- Rmult_assoc, <- bpow_plus. change (64 + -64) with 0. change (bpow radix2 0) with 1%R. lra.
    - exists z. split; [exact Ez|]. split; [exact Gz|]. apply first_abs; [lra|exact Bz]. }
  rewrite Ez'. cbn [bind]. assert (0 <= atan q <= PI / 2)%R as BA. { pose proof (atan_bound q). pose proof (atan_ge q ltac:(lra)). assert (0 <= q / (1 + q * q))%R by (apply Rmult_le_pos; [lra|left; apply Rinv_0_lt_compat; nra]). lra. }
  destruct (last_step o Ho z' (atan q) Gz' BA Bz') as [W1 _]. pose proof PI_num as PN. assert (bpow radix2 (-30) <= 1)%R as P30 by (change 1%R with (bpow radix2 0); apply bpow_le; lia).
  pose proof (within_nz 3 _ _ ltac:(lra) W1 ltac:(rewrite Rabs_pos_eq; lra)) as NZ. destruct W1 as (_ & Nr & _). assert (good (o_sub o z' PI_LO64)) as Gd by (apply (sub_fin PI64); [apply good_PI|apply fsub; [apply Gz'|apply good_PI_LO]|exact Nr]).
  change (b2z true + 2 * b2z true) with 3. change (b2z false + 2 * b2z true) with 2. change (3 =? 0) with false. change (3 =? 1) with false. change (3 =? 2) with false. change (2 =? 0) with false. change (2 =? 1) with false. change (2 =? 2) with true. cbv iota. f_equal. apply sub_swap; [apply good_PI|exact Gd|]. intros Z. apply NZ.
  destruct (ops_sub F64 o Ho _ _ (proj1 good_PI) (proj1 Gd)) as (_ & _ & _ & _ & _ & R1). specialize (R1 (proj2 good_PI) (proj2 Gd)). destruct R1 as (_ & _ & R1). rewrite Z, FloatErr.rne_0, Rabs_R0 in R1. rewrite Rlt_bool_true in R1 by apply bpow_gt_0. apply R1.
Qed.
End Odd.
