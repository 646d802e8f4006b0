(** asin and acos: the case analysis. *)
From Coq Require Import ZArith Reals Bool List Lia Lra Psatz.
From Flocq Require Import Core.
From Coquelicot Require Import Coquelicot.
From Verif Require Import Base BaseLemmas FloatModel FloatSpec FloatProofs FloatLib LibmModel LibmSpec Elem FloatErr PolyBound ElemModel ElemSpec TrigModel F64Lib ExpProofs3 ExpProofs4 ExpProofs5 ExpProofs6 ExpProofs7 ExpProofs8 LogProofs LogProofs2 LogProofs4 TrigProofs TrigRed TrigRed5 TrigLg8 TrigLg11 HypotModel HypotProofs3 AtanModel AtanProofs AtanProofs2 AtanProofs3 AtanProps Atan2Model Atan2Proofs Atan2Proofs2 Atan2Proofs3 AsinModel AsinProofs AsinProofs2 AsinProofs3 AsinProofs4.
Import ListNotations.
Open Scope Z_scope.

(** * Tiny arguments *)
Lemma asin_near X : (0 <= X <= / 1000)%R -> (X <= asin X <= X + 0.61 * (X * X * X))%R.
Proof.
  intros H. destruct (MVT_gen asin 0 X (fun t => / sqrt (1 - t * t))%R) as (c & Hc & E).
  - intros t Ht. rewrite Rmin_left, Rmax_right in Ht by lra. apply asin_derive. lra.
  - intros t Ht. rewrite Rmin_left, Rmax_right in Ht by lra. apply continuity_pt_filterlim, (ex_derive_continuous asin). eexists. apply asin_derive. lra.
  - rewrite Rmin_left, Rmax_right in Hc by lra. rewrite asin_0, !Rminus_0_r in E. assert (0 <= c * c <= X * X)%R as C by nra. assert (X * X <= / 1000000)%R as XX by nra.
    assert (1 - 0.6 * (c * c) <= sqrt (1 - c * c) <= 1)%R as [S1 S2]. { split; [|rewrite <- sqrt_1 at 2; apply sqrt_le_1; lra]. rewrite <- (sqrt_square (1 - 0.6 * (c * c))) by lra. apply sqrt_le_1; [nra|lra|]. set (q := (c * c)%R) in *. nra. }
    set (r := sqrt (1 - c * c)) in *. assert (0.9 <= r)%R by lra. assert (1 <= / r)%R as R1. { rewrite <- Rinv_1 at 1. apply Rinv_le; lra. }
    assert (/ r <= 1 + 0.61 * (c * c))%R as R2. { apply (Rmult_le_reg_r r); [lra|]. rewrite Rinv_l by lra. set (q := (c * c)%R) in *. nra. }
    rewrite E. split; [nra|]. replace (X + 0.61 * (X * X * X))%R with ((1 + 0.61 * (X * X)) * X)%R by ring. apply Rmult_le_compat_r; lra.
Qed.
Lemma asin_tiny_pos X : (0 <= X <= bpow radix2 (-26))%R -> (Rabs (X - asin X) <= 5 / 4 * ulp64 (asin X))%R.
Proof.
  intros H. assert (bpow radix2 (-26) = / 67108864)%R as E26 by reflexivity. pose proof (asin_near X ltac:(lra)) as A. pose proof (ulp64_rel (asin X)) as U. rewrite (Rabs_pos_eq (asin X)) in U by lra. assert (bpow radix2 (-53) = / 9007199254740992)%R as E53 by reflexivity. rewrite E53 in U.
  rewrite Rabs_minus_sym, Rabs_pos_eq by lra. assert (X * X <= / 4503599627370496)%R by nra. assert (X * X * X <= / 4503599627370496 * X)%R by (apply Rmult_le_compat_r; lra). lra.
Qed.
Lemma asin_tiny x : good x -> (Rabs (value F64 x) <= bpow radix2 (-26))%R -> within (5 / 4) x (asin (value F64 x)).
Proof.
  intros [F N] B. split; [exact F|]. split; [exact N|]. set (X := value F64 x) in *. destruct (Rle_lt_dec 0 X) as [p|p].
  - apply asin_tiny_pos. rewrite Rabs_pos_eq in B; lra.
  - pose proof (asin_tiny_pos (- X)) as Q. rewrite Rabs_left in B by exact p. specialize (Q ltac:(lra)). rewrite asin_opp in Q. unfold ulp64 in *. rewrite ulp_opp in Q. replace (- X - - asin X)%R with (- (X - asin X))%R in Q by ring. rewrite Rabs_Ropp in Q. exact Q.
Qed.

Section Asin.
Context (o : fops) (Ho : ieee_ops F64 o).
Ltac gd := match goal with |- good ?c => first [apply (good_mk false c); vm_compute; intuition discriminate|let m := eval vm_compute in (c - 2 ^ 63) in apply (good_mk true m); vm_compute; intuition discriminate] end.
Ltac lit a := let v := eval vm_compute in a in lazymatch v with Zpos _ => idtac | Z0 => idtac end.
Ltac stp := match goal with
  | |- context [o_mul o ?a ?b] => lit a; lit b; rewrite (mul_soft o Ho a b) by gd; let v := eval vm_compute in (o_mul (soft_ops F64 8) a b) in change (o_mul (soft_ops F64 8) a b) with v
  | |- context [o_add o ?a ?b] => lit a; lit b; rewrite (add_soft o Ho a b) by gd; let v := eval vm_compute in (o_add (soft_ops F64 8) a b) in change (o_add (soft_ops F64 8) a b) with v
  | |- context [o_div o ?a ?b] => lit a; lit b; rewrite (div_soft o Ho a b) by (first [gd|apply nzk; vm_compute; intuition]); let v := eval vm_compute in (o_div (soft_ops F64 8) a b) in change (o_div (soft_ops F64 8) a b) with v
  end.
Lemma comp_r_0 : comp_r o 0 = 0.
Proof using Ho. unfold comp_r. cbv zeta. repeat stp. reflexivity. Qed.
Lemma asin_zero (s : bool) (x := mk64 s 0) : o_add o x (o_mul o x (comp_r o (o_mul o x x))) = x.
Proof using Ho.
  assert (o_mul o x x = 0) as -> by (destruct s; [change x with 0x8000000000000000|change x with 0]; repeat stp; reflexivity). rewrite comp_r_0. destruct s; [change x with 0x8000000000000000|change x with 0]; repeat stp; reflexivity.
Qed.
Lemma asin_one (s : bool) : o_add o (o_mul o (mk64 s one) PIO2_HI) x1p_120 = flip s PIO2_HI.
Proof using Ho. destruct s; [change (mk64 true one) with 0xbff0000000000000|change (mk64 false one) with one]; repeat stp; reflexivity. Qed.
Lemma acos_one : o_add o (o_mul o two PIO2_HI) x1p_120 = PI64.
Proof using Ho. repeat stp. reflexivity. Qed.
Lemma acos_zero : o_add o PIO2_HI x1p_120 = PIO2_HI.
Proof using Ho. repeat stp. reflexivity. Qed.
Lemma nan_quot x : is_float F64 x -> is_qnan F64 (o_div o 0 (o_sub o x x)) /\ is_float F64 (o_div o 0 (o_sub o x x)).
Proof using Ho.
  intros F. assert (is_float F64 0) as F0 by (vm_compute; intuition discriminate). assert (is_zero F64 0) as Z0 by (change 0 with (mk64 false 0); rewrite zero64; lia). destruct (ops_sub F64 o Ho x x F F) as (Fs & _).
  destruct (ops_div F64 o Ho 0 (o_sub o x x) F0 Fs) as (Fr & A & B & _). split; [|exact Fr]. destruct (sub_self o Ho x F) as [[Q _]|[Q _]]; [apply A; right; exact Q|]. apply B. right. rewrite Q. split; exact Z0.
Qed.
(** Subnormal arguments *)
Lemma asin_sub s n (x := mk64 s n) : 0 <= n < 2 ^ 52 -> within (5 / 4) (o_add o x (o_mul o x (comp_r o (o_mul o x x)))) (asin (value F64 x)).
Proof using Ho.
  intros H. assert (good x) as G by (apply good_mk; lia). assert (Rabs (value F64 x) = mag64 n) as AX by (apply Rabs64; lia).
  assert (mag64 n <= bpow radix2 (-1022))%R as M. { apply Rle_trans with (mag64 (2 ^ 52)); [apply mag_le64; lia|]. unfold mag64. change (V F64 (2 ^ 52)) with (2 ^ 52). change (IZR (2 ^ 52)) with (bpow radix2 52). rewrite <- bpow_plus. apply bpow_le. change (emin F64) with (-1074). lia. }
  set (X := value F64 x) in *. assert (bpow radix2 (-1022) <= / 1000)%R as K1 by (apply Rle_trans with (bpow radix2 (-10)); [apply bpow_le; lia|change (bpow radix2 (-10)) with (/ 1024)%R; lra]). pose proof (Rabs_pos X) as P0.
  destruct (mul64 o Ho x x G G) as [Gz Vz]; [fold X; apply (small_ok _ 0); [lia|rewrite Rabs_mult; change (bpow radix2 0) with 1%R; nra]|]. fold X in Vz. set (z := o_mul o x x) in *.
  assert (value F64 z = 0%R) as Z0.
  { destruct (good_split z Gz) as (sz & nz & Ez & Hz). destruct (Z.eq_dec nz 0) as [->|N]; [rewrite Ez, value64, mag0_64 by lia; destruct sz; lra|]. exfalso.
    assert (Rabs (value F64 z) = mag64 nz) as AZ by (rewrite Ez; apply Rabs64; lia). assert (mag64 1 <= mag64 nz)%R as L by (apply mag_le64; lia). change (mag64 1) with (1 * bpow radix2 (-1074))%R in L.
    pose proof (rne_abs (X * X)) as A. rewrite <- Vz in A. assert (Rabs (X * X) <= bpow radix2 (-1080))%R as XX. { rewrite Rabs_mult. apply Rle_trans with (bpow radix2 (-1022) * bpow radix2 (-1022))%R; [apply Rmult_le_compat; lra|rewrite <- bpow_plus; apply bpow_le; lia]. }
    pose proof (Rabs_triang (value F64 z - X * X) (X * X)) as T. replace (value F64 z - X * X + X * X)%R with (value F64 z) in T by ring. assert (bpow radix2 (-1074) = 2 * bpow radix2 (-1075))%R as E1 by (change (-1074) with (1 + -1075); rewrite bpow_plus; reflexivity). assert (bpow radix2 (-1075) = 32 * bpow radix2 (-1080))%R as E2 by (change (-1075) with (5 + -1080); rewrite bpow_plus; reflexivity). pose proof (bpow_gt_0 radix2 (-1080)).
    pose proof u53_small as US. unfold u53 in US. assert (bpow radix2 (-53) * Rabs (X * X) <= 1 * Rabs (X * X))%R by (apply Rmult_le_compat_r; [apply Rabs_pos|lra]). lra. }
  destruct (comp_zero o Ho z Gz Z0) as [Gr Vr0]. destruct (mul64 o Ho x (comp_r o z) G Gr) as [Gm Vm]; [rewrite Vr0, Rmult_0_r, Rabs_R0; apply bpow_ge_0|]. rewrite Vr0, Rmult_0_r, FloatErr.rne_0 in Vm.
  destruct (add64 o Ho x (o_mul o x (comp_r o z)) G Gm) as [[G1 G2] V]; [rewrite Vm, Rplus_0_r; fold X; apply (small_ok _ 0); [lia|change (bpow radix2 0) with 1%R; lra]|]. rewrite Vm, Rplus_0_r in V. fold X in V.
  assert (rne F64 X = X) as EX. { unfold X, x. rewrite value64 by lia. destruct s; [rewrite rne_opp|]; rewrite rne_mag64 by lia; reflexivity. } rewrite EX in V.
  split; [exact G1|]. split; [exact G2|]. rewrite V. apply asin_tiny; [exact G|]. fold X. rewrite AX. eapply Rle_trans; [exact M|apply bpow_le; lia].
Qed.
Lemma words1 n : 0 <= n < 2 ^ 63 -> 0x3ff00000 * 2 ^ 32 <= n -> exists d, csub (UI 32) (n / 2 ^ 32) 0x3ff00000 = Ok d /\ (Z.lor d (n mod 2 ^ 32) =? 0) = (n =? one).
Proof using.
  clear. intros H L. exists (n / 2 ^ 32 - 0x3ff00000). assert (0x3ff00000 <= n / 2 ^ 32 < 2 ^ 31) as B by (split; [apply Z.div_le_lower_bound; lia|apply Z.div_lt_upper_bound; lia]). split; [apply csub_u; lia|].
  apply eq_true_iff_eq. rewrite !Z.eqb_eq, Z.lor_eq_0_iff. pose proof (Z.div_mod n (2 ^ 32) ltac:(lia)). pose proof (Z.mod_pos_bound n (2 ^ 32) ltac:(lia)). change one with 0x3ff0000000000000. lia.
Qed.
Lemma mag_one : mag64 one = 1%R.
Proof using. clear. rewrite mag_value by (unfold one; lia). apply value_one. Qed.
Lemma asin_mk s n : 0 <= n < 2 ^ 63 -> asin (value F64 (mk64 s n)) = (if s then - asin (mag64 n) else asin (mag64 n))%R.
Proof using. clear. intros H. rewrite value64 by exact H. destruct s; [apply asin_opp|reflexivity]. Qed.
(** The reduced argument *)
Lemma red_ok v n : good v -> 0x3fe00000 * 2 ^ 32 <= n < one -> value F64 v = rne F64 (1 - mag64 n) ->
  good (o_mul o v half) /\ value F64 (o_mul o v half) = ((1 - mag64 n) / 2)%R /\ (bpow radix2 (-54) <= (1 - mag64 n) / 2 <= / 4)%R /\ (/ 2 <= mag64 n <= 1)%R.
Proof using Ho.
  intros Gv Hn Ev. change one with 0x3ff0000000000000 in Hn. assert (good n) as Gn by (apply (good_mk false n); lia). assert (value F64 n = mag64 n) as VN by (symmetry; apply mag_value; lia).
  pose proof (bound_ge 0x3fe0000000000000 1 1 n ltac:(vm_compute; reflexivity) ltac:(lia) ltac:(lia)) as B0. change (bpow radix2 (- (1))) with (/ 2)%R in B0. pose proof (mag_lt64 n one ltac:(unfold one; lia)) as B1. rewrite mag_one in B1.
  destruct (reduced o Ho v n Gv Gn) as (A & B & C); [rewrite VN; lra|rewrite VN; exact Ev|]. rewrite VN in B, C. split; [exact A|]. split; [exact B|]. split; [exact C|lra].
Qed.
Lemma asin_mk_all s n : 0 <= n < 2 ^ 63 -> exists r, libm_asin o (mk64 s n) = Ok r /\ is_float F64 r /\ (one < n -> is_qnan F64 r) /\ (n = 0 -> r = mk64 s n) /\
  (n <= one -> within (5 / 4) r (asin (value F64 (mk64 s n)))).
Proof using Ho.
  intros Hn. assert (is_float F64 (mk64 s n)) as F by (apply float64; exact Hn). unfold libm_asin. cbv zeta. rewrite !high_sign, !high_abs, !low_mk, !fabs_mk by exact Hn. set (x := mk64 s n) in *. rewrite !hx_leb.
  assert (forall a, (n / 2 ^ 32 <? a) = (n <? a * 2 ^ 32)) as LT by (intros a; rewrite !Z.ltb_antisym, hx_leb; reflexivity). rewrite !LT.
  destruct (Z.leb_spec (0x3ff00000 * 2 ^ 32) n) as [L|L].
  { destruct (words1 n Hn L) as (d & -> & E). cbn [bind]. rewrite E. destruct (Z.eqb_spec n one) as [->|N].
    - unfold x. rewrite asin_one. eexists. split; [reflexivity|]. assert (within (5 / 4) (flip s PIO2_HI) (asin (value F64 (mk64 s one)))) as W. { rewrite asin_mk, mag_one, asin_1 by exact Hn. apply (within_flip s (5 / 4)). apply (within_mono 1); [lra|]. apply C58_half_pi. } split; [apply W|]. split; [lia|]. split; [unfold one; lia|]. intros _. exact W.
    - destruct (nan_quot x F) as [Q FQ]. eexists. split; [reflexivity|]. split; [exact FQ|]. split; [intros _; exact Q|]. unfold one in *. split; lia. }
  assert (good x) as G by (apply good_mk; lia). assert (Rabs (value F64 x) = mag64 n) as AX by (apply Rabs64; lia).
  assert (forall r, within (5 / 4) r (asin (value F64 x)) -> (n = 0 -> r = x) -> is_float F64 r /\ (one < n -> is_qnan F64 r) /\ (n = 0 -> r = x) /\ (n <= one -> within (5 / 4) r (asin (value F64 x)))) as FIN.
  { intros r W Z. split; [apply W|]. split; [unfold one; lia|]. split; [exact Z|]. intros _. exact W. }
  destruct (Z.ltb_spec n (0x3fe00000 * 2 ^ 32)) as [L1|L1].
  { pose proof (bound_le 0x3fe0000000000000 1 1 n ltac:(vm_compute; reflexivity) ltac:(lia) ltac:(lia)) as B0. change (bpow radix2 (- (1))) with (/ 2)%R in B0.
    destruct (Z.leb_spec (0x00100000 * 2 ^ 32) n) as [L2|L2]; cbn [andb].
    - destruct (Z.ltb_spec n (0x3e500000 * 2 ^ 32)) as [L3|L3].
      + eexists. split; [reflexivity|]. apply FIN; [|reflexivity]. apply asin_tiny; [exact G|]. rewrite AX. pose proof (bound_le 0x3e50000000000000 1 26 n ltac:(vm_compute; reflexivity) ltac:(lia) ltac:(lia)) as Q. rewrite Rmult_1_l in Q. exact Q.
      + eexists. split; [reflexivity|]. apply FIN; [|lia]. apply asin_small; [exact Ho|exact G|]. rewrite AX. pose proof (bound_ge 0x3e50000000000000 1 26 n ltac:(vm_compute; reflexivity) ltac:(lia) ltac:(lia)) as Q. rewrite Rmult_1_l in Q. pose proof (bpow_le radix2 (-27) (-26) ltac:(lia)). change (bpow radix2 (- (26))) with (bpow radix2 (-26)) in Q. lra.
    - eexists. split; [reflexivity|]. apply FIN; [apply asin_sub; lia|]. intros Z0. unfold x. rewrite Z0. apply asin_zero. }
  assert (good n) as Gn by (apply (good_mk false n); lia). assert (value F64 n = mag64 n) as VN by (symmetry; apply mag_value; lia).
  pose proof (bound_ge 0x3fe0000000000000 1 1 n ltac:(vm_compute; reflexivity) ltac:(lia) ltac:(lia)) as B0. change (bpow radix2 (- (1))) with (/ 2)%R in B0. pose proof (bound_le one 1 0 n ltac:(vm_compute; reflexivity) ltac:(unfold one; lia) ltac:(unfold one; lia)) as B1. change (bpow radix2 (- (0))) with 1%R in B1.
  destruct (sub64 o Ho one n good_one Gn) as [Gv Ev]; [rewrite value_one, VN; apply (small_ok _ 1); [lia|change (bpow radix2 1) with 2%R; apply Rabs_le; lra]|]. rewrite value_one, VN in Ev.
  destruct (red_ok (o_sub o one n) n Gv ltac:(unfold one; lia) Ev) as (Gz & Vz & Bz & Bn). set (z := o_mul o (o_sub o one n) half) in *.
  pose proof (half_angle_asin (mag64 n) Bn) as HA.
  assert (forall y, within (5 / 4) y (PI / 2 - 2 * asin (sqrt (value F64 z))) -> within (5 / 4) (flip s y) (asin (value F64 x))) as FL. { intros y W. unfold x. rewrite asin_mk by exact Hn. rewrite HA, <- Vz. apply within_flip. exact W. }
  destruct (Z.leb_spec (0x3fef3333 * 2 ^ 32) n) as [L4|L4].
  - pose proof (bound_ge 0x3fef333300000000 2044723 21 n ltac:(vm_compute; reflexivity) ltac:(lia) ltac:(lia)) as Q. change (bpow radix2 (- (21))) with (/ 2097152)%R in Q.
    destruct (asin_big o Ho z Gz) as (r & Er & W); [rewrite Vz; lra|]. rewrite Er. cbn [bind]. rewrite flip_sign. eexists. split; [reflexivity|]. apply FIN; [|lia]. apply FL. exact W.
  - pose proof (bound_le 0x3fef333300000000 2044723 21 n ltac:(vm_compute; reflexivity) ltac:(lia) ltac:(lia)) as Q. change (bpow radix2 (- (21))) with (/ 2097152)%R in Q.
    destruct (asin_mid o Ho z Gz) as (r & Er & W); [rewrite Vz; lra|]. rewrite Er. cbn [bind]. rewrite flip_sign. eexists. split; [reflexivity|]. apply FIN; [|lia]. apply FL. exact W.
Qed.
Lemma pi_within : within (5 / 4) PI64 PI.
Proof using.
  clear. destruct pi_num as (A & B & C). pose proof PI_num as P. split; [apply good_PI|]. split; [apply good_PI|].
  pose proof (ulp64_ge 2 PI) as U. rewrite Rabs_pos_eq in U by lra. specialize (U ltac:(change (bpow radix2 (2 - 1)) with 2%R; lra)). change (2 - 53) with (1 + -52) in U. rewrite bpow_plus in U. change (bpow radix2 1) with 2%R in U.
  pose proof (bpow_le radix2 (-69) (-52) ltac:(lia)). apply Rabs_le_inv in B. apply Rabs_le_inv in C. apply Rabs_le. lra.
Qed.
Lemma zero_within : within (5 / 4) 0 0.
Proof using.
  clear. split; [unfold is_float; cbn; lia|]. split; [apply (good_mk false 0); lia|]. change 0 with (mk64 false 0). rewrite value64 by lia. rewrite mag0_64, Rminus_0_r, Rabs_R0. apply Rmult_le_pos; [lra|]. unfold ulp64. apply ulp_ge_0.
Qed.
Lemma mk_one s n : 0 <= n < 2 ^ 63 -> mk64 s n = one -> n = one.
Proof using. clear. intros H E. unfold mk64, one in *. destruct s; cbn [b2z] in E; lia. Qed.
Lemma hi_within X : (Rabs X <= bpow radix2 (-56))%R -> within (5 / 4) PIO2_HI (acos X).
Proof using.
  clear. intros H. pose proof (small64 (-56) ltac:(lia)) as S56. assert (Rabs (asin X) <= 2 * bpow radix2 (-56))%R as A. { assert (forall t, (0 <= t <= bpow radix2 (-56))%R -> (0 <= asin t <= 2 * bpow radix2 (-56))%R) as N by (intros t Ht; pose proof (asin_near t ltac:(lra)); nra).
    destruct (Rle_lt_dec 0 X) as [p|p]; [rewrite Rabs_pos_eq in H by lra; pose proof (N X ltac:(lra)); apply Rabs_le; lra|]. rewrite Rabs_left in H by lra. pose proof (N (- X)%R ltac:(lra)) as Q. rewrite asin_opp in Q. apply Rabs_le. lra. }
  assert (H' := Rabs_le_inv _ _ H). rewrite acos_asin by lra. destruct good_HI as [F N]. split; [exact F|]. split; [exact N|]. pose proof sum3 as S. pose proof PI_num as P.
  assert (0 <= value F64 LO3 <= bpow radix2 (-53))%R as V.
  { rewrite (kb_val 119 LO3 40695870259376218112) by (vm_compute; reflexivity). replace (bpow radix2 (-53)) with (fx 119 (2 ^ 66)) by (rewrite fx_pow by lia; reflexivity). split; [apply fx_nonneg; lia|apply fx_le; lia]. }
  change PIO2_HI with HI3. apply Rabs_le_inv in A. pose proof (ulp64_ge 1 (PI / 2 - asin X)) as U. rewrite Rabs_pos_eq in U by lra. specialize (U ltac:(change (bpow radix2 (1 - 1)) with 1%R; lra)). change (1 - 53) with (4 + -56) in U. rewrite bpow_plus in U. change (bpow radix2 4) with 16%R in U.
  change (-53) with (3 + -56) in V. rewrite bpow_plus in V. change (bpow radix2 3) with 8%R in V. pose proof (bpow_le radix2 (-70) (-56) ltac:(lia)). apply Rabs_le_inv in S. apply Rabs_le. lra.
Qed.
Lemma acos_mk_all s n : 0 <= n < 2 ^ 63 -> exists r, libm_acos o (mk64 s n) = Ok r /\ is_float F64 r /\ (one < n -> is_qnan F64 r) /\ (mk64 s n = one -> r = 0) /\
  (n <= one -> within (5 / 4) r (acos (value F64 (mk64 s n)))).
Proof using Ho.
  intros Hn. assert (is_float F64 (mk64 s n)) as F by (apply float64; exact Hn). unfold libm_acos. cbv zeta. rewrite !high_sign, !high_abs, !low_mk by exact Hn. set (x := mk64 s n) in *. rewrite !hx_leb.
  assert (forall a, (n / 2 ^ 32 <? a) = (n <? a * 2 ^ 32)) as LT by (intros a; rewrite !Z.ltb_antisym, hx_leb; reflexivity). rewrite !LT.
  assert (negb (b2z s =? 0) = s) as SG by (destruct s; reflexivity). rewrite SG.
  destruct (Z.leb_spec (0x3ff00000 * 2 ^ 32) n) as [L|L].
  { destruct (words1 n Hn L) as (d & -> & E). cbn [bind]. rewrite E. destruct (Z.eqb_spec n one) as [->|N].
    - destruct s.
      + rewrite acos_one. eexists. split; [reflexivity|]. split; [apply pi_within|]. split; [lia|]. split; [discriminate|]. intros _. unfold x. rewrite value64 by exact Hn. rewrite mag_one, acos_opp, acos_1, Rminus_0_r. apply pi_within.
      + eexists. split; [reflexivity|]. split; [unfold is_float; cbn; lia|]. split; [lia|]. split; [reflexivity|]. intros _. unfold x. rewrite value64 by exact Hn. rewrite mag_one, acos_1. apply zero_within.
    - destruct (nan_quot x F) as [Q FQ]. eexists. split; [reflexivity|]. split; [exact FQ|]. split; [intros _; exact Q|]. split; [|unfold one in *; lia]. intros E1. exfalso. apply N, (mk_one s n Hn E1). }
  assert (good x) as G by (apply good_mk; lia). assert (Rabs (value F64 x) = mag64 n) as AX by (apply Rabs64; lia).
  assert (forall r, within (5 / 4) r (acos (value F64 x)) -> is_float F64 r /\ (one < n -> is_qnan F64 r) /\ (x = one -> r = 0) /\ (n <= one -> within (5 / 4) r (acos (value F64 x)))) as FIN.
  { intros r W. split; [apply W|]. split; [unfold one; lia|]. split; [|intros _; exact W]. intros E1. pose proof (mk_one s n Hn E1). unfold one in *. lia. }
  destruct (Z.ltb_spec n (0x3fe00000 * 2 ^ 32)) as [L1|L1].
  { pose proof (bound_le 0x3fe0000000000000 1 1 n ltac:(vm_compute; reflexivity) ltac:(lia) ltac:(lia)) as B0. change (bpow radix2 (- (1))) with (/ 2)%R in B0.
    destruct (Z.leb_spec (n / 2 ^ 32) 0x3c600000) as [L2|L2].
    - rewrite acos_zero. eexists. split; [reflexivity|]. apply FIN. apply hi_within. rewrite AX. assert (n < 0x3c60000100000000) as L3 by (pose proof (Z.div_mod n (2 ^ 32) ltac:(lia)); pose proof (Z.mod_pos_bound n (2 ^ 32) ltac:(lia)); lia).
      pose proof (bound_le 0x3c70000000000000 1 56 n ltac:(vm_compute; reflexivity) ltac:(lia) ltac:(lia)) as Q. rewrite Rmult_1_l in Q. exact Q.
    - eexists. split; [reflexivity|]. apply FIN. apply acos_small; [exact Ho|exact G|]. rewrite AX. lra. }
  assert (0 <= n < 2 ^ 63) as Hn' by exact Hn. pose proof (value64 s n Hn) as VX. fold x in VX.
  pose proof (bound_ge 0x3fe0000000000000 1 1 n ltac:(vm_compute; reflexivity) ltac:(lia) ltac:(lia)) as B0. change (bpow radix2 (- (1))) with (/ 2)%R in B0. pose proof (bound_le one 1 0 n ltac:(vm_compute; reflexivity) ltac:(unfold one; lia) ltac:(unfold one; lia)) as B1. change (bpow radix2 (- (0))) with 1%R in B1.
  destruct s.
  - destruct (add64 o Ho one x good_one G) as [Gv Ev]; [rewrite value_one, VX; apply (small_ok _ 1); [lia|change (bpow radix2 1) with 2%R; apply Rabs_le; lra]|]. rewrite value_one, VX in Ev.
    destruct (red_ok (o_add o one x) n Gv ltac:(unfold one; lia) Ev) as (Gz & Vz & Bz & Bn). destruct (acos_neg o Ho _ Gz) as (r & Er & W); [rewrite Vz; exact Bz|]. rewrite Er. cbn [bind]. eexists. split; [reflexivity|]. apply FIN. rewrite VX, acos_opp, (half_angle _ Bn), <- Vz. exact W.
  - destruct (sub64 o Ho one x good_one G) as [Gv Ev]; [rewrite value_one, VX; apply (small_ok _ 1); [lia|change (bpow radix2 1) with 2%R; apply Rabs_le; lra]|]. rewrite value_one, VX in Ev.
    destruct (red_ok (o_sub o one x) n Gv ltac:(unfold one; lia) Ev) as (Gz & Vz & Bz & Bn). destruct (acos_pos o Ho _ Gz) as (r & Er & W); [rewrite Vz; exact Bz|]. rewrite Er. cbn [bind]. eexists. split; [reflexivity|]. apply FIN. rewrite VX, (half_angle _ Bn), <- Vz. exact W.
Qed.
(** The domain, on the bits *)
Lemma above_one s n : 0 <= n < 2 ^ 63 -> is_nan F64 (mk64 s n) \/ is_inf F64 (mk64 s n) \/ (is_finite F64 (mk64 s n) /\ (1 < Rabs (value F64 (mk64 s n)))%R) -> one < n.
Proof using.
  clear. intros H [D|[D|[D L]]].
  - apply nan64 in D; [|exact H]. unfold one. lia.
  - apply isinf64 in D; [|exact H]. unfold one. lia.
  - rewrite Rabs64 in L by exact H. apply Z.nle_gt. intros Q. pose proof (mag_le64 n one ltac:(unfold one in *; lia)) as M. rewrite mag_one in M. lra.
Qed.
Lemma upto_one s n : 0 <= n < 2 ^ 63 -> is_finite F64 (mk64 s n) -> (Rabs (value F64 (mk64 s n)) <= 1)%R -> n <= one.
Proof using.
  clear. intros H D L. apply finite64 in D; [|exact H]. rewrite Rabs64 in L by exact H. apply Z.nlt_ge. intros Q. pose proof (mag_lt64 one n ltac:(unfold one in *; lia)) as M. rewrite mag_one in M. lra.
Qed.
End Asin.
