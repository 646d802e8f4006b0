(** Accuracy of atan: the assembly. *)
From Coq Require Import ZArith Reals Bool List Lia Lra Psatz.
From Flocq Require Import Core.
From Verif Require Import Base BaseLemmas FloatModel FloatSpec LibmModel LibmSpec Elem FloatErr PolyBound ElemModel ElemSpec TrigModel F64Lib ExpProofs3 ExpProofs4 ExpProofs5 ExpProofs7 ExpProofs8 LogProofs LogProofs2 TrigRed TrigRed5 TrigLg11 HypotProofs3 HypotProofs10 AtanModel AtanProofs AtanProofs2.
Import ListNotations.
Open Scope Z_scope.

Lemma fabs_mk s n : 0 <= n < 2 ^ 63 -> atan_fabs (mk64 s n) = n.
Proof. exact (habs_mk s n). Qed.
Definition flip (s : bool) (z : Z) : Z := if s then fneg z else z.
Lemma flip_sign s z : (if negb (b2z s =? 0) then fneg z else z) = flip s z.
Proof. destruct s; reflexivity. Qed.
Lemma within_flip s k r y : within k r y -> within k (flip s r) (if s then - y else y)%R.
Proof. destruct s; [apply within_neg|intros H; exact H]. Qed.
Lemma atan_mk s n : 0 <= n < 2 ^ 63 -> atan (value F64 (mk64 s n)) = (if s then - atan (mag64 n) else atan (mag64 n))%R.
Proof. intros H. rewrite value64 by exact H. destruct s; [apply atan_opp|reflexivity]. Qed.
Section Atan.
Context (o : fops) (Ho : ieee_ops F64 o).
Definition TINY : Z := 0x03800000.
Lemma value_tiny : (0 <= value F64 TINY <= bpow radix2 (-200))%R.
Proof using.
  clear. rewrite <- mag_value by (unfold TINY; lia). split; [apply mag_nonneg64; unfold TINY; lia|]. unfold mag64. apply Rle_trans with (IZR (2 ^ 52) * bpow radix2 (-1074))%R; [apply Rmult_le_compat_r; [apply bpow_ge_0|apply IZR_le; vm_compute; discriminate]|].
  replace (IZR (2 ^ 52)) with (bpow radix2 52) by reflexivity. rewrite <- bpow_plus. apply bpow_le. lia.
Qed.
Lemma value_HI3 : (1.5 <= value F64 HI3 <= 1.6)%R.
Proof using. clear. rewrite (kb_val 52 HI3 7074237752028440) by (vm_compute; reflexivity). unfold fx. change (bpow radix2 (- (52))) with (/ 4503599627370496)%R. lra. Qed.
Lemma large_sum : o_add o HI3 TINY = HI3.
Proof using Ho.
  assert (good HI3) as G3 by (apply (good_mk false HI3); unfold HI3; lia). assert (good TINY) as Gt by (apply (good_mk false TINY); unfold TINY; lia).
  pose proof value_tiny as T. pose proof value_HI3 as V. assert (bpow radix2 (-200) <= / 1024)%R as S by (change (/ 1024)%R with (bpow radix2 (-10)); apply bpow_le; lia).
  destruct (add64 o Ho HI3 TINY G3 Gt) as [G E]; [apply (small_ok _ 1); [lia|change (bpow radix2 1) with 2%R; apply Rabs_le; lra]|].
  rewrite (near_exact HI3) in E; [|unfold HI3; lia|].
  2:{ rewrite (mag_value HI3) by (unfold HI3; lia). replace (_ - _)%R with (value F64 TINY) by ring. rewrite Rabs_pos_eq by apply T. apply Rle_trans with (1 * bpow radix2 (-97))%R; [rewrite Rmult_1_l; eapply Rle_trans; [apply T|apply bpow_le; lia]|apply Rmult_le_compat_r; [apply bpow_ge_0|lra]]. }
  rewrite (mag_value HI3) in E by (unfold HI3; lia). 
  apply value_pos_inj; try assumption; try apply G; try apply G3; lra.
Qed.
Lemma case_large n : 0x4410000000000000 <= n < INF -> within 1 HI3 (atan (mag64 n)).
Proof using.
  clear. intros H. assert (good HI3) as [F N] by (apply (good_mk false HI3); unfold HI3; lia). split; [exact F|]. split; [exact N|]. rewrite Rmult_1_l.
  assert (bpow radix2 66 <= mag64 n)%R as B. { apply Rle_trans with (fx 0 (2 ^ 66)); [right; rewrite fx_pow by lia; reflexivity|]. apply (mag_ge 0x4410000000000000); [vm_compute; reflexivity|lia|lia]. }
  set (X := mag64 n) in *. assert (1 <= X)%R as X1 by (eapply Rle_trans; [|exact B]; change 1%R with (bpow radix2 0); apply bpow_le; lia).
  pose proof (atan_inv X ltac:(lra)) as I2. assert (0 < / X <= bpow radix2 (-66))%R as IV. { split; [apply Rinv_0_lt_compat; lra|]. change (-66) with (Z.opp 66). rewrite bpow_opp. apply Rinv_le; [apply bpow_gt_0|exact B]. }
  assert (0 <= atan (/ X) <= bpow radix2 (-65))%R as AI.
  { split; [left; rewrite <- atan_0; apply atan_increasing; lra|]. pose proof (atan_taylor_ok 1 (/ X)) as T. set (v := (/ X)%R) in *. cbn [atan_taylor] in T.
    replace (atan v - (0 + (-1) ^ 0 * v ^ (2 * 0 + 1) / INR (2 * 0 + 1)))%R with (atan v - v)%R in T by (cbn; field). cbn [Nat.mul Nat.add pow] in T. rewrite (Rabs_pos_eq v) in T by lra. apply Rabs_le_inv in T.
    assert (bpow radix2 (-66) <= / 2)%R by (change (/ 2)%R with (bpow radix2 (-1)); apply bpow_le; lia). assert (v * (v * (v * 1)) <= v)%R by nra. change (-65) with (1 + -66). rewrite bpow_plus. change (bpow radix2 1) with 2%R. lra. }
  pose proof sum3 as S3. pose proof value_HI3 as V3. assert (0 <= value F64 LO3 <= bpow radix2 (-53))%R as V.
  { rewrite (kb_val 119 LO3 40695870259376218112) by (vm_compute; reflexivity). replace (bpow radix2 (-53)) with (fx 119 (2 ^ 66)) by (rewrite fx_pow by lia; reflexivity). split; [apply fx_nonneg; lia|apply fx_le; lia]. }
  pose proof (small64 (-53) ltac:(lia)). pose proof (small64 (-70) ltac:(lia)). pose proof (small64 (-65) ltac:(lia)).
  pose proof (Rabs_le_inv _ _ S3). assert (1 <= atan X)%R as A1 by lra.
  pose proof (ulp64_ge 1 (atan X)) as U. rewrite Rabs_pos_eq in U by lra. specialize (U A1). change (1 - 53) with (1 + -53) in U. rewrite bpow_plus in U. change (bpow radix2 1) with 2%R in U.
  pose proof (bpow_le radix2 (-70) (-55) ltac:(lia)). pose proof (bpow_le radix2 (-65) (-55) ltac:(lia)). assert (bpow radix2 (-53) = 4 * bpow radix2 (-55))%R as E by (change (-53) with (2 + -55); rewrite bpow_plus; reflexivity).
  apply Rabs_le. lra.
Qed.
Lemma end_id t id s h l : tab ATANHI id = Ok h -> tab ATANLO id = Ok l -> 0 <= id -> atan_end o t id (b2z s) = Ok (flip s (fin o h l t)).
Proof using.
  clear. intros H L Hi. unfold atan_end. rewrite (proj2 (Z.ltb_ge id 0) Hi), H, L. cbn [bind]. rewrite flip_sign. reflexivity.
Qed.
Lemma bound_ge c z P n : kbits P F64 c = Some (Ab z z 0) -> 0 <= c < 2 ^ 63 -> c <= n -> (IZR z * bpow radix2 (- P) <= mag64 n)%R.
Proof using. clear. intros. apply (mag_ge c z P n); assumption. Qed.
Lemma bound_le c z P n : kbits P F64 c = Some (Ab z z 0) -> 0 <= c < 2 ^ 63 -> 0 <= n < c -> (mag64 n <= IZR z * bpow radix2 (- P))%R.
Proof using. clear. intros. left. apply (mag_lt c z P n); assumption. Qed.
Lemma atan_mk_all s n : 0 <= n < 2 ^ 63 -> exists r, libm_atan o (mk64 s n) = Ok r /\ is_float F64 r /\ (INF < n -> r = mk64 s n) /\ (n = 0 -> r = mk64 s n) /\
  (n = INF -> r = flip s HI3) /\ (n < INF -> within 1 r (if s then - atan (mag64 n) else atan (mag64 n))%R).
Proof using Ho.
  intros Hn. assert (is_float F64 (mk64 s n)) as F by (apply float64; exact Hn). unfold libm_atan. cbv zeta. rewrite high_sign, high_abs, is_nanb64, fabs_mk by exact Hn. rewrite hx_leb.
  assert (forall a, (n / 2 ^ 32 <? a) = (n <? a * 2 ^ 32)) as LT by (intros a; rewrite !Z.ltb_antisym, hx_leb; reflexivity). rewrite !LT.
  assert (is_float F64 (flip s HI3)) as FH by (destruct s; vm_compute; intuition discriminate).
  destruct (Z.leb_spec (0x44100000 * 2 ^ 32) n) as [L|L].
  { destruct (Z.ltb_spec INF n) as [NA|NA].
    - eexists. split; [reflexivity|]. split; [exact F|]. split; [reflexivity|]. split; [reflexivity|]. split; [lia|lia].
    - change (tab ATANHI 3) with (Ok HI3). cbn [bind]. rewrite flip_sign. change 0x03800000 with TINY. rewrite large_sum. eexists. split; [reflexivity|]. split; [exact FH|]. split; [lia|]. split; [lia|]. split; [reflexivity|]. intros B. apply within_flip, case_large. lia. }
  assert (good (mk64 s n)) as G by (apply good_mk; lia). assert (good n) as Gn by (apply (good_mk false n); lia). assert (Rabs (value F64 (mk64 s n)) = mag64 n) as AX by (apply Rabs64; lia).
  assert (forall r, within 1 r (if s then - atan (mag64 n) else atan (mag64 n))%R -> (n = 0 -> r = mk64 s n) -> is_float F64 r /\ (INF < n -> r = mk64 s n) /\ (n = 0 -> r = mk64 s n) /\ (n = INF -> r = flip s HI3) /\ (n < INF -> within 1 r (if s then - atan (mag64 n) else atan (mag64 n))%R)) as FIN.
  { intros r W Z. split; [apply W|]. split; [lia|]. split; [exact Z|]. split; [lia|]. intros _. exact W. }
  assert (value F64 n = mag64 n) as VN by (symmetry; apply mag_value; lia).
  destruct (Z.ltb_spec n (0x3fdc0000 * 2 ^ 32)) as [L1|L1].
  { destruct (Z.ltb_spec n (0x3e400000 * 2 ^ 32)) as [L2|L2].
    - eexists. split; [reflexivity|]. apply FIN; [|reflexivity]. rewrite <- atan_mk by exact Hn. apply case_tiny; [exact G|]. rewrite AX. pose proof (bound_le 0x3e40000000000000 1 27 n ltac:(vm_compute; reflexivity) ltac:(lia) ltac:(lia)) as Q. rewrite Rmult_1_l in Q. exact Q.
    - eexists. split; [reflexivity|]. apply FIN; [|lia]. rewrite <- atan_mk by exact Hn. apply caseQ; [exact Ho|exact G|]. rewrite AX. pose proof (bound_le 0x3fdc000000000000 7 4 n ltac:(vm_compute; reflexivity) ltac:(lia) ltac:(lia)) as Q. change (bpow radix2 (- (4))) with (/ 16)%R in Q. pose proof (bound_ge 0x3e40000000000000 1 27 n ltac:(vm_compute; reflexivity) ltac:(lia) ltac:(lia)) as Q2. rewrite Rmult_1_l in Q2. split; [exact Q2|lra]. }
  pose proof (bound_ge 0x3fdc000000000000 7 4 n ltac:(vm_compute; reflexivity) ltac:(lia) ltac:(lia)) as B0. change (bpow radix2 (- (4))) with (/ 16)%R in B0.
  destruct (Z.ltb_spec n (0x3ff30000 * 2 ^ 32)) as [L2|L2].
  { pose proof (bound_le 0x3ff3000000000000 19 4 n ltac:(vm_compute; reflexivity) ltac:(lia) ltac:(lia)) as B1. change (bpow radix2 (- (4))) with (/ 16)%R in B1.
    destruct (Z.ltb_spec n (0x3fe60000 * 2 ^ 32)) as [L3|L3].
    - pose proof (bound_le 0x3fe6000000000000 11 4 n ltac:(vm_compute; reflexivity) ltac:(lia) ltac:(lia)) as B2. change (bpow radix2 (- (4))) with (/ 16)%R in B2.
      eexists. split; [apply (end_id _ 0 s HI0 LO0); [reflexivity|reflexivity|lia]|]. apply FIN; [|lia]. apply within_flip. rewrite <- VN in *. apply case0; [exact Ho|exact Gn|lra].
    - pose proof (bound_ge 0x3fe6000000000000 11 4 n ltac:(vm_compute; reflexivity) ltac:(lia) ltac:(lia)) as B2. change (bpow radix2 (- (4))) with (/ 16)%R in B2.
      eexists. split; [apply (end_id _ 1 s HI1 LO1); [reflexivity|reflexivity|lia]|]. apply FIN; [|lia]. apply within_flip. rewrite <- VN in *. apply case1; [exact Ho|exact Gn|lra]. }
  pose proof (bound_ge 0x3ff3000000000000 19 4 n ltac:(vm_compute; reflexivity) ltac:(lia) ltac:(lia)) as B1. change (bpow radix2 (- (4))) with (/ 16)%R in B1.
  destruct (Z.ltb_spec n (0x40038000 * 2 ^ 32)) as [L3|L3].
  - pose proof (bound_le 0x4003800000000000 39 4 n ltac:(vm_compute; reflexivity) ltac:(lia) ltac:(lia)) as B2. change (bpow radix2 (- (4))) with (/ 16)%R in B2.
    eexists. split; [apply (end_id _ 2 s HI2 LO2); [reflexivity|reflexivity|lia]|]. apply FIN; [|lia]. apply within_flip. rewrite <- VN in *. apply case2; [exact Ho|exact Gn|lra].
  - pose proof (bound_ge 0x4003800000000000 39 4 n ltac:(vm_compute; reflexivity) ltac:(lia) ltac:(lia)) as B2. change (bpow radix2 (- (4))) with (/ 16)%R in B2.
    eexists. split; [apply (end_id _ 3 s HI3 LO3); [reflexivity|reflexivity|lia]|]. apply FIN; [|lia]. apply within_flip. rewrite <- VN in *. apply case3; [exact Ho|exact Gn|lra].
Qed.
Lemma atan_all x : is_float F64 x -> exists r, libm_atan o x = Ok r /\ is_float F64 r /\ (is_nan F64 x -> r = x) /\ (is_zero F64 x -> r = x) /\
  (is_inf F64 x -> r = flip (sign_of F64 x) HI3) /\ (is_finite F64 x -> within 1 r (atan (value F64 x))).
Proof using Ho.
  intros F. destruct (split64 x F) as (s & n & -> & Hn). destruct (atan_mk_all s n Hn) as (r & E & Q). exists r. split; [exact E|]. rewrite sign64, nan64, zero64, isinf64, finite64, atan_mk by exact Hn. exact Q.
Qed.
End Atan.
