(** log2 of a power of two is exact; the claims about log2 and log10. *)
From Coq Require Import ZArith Reals Bool List Lia Lra Psatz.
From Flocq Require Import Core.
From Verif Require Import Base BaseLemmas FloatModel FloatSpec FloatProofs FloatConvSpec LibmModel LibmSpec Elem FloatErr PolyBound ElemModel ElemSpec F64Lib
  ExpProofs3 ExpProofs4 ExpProofs5 ExpProofs6 ExpProofs7 ExpProofs8 LogProofs LogProofs2 LogProofs3 LogProofs4 HypotProofs3 TrigRed AsinProofs2 TanModel TanProofs2 TanProofs3 Log1pProofs Log2Model Log2Proofs Log2Proofs2 Log2Proofs3 Log2Proofs4 Log2Proofs5.
Open Scope Z_scope.

Local Instance valid64 : Valid_exp (FLT_exp (emin F64) (prec F64)).
Proof. apply FLT_exp_valid. exact Hp64. Qed.

(** Rounding a number very close to a nonzero integer. *)
Lemma rne_near_int r v k : good r -> value F64 r = rne F64 v -> 1 <= Z.abs k <= 1100 -> (Rabs (v - IZR k) <= bpow radix2 (-56))%R -> value F64 r = IZR k.
Proof.
  intros G V Hk E. assert (Fk : generic_format radix2 (FLT_exp (emin F64) (prec F64)) (IZR k)).
  { replace (IZR k) with (rne F64 (IZR k * bpow radix2 0)) by (rewrite rne_exact64 by lia; change (bpow radix2 0) with 1%R; ring). apply generic_format_round; auto with typeclass_instances. }
  assert (N : (Rabs (rne F64 v - v) <= bpow radix2 (-56))%R).
  { destruct (round_N_pt radix2 (FLT_exp (emin F64) (prec F64)) (fun t => negb (Z.even t)) v) as [_ M]. specialize (M _ Fk). unfold rne.
    eapply Rle_trans; [exact M|]. rewrite Rabs_minus_sym. exact E. }
  rewrite <- V in N. pose proof (bpow_gt_0 radix2 (-56)) as p. assert (p56 : (bpow radix2 (-56) <= / 1000000)%R) by (pose proof (small64 (-56) ltac:(lia)); lra).
  assert (K1 : (1 <= Rabs (IZR k))%R) by (rewrite <- abs_IZR; apply IZR_le; lia).
  assert (D : (Rabs (value F64 r - IZR k) <= 2 * bpow radix2 (-56))%R) by (replace (value F64 r - IZR k)%R with ((value F64 r - v) + (v - IZR k))%R by ring; eapply Rle_trans; [apply Rabs_triang|]; lra).
  assert (LR : (bpow radix2 (-1) <= Rabs (value F64 r))%R).
  { change (bpow radix2 (-1)) with (/ 2)%R. pose proof (Rabs_triang_inv (IZR k) (IZR k - value F64 r)) as Q. replace (IZR k - (IZR k - value F64 r))%R with (value F64 r) in Q by ring. rewrite (Rabs_minus_sym (IZR k)) in Q. lra. }
  destruct (multiple64 r (-1) G LR) as (m & Em). change (-1 - 52) with (-53) in Em.
  assert (EK : (IZR k = IZR (k * 2 ^ 53) * bpow radix2 (-53))%R) by (rewrite mult_IZR, (IZR_Zpower radix2), Rmult_assoc, <- bpow_plus by lia; change (bpow radix2 (53 + -53)) with 1%R; ring).
  assert (m = k * 2 ^ 53) as ->; [|rewrite Em, <- EK; reflexivity].
  rewrite Em, EK, <- Rmult_minus_distr_r, <- minus_IZR, Rabs_mult, (Rabs_pos_eq (bpow radix2 (-53))), <- abs_IZR in D by apply bpow_ge_0.
  assert (Z.abs (m - k * 2 ^ 53) < 1); [|lia]. apply lt_IZR. apply Rmult_lt_reg_r with (bpow radix2 (-53)); [apply bpow_gt_0|].
  eapply Rle_lt_trans; [exact D|]. change (-53) with (3 + -56) at 1. rewrite (bpow_plus radix2 3). change (bpow radix2 3) with 8%R. lra.
Qed.

Section Main.
Context (o : fops) (Ho : ieee_ops F64 o) (c : icast) (Hc : icast_ok c).

Lemma log2_primary_exact x k : 0x3fe6a09e00000000 <= x < 0x3ff6a09e00000000 -> 1 <= Z.abs k <= 1100 -> value F64 x = 1%R -> value F64 (log2_primary o c x k) = IZR k.
Proof using Ho Hc.
  intros Hx Hk X1. destruct (prep o Ho x Hx) as (PF & VF & _). rewrite log2_eq. set (f := o_sub o x one) in *. rewrite X1, Rminus_eq_0 in VF.
  destruct IVLN2HI_ok as (Gi & Vi & Bi). destruct (hi_mul o Ho f IVLN2HI 3098164009 (-31) PF Gi Vi ltac:(lia) ltac:(lia) ltac:(rewrite Rabs_pos_eq; lra)) as (Gv & Vv & _).
  destruct PF as (Gf & Gh & Vh & B & NZ) eqn:EPF. destruct (log_hilo o Ho f Gf Gh Vh B NZ) as (_ & _ & _ & _ & BH & _). rewrite VF, Rabs_R0, Rmult_0_r in BH.
  assert (H0 : value F64 (log_hi o f) = 0%R) by (pose proof (Rabs_pos (value F64 (log_hi o f))); destruct (Req_dec (value F64 (log_hi o f)) 0) as [E|N]; [exact E|pose proof (Rabs_pos_lt _ N); lra]).
  rewrite H0, Rmult_0_l in Vv. destruct (ofi64 c Hc k ltac:(lia)) as [Gk Vk].
  destruct (group_ok o Ho q2 1010 f 0 53 PF good_zero value_zero ltac:(lia) group2 ltac:(lia) ltac:(rewrite VF, Rabs_R0; apply bpow_ge_0)) as (Gl & Bl & El).
  rewrite VF, H0, rT_2 in El.
  assert (R0 : rA 0 0 = 0%R) by (unfold rA; cbv zeta; unfold Rdiv; ring). rewrite R0, Rplus_0_l, !Rmult_0_l, !Rminus_0_r in El.
  assert (K2 : (1 <= Rabs (IZR k) <= 1100)%R) by (rewrite <- abs_IZR; split; apply IZR_le; lia).
  destruct (spadd_ok o Ho (c_ofi c k) (o_mul o (log_hi o f) IVLN2HI) (logb_val o q2 f 0) Gk Gv Gl) as (Gr & v & Er & Ev & _); [rewrite Vk; lra|rewrite Vv, Rabs_R0; lra|exact Bl|right; rewrite Vv, Vk, Rabs_R0; lra|].
  apply (rne_near_int _ v k Gr Er Hk). rewrite Vk, Vv, Rplus_0_r in Ev.
  replace (v - IZR k)%R with ((v - (IZR k + value F64 (logb_val o q2 f 0))) + value F64 (logb_val o q2 f 0))%R by ring. eapply Rle_trans; [apply sum_le; [exact Ev|exact El]|].
  assert (1010 * bpow radix2 (-63 - 53) <= bpow radix2 (-58))%R. { apply Rle_trans with (bpow radix2 10 * bpow radix2 (-63 - 53))%R; [apply Rmult_le_compat_r; [apply bpow_ge_0|change (bpow radix2 10) with 1024%R; lra]|]. rewrite <- bpow_plus. apply bpow_le. lia. }
  change (-56) with (2 + -58). rewrite (bpow_plus radix2 2). change (bpow radix2 2) with 4%R. pose proof (bpow_gt_0 radix2 (-58)). lra.
Qed.

(** What is claimed of log2 for an argument of logarithm y. *)
Definition claim2 (r : Z) (y : R) : Prop := within (3 / 2) r (y / ln 2) /\ forall e, y = (IZR e * ln 2)%R -> value F64 r = IZR e.
Lemma within_zero B : within (3 / 2) 0 (0 / ln B).
Proof.
  replace (0 / ln B)%R with 0%R by (unfold Rdiv; ring). split; [apply good_zero|]. split; [apply good_zero|]. rewrite value_zero, Rminus_0_r, Rabs_R0. assert (0 <= ulp64 0)%R by apply ulp_ge_0. lra.
Qed.
Lemma claim2_primary x k : 0x3fe6a09e00000000 <= x < 0x3ff6a09e00000000 -> Z.abs k <= 1100 -> (k = 0 -> value F64 x <> 1%R) -> claim2 (log2_primary o c x k) (ln (value F64 x) + IZR k * ln 2)%R.
Proof using Ho Hc.
  intros Hx Hk K1. split; [apply log2_primary_ok; assumption|]. intros e Ee. destruct (log_x_range x Hx) as [G B]. pose proof (lnX_bounds _ B) as LB. pose proof ln2_num as L2.
  assert (EL : (ln (value F64 x) = IZR (e - k) * ln 2)%R) by (rewrite minus_IZR; lra).
  assert (e = k) as ->.
  { assert (e - k = 0); [|lia]. destruct (Z.eq_dec (e - k) 0) as [Z0|N]; [exact Z0|]. exfalso. assert (D : (IZR (e - k) <= -1 \/ 1 <= IZR (e - k))%R) by (destruct (Z_lt_ge_dec (e - k) 0); [left|right]; apply IZR_le; lia). rewrite EL in LB. destruct D; nra. }
  rewrite Z.sub_diag, Rmult_0_l in EL. assert (X1 : value F64 x = 1%R) by (apply ln_inv; [lra|lra|rewrite EL, ln_1; reflexivity]).
  apply log2_primary_exact; [exact Hx| |exact X1]. destruct (Z.eq_dec k 0) as [k0|N]; [contradiction (K1 k0 X1)|lia].
Qed.
Lemma log2_all x : is_float F64 x -> exists r, libm_log2 o c x = Ok r /\ is_float F64 r /\
  (is_nan F64 x -> is_nan F64 r) /\ (is_zero F64 x -> r = 0xfff0000000000000) /\
  (~ is_zero F64 x -> sign_of F64 x = true -> is_nan F64 r) /\
  (is_inf F64 x -> sign_of F64 x = false -> r = 0x7ff0000000000000) /\
  (is_finite F64 x -> (0 < value F64 x)%R -> claim2 r (ln (value F64 x))) /\ (value F64 x = 1%R -> is_finite F64 x -> r = 0).
Proof using Ho Hc.
  apply (logb_special o Ho claim2 (log2_primary o c)); [intros r y W; apply W| |exact claim2_primary].
  split; [apply within_zero|]. intros e E. rewrite value_zero. pose proof ln2_num. apply (Rmult_eq_reg_r (ln 2)); [lra|lra].
Qed.
Lemma log10_all x : is_float F64 x -> exists r, libm_log10 o c x = Ok r /\ is_float F64 r /\
  (is_nan F64 x -> is_nan F64 r) /\ (is_zero F64 x -> r = 0xfff0000000000000) /\
  (~ is_zero F64 x -> sign_of F64 x = true -> is_nan F64 r) /\
  (is_inf F64 x -> sign_of F64 x = false -> r = 0x7ff0000000000000) /\
  (is_finite F64 x -> (0 < value F64 x)%R -> within (3 / 2) r (ln (value F64 x) / ln 10)) /\ (value F64 x = 1%R -> is_finite F64 x -> r = 0).
Proof using Ho Hc.
  apply (logb_special o Ho (fun r y => within (3 / 2) r (y / ln 10)) (log10_primary o c)); [intros r y W; apply W|apply within_zero|apply log10_primary_ok; assumption].
Qed.
End Main.
