(** Theorems about the arc tangent of libm. *)
From Coq Require Import ZArith Reals Bool Lia Lra.
From Flocq Require Import Core.
From Verif Require Import Base FloatModel FloatSpec FloatProps LibmModel LibmSpec LibmProps F64Lib ElemModel ElemSpec TrigModel AtanModel AtanProofs2 AtanProofs3.
Open Scope Z_scope.

(** the doubles nearest to pi / 2 and - pi / 2 *)
Definition HALF_PI : Z := 0x3FF921FB54442D18.
Definition MINUS_HALF_PI : Z := 0xBFF921FB54442D18.

(** * C58 *)
(** For every double the result differs from the arc tangent by at most one unit in the last
    place; a NaN and a zero are returned unchanged; an infinity gives the double nearest to
    pi / 2 with its sign. *)
Theorem C58_atan : forall o x, ieee_ops F64 o -> is_float F64 x ->
  exists r, libm_atan o x = Ok r /\ is_float F64 r /\
  (is_nan F64 x -> r = x) /\ (is_zero F64 x -> r = x) /\
  (is_inf F64 x -> r = if sign_of F64 x then MINUS_HALF_PI else HALF_PI) /\
  (is_finite F64 x -> within 1 r (atan (value F64 x))).
Proof.
  intros o x Ho F. destruct (atan_all o Ho x F) as (r & E & Fr & A & B & C & D). exists r. split; [exact E|]. split; [exact Fr|]. split; [exact A|]. split; [exact B|]. split; [|exact D].
  intros I0. rewrite (C I0). destruct (sign_of F64 x); reflexivity.
Qed.
(** The constant is the double nearest to pi / 2: it is within one unit in the last place. *)
Theorem C58_half_pi : within 1 HALF_PI (PI / 2) /\ within 1 MINUS_HALF_PI (- (PI / 2)).
Proof.
  assert (within 1 HALF_PI (PI / 2)) as W.
  { pose proof sum3 as S. change HALF_PI with HI3. assert (is_float F64 HI3 /\ is_finite F64 HI3) as [F N] by (apply (HypotProofs3.good_mk false HI3); unfold HI3; lia). split; [exact F|]. split; [exact N|]. rewrite Rmult_1_l.
    assert (0 <= value F64 LO3 <= bpow radix2 (-53))%R as V.
    { rewrite (ExpProofs4.kb_val 119 LO3 40695870259376218112) by (vm_compute; reflexivity). replace (bpow radix2 (-53)) with (FloatErr.fx 119 (2 ^ 66)) by (rewrite FloatErr.fx_pow by lia; reflexivity). split; [apply FloatErr.fx_nonneg; lia|apply FloatErr.fx_le; lia]. }
    pose proof value_HI3. pose proof (ExpProofs4.small64 (-53) ltac:(lia)). pose proof (ExpProofs4.small64 (-70) ltac:(lia)). apply Rabs_le_inv in S.
    pose proof (ExpProofs5.ulp64_ge 1 (PI / 2)) as U. rewrite Rabs_pos_eq in U by lra. specialize (U ltac:(change (bpow radix2 (1 - 1)) with 1%R; lra)). change (1 - 53) with (1 + -53) in U. rewrite bpow_plus in U. change (bpow radix2 1) with 2%R in U.
    pose proof (bpow_le radix2 (-70) (-53) ltac:(lia)). apply Rabs_le. lra. }
  split; [exact W|]. exact (TrigRed5.within_neg 1 HI3 (PI / 2) W).
Qed.
(** atan(1) = pi / 4, atan(-0.5), atan(2), atan(2.5), atan(0.1), a tiny, a huge and the special arguments *)
Definition soft_atan (x : Z) : res Z := libm_atan (soft_ops F64 8) x.
Example C58_example : soft_atan 0x3ff0000000000000 = Ok 0x3fe921fb54442d18 /\ soft_atan 0xbfe0000000000000 = Ok 0xbfddac670561bb4f /\
  soft_atan 0x4000000000000000 = Ok 0x3ff1b6e192ebbe44 /\ soft_atan 0x4004000000000000 = Ok 0x3ff30b6d796a4da8 /\ soft_atan 0x3fb999999999999a = Ok 0x3fb983e282e2cc4d /\
  soft_atan 0x0000000000000001 = Ok 0x0000000000000001 /\ soft_atan 0xffefffffffffffff = Ok MINUS_HALF_PI /\ soft_atan 0x7ff0000000000000 = Ok HALF_PI /\ soft_atan 0x8000000000000000 = Ok 0x8000000000000000 /\
  ieee_ops F64 (soft_ops F64 8).
Proof. do 9 (split; [vm_compute; reflexivity|]). apply soft_ops_ieee; [tauto|lia]. Qed.
Definition atan_theorems := (C58_atan, C58_half_pi).
Print Assumptions atan_theorems.
