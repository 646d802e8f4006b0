(** Theorems about the logarithms to the bases 2 and 10 of libm. *)
From Coq Require Import ZArith Reals Bool Lia Lra.
From Flocq Require Import Core.
From Verif Require Import Base FloatModel FloatSpec FloatProps LibmModel LibmSpec LibmProps FloatConvModel FloatConvSpec F64Lib ElemModel ElemSpec ElemProps LogProofs4 Log2Model Log2Proofs6.
Open Scope Z_scope.

(** * C64 *)
(** log2 does not panic. For a positive finite argument the result differs from the logarithm to
    the base 2 by at most one and a half units in the last place. A zero gives minus infinity; a
    negative argument and a NaN give a NaN; infinity gives infinity; 1 gives +0. *)
Theorem C64_log2 : forall o c x, ieee_ops F64 o -> icast_ok c -> is_float F64 x -> exists r, libm_log2 o c x = Ok r /\ is_float F64 r /\
  (is_nan F64 x -> is_nan F64 r) /\
  (is_zero F64 x -> r = 0xfff0000000000000) /\
  (~ is_zero F64 x -> sign_of F64 x = true -> is_nan F64 r) /\
  (is_inf F64 x -> sign_of F64 x = false -> r = 0x7ff0000000000000) /\
  (is_finite F64 x -> (0 < value F64 x)%R -> within (3 / 2) r (ln (value F64 x) / ln 2)) /\
  (is_finite F64 x -> value F64 x = 1%R -> r = 0).
Proof.
  intros o c x Ho Hc F. destruct (log2_all o Ho c Hc x F) as (r & E & Fr & A1 & A2 & A3 & A4 & A5 & A6). exists r. repeat (split; [assumption|]).
  split; [intros N P; apply (A5 N P)|]. intros N V. apply (A6 V N).
Qed.
(** The logarithm to the base 2 of a power of two is exact, subnormal numbers included. *)
Theorem C64_log2_power : forall o c x e, ieee_ops F64 o -> icast_ok c -> is_float F64 x -> is_finite F64 x -> value F64 x = bpow radix2 e ->
  exists r, libm_log2 o c x = Ok r /\ is_float F64 r /\ is_finite F64 r /\ value F64 r = IZR e.
Proof.
  intros o c x e Ho Hc F N V. destruct (log2_all o Ho c Hc x F) as (r & E & Fr & _ & _ & _ & _ & A5 & _). exists r. split; [exact E|]. split; [exact Fr|].
  destruct (A5 N) as [W EX]; [rewrite V; apply bpow_gt_0|]. split; [apply W|]. apply EX. rewrite V. apply ln_bpow.
Qed.
(** 2, 10, 0.75, 1 + 2^-52, 1 - 2^-53, 3 * 2^-1074, the largest number, the least subnormal, 1, -0, -1, infinity. *)
Example C64_cases : let l := libm_log2 (soft_ops F64 8) soft_icast in
  ieee_ops F64 (soft_ops F64 8) /\
  l 0x4000000000000000 = Ok 0x3ff0000000000000 /\ l 0x4024000000000000 = Ok 0x400a934f0979a371 /\
  l 0x3fe8000000000000 = Ok 0xbfda8ff971810a5e /\ l 0x3ff0000000000001 = Ok 0x3cb71547652b82fd /\
  l 0x3fefffffffffffff = Ok 0xbca71547652b82fe /\ l 3 = Ok 0xc090c1a8ff971811 /\
  l 0x7fefffffffffffff = Ok 0x4090000000000000 /\ l 1 = Ok 0xc090c80000000000 /\
  l 0x3ff0000000000000 = Ok 0 /\ l 0x8000000000000000 = Ok 0xfff0000000000000 /\
  l 0xbff0000000000000 = Ok 0x7ff8000000000000 /\ l 0x7ff0000000000000 = Ok 0x7ff0000000000000.
Proof. split; [apply soft_ops_ieee; [tauto|lia]|]. vm_compute. repeat split. Qed.

(** * C65 *)
(** log10 does not panic. For a positive finite argument the result differs from the logarithm to
    the base 10 by at most one and a half units in the last place. A zero gives minus infinity; a
    negative argument and a NaN give a NaN; infinity gives infinity; 1 gives +0. *)
Theorem C65_log10 : forall o c x, ieee_ops F64 o -> icast_ok c -> is_float F64 x -> exists r, libm_log10 o c x = Ok r /\ is_float F64 r /\
  (is_nan F64 x -> is_nan F64 r) /\
  (is_zero F64 x -> r = 0xfff0000000000000) /\
  (~ is_zero F64 x -> sign_of F64 x = true -> is_nan F64 r) /\
  (is_inf F64 x -> sign_of F64 x = false -> r = 0x7ff0000000000000) /\
  (is_finite F64 x -> (0 < value F64 x)%R -> within (3 / 2) r (ln (value F64 x) / ln 10)) /\
  (is_finite F64 x -> value F64 x = 1%R -> r = 0).
Proof.
  intros o c x Ho Hc F. destruct (log10_all o Ho c Hc x F) as (r & E & Fr & A1 & A2 & A3 & A4 & A5 & A6). exists r. repeat (split; [assumption|]).
  intros N V. apply (A6 V N).
Qed.
(** 10, 2, 1000, 10^22, 10^-5, 1 + 2^-52, 1 - 2^-53, the largest number, the least subnormal, 1, 0, -1. *)
Example C65_cases : let l := libm_log10 (soft_ops F64 8) soft_icast in
  l 0x4024000000000000 = Ok 0x3ff0000000000000 /\ l 0x4000000000000000 = Ok 0x3fd34413509f79ff /\
  l 0x408f400000000000 = Ok 0x4008000000000000 /\ l 0x4480f0cf064dd592 = Ok 0x4036000000000000 /\
  l 0x3ee4f8b588e368f1 = Ok 0xc014000000000000 /\ l 0x3ff0000000000001 = Ok 0x3c9bcb7b1526e50d /\
  l 0x3fefffffffffffff = Ok 0xbc8bcb7b1526e50f /\ l 0x7fefffffffffffff = Ok 0x40734413509f79ff /\
  l 1 = Ok 0xc07434e6420f4374 /\ l 0x3ff0000000000000 = Ok 0 /\ l 0 = Ok 0xfff0000000000000 /\ l 0xbff0000000000000 = Ok 0x7ff8000000000000.
Proof. vm_compute. repeat split. Qed.
Definition log2_theorems := (C64_log2, C64_log2_power, C65_log10).
Print Assumptions log2_theorems.
