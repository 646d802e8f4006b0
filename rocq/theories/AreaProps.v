(** Theorems about the inverse hyperbolic functions of libm. The real functions tanh, sinh and cosh
    are those of the standard library. *)
From Coq Require Import ZArith Reals Bool Lia Lra.
From Flocq Require Import Core.
From Verif Require Import Base FloatModel FloatSpec FloatProps LibmModel LibmSpec LibmProps FloatConvModel FloatConvSpec ElemModel ElemSpec ElemProps AreaModel AreaProofs2 AreaProofs3 AreaProofs4.
Open Scope Z_scope.

(** * C66 *)
(** atanh does not panic. For an argument strictly between -1 and 1 the result differs from the real
    number whose hyperbolic tangent is the argument by at most six units in the last place. 1 and -1
    give the infinity of the same sign; any other argument outside the interval, an infinity and a
    NaN give a NaN; a zero is returned unchanged. *)
Theorem C66_atanh : forall o c x, ieee_ops F64 o -> icast_ok c -> is_float F64 x -> exists r, libm_atanh o c x = Ok r /\ is_float F64 r /\
  (is_nan F64 x -> is_nan F64 r) /\ (is_zero F64 x -> r = x) /\
  (is_finite F64 x -> Rabs (value F64 x) = 1%R -> is_inf F64 r /\ sign_of F64 r = sign_of F64 x) /\
  (is_finite F64 x -> (1 < Rabs (value F64 x))%R -> is_nan F64 r) /\
  (is_inf F64 x -> is_nan F64 r) /\
  (is_finite F64 x -> (Rabs (value F64 x) < 1)%R -> exists y, tanh y = value F64 x /\ within 6 r y).
Proof. intros o c x Ho Hc F. exact (atanh_all o Ho c Hc x F). Qed.
(** 0.25, -0.75, the predecessor of 1, 2^-34, 1, 2, the least subnormal. *)
Example C66_cases : let l := libm_atanh (soft_ops F64 8) soft_icast in ieee_ops F64 (soft_ops F64 8) /\
  l 0x3fd0000000000000 = Ok 0x3fd058aefa811452 /\ l 0xbfe8000000000000 = Ok 0xbfef2272ae325a57 /\ l 0x3fefffffffffffff = Ok 0x4032b708872320e2 /\ l 0x3dd0000000000000 = Ok 0x3dd0000000000000 /\ l 0x3ff0000000000000 = Ok 0x7ff0000000000000 /\ l 0x4000000000000000 = Ok 0x7ff8000000000000 /\ l 1 = Ok 1.
Proof. split; [apply soft_ops_ieee; [tauto|lia]|]. vm_compute. repeat split. Qed.

(** * C67 *)
(** asinh does not panic. For a finite argument the result differs from the real number whose
    hyperbolic sine is the argument by at most six units in the last place. A zero and an infinity
    are returned unchanged, a NaN gives a NaN. *)
Theorem C67_asinh : forall o c x, ieee_ops F64 o -> icast_ok c -> is_float F64 x -> exists r, libm_asinh o c x = Ok r /\ is_float F64 r /\
  (is_nan F64 x -> is_nan F64 r) /\ (is_zero F64 x -> r = x) /\ (is_inf F64 x -> r = x) /\
  (is_finite F64 x -> exists y, sinh y = value F64 x /\ within 6 r y).
Proof. intros o c x Ho Hc F. exact (asinh_all o Ho c Hc x F). Qed.
(** 1, -3, 10^300, 0.001, minus the least subnormal, minus infinity. *)
Example C67_cases : let l := libm_asinh (soft_ops F64 8) soft_icast in ieee_ops F64 (soft_ops F64 8) /\
  l 0x3ff0000000000000 = Ok 0x3fec34366179d427 /\ l 0xc008000000000000 = Ok 0xbffd185b507edc0e /\ l 0x7e37e43c8800759c = Ok 0x40859bbfd8b83e43 /\ l 0x3f50624dd2f1a9fc = Ok 0x3f50624da5218b95 /\ l 0x8000000000000001 = Ok 0x8000000000000001 /\ l 0xfff0000000000000 = Ok 0xfff0000000000000.
Proof. split; [apply soft_ops_ieee; [tauto|lia]|]. vm_compute. repeat split. Qed.

(** * C68 *)
(** acosh does not panic. For a finite argument from 1 on the result differs from the nonnegative real
    number whose hyperbolic cosine is the argument by at most six units in the last place. 1 gives +0;
    an argument below 1, minus infinity and a NaN give a NaN; infinity gives infinity. *)
Theorem C68_acosh : forall o c x, ieee_ops F64 o -> icast_ok c -> is_float F64 x -> exists r, libm_acosh o c x = Ok r /\ is_float F64 r /\
  (is_nan F64 x -> is_nan F64 r) /\ (is_inf F64 x -> if sign_of F64 x then is_nan F64 r else r = x) /\
  (is_finite F64 x -> (value F64 x < 1)%R -> is_nan F64 r) /\ (is_finite F64 x -> value F64 x = 1%R -> r = 0) /\
  (is_finite F64 x -> (1 <= value F64 x)%R -> exists y, (0 <= y)%R /\ cosh y = value F64 x /\ within 6 r y).
Proof. intros o c x Ho Hc F. exact (acosh_all o Ho c Hc x F). Qed.
(** 1, its successor, 1.5, 3, 10^300, 0.5, -1.5, infinity, minus infinity. *)
Example C68_cases : let l := libm_acosh (soft_ops F64 8) soft_icast in ieee_ops F64 (soft_ops F64 8) /\
  l 0x3ff0000000000000 = Ok 0 /\ l 0x3ff0000000000001 = Ok 0x3e56a09e667f3bcd /\ l 0x3ff8000000000000 = Ok 0x3feecc2caec5160a /\ l 0x4008000000000000 = Ok 0x3ffc34366179d426 /\ l 0x7e37e43c8800759c = Ok 0x40859bbfd8b83e43 /\ l 0x3fe0000000000000 = Ok 0x7ff8000000000000 /\ l 0xbff8000000000000 = Ok 0x7ff8000000000000 /\ l 0x7ff0000000000000 = Ok 0x7ff0000000000000 /\ l 0xfff0000000000000 = Ok 0x7ff8000000000000.
Proof. split; [apply soft_ops_ieee; [tauto|lia]|]. vm_compute. repeat split. Qed.
Definition area_theorems := (C66_atanh, C67_asinh, C68_acosh).
Print Assumptions area_theorems.
