(** Theorems about the logarithm of 1+x of libm. *)
From Coq Require Import ZArith Reals Bool Lia Lra.
From Flocq Require Import Core.
From Verif Require Import Base FloatModel FloatSpec FloatProps LibmModel LibmSpec LibmProps FloatConvModel FloatConvSpec ElemModel ElemSpec ElemProps Log1pModel Log1pProofs2.
Open Scope Z_scope.

(** * C63 *)
(** log1p does not panic. For a finite argument above -1 the result differs from the logarithm of
    1 + x, of which the sum is not rounded, by at most one and a half units in the last place. -1
    gives minus infinity; a smaller argument, minus infinity and a NaN give a NaN; infinity gives
    infinity; a zero is returned unchanged. *)
Theorem C63_log1p : forall o c x, ieee_ops F64 o -> icast_ok c -> is_float F64 x -> exists r, libm_log1p o c x = Ok r /\ is_float F64 r /\
  (is_nan F64 x -> is_nan F64 r) /\
  (is_zero F64 x -> r = x) /\
  (is_finite F64 x -> value F64 x = (-1)%R -> r = 0xfff0000000000000) /\
  (is_finite F64 x -> (value F64 x < -1)%R -> is_nan F64 r) /\
  (is_inf F64 x -> if sign_of F64 x then is_nan F64 r else r = x) /\
  (is_finite F64 x -> (-1 < value F64 x)%R -> within (3 / 2) r (ln (1 + value F64 x))).
Proof. intros o c x Ho Hc F. exact (log1p_all o Ho c Hc x F). Qed.
(** 1, -0.5, 0.1, 10^-10, 10^300, 2^60 + 2^10, 10^10, -1 + 2^-53, the least subnormal, -0, -1, -2,
    infinity, minus infinity. *)
Example C63_cases : let l := libm_log1p (soft_ops F64 8) soft_icast in
  ieee_ops F64 (soft_ops F64 8) /\
  l 0x3ff0000000000000 = Ok 0x3fe62e42fefa39ef /\ l 0xbfe0000000000000 = Ok 0xbfe62e42fefa39ef /\
  l 0x3fb999999999999a = Ok 0x3fb8663f793c46c7 /\ l 0x3ddb7cdfd9d7bdbb = Ok 0x3ddb7cdfd9d1d693 /\
  l 0x7e37e43c8800759c = Ok 0x4085963447f87fb5 /\ l 0x43b0000000000004 = Ok 0x4044cb5ecf0a9650 /\
  l 0x4202a05f20000000 = Ok 0x4037069e2aa3184e /\ l 0xbfefffffffffffff = Ok 0xc0425e4f7b2737fa /\
  l 1 = Ok 1 /\ l 0x8000000000000000 = Ok 0x8000000000000000 /\
  l 0xbff0000000000000 = Ok 0xfff0000000000000 /\ l 0xc000000000000000 = Ok 0x7ff8000000000000 /\
  l 0x7ff0000000000000 = Ok 0x7ff0000000000000 /\ l 0xfff0000000000000 = Ok 0x7ff8000000000000.
Proof. split; [apply soft_ops_ieee; [tauto|lia]|]. vm_compute. repeat split. Qed.
Definition log1p_theorems := C63_log1p.
Print Assumptions log1p_theorems.
