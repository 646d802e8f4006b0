(** Theorems about the natural logarithm of libm. *)
From Coq Require Import ZArith Reals Bool List Lia Lra.
From Flocq Require Import Core.
From Verif Require Import Base FloatModel FloatSpec FloatProps FloatConvModel FloatConvSpec LibmModel LibmSpec LibmProps
  ElemModel ElemSpec LogProofs4.
Open Scope Z_scope.

(** log does not panic, and is accurate to 3/2 units in the last place of the exact value. *)
Theorem C54_log : forall o c x, ieee_ops F64 o -> icast_ok c -> is_float F64 x ->
  exists r, libm_log o c x = Ok r /\ is_float F64 r /\
  (is_nan F64 x -> is_nan F64 r) /\
  (is_zero F64 x -> r = 0xfff0000000000000) /\
  (~ is_zero F64 x -> sign_of F64 x = true -> is_nan F64 r) /\
  (is_inf F64 x -> sign_of F64 x = false -> r = 0x7ff0000000000000) /\
  (is_finite F64 x -> (0 < value F64 x)%R -> within (3 / 2) r (ln (value F64 x))) /\
  (value F64 x = 1%R -> is_finite F64 x -> r = 0).
Proof. intros o c x Ho Hc F. exact (log_special o Ho c Hc x F). Qed.
(** log 2, log 0.5, log 10, the least subnormal, the greatest double, 1, a neighbour of 1, -1, -0, inf. *)
Example C54_cases : let l := libm_log (soft_ops F64 8) soft_icast in
  ieee_ops F64 (soft_ops F64 8) /\
  l 0x4000000000000000 = Ok 0x3fe62e42fefa39ef /\ l 0x3fe0000000000000 = Ok 0xbfe62e42fefa39ef /\ l 0x4024000000000000 = Ok 0x40026bb1bbb55516 /\
  l 1 = Ok 0xc0874385446d71c3 /\ l 0x7fefffffffffffff = Ok 0x40862e42fefa39ef /\ l 0x3ff0000000000000 = Ok 0 /\
  l 0x3ff0000000000001 = Ok 0x3cafffffffffffff /\ l 0x8000000000000000 = Ok 0xfff0000000000000 /\ l 0x7ff0000000000000 = Ok 0x7ff0000000000000 /\
  l 0xbff0000000000000 = Ok 0x7ff8000000000000.
Proof. split; [apply soft_ops_ieee; [tauto|lia]|]. vm_compute. repeat split. Qed.

Definition log_theorems := C54_log.
Print Assumptions log_theorems.
