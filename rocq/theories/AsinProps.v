(** Theorems about the arc sine and the arc cosine of libm. *)
From Coq Require Import ZArith Reals Bool Lia Lra.
From Flocq Require Import Core.
From Verif Require Import Base FloatModel FloatSpec FloatProps LibmModel LibmSpec LibmProps F64Lib ElemModel ElemSpec TrigModel AsinModel AsinProofs5.
Open Scope Z_scope.

(** * C60 *)
(** On [-1, 1] the result differs from the arc sine by at most five quarters of a unit in the last
    place; a zero is returned unchanged; a NaN and any argument outside of [-1, 1], infinities
    included, give a quiet NaN. *)
Theorem C60_asin : forall o x, ieee_ops F64 o -> is_float F64 x ->
  exists r, libm_asin o x = Ok r /\ is_float F64 r /\
  (is_nan F64 x \/ is_inf F64 x \/ (is_finite F64 x /\ (1 < Rabs (value F64 x))%R) -> is_qnan F64 r) /\
  (is_zero F64 x -> r = x) /\
  (is_finite F64 x -> (Rabs (value F64 x) <= 1)%R -> within (5 / 4) r (asin (value F64 x))).
Proof.
  intros o x Ho F. destruct (split64 x F) as (s & n & -> & Hn). destruct (asin_mk_all o Ho s n Hn) as (r & E & Fr & A & B & C). exists r. split; [exact E|]. split; [exact Fr|].
  split; [intros D; apply A, (above_one s n Hn D)|]. split; [intros Z; apply B; apply zero64 in Z; [exact Z|exact Hn]|]. intros Fx L. apply C, (upto_one s n Hn Fx L).
Qed.
(** asin(1), asin(-0.5), asin(0.75), asin(-0.99), asin(0.1), a tiny, a subnormal, a zero, 2 and infinity *)
Definition soft_asin (x : Z) : res Z := libm_asin (soft_ops F64 8) x.
Example C60_example : soft_asin 0x3ff0000000000000 = Ok 0x3ff921fb54442d18 /\
  soft_asin 0xbfe0000000000000 = Ok 0xbfe0c152382d7366 /\
  soft_asin 0x3fe8000000000000 = Ok 0x3feb235315c680dc /\
  soft_asin 0xbfefae147ae147ae = Ok 0xbff6de3c6f33d51d /\
  soft_asin 0x3fb999999999999a = Ok 0x3fb9a49276037884 /\
  soft_asin 0x3ddb7cdfd9d7bdbb = Ok 0x3ddb7cdfd9d7bdbb /\
  soft_asin 0x0000000000000001 = Ok 0x0000000000000001 /\
  soft_asin 0x8000000000000000 = Ok 0x8000000000000000 /\
  soft_asin 0x4000000000000000 = Ok 0x7ff8000000000000 /\
  soft_asin 0x7ff0000000000000 = Ok 0x7ff8000000000000 /\
  ieee_ops F64 (soft_ops F64 8).
Proof. do 10 (split; [vm_compute; reflexivity|]). apply soft_ops_ieee; [tauto|lia]. Qed.

(** * C61 *)
(** On [-1, 1] the result differs from the arc cosine by at most five quarters of a unit in the
    last place; the arc cosine of one is plus zero; a NaN and any argument outside of [-1, 1],
    infinities included, give a quiet NaN. *)
Theorem C61_acos : forall o x, ieee_ops F64 o -> is_float F64 x ->
  exists r, libm_acos o x = Ok r /\ is_float F64 r /\
  (is_nan F64 x \/ is_inf F64 x \/ (is_finite F64 x /\ (1 < Rabs (value F64 x))%R) -> is_qnan F64 r) /\
  (x = 0x3ff0000000000000 -> r = 0) /\
  (is_finite F64 x -> (Rabs (value F64 x) <= 1)%R -> within (5 / 4) r (acos (value F64 x))).
Proof.
  intros o x Ho F. destruct (split64 x F) as (s & n & -> & Hn). destruct (acos_mk_all o Ho s n Hn) as (r & E & Fr & A & B & C). exists r. split; [exact E|]. split; [exact Fr|].
  split; [intros D; apply A, (above_one s n Hn D)|]. split; [exact B|]. intros Fx L. apply C, (upto_one s n Hn Fx L).
Qed.
Definition soft_acos (x : Z) : res Z := libm_acos (soft_ops F64 8) x.
(** acos(1), acos(-1), acos(0), acos(1e-20), acos(0.3), acos(-0.5), acos(0.75), acos(-0.99), 2 and infinity *)
Example C61_example : soft_acos 0x3ff0000000000000 = Ok 0x0000000000000000 /\
  soft_acos 0xbff0000000000000 = Ok 0x400921fb54442d18 /\
  soft_acos 0x0000000000000000 = Ok 0x3ff921fb54442d18 /\
  soft_acos 0x3bc79ca10c924223 = Ok 0x3ff921fb54442d18 /\
  soft_acos 0x3fd3333333333333 = Ok 0x3ff441f5ecbeef59 /\
  soft_acos 0xbfe0000000000000 = Ok 0x4000c152382d7366 /\
  soft_acos 0x3fe8000000000000 = Ok 0x3fe720a392c1d955 /\
  soft_acos 0xbfefae147ae147ae = Ok 0x4008001be1bc011b /\
  soft_acos 0x4000000000000000 = Ok 0x7ff8000000000000 /\
  soft_acos 0xfff0000000000000 = Ok 0x7ff8000000000000 /\
  ieee_ops F64 (soft_ops F64 8).
Proof. do 10 (split; [vm_compute; reflexivity|]). apply soft_ops_ieee; [tauto|lia]. Qed.
Definition asin_theorems := (C60_asin, C61_acos).
Print Assumptions asin_theorems.
