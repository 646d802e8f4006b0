(** Theorems about the symmetry of the trigonometric functions of libm. *)
From Coq Require Import ZArith Reals Bool List Lia Lra.
From Flocq Require Import Core.
From Verif Require Import Base FloatModel FloatSpec FloatProps LibmModel LibmSpec LibmProps FloatConvModel FloatConvSpec ElemModel ElemSpec ElemProps TrigModel F64Lib TrigLg TrigProps OddProofs ParityProofs3 TanModel ParityProofs4.
Open Scope Z_scope.

(** * C70 *)
(** sin is odd: changing the sign of a finite argument changes the sign bit of the result and no
    other bit. *)
Theorem C70_sin_odd : forall o c tbl fuel x, ieee_ops F64 o -> icast_ok c -> target_table tbl -> (4 <= fuel)%nat -> is_float F64 x -> is_finite F64 x ->
  exists r, libm_sin o c tbl fuel x = Ok r /\ libm_sin o c tbl fuel (negate F64 x) = Ok (negate F64 r).
Proof.
  intros o c tbl fuel x Ho Hc Ht Hf F N. destruct (split64 x F) as (s & n & -> & Hn). rewrite finite64 in N by exact Hn.
  destruct (parity o Ho c Hc tbl (target_words tbl Ht) fuel n Hf ltac:(lia)) as (r & q & r2 & q2 & E1 & E2 & Fr & _). rewrite negate_mk by exact Hn. destruct s; cbn [negb].
  - exists (fneg r). rewrite negate_fneg by (apply fneg_float; exact Fr). rewrite fneg_twice by exact Fr. split; assumption.
  - exists r. rewrite negate_fneg by exact Fr. split; assumption.
Qed.
(** cos is even: the sign of a finite argument makes no difference. *)
Theorem C70_cos_even : forall o c tbl fuel x, ieee_ops F64 o -> icast_ok c -> target_table tbl -> (4 <= fuel)%nat -> is_float F64 x -> is_finite F64 x ->
  exists r, libm_cos o c tbl fuel x = Ok r /\ libm_cos o c tbl fuel (negate F64 x) = Ok r.
Proof.
  intros o c tbl fuel x Ho Hc Ht Hf F N. destruct (split64 x F) as (s & n & -> & Hn). rewrite finite64 in N by exact Hn.
  destruct (parity o Ho c Hc tbl (target_words tbl Ht) fuel n Hf ltac:(lia)) as (r & q & r2 & q2 & _ & _ & _ & E1 & E2 & _). rewrite negate_mk by exact Hn. exists q. destruct s; cbn [negb]; split; assumption.
Qed.
(** Both components of sincos. *)
Theorem C70_sincos : forall o c tbl fuel x, ieee_ops F64 o -> icast_ok c -> target_table tbl -> (4 <= fuel)%nat -> is_float F64 x -> is_finite F64 x ->
  exists r q, libm_sincos o c tbl fuel x = Ok (r, q) /\ libm_sincos o c tbl fuel (negate F64 x) = Ok (negate F64 r, q).
Proof.
  intros o c tbl fuel x Ho Hc Ht Hf F N. destruct (split64 x F) as (s & n & -> & Hn). rewrite finite64 in N by exact Hn.
  destruct (parity o Ho c Hc tbl (target_words tbl Ht) fuel n Hf ltac:(lia)) as (r0 & q0 & r & q & _ & _ & _ & _ & _ & E1 & E2 & Fr). rewrite negate_mk by exact Hn. destruct s; cbn [negb].
  - exists (fneg r), q. rewrite negate_fneg by (apply fneg_float; exact Fr). rewrite fneg_twice by exact Fr. split; assumption.
  - exists r, q. rewrite negate_fneg by exact Fr. split; assumption.
Qed.
(** tan is odd. *)
Theorem C70_tan_odd : forall o c tbl fuel x, ieee_ops F64 o -> icast_ok c -> target_table tbl -> (4 <= fuel)%nat -> is_float F64 x -> is_finite F64 x ->
  exists r, libm_tan o c tbl fuel x = Ok r /\ libm_tan o c tbl fuel (negate F64 x) = Ok (negate F64 r).
Proof.
  intros o c tbl fuel x Ho Hc Ht Hf F N. destruct (split64 x F) as (s & n & -> & Hn). rewrite finite64 in N by exact Hn.
  destruct (tan_parity o Ho c Hc tbl (target_words tbl Ht) fuel n Hf ltac:(lia)) as (r & E1 & E2 & Fr). rewrite negate_mk by exact Hn. destruct s; cbn [negb].
  - exists (fneg r). rewrite negate_fneg by (apply fneg_float; exact Fr). rewrite fneg_twice by exact Fr. split; assumption.
  - exists r. rewrite negate_fneg by exact Fr. split; assumption.
Qed.
(** 1, 100, 10^22 (the reduction for large arguments), the least subnormal and zero. *)
Example C70_cases : let s := libm_sincos (soft_ops F64 8) soft_icast IPIO2_64 4 in let m := negate F64 in ieee_ops F64 (soft_ops F64 8) /\ target_table IPIO2_64 /\
  s 0x3ff0000000000000 = Ok (0x3feaed548f090cee, 0x3fe14a280fb5068c) /\ s (m 0x3ff0000000000000) = Ok (m 0x3feaed548f090cee, 0x3fe14a280fb5068c) /\
  s 0x4059000000000000 = Ok (0xbfe03425b78c4db8, 0x3feb981dbf665fdf) /\ s (m 0x4059000000000000) = Ok (m 0xbfe03425b78c4db8, 0x3feb981dbf665fdf) /\
  s 0x4480f0cf064dd592 = Ok (0xbfeb453ab76bf397, 0x3fe0be2cef01c8f4) /\ s (m 0x4480f0cf064dd592) = Ok (m 0xbfeb453ab76bf397, 0x3fe0be2cef01c8f4) /\
  s (m 1) = Ok (m 1, 0x3ff0000000000000) /\ s (m 0) = Ok (m 0, 0x3ff0000000000000) /\
  libm_sin (soft_ops F64 8) soft_icast IPIO2_64 4 (m 0x4059000000000000) = Ok (m 0xbfe03425b78c4db8) /\ libm_cos (soft_ops F64 8) soft_icast IPIO2_64 4 (m 0x4059000000000000) = Ok 0x3feb981dbf665fdf /\
  libm_tan (soft_ops F64 8) soft_icast IPIO2_64 4 0x3ff0000000000000 = Ok 0x3ff8eb245cbee3a6 /\ libm_tan (soft_ops F64 8) soft_icast IPIO2_64 4 (m 0x3ff0000000000000) = Ok (m 0x3ff8eb245cbee3a6).
Proof. split; [apply soft_ops_ieee; [tauto|lia]|]. split; [right; reflexivity|]. vm_compute. repeat split. Qed.
Definition parity_theorems := (C70_sin_odd, C70_cos_even, C70_sincos, C70_tan_odd).
Print Assumptions parity_theorems.
