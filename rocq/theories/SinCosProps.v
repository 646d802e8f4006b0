(** Theorem about the agreement of sincos with sin and cos of libm. *)
From Coq Require Import ZArith Reals Bool List Lia Lra.
From Flocq Require Import Core.
From Verif Require Import Base FloatModel FloatSpec FloatProps LibmModel LibmSpec LibmProps FloatConvModel FloatConvSpec ElemModel ElemSpec ElemProps TrigModel F64Lib TrigLg TrigProps SinCosProofs.
Open Scope Z_scope.

(** * C71 *)
(** The two components of sincos are, bit for bit, the results of sin and cos, for every argument,
    infinities and NaNs included; none of the three fails. *)
Theorem C71_sincos_agrees : forall o c tbl fuel x, ieee_ops F64 o -> icast_ok c -> target_table tbl -> (4 <= fuel)%nat -> is_float F64 x ->
  exists r q, libm_sin o c tbl fuel x = Ok r /\ libm_cos o c tbl fuel x = Ok q /\ libm_sincos o c tbl fuel x = Ok (r, q).
Proof.
  intros o c tbl fuel x Ho Hc Ht Hf F. destruct (sincos_same o Ho c Hc tbl (target_words tbl Ht) fuel x Hf F) as (r & q & A & B & C). exists r, q. split; [exact B|]. split; [exact C|exact A].
Qed.
(** An argument just below 2^-26, where sin returns its argument and sincos evaluates the polynomial;
    100; 10^22; an infinity. *)
Example C71_cases : let s := libm_sincos (soft_ops F64 8) soft_icast IPIO2_64 4 in let sn := libm_sin (soft_ops F64 8) soft_icast IPIO2_64 4 in let cs := libm_cos (soft_ops F64 8) soft_icast IPIO2_64 4 in
  ieee_ops F64 (soft_ops F64 8) /\ target_table IPIO2_64 /\
  s 0x3e4fffffffffffff = Ok (0x3e4fffffffffffff, 0x3fefffffffffffff) /\ sn 0x3e4fffffffffffff = Ok 0x3e4fffffffffffff /\ cs 0x3e4fffffffffffff = Ok 0x3fefffffffffffff /\
  s 0x4059000000000000 = Ok (0xbfe03425b78c4db8, 0x3feb981dbf665fdf) /\ sn 0x4059000000000000 = Ok 0xbfe03425b78c4db8 /\ cs 0x4059000000000000 = Ok 0x3feb981dbf665fdf /\
  sn 0x4480f0cf064dd592 = Ok 0xbfeb453ab76bf397 /\ s 0x4480f0cf064dd592 = Ok (0xbfeb453ab76bf397, 0x3fe0be2cef01c8f4) /\
  sn 0x7ff0000000000000 = Ok 0x7ff8000000000000 /\ cs 0x7ff0000000000000 = Ok 0x7ff8000000000000 /\ s 0x7ff0000000000000 = Ok (0x7ff8000000000000, 0x7ff8000000000000).
Proof. split; [apply soft_ops_ieee; [tauto|lia]|]. split; [right; reflexivity|]. vm_compute. repeat split. Qed.
Print Assumptions C71_sincos_agrees.
