(** Theorems about the sine and the cosine of libm. *)
From Coq Require Import ZArith Reals Bool List Lia Lra.
From Flocq Require Import Core.
From Verif Require Import Base BaseLemmas FloatModel FloatSpec FloatProps FloatConvModel FloatConvSpec LibmModel LibmSpec LibmProps
  ElemModel ElemSpec TrigModel TrigLg TrigLg2 TrigLg11.
Import ListNotations.
Open Scope Z_scope.

(** the table of 2/pi of some target *)
Definition target_table (tbl : list Z) : Prop := tbl = IPIO2_32 \/ tbl = IPIO2_64.
Lemma target_words tbl : target_table tbl -> forall j, 0 <= j < 66 -> tab tbl j = Ok (tt j).
Proof.
  intros H j Hj. unfold tt. replace (j <? 0) with false by lia. destruct H as [-> | ->]; [apply tab_el; change (len IPIO2_32) with 66; lia|].
  rewrite tab_el by (change (len IPIO2_64) with 690; lia). f_equal. unfold el. change IPIO2_32 with (firstn 66 IPIO2_64).
  rewrite <- (firstn_skipn 66 IPIO2_64) at 1. apply app_nth1. change (length (firstn 66 IPIO2_64)) with 66%nat. lia.
Qed.

(** sin and cos do not panic, four passes of the reduction loop are enough, and both are accurate
    to one unit in the last place of the exact value, for every finite argument. *)
Theorem C55_sin : forall o c tbl fuel x, ieee_ops F64 o -> icast_ok c -> target_table tbl -> (4 <= fuel)%nat -> is_float F64 x ->
  exists r, libm_sin o c tbl fuel x = Ok r /\ is_float F64 r /\
  (is_nan F64 x \/ is_inf F64 x -> is_nan F64 r) /\
  (is_zero F64 x -> r = x) /\
  (is_finite F64 x -> within 1 r (sin (value F64 x))).
Proof.
  intros o c tbl fuel x Ho Hc Ht Hf F. destruct (trig_all o Ho c Hc tbl (target_words tbl Ht) fuel x Hf F) as (r & q & E & _ & Fr & _ & N & W & Z & _).
  exists r. split; [exact E|]. split; [exact Fr|]. split; [|split; [apply Z|apply W]]. intros H. apply N. unfold is_nan, is_inf, is_finite in *. lia.
Qed.
Theorem C55_cos : forall o c tbl fuel x, ieee_ops F64 o -> icast_ok c -> target_table tbl -> (4 <= fuel)%nat -> is_float F64 x ->
  exists r, libm_cos o c tbl fuel x = Ok r /\ is_float F64 r /\
  (is_nan F64 x \/ is_inf F64 x -> is_nan F64 r) /\
  (is_zero F64 x -> r = 0x3ff0000000000000) /\
  (is_finite F64 x -> within 1 r (cos (value F64 x))).
Proof.
  intros o c tbl fuel x Ho Hc Ht Hf F. destruct (trig_all o Ho c Hc tbl (target_words tbl Ht) fuel x Hf F) as (r & q & _ & E & _ & Fr & N & W & Z & _).
  exists q. split; [exact E|]. split; [exact Fr|]. split; [|split; [apply Z|apply W]]. intros H. apply N. unfold is_nan, is_inf, is_finite in *. lia.
Qed.
Theorem C55_sincos : forall o c tbl fuel x, ieee_ops F64 o -> icast_ok c -> target_table tbl -> (4 <= fuel)%nat -> is_float F64 x ->
  exists r q, libm_sincos o c tbl fuel x = Ok (r, q) /\ is_float F64 r /\ is_float F64 q /\
  (is_nan F64 x \/ is_inf F64 x -> is_nan F64 r /\ is_nan F64 q) /\
  (is_zero F64 x -> r = x /\ q = 0x3ff0000000000000) /\
  (is_finite F64 x -> within 1 r (sin (value F64 x)) /\ within 1 q (cos (value F64 x))).
Proof.
  intros o c tbl fuel x Ho Hc Ht Hf F. destruct (trig_all o Ho c Hc tbl (target_words tbl Ht) fuel x Hf F) as (_ & _ & _ & _ & _ & _ & _ & _ & _ & r & q & E & Fr & Fq & N & W & Z).
  exists r, q. split; [exact E|]. split; [exact Fr|]. split; [exact Fq|]. split; [|split; [apply Z|apply W]]. intros H. apply N. unfold is_nan, is_inf, is_finite in *. lia.
Qed.
(** 1, -2, 100, 10^22, the greatest double, the double closest to a multiple of pi/2, the double
    nearest to pi, the least subnormal, -0, infinity. *)
Example C55_cases : let s := libm_sincos (soft_ops F64 8) soft_icast IPIO2_64 4 in
  ieee_ops F64 (soft_ops F64 8) /\
  s 0x3ff0000000000000 = Ok (0x3feaed548f090cee, 0x3fe14a280fb5068c) /\ s 0xc000000000000000 = Ok (0xbfed18f6ead1b446, 0xbfdaa22657537205) /\
  s 0x4059000000000000 = Ok (0xbfe03425b78c4db8, 0x3feb981dbf665fdf) /\ s 0x4480f0cf064dd592 = Ok (0xbfeb453ab76bf397, 0x3fe0be2cef01c8f4) /\
  s 0x7fefffffffffffff = Ok (0x3f7452fc98b34e97, 0xbfefffe62ecfab75) /\ s 0x7506ac5b262ca1ff = Ok (0x3ff0000000000000, 0xbc214ae72e6ba22f) /\
  s 0x400921fb54442d18 = Ok (0x3ca1a62633145c07, 0xbff0000000000000) /\ s 1 = Ok (1, 0x3ff0000000000000) /\
  s 0x8000000000000000 = Ok (0x8000000000000000, 0x3ff0000000000000) /\ s 0x7ff0000000000000 = Ok (0x7ff8000000000000, 0x7ff8000000000000) /\
  libm_sin (soft_ops F64 8) soft_icast IPIO2_32 4 0x7fefffffffffffff = Ok 0x3f7452fc98b34e97 /\
  libm_cos (soft_ops F64 8) soft_icast IPIO2_32 4 0x7fefffffffffffff = Ok 0xbfefffe62ecfab75.
Proof. split; [apply soft_ops_ieee; [tauto|lia]|]. vm_compute. repeat split. Qed.

Definition trig_theorems := (C55_sin, C55_cos, C55_sincos).
Print Assumptions trig_theorems.
