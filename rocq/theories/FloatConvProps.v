(** C23 (comparison), C24 (widening), C25 (narrowing), C26 (integer to float), C27 (float
    to integer) and C50 (signaling NaNs in format conversions). *)
From Coq Require Import ZArith Reals Bool Lia.
From Flocq Require Import Core.
From Verif Require Import Base BaseLemmas FloatModel FloatSpec FloatProofs FloatConvModel FloatConvSpec FloatConvProofs FloatConvProofs2 FloatConvProofs3 FloatConvProofs4 FloatConvProofs5 FloatLib.
Open Scope Z_scope.

(** ** C23. The comparison routines have no failing operation (their model is a total
    function into Z); comparing their result with zero decides the IEEE relation. *)
Theorem C23_cmp : forall f a b, std f -> is_float f a -> is_float f b ->
  (lt2 f a b < 0 <-> num_lt f a b) /\ (le2 f a b <= 0 <-> num_le f a b) /\
  (gt2 f a b > 0 <-> num_lt f b a) /\ (ge2 f a b >= 0 <-> num_le f b a) /\
  (eq2 f a b = 0 <-> num_eq f a b) /\ (ne2 f a b <> 0 <-> ~ num_eq f a b) /\
  (unord2 f a b <> 0 <-> is_nan f a \/ is_nan f b).
Proof. intros f a b Hf. apply cmp_correct, std_wf, Hf. Qed.

(** A NaN makes every relation but [<>] false. *)
Theorem C23_nan : forall f a b, std f -> is_float f a -> is_float f b -> is_nan f a \/ is_nan f b ->
  0 <= lt2 f a b /\ 0 < le2 f a b /\ gt2 f a b <= 0 /\ ge2 f a b < 0 /\ eq2 f a b <> 0 /\ ne2 f a b <> 0 /\ unord2 f a b <> 0.
Proof.
  intros f a b Hf Ha Hb N. destruct (C23_cmp f a b Hf Ha Hb) as (L & LE & G & GE & E & NE & U).
  assert (~ num_lt f a b /\ ~ num_eq f a b /\ ~ num_lt f b a /\ ~ num_eq f b a) as (N1 & N2 & N3 & N4).
  { unfold num_lt, num_eq, ordered. tauto. }
  unfold num_le in *. assert (~ lt2 f a b < 0) by tauto. assert (~ le2 f a b <= 0) by tauto. assert (~ gt2 f a b > 0) by tauto.
  assert (~ ge2 f a b >= 0) by tauto. split; [lia|]. split; [lia|]. split; [lia|]. split; [lia|]. tauto.
Qed.

(** Exactly one of less, equal, greater and unordered holds. *)
Theorem C23_trichotomy : forall f a b, std f -> is_float f a -> is_float f b ->
  (lt2 f a b < 0 /\ ~ eq2 f a b = 0 /\ ~ gt2 f a b > 0 /\ unord2 f a b = 0) \/
  (~ lt2 f a b < 0 /\ eq2 f a b = 0 /\ ~ gt2 f a b > 0 /\ unord2 f a b = 0) \/
  (~ lt2 f a b < 0 /\ ~ eq2 f a b = 0 /\ gt2 f a b > 0 /\ unord2 f a b = 0) \/
  (~ lt2 f a b < 0 /\ ~ eq2 f a b = 0 /\ ~ gt2 f a b > 0 /\ unord2 f a b <> 0).
Proof.
  intros f a b Hf Ha Hb. pose proof (std_wf f Hf) as W.
  destruct (split_float f W a Ha) as (s & n & -> & Hn). destruct (split_float f W b Hb) as (t & m & -> & Hm).
  unfold lt2, eq2, gt2, unord2. rewrite unord_ok, cmp_ok by assumption.
  destruct (Z.ltb_spec (inf f) n), (Z.ltb_spec (inf f) m); cbn [orb b2z to_default_cmp_result to_gt_ge_cmp_result]; try lia.
  destruct (Z.compare_spec (key f s n) (key f t m)); cbn [to_default_cmp_result to_gt_ge_cmp_result]; lia.
Qed.

Theorem C23_aeabi : forall f a b, std f -> is_float f a -> is_float f b ->
  (aeabi_cmplt f a b = 1 <-> num_lt f a b) /\ (aeabi_cmple f a b = 1 <-> num_le f a b) /\
  (aeabi_cmpgt f a b = 1 <-> num_lt f b a) /\ (aeabi_cmpge f a b = 1 <-> num_le f b a) /\
  (aeabi_cmpeq f a b = 1 <-> num_eq f a b) /\
  (forall r, r = aeabi_cmplt f a b \/ r = aeabi_cmple f a b \/ r = aeabi_cmpgt f a b \/ r = aeabi_cmpge f a b \/ r = aeabi_cmpeq f a b ->
     r = 0 \/ r = 1).
Proof.
  intros f a b Hf Ha Hb. destruct (C23_cmp f a b Hf Ha Hb) as (L & LE & G & GE & E & NE & U).
  rewrite <- L, <- LE, <- G, <- GE, <- E. unfold aeabi_cmplt, aeabi_cmple, aeabi_cmpgt, aeabi_cmpge, aeabi_cmpeq.
  destruct (Z.ltb_spec (lt2 f a b) 0), (Z.leb_spec (le2 f a b) 0), (Z.ltb_spec 0 (gt2 f a b)), (Z.leb_spec 0 (ge2 f a b)), (Z.eqb_spec (eq2 f a b) 0);
    cbn [b2z]; repeat split; intros; lia.
Qed.

(** -0 = +0, -inf < min, 1 < 2, a quiet NaN against 1. *)
Example C23_cases :
  eq2 F64 0x8000000000000000 0 = 0 /\ lt2 F32 0xff800000 0xff7fffff < 0 /\ lt2 F16 0x3c00 0x4000 < 0 /\
  gt2 F64 0xbff0000000000000 0xc000000000000000 > 0 /\ is_nan F32 0x7fc00000 /\ is_float F32 0x7fc00000 /\
  lt2 F32 0x7fc00000 0x3f800000 >= 0 /\ unord2 F32 0x7fc00000 0x3f800000 <> 0 /\ unord2 F32 0x3f800000 0x3f800000 = 0.
Proof. unfold is_nan, is_float. repeat match goal with |- _ /\ _ => split end; first [reflexivity | vm_compute; congruence]. Qed.

(** ** C24. *)
Theorem C24_extend : forall f g a, conv_pair f g -> is_float f a ->
  exists r, extend f g a = Ok r /\ ieee_extend f g a r.
Proof. intros f g a H. apply extend_correct, conv_pair_wider, H. Qed.

Example C24_cases :
  conv_pair F32 F64 /\ extend F32 F64 0x3fc00000 = Ok 0x3ff8000000000000 /\
  extend F32 F64 0x00000001 = Ok 0x36a0000000000000 /\ extend F16 F128 0x83ff = Ok (0xbff0ff8 * 2 ^ 100) /\
  extend F32 F64 0xff800000 = Ok 0xfff0000000000000 /\ extend F32 F64 0x7fc00001 = Ok 0x7ff8000020000000.
Proof. split; [left; reflexivity|]. repeat match goal with |- _ /\ _ => split end; vm_compute; reflexivity. Qed.

(** ** C25. *)
Theorem C25_narrow : forall f g a, conv_pair g f -> is_float f a ->
  exists r, trunc f g a = Ok r /\ ieee_narrow f g a r.
Proof. intros f g a H. apply trunc_correct, conv_pair_wider, H. Qed.

(** 1 + 2^-24 (tie, to even), 1 + 2^-24 + 2^-52, overflow, into the subnormals, NaN. *)
Example C25_cases :
  conv_pair F32 F64 /\ trunc F64 F32 0x3ff0000010000000 = Ok 0x3f800000 /\ trunc F64 F32 0x3ff0000010000001 = Ok 0x3f800001 /\
  trunc F64 F32 0x47efffffffffffff = Ok 0x7f800000 /\ trunc F64 F16 0xbe60000000000000 = Ok 0x8000 /\ trunc F64 F16 0xbe60000000000001 = Ok 0x8001 /\
  trunc F64 F16 0x3f0fffffffffffff = Ok 0x0400 /\ trunc F128 F64 (0x7fff * 2 ^ 112 + 1) = Ok 0x7ff8000000000000.
Proof. split; [left; reflexivity|]. repeat match goal with |- _ /\ _ => split end; vm_compute; reflexivity. Qed.

(** Widening then narrowing gives the original number back. *)
Theorem C25_round_trip : forall f g a, conv_pair f g -> is_float f a -> ~ is_nan f a ->
  exists w, extend f g a = Ok w /\ trunc g f w = Ok a.
Proof.
  intros f g a H Ha N. pose proof (conv_pair_wider f g H) as WW. pose proof (wi_f f g WW) as W.
  destruct (C24_extend f g a H Ha) as (w & E & Hw & SG & _ & EI & EF).
  destruct (C25_narrow g f w H Hw) as (r & T & Hr & SR & _ & TI & TF). exists w. split; [exact E|]. rewrite T. f_equal.
  destruct (is_inf_dec f W a Ha) as [D|D].
  - apply (inf_unique f W); auto; congruence.
  - assert (is_finite f a) as FA by (apply (finite_iff f W); tauto). destruct (EF FA) as (FW & VW). specialize (TF FW). rewrite VW, SG in TF.
    apply (rounds_to_unique f W (sign_of f a) (value f a)); [exact TF|]. apply (rounds_exact f W); assumption.
Qed.
Example C25_round_trip_case : is_float F32 0x00000003 /\ ~ is_nan F32 0x00000003 /\ extend F32 F64 3 = Ok 0x36b8000000000000 /\ trunc F64 F32 0x36b8000000000000 = Ok 3.
Proof. unfold is_float, is_nan. repeat match goal with |- _ /\ _ => split end; try (vm_compute; reflexivity); vm_compute; intuition congruence. Qed.

(** ** C26. *)
Theorem C26_unsigned : forall ib f i, int_width ib -> conv_fmt f -> 0 <= i < 2 ^ ib ->
  exists r, float_un ib f i = Ok r /\ rounds_to f false (IZR i) r.
Proof. exact float_un_correct. Qed.

Theorem C26_signed : forall ib f i, int_width ib -> conv_fmt f -> fits (SI ib) i ->
  exists r, float_si ib f i = Ok r /\ rounds_to f false (IZR i) r.
Proof. exact float_si_correct. Qed.

Lemma lor_lo_hi z l : (2 ^ 64 | z) -> 0 <= l < 2 ^ 64 -> Z.lor z l = z + l.
Proof.
  intros (h & ->) Hl. rewrite Z.lor_comm, lor_add_low by lia. lia.
Qed.

(** The entry points which take the 128-bit integer in two halves. *)
Theorem C26_uefi : forall f l h, conv_fmt f -> 0 <= l < 2 ^ 64 -> 0 <= h < 2 ^ 64 ->
  (exists r, float_un_lo_hi f l h = Ok r /\ rounds_to f false (IZR (h * 2 ^ 64 + l)) r) /\
  (exists r, float_si_lo_hi f l h = Ok r /\ rounds_to f false (IZR ((if h <? 2 ^ 63 then h else h - 2 ^ 64) * 2 ^ 64 + l)) r).
Proof.
  intros f l h Hf Hl Hh. unfold float_un_lo_hi, float_si_lo_hi. rewrite shiftl_mul by lia. split.
  - rewrite (norm_id (UI 128)); [|cbn; lia|apply fits_u; lia]. rewrite lor_lo_hi by (try exists h; auto).
    apply C26_unsigned; [right; right; reflexivity|exact Hf|lia].
  - assert (norm (SI 128) (h * 2 ^ 64) = (if h <? 2 ^ 63 then h else h - 2 ^ 64) * 2 ^ 64) as ->.
    { destruct (Z.ltb_spec h (2 ^ 63)).
      - apply norm_id; [cbn; lia|apply fits_s; lia].
      - apply norm_unique with (-1); [cbn; lia|apply fits_s; lia|cbn [bits SI]; lia]. }
    rewrite lor_lo_hi by (try (eexists; reflexivity); auto).
    apply C26_signed; [right; right; reflexivity|exact Hf|]. apply fits_s. destruct (Z.ltb_spec h (2 ^ 63)); lia.
Qed.

(** 2^24 + 1 (tie, to even), 2^64 - 1, i32::MIN, u128::MAX to f32 rounds to 2^128 = infinity. *)
Example C26_cases :
  int_width 128 /\ conv_fmt F32 /\ float_un 32 F32 16777217 = Ok 0x4b800000 /\ float_un 64 F64 (2 ^ 64 - 1) = Ok 0x43f0000000000000 /\
  float_si 32 F64 (- 2 ^ 31) = Ok 0xc1e0000000000000 /\ float_un 128 F32 (2 ^ 128 - 1) = Ok 0x7f800000 /\
  float_si 64 F32 (-16777219) = Ok 0xcb800002 /\ float_si_lo_hi F64 (2 ^ 64 - 1) (2 ^ 64 - 1) = Ok 0xbff0000000000000.
Proof. unfold int_width, conv_fmt. split; [tauto|]. split; [tauto|]. repeat match goal with |- _ /\ _ => split end; vm_compute; reflexivity. Qed.

(** ** C27. *)
Theorem C27_fix : forall ib f a, int_width ib -> conv_fmt f -> is_float f a ->
  (exists r, float_to_unsigned_int f ib a = Ok r /\ fix_spec f (UI ib) a r) /\
  (exists r, float_to_signed_int f ib a = Ok r /\ fix_spec f (SI ib) a r).
Proof. exact fix_correct. Qed.

Example C27_cases :
  is_float F64 0xc1e00000001fffff /\ is_finite F64 0xc1e00000001fffff /\
  float_to_signed_int F64 32 0xc1e00000001fffff = Ok (- 2 ^ 31) /\ float_to_signed_int F64 32 0x41dfffffffc00000 = Ok (2 ^ 31 - 1) /\
  float_to_signed_int F32 64 0xc0200000 = Ok (-2) /\ float_to_unsigned_int F32 64 0xc0200000 = Ok 0 /\
  float_to_unsigned_int F32 32 0x7f800000 = Ok (2 ^ 32 - 1) /\ float_to_unsigned_int F32 32 0x7fc00000 = Ok 0 /\
  float_to_signed_int F128 128 (0xc07e * 2 ^ 112) = Ok (- 2 ^ 127) /\ float_to_unsigned_int F32 128 0x7f7fffff = Ok (2 ^ 128 - 2 ^ 104).
Proof. unfold is_float, is_finite. repeat match goal with |- _ /\ _ => split end; first [vm_compute; reflexivity|vm_compute; congruence]. Qed.

(** ** C50. IEEE 754 requires a format conversion to deliver a quiet NaN for a signaling
    one. Narrowing does; widening keeps the NaN signaling, whatever the pair. *)
Theorem C50_narrow_quiets : forall f g a, conv_pair g f -> is_float f a -> is_nan f a ->
  exists r, trunc f g a = Ok r /\ is_qnan g r.
Proof. intros f g a H Ha N. destruct (C25_narrow f g a H Ha) as (r & E & _ & _ & Q & _). exists r. split; [exact E|]. apply Q, N. Qed.

Theorem C50_extend_quiets_refuted : forall f g, conv_pair f g ->
  ~ (forall a, is_float f a -> is_nan f a -> exists r, extend f g a = Ok r /\ is_qnan g r).
Proof.
  intros f g H C. destruct (C24_extend f g (inf f + 1) H) as (r & E & _ & _ & Q & _).
  - unfold conv_pair in H. cbn [List.In] in H. repeat (destruct H as [H|H]; [injection H as <- <-; vm_compute; split; congruence|]). destruct H.
  - destruct (C (inf f + 1)) as (r' & E' & QN).
    + unfold conv_pair in H. cbn [List.In] in H. repeat (destruct H as [H|H]; [injection H as <- <-; vm_compute; split; congruence|]). destruct H.
    + unfold conv_pair in H. cbn [List.In] in H. repeat (destruct H as [H|H]; [injection H as <- <-; vm_compute; split; congruence|]). destruct H.
    + rewrite E in E'. injection E' as <-. destruct QN as (_ & QN).
      assert (is_nan f (inf f + 1)) as NN.
      { unfold conv_pair in H. cbn [List.In] in H. repeat (destruct H as [H|H]; [injection H as <- <-; vm_compute; split; congruence|]). destruct H. }
      destruct (Q NN) as (_ & FQ). rewrite FQ in QN. revert QN.
      unfold conv_pair in H. cbn [List.In] in H. repeat (destruct H as [H|H]; [injection H as <- <-; vm_compute; congruence|]). destruct H.
Qed.
Example C50_witness : is_nan F32 0x7f800001 /\ extend F32 F64 0x7f800001 = Ok 0x7ff0000020000000 /\ trunc F64 F32 0x7ff0000020000000 = Ok 0x7fc00001.
Proof. unfold is_nan. repeat match goal with |- _ /\ _ => split end; first [vm_compute; reflexivity|vm_compute; congruence]. Qed.

Definition C23_C27_all := (C23_cmp, C23_nan, C23_trichotomy, C23_aeabi, C24_extend, C25_narrow, C25_round_trip, C26_unsigned, C26_signed, C26_uefi, C27_fix, C50_narrow_quiets, C50_extend_quiets_refuted).
Print Assumptions C23_C27_all.
