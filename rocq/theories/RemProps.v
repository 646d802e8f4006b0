(** Properties C39 and C40: the floating-point remainders. [o] stands for the float
    operators of the target, of which this crate's soft-float routines are one instance
    (soft_ops_ieee in LibmProps.v). *)
From Coq Require Import ZArith Reals Bool Lia.
From Flocq Require Import Core.
From Verif Require Import Base FloatModel FloatSpec FloatProofs FloatDivModel LibmModel LibmSpec LibmProps RemModel RemSpec RemProofs RemProofs3.
Open Scope Z_scope.

(** * C39: fmod, fmodf, fmodf16, fmodf128. *)
Theorem C39_fmod : forall f o dbg x y, std f -> ieee_ops f o -> is_float f x -> is_float f y ->
  exists r, fmod f o dbg x y = Ok r /\ is_float f r /\
  (no_remainder f x y -> is_qnan f r) /\
  (is_finite f x -> is_inf f y -> r = x) /\
  (is_finite f x -> is_finite f y -> ~ is_zero f y -> exact_remainder f Ztrunc x y r /\ sign_of f r = sign_of f x).
Proof. intros f o dbg x y Hf Ho. apply fmod_ok; [apply std_wf, Hf|exact Hf|exact Ho]. Qed.
(** 5 % 3 = 2; -5 % 3 = -2; the largest double by the least one; a remainder that needs the
    multiplicative reduction; binary128; signed zero; an infinite divisor. *)
Example C39_cases : let o := soft_ops F64 8 in let q := soft_ops F128 8 in
  fmod F64 o true 0x4014000000000000 0x4008000000000000 = Ok 0x4000000000000000 /\
  fmod F64 o true 0xc014000000000000 0x4008000000000000 = Ok 0xc000000000000000 /\
  fmod F64 o true 0x7fefffffffffffff 1 = Ok 0 /\
  fmod F64 o true 0x7fefffffffffffff 0xc008000000000000 = Ok 0x4000000000000000 /\
  fmod F64 o true 0x7fefffffffffffff 7 = Ok 5 /\
  fmod F128 q true 0x7ffeffffffffffffffffffffffffffff 0x40008000000000000000000000000000 = Ok 0x40000000000000000000000000000000 /\
  fmod F32 (soft_ops F32 8) true 0xc0c00000 0x40400000 = Ok 0x80000000 /\
  fmod F64 o true 0xc014000000000000 0x7ff0000000000000 = Ok 0xc014000000000000.
Proof. repeat match goal with |- _ /\ _ => split | |- let _ := _ in _ => intro end; vm_compute; reflexivity. Qed.

(** * C40: remquo, remquof, remainder, remainderf. The second component is the low 31 bits
    of the quotient, with its sign. *)
Theorem C40_remquo : forall f o checks x y, f = F32 \/ f = F64 -> ieee_ops f o -> is_float f x -> is_float f y ->
  exists r q, remquo f o checks x y = Ok (r, q) /\ is_float f r /\
  (no_remainder f x y -> is_qnan f r /\ q = 0) /\
  (is_finite f x -> is_inf f y -> r = x /\ q = 0) /\
  (is_finite f x -> is_finite f y -> ~ is_zero f y ->
   exact_remainder f ZnearestE x y r /\ q = Z.rem (ZnearestE (value f x / value f y)) (2 ^ 31)).
Proof.
  intros f o checks x y Hf Ho. assert (W : wf f) by (apply std_wf; unfold std; tauto).
  apply remquo_ok; [exact W|exact Ho|destruct Hf as [-> | ->]; cbn; lia|destruct Hf as [-> | ->]; cbn; lia].
Qed.
Theorem C40_remainder : forall f o checks x y, f = F32 \/ f = F64 -> ieee_ops f o -> is_float f x -> is_float f y ->
  exists r, remainder f o checks x y = Ok r /\ is_float f r /\
  (no_remainder f x y -> is_qnan f r) /\
  (is_finite f x -> is_inf f y -> r = x) /\
  (is_finite f x -> is_finite f y -> ~ is_zero f y -> exact_remainder f ZnearestE x y r).
Proof.
  intros f o checks x y Hf Ho Fx Fy. destruct (C40_remquo f o checks x y Hf Ho Fx Fy) as (r & q & E & H1 & H2 & H3 & H4).
  exists r. unfold remainder. rewrite E. split; [reflexivity|]. split; [exact H1|]. split; [|split].
  - intros K. apply H2, K.
  - intros K L. apply H3; assumption.
  - intros K L M. apply H4; assumption.
Qed.
(** 5 = 2 * 3 - 1; -5; 7.5 = 2.5 * 3 is a tie and takes the even quotient 2; 4.5 likewise
    (2 * 3 - 1.5); a quotient above 2^31; the largest float by the least one; quotient and
    remainder of operands with very different exponents; an infinite divisor. *)
Example C40_cases : let o := soft_ops F64 8 in let p := soft_ops F32 8 in
  remquo F64 o true 0x4014000000000000 0x4008000000000000 = Ok (0xbff0000000000000, 2) /\
  remquo F64 o true 0xc014000000000000 0x4008000000000000 = Ok (0x3ff0000000000000, -2) /\
  remquo F64 o true 0x401e000000000000 0x4008000000000000 = Ok (0x3ff8000000000000, 2) /\
  remquo F64 o true 0x4012000000000000 0x4008000000000000 = Ok (0xbff8000000000000, 2) /\
  remquo F64 o true 0x4202a05f20000000 0x4008000000000000 = Ok (0x3ff0000000000000, 1185849685) /\
  remquo F32 p true 0x7f7fffff 1 = Ok (0, 0) /\
  remquo F32 p true 0xff7fffff 0x40400000 = Ok (0x80000000, 0) /\
  remquo F64 o true 0xc000000000000001 0x04c0000000000004 = Ok (331014572611731456, 0) /\
  remquo F64 o true 0x7fefffffffffffff 0x7ff0000000000000 = Ok (0x7fefffffffffffff, 0) /\
  remainder F32 p true 0x40e00000 0x40000000 = Ok 0xbf800000.
Proof. repeat match goal with |- _ /\ _ => split | |- let _ := _ in _ => intro end; vm_compute; reflexivity. Qed.

Definition rem_theorems := (C39_fmod, C40_remquo, C40_remainder).
Print Assumptions rem_theorems.
