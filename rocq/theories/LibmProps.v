(** Properties C29-C38: the bit-level functions of libm. [o] stands for the float
    operators of the target; [soft_ops_ieee] shows that this crate's own soft-float
    routines are one instance. *)
From Coq Require Import ZArith Reals Bool Lia.
From Flocq Require Import Core.
From Verif Require Import Base BaseLemmas FloatModel FloatSpec FloatConvSpec FloatConvModel FloatDivModel FloatProofs FloatProofs2 FloatProofs3 FloatConvProofs FloatLib FloatProps FloatConvProps FloatDivProofs FloatDivProofs4 FloatDivProps LibmModel LibmSpec LibmProofs LibmProofs2 LibmProofs3 LibmProofs4 LibmProofs5 LibmProofs6.
Open Scope Z_scope.

Theorem soft_ops_ieee : forall f p, f = F32 \/ f = F64 \/ f = F128 -> 1 <= p <= 8 -> ieee_ops f (soft_ops f p).
Proof.
  intros f p Hf Hp. assert (std f) as St by (unfold std; tauto). split; intros a b Ha Hb; cbn [soft_ops o_add o_sub o_mul o_div o_lt o_le o_eq].
  - destruct (C20_add f a b St Ha Hb) as (r & -> & H). exact H.
  - destruct (C20_sub f a b St Ha Hb) as (r & -> & H). exact H.
  - destruct (C21_mul f a b St Ha Hb) as (r & -> & H). exact H.
  - destruct (C22_div f p a b Hf Hp Ha Hb) as (r & -> & H). exact H.
  - destruct (C23_cmp f a b St Ha Hb) as (L & _). rewrite Z.ltb_lt. exact L.
  - destruct (C23_cmp f a b St Ha Hb) as (_ & L & _). rewrite Z.leb_le. exact L.
  - destruct (C23_cmp f a b St Ha Hb) as (_ & _ & _ & _ & L & _). rewrite Z.eqb_eq. exact L.
Qed.

(** * C29 *)
Theorem C29_fabs : forall f x, std f -> is_float f x ->
  is_float f (fabs f x) /\ sign_of f (fabs f x) = false /\ exp_field f (fabs f x) = exp_field f x /\ frac_field f (fabs f x) = frac_field f x.
Proof.
  intros f x Hf Fx. pose proof (std_wf f Hf) as W. destruct (split_float f W x Fx) as (s & n & -> & Hn). rewrite (fabs_mk f W) by assumption.
  replace n with (b2z false * 2 ^ (fb f - 1) + n) at 1 2 3 5 by (cbn [b2z]; lia).
  rewrite sign_of_mk, !exp_field_mk, !frac_field_mk by assumption. split; [apply is_float_mk; assumption|]. repeat split; reflexivity.
Qed.
Theorem C29_copysign : forall f x y, std f -> is_float f x -> is_float f y ->
  let r := copysign f x y in
  is_float f r /\ sign_of f r = sign_of f y /\ exp_field f r = exp_field f x /\ frac_field f r = frac_field f x.
Proof.
  intros f x y Hf Fx Fy. pose proof (std_wf f Hf) as W. destruct (split_float f W x Fx) as (s & n & -> & Hn). destruct (split_float f W y Fy) as (t & m & -> & Hm).
  cbv zeta. rewrite (copysign_mk f W) by assumption. rewrite !sign_of_mk, !exp_field_mk, !frac_field_mk by assumption. split; [apply is_float_mk; assumption|]. repeat split; reflexivity.
Qed.
Example C29_cases : fabs F64 0xfff4000000000001 = 0x7ff4000000000001 /\ copysign F32 0x7fa00001 0x80000000 = 0xffa00001 /\ copysign F16 0xbc00 0 = 0x3c00.
Proof. repeat split; vm_compute; reflexivity. Qed.

(** * C30 *)
Theorem C30_fmin : forall f o x y, std f -> ieee_ops f o -> is_float f x -> is_float f y -> let r := fmin f o x y in
  is_float f r /\ nan_ignored f x y r /\ (~ is_nan f x -> ~ is_nan f y -> lower_of f x y r).
Proof. intros f o x y Hf Ho. apply fmin_ok; [apply std_wf, Hf|exact Ho]. Qed.
Theorem C30_fmax : forall f o x y, std f -> ieee_ops f o -> is_float f x -> is_float f y -> let r := fmax f o x y in
  is_float f r /\ nan_ignored f x y r /\ (~ is_nan f x -> ~ is_nan f y -> upper_of f x y r).
Proof. intros f o x y Hf Ho. apply fmax_ok; [apply std_wf, Hf|exact Ho]. Qed.
(** -0 is below +0: between zeros the result is negative when one of them is. *)
Theorem C30_fminimum : forall f o x y, std f -> ieee_ops f o -> is_float f x -> is_float f y -> let r := fminimum f o x y in
  is_float f r /\ nan_propagated f x y r /\
  (~ is_nan f x -> ~ is_nan f y -> lower_of f x y r /\ (is_zero f x -> is_zero f y -> sign_of f r = sign_of f x || sign_of f y)).
Proof. intros f o x y Hf Ho. apply fminimum_ok; [apply std_wf, Hf|exact Ho]. Qed.
Theorem C30_fmaximum : forall f o x y, std f -> ieee_ops f o -> is_float f x -> is_float f y -> let r := fmaximum f o x y in
  is_float f r /\ nan_propagated f x y r /\
  (~ is_nan f x -> ~ is_nan f y -> upper_of f x y r /\ (is_zero f x -> is_zero f y -> sign_of f r = sign_of f x && sign_of f y)).
Proof. intros f o x y Hf Ho. apply fmaximum_ok; [apply std_wf, Hf|exact Ho]. Qed.
Theorem C30_fminimum_num : forall f o x y, std f -> ieee_ops f o -> is_float f x -> is_float f y -> let r := fminimum_num f o x y in
  is_float f r /\ nan_ignored f x y r /\
  (~ is_nan f x -> ~ is_nan f y -> lower_of f x y r /\ (is_zero f x -> is_zero f y -> sign_of f r = sign_of f x || sign_of f y)).
Proof. intros f o x y Hf Ho. apply fminimum_num_ok; [apply std_wf, Hf|exact Ho]. Qed.
Theorem C30_fmaximum_num : forall f o x y, std f -> ieee_ops f o -> is_float f x -> is_float f y -> let r := fmaximum_num f o x y in
  is_float f r /\ nan_ignored f x y r /\
  (~ is_nan f x -> ~ is_nan f y -> upper_of f x y r /\ (is_zero f x -> is_zero f y -> sign_of f r = sign_of f x && sign_of f y)).
Proof. intros f o x y Hf Ho. apply fmaximum_num_ok; [apply std_wf, Hf|exact Ho]. Qed.
(** With the soft-float operators: NaN operands (one signaling), zeros of both signs, -inf. *)
Example C30_cases : let o := soft_ops F32 8 in
  fmin F32 o 0x7fa00000 0x3f800000 = 0x3f800000 /\ fmax F32 o 0x3f800000 0x7fa00000 = 0x3f800000 /\
  fminimum F32 o 0x3f800000 0x7fa00000 = 0x7fe00000 /\ fminimum F32 o 0 0x80000000 = 0x80000000 /\ fminimum F32 o 0x80000000 0 = 0x80000000 /\
  fmaximum F32 o 0x80000000 0 = 0 /\ fmaximum F32 o 0 0x80000000 = 0 /\ fminimum_num F32 o 0x7fa00000 0xff800000 = 0xff800000 /\
  fmaximum_num F32 o 0x80000000 0 = 0 /\ fmaximum_num F32 o 0xc0000000 0xbf800000 = 0xbf800000.
Proof. repeat match goal with |- _ /\ _ => split | |- let _ := _ in _ => intro end; vm_compute; reflexivity. Qed.

(** * C31 *)
Theorem C31_fdim : forall f o x y, std f -> ieee_ops f o -> is_float f x -> is_float f y -> let r := fdim o x y in
  (num_le f x y -> is_zero f r /\ sign_of f r = false) /\ (~ num_le f x y -> is_float f r /\ ieee_sub f x y r).
Proof.
  intros f o x y Hf Ho Fx Fy r. subst r. unfold fdim. pose proof (ops_le f o Ho x y Fx Fy) as L. destruct (o_le o x y).
  - split; [|intros N; exfalso; apply N, L; reflexivity]. intros _. pose proof (std_wf f Hf) as W. pose proof (inf_pos f W). pose proof (S_pos f W).
    change 0 with (b2z false * 2 ^ (fb f - 1) + 0) at 1 2. rewrite is_zero_mk, sign_of_mk by (assumption || lia). split; reflexivity.
  - split; [intros N; apply L in N; discriminate|]. intros _. apply (ops_sub f o Ho); assumption.
Qed.
Example C31_cases : let o := soft_ops F64 8 in
  fdim o 0x4008000000000000 0x3ff0000000000000 = 0x4000000000000000 /\ fdim o 0x3ff0000000000000 0x4008000000000000 = 0 /\
  fdim o 0x7ff0000000000000 0x7ff0000000000000 = 0 /\ fdim o 0x7ff8000000000000 0 = 0x7ff8000000000000.
Proof. repeat match goal with |- _ /\ _ => split | |- let _ := _ in _ => intro end; vm_compute; reflexivity. Qed.

(** * C32 *)
(** The second component is the inexact flag. *)
Definition rounds_exactly (f : fmt) (rnd : R -> Z) (x r : Z) (inexact : bool) : Prop :=
  (is_finite f x -> rounded_to_integer f rnd x r /\ (inexact = true <-> value f r <> value f x)) /\
  (~ is_finite f x -> r = x /\ inexact = false).
Theorem C32_trunc : forall f x, std f -> is_float f x -> exists r st, trunc_status f x = Ok (r, st) /\ rounds_exactly f Ztrunc x r st.
Proof. intros f x Hf. apply trunc_status_ok; [apply std_wf, Hf|apply std_wl, Hf]. Qed.
Theorem C32_floor : forall f x, std f -> is_float f x -> exists r st, floor_status f x = Ok (r, st) /\ rounds_exactly f Zfloor x r st.
Proof. intros f x Hf. apply floor_status_ok; [apply std_wf, Hf|apply std_wl, Hf]. Qed.
Theorem C32_ceil : forall f x, std f -> is_float f x -> exists r st, ceil_status f x = Ok (r, st) /\ rounds_exactly f Zceil x r st.
Proof. intros f x Hf. apply ceil_status_ok; [apply std_wf, Hf|apply std_wl, Hf]. Qed.
(** -1.5, 0.5, -0.5, -0, 1 and a signaling NaN. *)
Example C32_cases :
  trunc_status F32 0xbfc00000 = Ok (0xbf800000, true) /\ floor_status F32 0xbfc00000 = Ok (0xc0000000, true) /\ ceil_status F32 0xbfc00000 = Ok (0xbf800000, true) /\
  floor_status F64 0x3fe0000000000000 = Ok (0, true) /\ ceil_status F64 0xbfe0000000000000 = Ok (0x8000000000000000, true) /\
  floor_status F16 0x8000 = Ok (0x8000, false) /\ ceil_status F16 0x3c00 = Ok (0x3c00, false) /\ trunc_status F32 0x7fa00000 = Ok (0x7fa00000, false) /\
  floor_status F128 (2 ^ 127 + 1) = Ok (NEG_ONE F128, true).
Proof. repeat split; vm_compute; reflexivity. Qed.

(** * C33 *)
Theorem C33_rint : forall f o x, std f -> ieee_ops f o -> is_float f x -> exists r st, rint_status f o x = Ok (r, st) /\
  (is_finite f x -> rounded_to_integer f ZnearestE x r /\ (st = true <-> value f r <> value f x)) /\
  (~ is_finite f x -> r = x /\ (st = true <-> is_nan f x)).
Proof. intros f o x Hf Ho. apply rint_status_ok; [apply std_wf, Hf|apply std_wl3, Hf|exact Ho]. Qed.
Theorem C33_round : forall f o x, std f -> ieee_ops f o -> is_float f x -> exists r, LibmModel.round f o x = Ok r /\
  (is_finite f x -> rounded_to_integer f ZnearestA x r) /\ (is_inf f x -> r = x) /\ (is_nan f x -> is_qnan f r).
Proof. intros f o x Hf Ho. apply round_ok; [apply std_wf, Hf|apply std_wl3, Hf|exact Ho]. Qed.
(** 2.5, -0.5, 0.49999999999999994 (the case that defeats adding one half), 2^52 + 1, NaN. *)
Example C33_cases : let o := soft_ops F64 8 in
  rint_status F64 o 0x4004000000000000 = Ok (0x4000000000000000, true) /\ LibmModel.round F64 o 0x4004000000000000 = Ok 0x4008000000000000 /\
  rint_status F64 o 0xbfe0000000000000 = Ok (0x8000000000000000, true) /\ LibmModel.round F64 o 0xbfe0000000000000 = Ok 0xbff0000000000000 /\
  LibmModel.round F64 o 0x3fdfffffffffffff = Ok 0 /\ LibmModel.round F64 o 0xbfdfffffffffffff = Ok 0x8000000000000000 /\
  LibmModel.round F64 o 0x4330000000000001 = Ok 0x4330000000000001 /\ LibmModel.round F64 o 0x7ff4000000000000 = Ok 0x7ffc000000000000.
Proof. repeat match goal with |- _ /\ _ => split | |- let _ := _ in _ => intro end; vm_compute; reflexivity. Qed.

(** * C34 *)
Theorem C34_frexp : forall f o x, std f -> ieee_ops f o -> is_float f x -> exists r e, frexp f o x = Ok (r, e) /\
  (is_finite f x -> ~ is_zero f x ->
     is_float f r /\ is_finite f r /\ (/ 2 <= Rabs (value f r) < 1)%R /\ value f x = (value f r * bpow radix2 e)%R) /\
  (is_zero f x \/ ~ is_finite f x -> r = x /\ e = 0).
Proof. intros f o x Hf Ho. apply frexp_ok; [apply std_wf, Hf|exact Ho]. Qed.
Example C34_cases : let o := soft_ops F64 8 in
  frexp F64 o 0xc024000000000000 = Ok (0xbfe4000000000000, 4) /\ frexp F64 o 3 = Ok (0x3fe8000000000000, -1072) /\
  frexp F64 o 0x8000000000000000 = Ok (0x8000000000000000, 0) /\ frexp F64 o 0x7ff4000000000000 = Ok (0x7ff4000000000000, 0).
Proof. repeat match goal with |- _ /\ _ => split | |- let _ := _ in _ => intro end; vm_compute; reflexivity. Qed.

(** * C35 *)
Theorem C35_ilogb : forall f x, std f -> is_float f x -> exists r, ilogb f x = Ok r /\
  (is_finite f x -> ~ is_zero f x -> (bpow radix2 r <= Rabs (value f x) < bpow radix2 (r + 1))%R) /\
  (is_zero f x \/ is_nan f x -> r = - 2 ^ 31) /\ (is_inf f x -> r = 2 ^ 31 - 1).
Proof. intros f x Hf. apply ilogb_ok, std_wf, Hf. Qed.
Example C35_cases : ilogb F64 0xc024000000000000 = Ok 3 /\ ilogb F64 1 = Ok (-1074) /\ ilogb F16 0x8000 = Ok (- 2 ^ 31) /\
  ilogb F32 0xff800000 = Ok (2 ^ 31 - 1) /\ ilogb F32 0x7f800001 = Ok (- 2 ^ 31) /\ ilogb F128 1 = Ok (-16494).
Proof. repeat split; vm_compute; reflexivity. Qed.

(** * C36 *)
Theorem C36_scalbn : forall f o x n, std f -> ieee_ops f o -> is_float f x -> - 2 ^ 31 <= n < 2 ^ 31 ->
  exists r, scalbn f o x n = Ok r /\ is_float f r /\
  (is_finite f x -> rounds_to f (sign_of f x) (value f x * bpow radix2 n) r) /\ (is_inf f x -> r = x) /\ (is_nan f x -> is_qnan f r).
Proof.
  intros f o x n Hf Ho. apply scalbn_ok; [apply std_wf, Hf|apply std_wl3, Hf|apply std_ws, Hf| |exact Ho].
  destruct Hf as [->|[->|[->| ->]]]; cbv; intros; try congruence. split; reflexivity.
Qed.
(** 1 * 2^-1074, 1.5 * 2^-1074 (tie to even), the double-rounding trap 0x1.0000000000001p0 * 2^-1023,
    extreme exponents, from the least to the greatest power of two. *)
Example C36_cases : let o := soft_ops F64 8 in
  scalbn F64 o 0x3ff0000000000000 (-1074) = Ok 1 /\ scalbn F64 o 0x3ff8000000000000 (-1074) = Ok 2 /\
  scalbn F64 o 0x3ff0000000000001 (-1023) = Ok 0x0008000000000000 /\ scalbn F64 o 0xbff0000000000000 (- 2 ^ 31) = Ok 0x8000000000000000 /\
  scalbn F64 o 1 (2 ^ 31 - 1) = Ok 0x7ff0000000000000 /\ scalbn F64 o 1 2097 = Ok 0x7fe0000000000000 /\ scalbn F64 o 0x7ff0000000000000 (-5) = Ok 0x7ff0000000000000.
Proof. repeat match goal with |- _ /\ _ => split | |- let _ := _ in _ => intro end; vm_compute; reflexivity. Qed.

(** * C37 *)
Theorem C37_nextafter : forall f o x y, std f -> ieee_ops f o -> is_float f x -> is_float f y ->
  exists r, nextafter f o x y = Ok r /\ is_float f r /\
  (is_nan f x \/ is_nan f y -> is_qnan f r) /\
  (num_eq f x y -> r = y) /\
  (num_lt f x y -> num_lt f x r /\ forall z, is_float f z -> num_lt f x z -> num_le f r z) /\
  (num_lt f y x -> num_lt f r x /\ forall z, is_float f z -> num_lt f z x -> num_le f z r) /\
  (num_lt f x y \/ num_lt f y x -> ~ is_zero f x -> sign_of f r = sign_of f x).
Proof. intros f o x y Hf Ho. apply nextafter_ok; [apply std_wf, Hf|exact Ho]. Qed.
Example C37_cases : let o := soft_ops F32 8 in
  nextafter F32 o 0x3f800000 0x40000000 = Ok 0x3f800001 /\ nextafter F32 o 0x3f800000 0xff800000 = Ok 0x3f7fffff /\
  nextafter F32 o 0 0x80000000 = Ok 0x80000000 /\ nextafter F32 o 0 0xbf800000 = Ok 0x80000001 /\ nextafter F32 o 0x80000001 0x3f800000 = Ok 0x80000000 /\
  nextafter F32 o 0x7f7fffff 0x7f800000 = Ok 0x7f800000 /\ nextafter F32 o 0xff800000 0 = Ok 0xff7fffff /\ nextafter F32 o 0x7f800001 0 = Ok 0x7fc00001.
Proof. repeat match goal with |- _ /\ _ => split | |- let _ := _ in _ => intro end; vm_compute; reflexivity. Qed.

(** * C38 *)
Theorem C38_modf : forall f o x, std f -> ieee_ops f o -> is_float f x -> exists fr i, modf f o x = Ok (fr, i) /\
  (is_finite f x -> rounded_to_integer f Ztrunc x i /\ is_float f fr /\ is_finite f fr /\ sign_of f fr = sign_of f x /\ (value f fr + value f i = value f x)%R) /\
  (is_inf f x -> i = x /\ is_float f fr /\ is_zero f fr /\ sign_of f fr = sign_of f x) /\ (is_nan f x -> fr = x /\ i = x).
Proof. intros f o x Hf Ho. apply modf_ok; [apply std_wf, Hf|apply std_wl3, Hf|exact Ho]. Qed.
Example C38_cases : let o := soft_ops F64 8 in
  modf F64 o 0xc00a000000000000 = Ok (0xbfd0000000000000, 0xc008000000000000) /\ modf F64 o 0xbfe0000000000000 = Ok (0xbfe0000000000000, 0x8000000000000000) /\
  modf F64 o 0xfff0000000000000 = Ok (0x8000000000000000, 0xfff0000000000000) /\ modf F64 o 0x4014000000000000 = Ok (0, 0x4014000000000000).
Proof. repeat match goal with |- _ /\ _ => split | |- let _ := _ in _ => intro end; vm_compute; reflexivity. Qed.

Definition libm_theorems := (soft_ops_ieee, C29_fabs, C29_copysign, C30_fmin, C30_fmax, C30_fminimum, C30_fmaximum, C30_fminimum_num, C30_fmaximum_num,
  C31_fdim, C32_trunc, C32_floor, C32_ceil, C33_rint, C33_round, C34_frexp, C35_ilogb, C36_scalbn, C37_nextafter, C38_modf).
Print Assumptions libm_theorems.
