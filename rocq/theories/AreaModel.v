(** Model of the inverse hyperbolic functions of libm: libm/src/math/atanh.rs, asinh.rs and acosh.rs.
    Floats are bit patterns. The exception flags raised by force_eval! are not modelled. Definitions only. *)
From Coq Require Import ZArith List Bool.
From Verif Require Import Base FloatModel LibmModel ElemModel TrigModel SqrtModel HypotModel Log1pModel.
Open Scope Z_scope.

(** asinh.rs:3, acosh.rs:3: the same constant in both files; the bits are those of its comment. *)
Definition LN2_64 : Z := 0x3fe62e42fefa39ef. (* 0.693147180559945309417232121458176568 *)
(** 2_f64.to_bits() and ((1 << 26) as f64).to_bits(), acosh.rs:15 and 20. *)
Definition p26 : Z := 0x4190000000000000.

Section Ops.
Context (o : fops) (c : icast).
Local Notation "a +. b" := (o_add o a b) (at level 50, left associativity).
Local Notation "a -. b" := (o_sub o a b) (at level 50, left associativity).
Local Notation "a *. b" := (o_mul o a b) (at level 40, left associativity).
Local Notation "a /. b" := (o_div o a b) (at level 40, left associativity).

(** atanh, atanh.rs:9-33. [usize] holds the eleven bits of the exponent on every target; the
    constants 0x3ff - 1 and 0x3ff - 32 are written as in the source. *)
Definition libm_atanh (x : Z) : res Z :=
  let e := Z.land (Z.shiftr x 52) 0x7ff in
  let sign := negb (Z.shiftr x 63 =? 0) in
  let y := Z.land x 0x7fffffffffffffff in
  let* y :=
    if e <? 0x3ff - 1 then
      if e <? 0x3ff - 32 then Ok y
      else
        let* l := libm_log1p o c (two *. y +. two *. y *. y /. (one -. y)) in
        Ok (half *. l)
    else
      let* l := libm_log1p o c (two *. (y /. (one -. y))) in
      Ok (half *. l) in
  Ok (if sign then fneg y else y).

(** asinh, asinh.rs:11-41. *)
Definition libm_asinh (x : Z) : res Z :=
  let e := Z.land (Z.shiftr x 52) 0x7ff in
  let sign := negb (Z.shiftr x 63 =? 0) in
  let x := Z.land x (Z.shiftr (2 ^ 64 - 1) 1) in
  let* x :=
    if 0x3ff + 26 <=? e then
      let* l := libm_log o c x in
      Ok (l +. LN2_64)
    else if 0x3ff + 1 <=? e then
      let* s := hsqrt o (x *. x +. one) in
      libm_log o c (two *. x +. one /. (s +. x))
    else if 0x3ff - 26 <=? e then
      let* s := hsqrt o (x *. x +. one) in
      libm_log1p o c (x +. x *. x /. (s +. one))
    else Ok x in
  Ok (if sign then fneg x else x).

(** acosh, acosh.rs:11-28. *)
Definition libm_acosh (x : Z) : res Z :=
  if Z.land x (Z.lxor (2 ^ 63) (2 ^ 64 - 1)) <? two then
    let x_1 := x -. one in
    let* s := hsqrt o (x_1 *. x_1 +. two *. x_1) in
    libm_log1p o c (x_1 +. s)
  else if x <? p26 then
    let* s := hsqrt o (x *. x -. one) in
    libm_log o c (two *. x -. one /. (x +. s))
  else
    let* l := libm_log o c x in
    Ok (l +. LN2_64).
End Ops.
