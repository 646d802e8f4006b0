(** Model of the arc sine and the arc cosine of libm: libm/src/math/asin.rs and acos.rs.
    Floats are bit patterns; a decimal literal is written as the bits in the comment of its line,
    which are those of the nearest double. Definitions only. *)
From Coq Require Import ZArith List Bool.
From Verif Require Import Base FloatModel LibmModel ElemModel TrigModel SqrtModel HypotModel AtanModel Atan2Model.
Open Scope Z_scope.

(** asin.rs:44-56 and acos.rs:38-49: the two files declare the same constants. *)
Definition PIO2_HI : Z := 0x3FF921FB54442D18. (* 1.57079632679489655800e+00 *)
Definition PIO2_LO : Z := 0x3C91A62633145C07. (* 6.12323399573676603587e-17 *)
Definition P_S0 : Z := 0x3FC5555555555555. (* 1.66666666666666657415e-01 *)
Definition P_S1 : Z := 0xBFD4D61203EB6F7D. (* -3.25565818622400915405e-01 *)
Definition P_S2 : Z := 0x3FC9C1550E884455. (* 2.01212532134862925881e-01 *)
Definition P_S3 : Z := 0xBFA48228B5688F3B. (* -4.00555345006794114027e-02 *)
Definition P_S4 : Z := 0x3F49EFE07501B288. (* 7.91534994289814532176e-04 *)
Definition P_S5 : Z := 0x3F023DE10DFDF709. (* 3.47933107596021167570e-05 *)
Definition Q_S1 : Z := 0xC0033A271C8A2D4B. (* -2.40339491173441421878e+00 *)
Definition Q_S2 : Z := 0x40002AE59C598AC8. (* 2.02094576023350569471e+00 *)
Definition Q_S3 : Z := 0xBFE6066C1B8D0159. (* -6.88283971605453293030e-01 *)
Definition Q_S4 : Z := 0x3FB3B8C5B12E9282. (* 7.70381505559019352791e-02 *)
(** 0x1p-120 *)
Definition x1p_120 : Z := 0x3870000000000000.

Section Ops.
Context (o : fops).
Local Notation "a +. b" := (o_add o a b) (at level 50, left associativity).
Local Notation "a -. b" := (o_sub o a b) (at level 50, left associativity).
Local Notation "a *. b" := (o_mul o a b) (at level 40, left associativity).
Local Notation "a /. b" := (o_div o a b) (at level 40, left associativity).

(** comp_r, asin.rs:59-63; r, acos.rs:51-55 *)
Definition comp_r (z : Z) : Z :=
  let p := z *. (P_S0 +. z *. (P_S1 +. z *. (P_S2 +. z *. (P_S3 +. z *. (P_S4 +. z *. P_S5))))) in
  let q := one +. z *. (Q_S1 +. z *. (Q_S2 +. z *. (Q_S3 +. z *. Q_S4))) in
  p /. q.
(** with_set_low_word(s, 0), mod.rs:375-380 *)
Definition clear_low (s : Z) : Z := Z.lor (Z.land s 0xffffffff00000000) 0.
(** asin, asin.rs:70-114 *)
Definition libm_asin (x : Z) : res Z :=
  let hx := high_word x in
  let ix := Z.land hx 0x7fffffff in
  if 0x3ff00000 <=? ix then
    let lx := low_word x in
    let* d := csub (UI 32) ix 0x3ff00000 in
    if Z.lor d lx =? 0 then Ok (x *. PIO2_HI +. x1p_120)
    else Ok (0 /. (x -. x))
  else if ix <? 0x3fe00000 then
    if (0x00100000 <=? ix) && (ix <? 0x3e500000) then Ok x
    else Ok (x +. x *. comp_r (x *. x))
  else
    let z := (one -. atan_fabs x) *. half in
    let* s := hsqrt o z in
    let r := comp_r z in
    let x' :=
      if 0x3fef3333 <=? ix then PIO2_HI -. (two *. (s +. s *. r) -. PIO2_LO)
      else
        let f := clear_low s in
        let c := (z -. f *. f) /. (s +. f) in
        half *. PIO2_HI -. (two *. s *. r -. (PIO2_LO -. two *. c) -. (half *. PIO2_HI -. two *. f)) in
    Ok (if negb (Z.shiftr hx 31 =? 0) then fneg x' else x').
(** acos, acos.rs:63-112 *)
Definition libm_acos (x : Z) : res Z :=
  let hx := high_word x in
  let ix := Z.land hx 0x7fffffff in
  if 0x3ff00000 <=? ix then
    let lx := low_word x in
    let* d := csub (UI 32) ix 0x3ff00000 in
    if Z.lor d lx =? 0 then
      if negb (Z.shiftr hx 31 =? 0) then Ok (two *. PIO2_HI +. x1p_120) else Ok 0
    else Ok (0 /. (x -. x))
  else if ix <? 0x3fe00000 then
    if ix <=? 0x3c600000 then Ok (PIO2_HI +. x1p_120)
    else Ok (PIO2_HI -. (x -. (PIO2_LO -. x *. comp_r (x *. x))))
  else if negb (Z.shiftr hx 31 =? 0) then
    let z := (one +. x) *. half in
    let* s := hsqrt o z in
    let w := comp_r z *. s -. PIO2_LO in
    Ok (two *. (PIO2_HI -. (s +. w)))
  else
    let z := (one -. x) *. half in
    let* s := hsqrt o z in
    let df := Z.land s 0xffffffff00000000 in
    let c := (z -. df *. df) /. (s +. df) in
    let w := comp_r z *. s +. c in
    Ok (two *. (df +. w)).
End Ops.
