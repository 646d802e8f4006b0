(** Model of exponential and logarithm of libm: libm/src/math/exp.rs and log.rs.
    Floats are bit patterns; a decimal literal is written as the bits of the nearest double,
    which is what rustc stores. The x87 implementation selected on 32-bit x86 without SSE2
    (exp.rs:86-90) and the exception flags raised by force_eval! are not modelled. *)
From Coq Require Import ZArith List Bool.
From Verif Require Import Base FloatModel FloatConvModel LibmModel.
Import ListNotations.
Open Scope Z_scope.

(** The casts [f64 as i32] and [i32 as f64] of the target. *)
Record icast := ICast { c_toi : Z -> Z; c_ofi : Z -> Z }.
(** The instance of a soft-float target: __fixdfsi and __floatsidf, which return a value for
    all operands (C26, C27); the 0 is never used. *)
Definition soft_icast : icast :=
  ICast (fun x => ok_or_0 (float_to_signed_int F64 32 x)) (fun i => ok_or_0 (float_si 32 F64 i)).

(** The macro i! on a constant table, mod.rs:9-59: an index out of range is undefined
    behaviour in a release build (and a panic in a debug build). *)
Definition tab (l : list Z) (i : Z) : res Z :=
  if (0 <=? i) && (i <? Z.of_nat (length l)) then Ok (nth (Z.to_nat i) l 0) else Err UB.

(** exp.rs:70 *)
Definition exp_HALF : list Z := [0x3fe0000000000000 (* 0.5 *); 0xbfe0000000000000 (* -0.5 *)].
(** exp.rs:71-78, log.rs:63-64 *)
Definition LN2HI : Z := 0x3fe62e42fee00000. (* 6.93147180369123816490e-01 *)
Definition LN2LO : Z := 0x3dea39ef35793c76. (* 1.90821492927058770002e-10 *)
Definition INVLN2 : Z := 0x3ff71547652b82fe. (* 1.44269504088896338700e+00 *)
Definition exp_P1 : Z := 0x3fc555555555553e. (* 1.66666666666666019037e-01 *)
Definition exp_P2 : Z := 0xbf66c16c16bebd93. (* -2.77777777770155933842e-03 *)
Definition exp_P3 : Z := 0x3f11566aaf25de2c. (* 6.61375632143793436117e-05 *)
Definition exp_P4 : Z := 0xbebbbd41c5d26bf1. (* -1.65339022054652515390e-06 *)
Definition exp_P5 : Z := 0x3e66376972bea4d0. (* 4.13813679705723846039e-08 *)
(** The literals 1. and 2. *)
Definition one : Z := 0x3ff0000000000000.
Definition two : Z := 0x4000000000000000.
(** exp.rs:92 *)
Definition x1p1023 : Z := 0x7fe0000000000000.
(** The thresholds 709.782712893383973096, -708.39641853226410622 and -745.13321910194110842 of exp.rs:113-121. *)
Definition exp_over : Z := 0x40862e42fefa39ef.
Definition exp_sub : Z := 0xc086232bdd7abcd2.
Definition exp_under : Z := 0xc0874910d52d3051.

Section Ops.
Context (o : fops) (c : icast).
Local Notation "a +. b" := (o_add o a b) (at level 50, left associativity).
Local Notation "a -. b" := (o_sub o a b) (at level 50, left associativity).
Local Notation "a *. b" := (o_mul o a b) (at level 40, left associativity).
Local Notation "a /. b" := (o_div o a b) (at level 40, left associativity).

(** The upper half of the bits, exp.rs:103 and log.rs:79: (x.to_bits() >> 32) as u32. *)
Definition high_word (x : Z) : Z := norm (UI 32) (Z.shiftr x 32).

(** exp.rs:108-125: the early returns of the special cases. *)
Definition exp_special (x hx : Z) : option Z :=
  if 0x4086232b <=? hx then
    if is_nanb F64 x then Some x
    else if o_lt o exp_over x then Some (x *. x1p1023)
    else if o_lt o x exp_sub then (if o_lt o x exp_under then Some 0 else None)
    else None
  else None.

(** exp.rs:151-154: the primary range. *)
Definition exp_primary (x hi lo k : Z) : res Z :=
  let xx := x *. x in
  let c := x -. xx *. (exp_P1 +. xx *. (exp_P2 +. xx *. (exp_P3 +. xx *. (exp_P4 +. xx *. exp_P5)))) in
  let y := one +. (x *. c /. (two -. c) -. lo +. hi) in
  if k =? 0 then Ok y else scalbn F64 o y k.

(** exp.rs:130-135: the multiple of ln 2. *)
Definition exp_k (x hx sign : Z) : res Z :=
  if 0x3ff0a2b2 <=? hx then
    let* h := tab exp_HALF sign in
    Ok (c_toi c (INVLN2 *. x +. h))
  else
    let* a := csub (SI 32) 1 sign in
    csub (SI 32) a sign.

(** exp.rs:85-155 *)
Definition libm_exp (x : Z) : res Z :=
  let hx := high_word x in
  let sign := norm (SI 32) (Z.shiftr hx 31) in
  let hx := Z.land hx 0x7fffffff in
  match exp_special x hx with
  | Some r => Ok r
  | None =>
    if 0x3fd62e42 <? hx then
      let* k := exp_k x hx sign in
      let kf := c_ofi c k in
      let hi := x -. kf *. LN2HI in
      let lo := kf *. LN2LO in
      exp_primary (hi -. lo) hi lo k
    else if 0x3e300000 <? hx then exp_primary x x 0 0
    else Ok (one +. x)
  end.

(** * log *)
(** log.rs:65-71 *)
Definition LG1 : Z := 0x3fe5555555555593. (* 6.666666666666735130e-01 *)
Definition LG2 : Z := 0x3fd999999997fa04. (* 3.999999999940941908e-01 *)
Definition LG3 : Z := 0x3fd2492494229359. (* 2.857142874366239149e-01 *)
Definition LG4 : Z := 0x3fcc71c51d8e78af. (* 2.222219843214978396e-01 *)
Definition LG5 : Z := 0x3fc7466496cb03de. (* 1.818357216161805012e-01 *)
Definition LG6 : Z := 0x3fc39a09d078c69f. (* 1.531383769920937332e-01 *)
Definition LG7 : Z := 0x3fc2f112df3e5244. (* 1.479819860511658591e-01 *)
Definition half : Z := 0x3fe0000000000000.
Definition neg_one : Z := 0xbff0000000000000.
(** log.rs:76 *)
Definition x1p54 : Z := 0x4350000000000000.

(** log.rs:108-117: the primary range. *)
Definition log_primary (x dk : Z) : Z :=
  let f := x -. one in
  let hfsq := half *. f *. f in
  let s := f /. (two +. f) in
  let z := s *. s in
  let w := z *. z in
  let t1 := w *. (LG2 +. w *. (LG4 +. w *. LG6)) in
  let t2 := z *. (LG1 +. w *. (LG3 +. w *. (LG5 +. w *. LG7))) in
  let r := t2 +. t1 in
  s *. (hfsq +. r) +. dk *. LN2LO -. hfsq +. f +. dk *. LN2HI.

(** log.rs:100-106: reduction to [sqrt(2)/2, sqrt(2)], and the rest of the function. *)
Definition log_reduce (ui hx k : Z) : res Z :=
  let* hx := cadd (UI 32) hx (0x3ff00000 - 0x3fe6a09e) in
  let* e := csub (SI 32) (norm (SI 32) (Z.shiftr hx 20)) 0x3ff in
  let* k := cadd (SI 32) k e in
  let* hx := cadd (UI 32) (Z.land hx 0x000fffff) 0x3fe6a09e in
  let* h := cshl (UI 64) hx 32 in
  Ok (log_primary (Z.lor h (Z.land ui 0xffffffff)) (c_ofi c k)).

(** log.rs:75-118 *)
Definition libm_log (x : Z) : res Z :=
  let ui := x in
  let hx := high_word ui in
  if (hx <? 0x00100000) || negb (Z.shiftr hx 31 =? 0) then
    let* u1 := cshl (UI 64) ui 1 in
    if u1 =? 0 then Ok (neg_one /. (x *. x))
    else if negb (Z.shiftr hx 31 =? 0) then Ok ((x -. x) /. 0)
    else
      let* k := csub (SI 32) 0 54 in
      let x := x *. x1p54 in
      log_reduce x (high_word x) k
  else if 0x7ff00000 <=? hx then Ok x
  else
    let* u32 := cshl (UI 64) ui 32 in
    if (hx =? 0x3ff00000) && (u32 =? 0) then Ok 0
    else log_reduce ui hx 0.
End Ops.
