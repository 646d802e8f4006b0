(** Model of the logarithms to the bases 2 and 10 of libm: libm/src/math/log2.rs and log10.rs.
    Floats are bit patterns; a decimal literal is written as the bits in the comment of its line,
    which are those of the nearest double. LG1 to LG7 are those of log.rs. Definitions only. *)
From Coq Require Import ZArith List Bool.
From Verif Require Import Base FloatModel LibmModel ElemModel.
Open Scope Z_scope.

(** log2.rs:20-21 *)
Definition IVLN2HI : Z := 0x3ff7154765200000. (* 1.44269504072144627571e+00 *)
Definition IVLN2LO : Z := 0x3de705fc2eefa200. (* 1.67517131648865118353e-10 *)
(** log10.rs:20-23 *)
Definition IVLN10HI : Z := 0x3fdbcb7b15200000. (* 4.34294481878168880939e-01 *)
Definition IVLN10LO : Z := 0x3dbb9438ca9aadd5. (* 2.50829467116452752298e-11 *)
Definition LOG10_2HI : Z := 0x3FD34413509F6000. (* 3.01029995663611771306e-01 *)
Definition LOG10_2LO : Z := 0x3D59FEF311F12B36. (* 3.69423907715893078616e-13 *)

Section Ops.
Context (o : fops) (c : icast).
Local Notation "a +. b" := (o_add o a b) (at level 50, left associativity).
Local Notation "a -. b" := (o_sub o a b) (at level 50, left associativity).
Local Notation "a *. b" := (o_mul o a b) (at level 40, left associativity).
Local Notation "a /. b" := (o_div o a b) (at level 40, left associativity).

(** log2.rs:80-93 and log10.rs:83-97: hi and lo, the logarithm of 1 + f as a sum. *)
Definition log_hi (f : Z) : Z := Z.land (f -. half *. f *. f) 0xffffffff00000000.
Definition log_lo (f : Z) : Z :=
  let hfsq := half *. f *. f in
  let s := f /. (two +. f) in
  let z := s *. s in
  let w := z *. z in
  let t1 := w *. (LG2 +. w *. (LG4 +. w *. LG6)) in
  let t2 := z *. (LG1 +. w *. (LG3 +. w *. (LG5 +. w *. LG7))) in
  let r := t2 +. t1 in
  f -. log_hi f -. hfsq +. s *. (hfsq +. r).
(** log2.rs:100-104 and log10.rs:111-115 *)
Definition spadd (y val_hi val_lo : Z) : Z :=
  let w := y +. val_hi in
  let val_lo := val_lo +. ((y -. w) +. val_hi) in
  val_lo +. w.
(** log2.rs:79, 95-99 *)
Definition log2_primary (x k : Z) : Z :=
  let f := x -. one in
  let hi := log_hi f in
  let lo := log_lo f in
  let val_hi := hi *. IVLN2HI in
  let val_lo := (lo +. hi) *. IVLN2LO +. lo *. IVLN2HI in
  spadd (c_ofi c k) val_hi val_lo.
(** log10.rs:82, 100-103 *)
Definition log10_primary (x k : Z) : Z :=
  let f := x -. one in
  let hi := log_hi f in
  let lo := log_lo f in
  let val_hi := hi *. IVLN10HI in
  let dk := c_ofi c k in
  let y := dk *. LOG10_2HI in
  let val_lo := dk *. LOG10_2LO +. (lo +. hi) *. IVLN10LO +. lo *. IVLN10HI in
  spadd y val_hi val_lo.

(** log2.rs:72-77 and log10.rs:75-80: reduction to [sqrt(2)/2, sqrt(2)], and the rest of the function. *)
Definition logb_reduce (primary : Z -> Z -> Z) (ui hx k : Z) : res Z :=
  let* hx := cadd (UI 32) hx (0x3ff00000 - 0x3fe6a09e) in
  let* e := csub (SI 32) (norm (SI 32) (Z.shiftr hx 20)) 0x3ff in
  let* k := cadd (SI 32) k e in
  let* hx := cadd (UI 32) (Z.land hx 0x000fffff) 0x3fe6a09e in
  let* h := cshl (UI 64) hx 32 in
  Ok (primary (Z.lor h (Z.land ui 0xffffffff)) k).
(** log2.rs:52-77 and log10.rs:55-80, which are the same text. *)
Definition libm_logb (primary : Z -> Z -> Z) (x : Z) : res Z :=
  let ui := x in
  let hx := high_word ui in
  if (hx <? 0x00100000) || (0 <? Z.shiftr hx 31) then
    let* u1 := cshl (UI 64) ui 1 in
    if u1 =? 0 then Ok (neg_one /. (x *. x))
    else if 0 <? Z.shiftr hx 31 then Ok ((x -. x) /. 0)
    else
      let* k := csub (SI 32) 0 54 in
      let x := x *. x1p54 in
      logb_reduce primary x (high_word x) k
  else if 0x7ff00000 <=? hx then Ok x
  else
    let* u32 := cshl (UI 64) ui 32 in
    if (hx =? 0x3ff00000) && (u32 =? 0) then Ok 0
    else logb_reduce primary ui hx 0.
(** log2, log2.rs:32-105 *)
Definition libm_log2 (x : Z) : res Z := libm_logb log2_primary x.
(** log10, log10.rs:34-116 *)
Definition libm_log10 (x : Z) : res Z := libm_logb log10_primary x.
End Ops.
