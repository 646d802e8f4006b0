(** Model of the arc tangent of libm: libm/src/math/atan.rs.
    Floats are bit patterns; a decimal literal is written as the bits in the comment of its line,
    which are those of the nearest double. The exception flags raised by force_eval! are not
    modelled. Definitions only. *)
From Coq Require Import ZArith List Bool.
From Verif Require Import Base FloatModel LibmModel ElemModel TrigModel.
Import ListNotations.
Open Scope Z_scope.

(** atan.rs:34-39 *)
Definition ATANHI : list Z := [
  0x3FDDAC670561BB4F (* atan(0.5)hi *); 0x3FE921FB54442D18 (* atan(1.0)hi *);
  0x3FEF730BD281F69B (* atan(1.5)hi *); 0x3FF921FB54442D18 (* atan(inf)hi *)].
(** atan.rs:41-46 *)
Definition ATANLO : list Z := [
  0x3C7A2B7F222F65E2 (* atan(0.5)lo *); 0x3C81A62633145C07 (* atan(1.0)lo *);
  0x3C7007887AF0CBBD (* atan(1.5)lo *); 0x3C91A62633145C07 (* atan(inf)lo *)].
(** atan.rs:48-60 *)
Definition AT0 : Z := 0x3FD555555555550D. (* 3.33333333333329318027e-01 *)
Definition AT1 : Z := 0xBFC999999998EBC4. (* -1.99999999998764832476e-01 *)
Definition AT2 : Z := 0x3FC24924920083FF. (* 1.42857142725034663711e-01 *)
Definition AT3 : Z := 0xBFBC71C6FE231671. (* -1.11111104054623557880e-01 *)
Definition AT4 : Z := 0x3FB745CDC54C206E. (* 9.09088713343650656196e-02 *)
Definition AT5 : Z := 0xBFB3B0F2AF749A6D. (* -7.69187620504482999495e-02 *)
Definition AT6 : Z := 0x3FB10D66A0D03D51. (* 6.66107313738753120669e-02 *)
Definition AT7 : Z := 0xBFADDE2D52DEFD9A. (* -5.83357013379057348645e-02 *)
Definition AT8 : Z := 0x3FA97B4B24760DEB. (* 4.97687799461593236017e-02 *)
Definition AT9 : Z := 0xBFA2B4442C6A6C2F. (* -3.65315727442169155270e-02 *)
Definition AT10 : Z := 0x3F90AD3AE322DA11. (* 1.62858201153657823623e-02 *)
(** The literal 1.5. *)
Definition one_half3 : Z := 0x3ff8000000000000.
(** The literal -1. *)
Definition minus_one : Z := 0xbff0000000000000.

Section Ops.
Context (o : fops).
Local Notation "a +. b" := (o_add o a b) (at level 50, left associativity).
Local Notation "a -. b" := (o_sub o a b) (at level 50, left associativity).
Local Notation "a *. b" := (o_mul o a b) (at level 40, left associativity).
Local Notation "a /. b" := (o_div o a b) (at level 40, left associativity).

(** atan.rs:118-122: s1 + s2 *)
Definition atan_poly (x : Z) : Z :=
  let z := x *. x in
  let w := z *. z in
  let s1 := z *. (AT0 +. w *. (AT2 +. w *. (AT4 +. w *. (AT6 +. w *. (AT8 +. w *. AT10))))) in
  let s2 := w *. (AT1 +. w *. (AT3 +. w *. (AT5 +. w *. (AT7 +. w *. AT9)))) in
  s1 +. s2.
(** atan.rs:124-132 *)
Definition atan_end (x id sign : Z) : res Z :=
  if id <? 0 then Ok (x -. x *. atan_poly x)
  else
    let* hi := tab ATANHI id in
    let* lo := tab ATANLO id in
    let z := hi -. (x *. atan_poly x -. lo -. x) in
    Ok (if negb (sign =? 0) then fneg z else z).
(** fabs of libm (C29) *)
Definition atan_fabs (x : Z) : Z := Z.land x (2 ^ 63 - 1).
(** atan, atan.rs:67-133 *)
Definition libm_atan (x : Z) : res Z :=
  let ix := high_word x in
  let sign := Z.shiftr ix 31 in
  let ix := Z.land ix 0x7fffffff in
  if 0x44100000 <=? ix then
    if is_nanb F64 x then Ok x
    else
      let* h := tab ATANHI 3 in
      let z := h +. 0x03800000 in
      Ok (if negb (sign =? 0) then fneg z else z)
  else if ix <? 0x3fdc0000 then
    if ix <? 0x3e400000 then Ok x else atan_end x (-1) sign
  else
    let x := atan_fabs x in
    if ix <? 0x3ff30000 then
      if ix <? 0x3fe60000 then atan_end ((two *. x -. one) /. (two +. x)) 0 sign
      else atan_end ((x -. one) /. (x +. one)) 1 sign
    else if ix <? 0x40038000 then atan_end ((x -. one_half3) /. (one +. one_half3 *. x)) 2 sign
    else atan_end (minus_one /. x) 3 sign.
End Ops.
