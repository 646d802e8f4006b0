(** Model of the tangent of libm: libm/src/math/tan.rs and k_tan.rs.
    Floats are bit patterns; a decimal literal is written as the bits in the comment of its line,
    which are those of the nearest double. The exception flags raised by force_eval! are not
    modelled. Definitions only. *)
From Coq Require Import ZArith List Bool.
From Verif Require Import Base FloatModel LibmModel ElemModel TrigModel.
Open Scope Z_scope.

(** k_tan.rs:41-55: the entries of the table T, which the code only reads at constant indices *)
Definition T_0 : Z := 0x3FD5555555555563. (* 3.33333333333334091986e-01 *)
Definition T_1 : Z := 0x3FC111111110FE7A. (* 1.33333333333201242699e-01 *)
Definition T_2 : Z := 0x3FABA1BA1BB341FE. (* 5.39682539762260521377e-02 *)
Definition T_3 : Z := 0x3F9664F48406D637. (* 2.18694882948595424599e-02 *)
Definition T_4 : Z := 0x3F8226E3E96E8493. (* 8.86323982359930005737e-03 *)
Definition T_5 : Z := 0x3F6D6D22C9560328. (* 3.59207910759131235356e-03 *)
Definition T_6 : Z := 0x3F57DBC8FEE08315. (* 1.45620945432529025516e-03 *)
Definition T_7 : Z := 0x3F4344D8F2F26501. (* 5.88041240820264096874e-04 *)
Definition T_8 : Z := 0x3F3026F71A8D1068. (* 2.46463134818469906812e-04 *)
Definition T_9 : Z := 0x3F147E88A03792A6. (* 7.81794442939557092300e-05 *)
Definition T_10 : Z := 0x3F12B80F32F0A7E9. (* 7.14072491382608190305e-05 *)
Definition T_11 : Z := 0xBEF375CBDB605373. (* -1.85586374855275456654e-05 *)
Definition T_12 : Z := 0x3EFB2A7074BF7AD4. (* 2.59073051863633712884e-05 *)
(** k_tan.rs:56-57 *)
Definition PIO4_HI : Z := 0x3FE921FB54442D18. (* 7.85398163397448278999e-01 *)
Definition PIO4_LO : Z := 0x3C81A62633145C07. (* 3.06161699786838301793e-17 *)
(** The literal -1.0. *)
Definition tan_m1 : Z := 0xbff0000000000000.

Section Ops.
Context (o : fops) (c : icast) (tbl : list Z).
Local Notation "a +. b" := (o_add o a b) (at level 50, left associativity).
Local Notation "a -. b" := (o_sub o a b) (at level 50, left associativity).
Local Notation "a *. b" := (o_mul o a b) (at level 40, left associativity).
Local Notation "a /. b" := (o_div o a b) (at level 40, left associativity).

(** zero_low_word, k_tan.rs:103-105 *)
Definition zero_low (x : Z) : Z := Z.land x 0xffffffff00000000.
(** k_tan.rs:74-82, 84: the sum r + v of the two halves of the polynomial, with z = x * x *)
Definition tan_poly (z : Z) : Z :=
  let w := z *. z in
  let r := T_1 +. w *. (T_3 +. w *. (T_5 +. w *. (T_7 +. w *. (T_9 +. w *. T_11)))) in
  let v := z *. (T_2 +. w *. (T_4 +. w *. (T_6 +. w *. (T_8 +. w *. (T_10 +. w *. T_12))))) in
  r +. v.
(** k_tan.rs:74, 83-84: the second r *)
Definition tan_r (x y : Z) : Z :=
  let z := x *. x in
  let s := z *. x in
  y +. z *. (s *. tan_poly z +. y) +. s *. T_0.
(** k_tan, k_tan.rs:62-101 *)
Definition k_tan (x y odd : Z) : Z :=
  let hx := high_word x in
  let big := 0x3FE59428 <=? Z.land hx 0x7fffffff in
  let sign := Z.shiftr hx 31 in
  if big then
    let x := if negb (sign =? 0) then fneg x else x in
    let y := if negb (sign =? 0) then fneg y else y in
    let x := (PIO4_HI -. x) +. (PIO4_LO -. y) in
    let r := tan_r x 0 in
    let w := x +. r in
    let s := one -. two *. c_ofi c odd in
    let v := s -. two *. (x +. (r -. w *. w /. (w +. s))) in
    if negb (sign =? 0) then fneg v else v
  else
    let r := tan_r x y in
    let w := x +. r in
    if odd =? 0 then w
    else
      let w0 := zero_low w in
      let v := r -. (w0 -. x) in
      let a := tan_m1 /. w in
      let a0 := zero_low a in
      a0 +. a *. (one +. a0 *. w0 +. a0 *. v).
(** tan, tan.rs:47-77 *)
Definition libm_tan (fuel : nat) (x : Z) : res Z :=
  let ix := Z.land (high_word x) 0x7fffffff in
  if ix <=? 0x3fe921fb then
    if ix <? 0x3e400000 then Ok x else Ok (k_tan x 0 0)
  else if 0x7ff00000 <=? ix then Ok (x -. x)
  else
    let* p := rem_pio2 o c tbl fuel x in
    let '(n, y0, y1) := p in
    Ok (k_tan y0 y1 (Z.land n 1)).
End Ops.
