(** Model of the software floating-point operations on bit patterns:
    compiler-builtins/src/float/{add,sub,mul}.rs and the part of
    libm/src/math/support/float_traits.rs they use. A float is its bit pattern, an
    unsigned integer of the format's width. Definitions only. *)
From Coq Require Import ZArith Bool List.
From Verif Require Import Base BigModel.
Open Scope Z_scope.

(** * float_traits.rs *)

(** A format: [Float::BITS] and [Float::SIG_BITS], float_traits.rs:65-68. *)
Record fmt := Fmt { fb : Z; fs : Z }.
(** The four impls, float_traits.rs:383-429. *)
Definition F16 := Fmt 16 10.
Definition F32 := Fmt 32 23.
Definition F64 := Fmt 64 52.
Definition F128 := Fmt 128 112.

Section Format.
Context (f : fmt).
(** Float::Int *)
Definition fI : ity := UI (fb f).
(** float_traits.rs:71 *)
Definition EXP_BITS : Z := fb f - fs f - 1.
(** float_traits.rs:77 *)
Definition EXP_SAT : Z := Z.shiftl 1 EXP_BITS - 1.
(** float_traits.rs:80 *)
Definition EXP_BIAS : Z := Z.shiftr EXP_SAT 1.
(** float_traits.rs:303-307 *)
Definition SIGN_MASK : Z := Z.shiftl 1 (fb f - 1).
Definition SIG_MASK : Z := Z.shiftl 1 (fs f) - 1.
Definition EXP_MASK : Z := inot fI (Z.lor SIGN_MASK SIG_MASK).
Definition IMPLICIT_BIT : Z := Z.shiftl 1 (fs f).
Definition SIG_TOP_BIT : Z := Z.shiftr IMPLICIT_BIT 1.

(** float_traits.rs:377-380 *)
Definition normalize (significand : Z) : res (Z * Z) :=
  let shift := wrapping_sub (UI 32) (nlz (fb f) significand) EXP_BITS in
  let* s := cshl fI significand shift in
  Ok (wrapping_sub (SI 32) 1 (norm (SI 32) shift), s).

(** The constants local to the functions below (add.rs:17-25, mul.rs:21-29,
    div.rs:112-120, cmp.rs:74-77). *)
Definition abs_mask : Z := SIGN_MASK - 1.
Definition quiet_bit : Z := Z.shiftr IMPLICIT_BIT 1.
Definition qnan_rep : Z := Z.lor EXP_MASK quiet_bit.

(** [Int::widen_mul(..).lo_hi()]: (low, high); u128 widens to u256 (big.rs). *)
Definition wmul_lo_hi (a b : Z) : res (Z * Z) :=
  if fb f =? 128 then
    let* p := u128_widen_mul a b in Ok (u256_lo p, big_hi p)
  else
    let p := widen_mul fI a b in Ok (lo (UI (2 * fb f)) p, hi (UI (2 * fb f)) p).

(** * add.rs *)

(** The block for zero, infinite and NaN operands, add.rs:33-71; [None] when control
    leaves the block. *)
Definition add_special (a b : Z) : option Z :=
  let inf_rep := EXP_MASK in
  let a_abs := Z.land a abs_mask in
  let b_abs := Z.land b abs_mask in
  if (inf_rep - 1 <=? wrapping_sub fI a_abs 1) || (inf_rep - 1 <=? wrapping_sub fI b_abs 1) then
    if inf_rep <? a_abs then Some (Z.lor a_abs quiet_bit)
    else if inf_rep <? b_abs then Some (Z.lor b_abs quiet_bit)
    else if a_abs =? inf_rep then
      if Z.lxor a b =? SIGN_MASK then Some qnan_rep else Some a
    else if b_abs =? inf_rep then Some b
    else if a_abs =? 0 then
      if b_abs =? 0 then Some (Z.land a b) else Some b
    else if b_abs =? 0 then Some a
    else None
  else None.

(** Exponent and significand of an operand, add.rs:82-97. *)
Definition add_unpack (rep : Z) : res (Z * Z) :=
  let* e := ccast (SI 32) (Z.shiftr (Z.land rep EXP_MASK) (fs f)) in
  let s := Z.land rep SIG_MASK in
  if e =? 0 then normalize s else Ok (e, s).

(** Shift right by [s] with a sticky lowest bit (add.rs:119-123, 162-166). *)
Definition shr_sticky (x s : Z) : res Z :=
  let* l := cshl fI x (wrapping_sub fI (fb f) s) in
  let* h := cshr fI x s in
  Ok (Z.lor h (b2z (negb (l =? 0)))).

(** Alignment of the smaller operand, add.rs:115-128. *)
Definition add_align (b_sig align : Z) : res Z :=
  if negb (align =? 0) then
    if align <? fb f then shr_sticky b_sig align else Ok 1
  else Ok b_sig.

(** Assembly and rounding of the result, add.rs:154-189. *)
Definition add_finish (result_sign a_exp a_sig : Z) : res Z :=
  if EXP_SAT <=? a_exp then Ok (Z.lor EXP_MASK result_sign)
  else
    let* st := (if a_exp <=? 0 then
                  let* d := csub (SI 32) 1 a_exp in
                  let* shift := ccast fI d in
                  let* s := shr_sticky a_sig shift in
                  Ok (0, s)
                else Ok (a_exp, a_sig)) in
    let '(a_exp, a_sig) := st in
    let rgs := Z.land (norm (SI 32) a_sig) 7 in
    let* r := cshr fI a_sig 3 in
    let result := Z.land r SIG_MASK in
    let* e := ccast fI a_exp in
    let* e := cshl fI e (fs f) in
    let result := Z.lor (Z.lor result e) result_sign in
    let* result := (if 4 <? rgs then cadd fI result 1 else Ok result) in
    if rgs =? 4 then cadd fI result (Z.land result 1) else Ok result.

(** The operation on finite nonzero operands with |a_rep| >= |b_rep|, add.rs:81-189. *)
Definition add_main (a_rep b_rep : Z) : res Z :=
  let* ua := add_unpack a_rep in
  let* ub := add_unpack b_rep in
  let '(a_exp, a_sig) := ua in
  let '(b_exp, b_sig) := ub in
  let result_sign := Z.land a_rep SIGN_MASK in
  let subtraction := negb (Z.land (Z.lxor a_rep b_rep) SIGN_MASK =? 0) in
  let* a_sig := cshl fI (Z.lor a_sig IMPLICIT_BIT) 3 in
  let* b_sig := cshl fI (Z.lor b_sig IMPLICIT_BIT) 3 in
  let* align := ccast fI (wrapping_sub (SI 32) a_exp b_exp) in
  let* b_sig := add_align b_sig align in
  if subtraction then
    let a_sig := wrapping_sub fI a_sig b_sig in
    if a_sig =? 0 then Ok 0
    else
      let* top := cshl fI IMPLICIT_BIT 3 in
      if a_sig <? top then
        let* shift := csub (SI 32) (norm (SI 32) (nlz (fb f) a_sig)) (norm (SI 32) (nlz (fb f) top)) in
        let* a_sig := cshl fI a_sig shift in
        let* a_exp := csub (SI 32) a_exp shift in
        add_finish result_sign a_exp a_sig
      else add_finish result_sign a_exp a_sig
  else
    let* a_sig := cadd fI a_sig b_sig in
    let* top := cshl fI IMPLICIT_BIT 4 in
    if negb (Z.land a_sig top =? 0) then
      let* h := cshr fI a_sig 1 in
      let a_sig := Z.lor h (b2z (negb (Z.land a_sig 1 =? 0))) in
      let* a_exp := cadd (SI 32) a_exp 1 in
      add_finish result_sign a_exp a_sig
    else add_finish result_sign a_exp a_sig.

(** add, add.rs:4-191; the swap is add.rs:74-79. *)
Definition add (a b : Z) : res Z :=
  match add_special a b with
  | Some r => Ok r
  | None => if Z.land a abs_mask <? Z.land b abs_mask then add_main b a else add_main a b
  end.

(** __subXf3, sub.rs:4-28 *)
Definition sub (a b : Z) : res Z := add a (Z.lxor b SIGN_MASK).

(** * mul.rs *)

(** The block for zero, subnormal, infinite and NaN operands, mul.rs:46-101: either a
    result or the significands and the scale. *)
Definition mul_special (a b : Z) : res (Z + Z * Z * Z) :=
  let inf_rep := EXP_MASK in
  let a_exp := Z.land (Z.shiftr a (fs f)) EXP_SAT in
  let b_exp := Z.land (Z.shiftr b (fs f)) EXP_SAT in
  let product_sign := Z.land (Z.lxor a b) SIGN_MASK in
  let a_sig := Z.land a SIG_MASK in
  let b_sig := Z.land b SIG_MASK in
  if (EXP_SAT - 1 <=? wrapping_sub fI a_exp 1) || (EXP_SAT - 1 <=? wrapping_sub fI b_exp 1) then
    let a_abs := Z.land a abs_mask in
    let b_abs := Z.land b abs_mask in
    if inf_rep <? a_abs then Ok (inl (Z.lor a quiet_bit))
    else if inf_rep <? b_abs then Ok (inl (Z.lor b quiet_bit))
    else if a_abs =? inf_rep then
      if negb (b_abs =? 0) then Ok (inl (Z.lor a_abs product_sign)) else Ok (inl qnan_rep)
    else if b_abs =? inf_rep then
      if negb (a_abs =? 0) then Ok (inl (Z.lor b_abs product_sign)) else Ok (inl qnan_rep)
    else if a_abs =? 0 then Ok (inl product_sign)
    else if b_abs =? 0 then Ok (inl product_sign)
    else
      let* p := (if a_abs <? IMPLICIT_BIT then normalize a_sig else Ok (0, a_sig)) in
      let '(ea, a_sig) := p in
      let* scale := cadd (SI 32) 0 ea in
      let* p := (if b_abs <? IMPLICIT_BIT then normalize b_sig else Ok (0, b_sig)) in
      let '(eb, b_sig) := p in
      let* scale := cadd (SI 32) scale eb in
      Ok (inr (a_sig, b_sig, scale))
  else Ok (inr (a_sig, b_sig, 0)).

(** mul, mul.rs:3-181 *)
Definition mul (a b : Z) : res Z :=
  let inf_rep := EXP_MASK in
  let a_exp := Z.land (Z.shiftr a (fs f)) EXP_SAT in
  let b_exp := Z.land (Z.shiftr b (fs f)) EXP_SAT in
  let product_sign := Z.land (Z.lxor a b) SIGN_MASK in
  let* sp := mul_special a b in
  match sp with
  | inl r => Ok r
  | inr (a_sig, b_sig, scale) =>
      let a_sig := Z.lor a_sig IMPLICIT_BIT in
      let b_sig := Z.lor b_sig IMPLICIT_BIT in
      let* bs := cshl fI b_sig EXP_BITS in
      let* p := wmul_lo_hi a_sig bs in
      let '(low, high) := p in
      let* ea := ccast (SI 32) a_exp in
      let* eb := ccast (SI 32) b_exp in
      let e := wrapping_sub (SI 32) (wrapping_add (SI 32) (wrapping_add (SI 32) ea eb) scale) EXP_BIAS in
      let* st := (if negb (Z.land high IMPLICIT_BIT =? 0) then
                    Ok (wrapping_add (SI 32) e 1, low, high)
                  else
                    let* x := cshl fI high 1 in
                    let* y := cshr fI low (fb f - 1) in
                    let* l := cshl fI low 1 in
                    Ok (e, l, Z.lor x y)) in
      let '(e, low, high) := st in
      if EXP_SAT <=? e then Ok (Z.lor inf_rep product_sign)
      else
        let* st := (if e <=? 0 then
                      let* shift := ccast (UI 32) (wrapping_sub fI 1 (norm fI e)) in
                      if fb f <=? shift then Ok None
                      else
                        let* x := cshl fI low (fb f - shift) in
                        let sticky := b2z (negb (x =? 0)) in
                        let* y := cshl fI high (fb f - shift) in
                        let* z := cshr fI low shift in
                        let* h := cshr fI high shift in
                        Ok (Some (Z.lor (Z.lor y z) sticky, h))
                    else
                      let* ee := ccast fI e in
                      let* ee := cshl fI ee (fs f) in
                      Ok (Some (low, Z.lor (Z.land high SIG_MASK) ee))) in
        match st with
        | None => Ok product_sign
        | Some (low, high) =>
            let high := Z.lor high product_sign in
            let* high := (if SIGN_MASK <? low then cadd fI high 1 else Ok high) in
            if low =? SIGN_MASK then cadd fI high (Z.land high 1) else Ok high
        end
  end.
End Format.
