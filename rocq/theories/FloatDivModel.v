(** Model of the software floating-point division, compiler-builtins/src/float/div.rs, and
    of the integer powers, compiler-builtins/src/float/pow.rs. Definitions only. *)
From Coq Require Import ZArith Bool List.
From Verif Require Import Base BigModel FloatModel.
Open Scope Z_scope.

(** get_iterations, div.rs:516-528: (half, full); [p] is the size of a pointer in bytes. *)
Definition get_iterations (f : fmt) (p : Z) : Z * Z :=
  let total_iterations := Z.log2 (fb f) - 2 in
  if 2 * (fb f / 8) <=? p then (0, total_iterations) else (total_iterations - 1, 1).

(** reciprocal_precision, div.rs:553-571 *)
Definition reciprocal_precision (f : fmt) (p : Z) : res Z :=
  let '(half_iterations, full_iterations) := get_iterations f p in
  if full_iterations <? 1 then Err Panic
  else if (fb f =? 32) && (half_iterations =? 2) && (full_iterations =? 1) then Ok 74
  else if (fb f =? 32) && (half_iterations =? 0) && (full_iterations =? 3) then Ok 10
  else if (fb f =? 64) && (half_iterations =? 3) && (full_iterations =? 1) then Ok 220
  else if (fb f =? 128) && (half_iterations =? 4) && (full_iterations =? 1) then Ok 13922
  else Err Panic.

(** c_hw, div.rs:579-586; [hw] is the number of bits of HalfRep. *)
Definition c_hw (hw : Z) : res Z :=
  let* c := cshr (UI 128) 0x7504f333f9de6108b2fb1366eaa6a542 (128 - hw) in
  ccast (UI hw) c.

(** next_guess, div.rs:593-605, at width [n]; only used at widths with a primitive
    double-width type. *)
Definition next_guess (n x_uq0 b_uq1 : Z) : res Z :=
  let corr_uq1 := wrapping_sub (UI n) 0 (hi (UI (2 * n)) (widen_mul (UI n) x_uq0 b_uq1)) in
  let* s := cshr (UI (2 * n)) (widen_mul (UI n) x_uq0 corr_uq1) (n - 1) in
  Ok (lo (UI (2 * n)) s).

(** The loops of div.rs:291-329 and 400-402. *)
Fixpoint iterate_guess (n : Z) (k : nat) (x b : Z) : res Z :=
  match k with
  | O => Ok x
  | S k => let* x := next_guess n x b in iterate_guess n k x b
  end.

Section Format.
Context (f : fmt).
Notation I := (fI f).

(** The block for zero, subnormal, infinite and NaN operands, div.rs:143-205: either a
    result or the significands and the exponent. *)
Definition div_special (a b e : Z) : res (Z + Z * Z * Z) :=
  let inf_rep := EXP_MASK f in
  let exponent_sat := EXP_SAT f in
  let a_exp := Z.land (Z.shiftr a (fs f)) exponent_sat in
  let b_exp := Z.land (Z.shiftr b (fs f)) exponent_sat in
  let quotient_sign := Z.land (Z.lxor a b) (SIGN_MASK f) in
  let a_sig := Z.land a (SIG_MASK f) in
  let b_sig := Z.land b (SIG_MASK f) in
  if (exponent_sat - 1 <=? wrapping_sub I a_exp 1) || (exponent_sat - 1 <=? wrapping_sub I b_exp 1) then
    let a_abs := Z.land a (abs_mask f) in
    let b_abs := Z.land b (abs_mask f) in
    if inf_rep <? a_abs then Ok (inl (Z.lor a (quiet_bit f)))
    else if inf_rep <? b_abs then Ok (inl (Z.lor b (quiet_bit f)))
    else if a_abs =? inf_rep then
      if b_abs =? inf_rep then Ok (inl (qnan_rep f)) else Ok (inl (Z.lor a_abs quotient_sign))
    else if b_abs =? inf_rep then Ok (inl quotient_sign)
    else if a_abs =? 0 then
      if b_abs =? 0 then Ok (inl (qnan_rep f)) else Ok (inl quotient_sign)
    else if b_abs =? 0 then Ok (inl (Z.lor inf_rep quotient_sign))
    else
      let* p := (if a_abs <? IMPLICIT_BIT f then
                   let* p := normalize f a_sig in
                   let* e := cadd (SI 32) e (fst p) in Ok (e, snd p)
                 else Ok (e, a_sig)) in
      let '(e, a_sig) := p in
      let* p := (if b_abs <? IMPLICIT_BIT f then
                   let* p := normalize f b_sig in
                   let* e := csub (SI 32) e (fst p) in Ok (e, snd p)
                 else Ok (e, b_sig)) in
      let '(e, b_sig) := p in
      Ok (inr (a_sig, b_sig, e))
  else Ok (inr (a_sig, b_sig, e)).

(** The estimate with half-width iterations, div.rs:252-393; [hi_] of the iterations have
    half the width. *)
Definition recip_half (hi_ : Z) (b_uq1 : Z) : res Z :=
  let hw := fb f / 2 in
  let* lo_mask := cshr I (imax I) hw in
  let b_uq1_hw := hi I b_uq1 in
  let* c := c_hw hw in
  let* top := cshl (UI hw) 1 (hw - 1) in
  let* _ := assert (0 <? Z.land b_uq1_hw top) in
  let x_uq0_hw := wrapping_sub (UI hw) c b_uq1_hw in
  let* x_uq0_hw := iterate_guess hw (Z.to_nat hi_) x_uq0_hw b_uq1_hw in
  let x_uq0_hw := wrapping_sub (UI hw) x_uq0_hw 1 in
  let blo := Z.land b_uq1 lo_mask in
  let* m1 := cmul I x_uq0_hw b_uq1_hw in
  let* m2 := cmul I x_uq0_hw blo in
  let* m2 := cshr I m2 hw in
  let* s := cadd I m1 m2 in
  let corr_uq1 := wrapping_neg I (wrapping_sub I s 1) in
  let lo_corr := Z.land corr_uq1 lo_mask in
  let* hi_corr := cshr I corr_uq1 hw in
  let* m1 := cmul I x_uq0_hw hi_corr in
  let* m1 := cshl I m1 1 in
  let* m2 := cmul I x_uq0_hw lo_corr in
  let* m2 := cshr I m2 (hw - 1) in
  let x_uq0 := wrapping_sub I (wrapping_add I m1 m2) 2 in
  csub I x_uq0 1.

(** The estimate with full-width iterations only, div.rs:394-405. *)
Definition recip_full (full : Z) (b_uq1 : Z) : res Z :=
  let* c := cshl I 0x7504F333 (fb f - 32) in
  iterate_guess (fb f) (Z.to_nat full) (wrapping_sub I c b_uq1) b_uq1.

(** The whole reciprocal, div.rs:252-411. *)
Definition recip (half full precision : Z) (b_uq1 : Z) : res Z :=
  let* x_uq0 := (if 0 <? half then recip_half half b_uq1 else recip_full full b_uq1) in
  let x_uq0 := wrapping_sub I x_uq0 2 in
  csub I x_uq0 precision.

(** Quotient, residual and rounding, div.rs:416-503; [e] is res_exponent. *)
Definition div_finish (half : Z) (quotient_sign a_sig b_sig e x_uq0 : Z) : res Z :=
  let inf_rep := EXP_MASK f in
  let* as1 := cshl I a_sig 1 in
  let* p := wmul_lo_hi f x_uq0 as1 in
  let quotient_uq1 := snd p in
  let* ib1 := cshl I (IMPLICIT_BIT f) 1 in
  let* st := (if quotient_uq1 <? ib1 then
                let* x := cshl I a_sig (fs f + 1) in
                let residual_lo := wrapping_sub I x (wrapping_mul I quotient_uq1 b_sig) in
                let* e := csub (SI 32) e 1 in
                let* a_sig := cshl I a_sig 1 in
                Ok (residual_lo, quotient_uq1, a_sig, e)
              else
                let* quotient_uq1 := cshr I quotient_uq1 1 in
                let* x := cshl I a_sig (fs f) in
                Ok (wrapping_sub I x (wrapping_mul I quotient_uq1 b_sig), quotient_uq1, a_sig, e)) in
  let '(residual_lo, quotient, a_sig, e) := st in
  if EXP_SAT f <=? e then Ok (Z.lor inf_rep quotient_sign)
  else
    let* st := (if 0 <? e then
                  let* ee := cshl I (norm (UI 32) e) (fs f) in
                  let* r := cshl I residual_lo 1 in
                  Ok (Some (Z.lor (Z.land quotient (SIG_MASK f)) ee, r))
                else
                  let* d := cadd (SI 32) (fs f) e in
                  if d <? 0 then Ok None
                  else
                    let* s := ccast (UI 32) (wrapping_neg (SI 32) e) in
                    let* s := cadd (UI 32) s 1 in
                    let ret := wrapping_shr I quotient s in
                    let x := wrapping_shl I a_sig (wrapping_add (UI 32) (fs f) (norm (UI 32) e)) in
                    let* y := cshl I (wrapping_mul I ret b_sig) 1 in
                    Ok (Some (ret, wrapping_sub I x y))) in
    match st with
    | None => Ok quotient_sign
    | Some (abs_result, residual_lo) =>
        let* residual_lo := cadd I residual_lo (Z.land abs_result 1) in
        let* abs_result := cadd I abs_result (b2z (b_sig <? residual_lo)) in
        let* abs_result :=
          (if (fb f =? 128) || (fb f =? 32) && (0 <? half) then
             let* b3 := cmul I 3 b_sig in
             cadd I abs_result (b2z ((abs_result <? inf_rep) && (b3 <? residual_lo)))
           else Ok abs_result) in
        let* abs_result :=
          (if fb f =? 128 then
             let* b5 := cmul I 5 b_sig in
             cadd I abs_result (b2z ((abs_result <? inf_rep) && (b5 <? residual_lo)))
           else Ok abs_result) in
        Ok (Z.lor abs_result quotient_sign)
    end.

(** div, div.rs:87-504; the exported __divsf3, __divdf3, __divtf3. [p] is the size of a
    pointer in bytes, which selects the kind of iterations. *)
Definition div (p : Z) (a b : Z) : res Z :=
  let '(half_iterations, full_iterations) := get_iterations f p in
  let* recip_precision := reciprocal_precision f p in
  let half_iterations := if fb f =? 128 then half_iterations + 1 else half_iterations in
  let a_exp := Z.land (Z.shiftr a (fs f)) (EXP_SAT f) in
  let b_exp := Z.land (Z.shiftr b (fs f)) (EXP_SAT f) in
  let quotient_sign := Z.land (Z.lxor a b) (SIGN_MASK f) in
  let* ea := ccast (SI 32) a_exp in
  let* eb := ccast (SI 32) b_exp in
  let* e := csub (SI 32) ea eb in
  let* e := cadd (SI 32) e (EXP_BIAS f) in
  let* sp := div_special a b e in
  match sp with
  | inl r => Ok r
  | inr (a_sig, b_sig, e) =>
      let a_sig := Z.lor a_sig (IMPLICIT_BIT f) in
      let b_sig := Z.lor b_sig (IMPLICIT_BIT f) in
      let* b_uq1 := cshl I b_sig (fb f - fs f - 1) in
      let* x_uq0 := recip half_iterations full_iterations recip_precision b_uq1 in
      div_finish half_iterations quotient_sign a_sig b_sig e x_uq0
  end.

(** * pow.rs *)

(** The loop of pow.rs:9-18, [pow] > 0 has at most [k] bits; [mulf] is the target's float
    multiplication ([*=] on F), [a] and [mul] as in the source. *)
Fixpoint powi_loop (k : nat) (mulf : Z -> Z -> res Z) (a pow mul : Z) : res Z :=
  match k with
  | O => Err OutOfFuel
  | S k =>
      let* mul := (if negb (Z.land pow 1 =? 0) then mulf mul a else Ok mul) in
      let pow := Z.shiftr pow 1 in
      if pow =? 0 then Ok mul
      else let* a := mulf a a in powi_loop k mulf a pow mul
  end.

(** pow, pow.rs:4-21 with [mulf] and [divf] the float multiplication and division of the
    target; [one] is F::ONE. The exported __powisf2, __powidf2, __powitf2. *)
Definition powi_with (mulf divf : Z -> Z -> res Z) (one : Z) (a b : Z) : res Z :=
  let* m := powi_loop 32 mulf a (Z.abs b) one in
  if b <? 0 then divf one m else Ok m.

(** On a target without float hardware the operators are this crate's routines. *)
Definition powi (p : Z) (a b : Z) : res Z :=
  powi_with (mul f) (div p) (Z.shiftl (EXP_BIAS f) (fs f)) a b.
End Format.
