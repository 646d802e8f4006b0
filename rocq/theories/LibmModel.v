(** Model of the bit-level part of libm: libm/src/math/generic/{fabs,copysign,fmin,fmax,
    fminimum,fmaximum,fminimum_num,fmaximum_num,fdim,trunc,floor,ceil,rint,round,frexp,
    ilogb,scalbn}.rs and libm/src/math/{nextafter,nextafterf,modf,modff,ldexp,roundeven}.rs.
    Definitions only. A float is its bit pattern. [force_eval!] has no observable effect
    in Rust (env.rs:3-7) and is left out; architecture-specific versions
    (libm/src/math/arch) are not modelled. *)
From Coq Require Import ZArith Bool List.
From Verif Require Import Base FloatModel FloatConvModel FloatDivModel.
Open Scope Z_scope.

(** The float operators [+ - * / < <= ==] of the target, on bit patterns: hardware
    instructions, or this crate's soft-float routines. *)
Record fops := FOps { o_add : Z -> Z -> Z; o_sub : Z -> Z -> Z; o_mul : Z -> Z -> Z; o_div : Z -> Z -> Z;
                      o_lt : Z -> Z -> bool; o_le : Z -> Z -> bool; o_eq : Z -> Z -> bool }.

(** The instance of a soft-float target with pointers of [p] bytes. The routines return a
    value for all operands (C20-C22), the 0 is never used. *)
Definition ok_or_0 (r : res Z) : Z := match r with Ok x => x | Err _ => 0 end.
Definition soft_ops (f : fmt) (p : Z) : fops :=
  FOps (fun a b => ok_or_0 (add f a b)) (fun a b => ok_or_0 (sub f a b)) (fun a b => ok_or_0 (mul f a b))
       (fun a b => ok_or_0 (div f p a b))
       (fun a b => lt2 f a b <? 0) (fun a b => le2 f a b <=? 0) (fun a b => eq2 f a b =? 0).

Section Format.
Context (f : fmt).
Notation I := (fI f).

(** * Constants and helpers of float_traits.rs *)
(** F::NEG_ZERO, F::ONE, F::NEG_ONE: the literals of float_traits.rs:254-257. *)
Definition NEG_ZERO : Z := SIGN_MASK f.
Definition ONE : Z := ONE_bits f.
Definition NEG_ONE : Z := Z.lor (SIGN_MASK f) (ONE_bits f).
(** F::EPSILON, float_traits.rs:282: core's constant, 2^-SIG_BITS. *)
Definition EPSILON : Z := Z.shiftl (EXP_BIAS f - fs f) (fs f).
(** float_traits.rs:83-86 *)
Definition EXP_MAX : Z := EXP_BIAS f.
Definition EXP_MIN : Z := - (EXP_MAX - 1).
(** is_nan and is_sign_negative of core, float_traits.rs:327-335. *)
Definition is_nanb (x : Z) : bool := EXP_MASK f <? Z.land x (abs_mask f).
Definition sign_negative (x : Z) : bool := negb (Z.land x (SIGN_MASK f) =? 0).
Definition sign_positive (x : Z) : bool := negb (sign_negative x).
(** float_traits.rs:171-178 *)
Definition ex (x : Z) : Z := Z.land (Z.shiftr x (fs f)) (EXP_SAT f).
Definition exp_unbiased (x : Z) : res Z := csub (SI 32) (norm (SI 32) (ex x)) (EXP_BIAS f).
(** float_traits.rs:190-201 *)
Definition from_parts (negative : bool) (exponent significand : Z) : res Z :=
  let* s := cshl I (b2z negative) (fb f - 1) in
  let* e := cshl I (norm I (Z.land exponent (EXP_SAT f))) (fs f) in
  Ok (Z.lor (Z.lor s e) (Z.land significand (SIG_MASK f))).
(** float_traits.rs:227-232. *)
Definition canonicalize (o : fops) (x : Z) : Z := o_mul o x ONE.

(** * Sign operations *)
(** generic/fabs.rs:5-8 *)
Definition fabs (x : Z) : Z := Z.land x (inot I (SIGN_MASK f)).
(** generic/copysign.rs:5-11 *)
Definition copysign (x y : Z) : Z :=
  Z.lor (Z.land x (inot I (SIGN_MASK f))) (Z.land y (SIGN_MASK f)).

(** * Minimum and maximum *)
(** generic/fmin.rs:24-27 *)
Definition fmin (o : fops) (x y : Z) : Z :=
  canonicalize o (if is_nanb y || o_lt o x y then x else y).
(** generic/fmax.rs:24-27 *)
Definition fmax (o : fops) (x y : Z) : Z :=
  canonicalize o (if is_nanb x || o_lt o x y then y else x).
(** generic/fminimum.rs:16-28 *)
Definition fminimum (o : fops) (x y : Z) : Z :=
  canonicalize o (if is_nanb x then x
                  else if is_nanb y then y
                  else if o_lt o x y || (x =? NEG_ZERO) && sign_positive y then x
                  else y).
(** generic/fmaximum.rs:16-28 *)
Definition fmaximum (o : fops) (x y : Z) : Z :=
  canonicalize o (if is_nanb x then x
                  else if is_nanb y then y
                  else if o_lt o y x || (y =? NEG_ZERO) && sign_positive x then x
                  else y).
(** generic/fminimum_num.rs:18-30 *)
Definition fminimum_num (o : fops) (x y : Z) : Z :=
  canonicalize o (if o_lt o y x || is_nanb x then y
                  else if o_lt o x y || is_nanb y then x
                  else if sign_positive x then y
                  else x).
(** generic/fmaximum_num.rs:18-30 *)
Definition fmaximum_num (o : fops) (x y : Z) : Z :=
  canonicalize o (if o_lt o y x || is_nanb y then x
                  else if o_lt o x y || is_nanb x then y
                  else if sign_positive x then x
                  else y).
(** generic/fdim.rs:4-6 *)
Definition fdim (o : fops) (x y : Z) : Z := if o_le o x y then 0 else o_sub o x y.

(** * Rounding to an integer: (value, inexact flag of the FpResult) *)
(** generic/trunc.rs:7-36 *)
Definition trunc_status (x : Z) : res (Z * bool) :=
  let* e := exp_unbiased x in
  if fs f <=? e then Ok (x, false)
  else
    let* clear_mask := (if e <? 0 then Ok (inot I (SIGN_MASK f)) else cshr I (SIG_MASK f) e) in
    let cleared := Z.land x clear_mask in
    Ok (Z.lxor x cleared, negb (cleared =? 0)).
(** generic/floor.rs:13-55 *)
Definition floor_status (x : Z) : res (Z * bool) :=
  let* e := exp_unbiased x in
  if fs f <=? e then Ok (x, false)
  else if 0 <=? e then
    let* m := cshr I (SIG_MASK f) e in
    if Z.land x m =? 0 then Ok (x, false)
    else
      let* ix := (if sign_negative x then cadd I x m else Ok x) in
      Ok (Z.land ix (inot I m), true)
  else if Z.land x (inot I (SIGN_MASK f)) =? 0 then Ok (x, false)
  else if sign_positive x then Ok (0, true)
  else Ok (NEG_ONE, true).
(** generic/ceil.rs:13-63 *)
Definition ceil_status (x : Z) : res (Z * bool) :=
  let* e := exp_unbiased x in
  if fs f <=? e then Ok (x, false)
  else if 0 <=? e then
    let* m := cshr I (SIG_MASK f) e in
    if Z.land x m =? 0 then Ok (x, false)
    else
      let* ix := (if sign_positive x then cadd I x m else Ok x) in
      Ok (Z.land ix (inot I m), true)
  else
    let status := negb (Z.land x (inot I (SIGN_MASK f)) =? 0) in
    if sign_negative x then Ok (NEG_ZERO, status)
    else
      let* x2 := cshl I x 1 in
      if negb (x2 =? 0) then Ok (ONE, status) else Ok (x, status).
(** generic/rint.rs:9-50; [force] is the identity (it only forces a store on i386). Also
    roundeven, roundeven.rs. *)
Definition rint_status (o : fops) (x : Z) : res (Z * bool) :=
  let toint := o_div o ONE EPSILON in
  let e := ex x in
  let positive := sign_positive x in
  let* lim := cadd (UI 32) (EXP_BIAS f) (fs f) in
  let res_ :=
    if lim <=? e then x
    else
      let y := if positive then o_sub o (o_add o x toint) toint
               else o_add o (o_sub o x toint) toint in
      if o_eq o y 0 then (if positive then 0 else NEG_ZERO) else y in
  Ok (res_, negb (o_eq o res_ x)).
(** generic/round.rs:5-10 *)
Definition round (o : fops) (x : Z) : res Z :=
  let* b1 := csub (UI 32) (EXP_BIAS f) 1 in
  let* f0p5 := from_parts false b1 0 in
  let* b2 := csub (UI 32) (EXP_BIAS f) 2 in
  let* f0p25 := from_parts false b2 0 in
  let* r := trunc_status (o_add o x (copysign (o_sub o f0p5 (o_mul o f0p25 EPSILON)) x)) in
  Ok (fst r).

(** * Exponent manipulation *)
(** generic/frexp.rs:4-26 *)
Definition frexp (o : fops) (x : Z) : res (Z * Z) :=
  let ee := norm (SI 32) (ex x) in
  let finish (ee ix : Z) : res (Z * Z) :=
    let* b := csub (SI 32) (EXP_BIAS f) 1 in
    let* e := csub (SI 32) ee b in
    let ix := Z.land ix (Z.lor (SIGN_MASK f) (SIG_MASK f)) in
    let* b := csub (UI 32) (EXP_BIAS f) 1 in
    let* h := cshl I (norm I b) (fs f) in
    Ok (Z.lor ix h, e) in
  if ee =? 0 then
    if o_eq o x 0 then Ok (x, 0)
    else
      let* p := normalize f (Z.land x (SIG_MASK f)) in
      finish (fst p) (Z.lor (snd p) (Z.land x (SIGN_MASK f)))
  else if ee =? EXP_SAT f then Ok (x, 0)
  else finish ee x.
(** The loop of generic/ilogb.rs:19-22. *)
Fixpoint ilogb_loop (k : nat) (e i : Z) : res Z :=
  match k with
  | O => Err OutOfFuel
  | S k =>
      let* t := cshr I i (fb f - 1) in
      if t =? 0 then
        let* e := csub (SI 32) e 1 in
        let* i := cshl I i 1 in
        ilogb_loop k e i
      else Ok e
  end.
(** generic/ilogb.rs:3-35 *)
Definition FP_ILOGBNAN : Z := imin (SI 32).
Definition FP_ILOGB0 : Z := FP_ILOGBNAN.
Definition ilogb (x : Z) : res Z :=
  let e := norm (SI 32) (ex x) in
  if e =? 0 then
    let* i := cshl I x (EXP_BITS f + 1) in
    if i =? 0 then Ok FP_ILOGB0
    else let* e := cneg (SI 32) (EXP_BIAS f) in ilogb_loop (Z.to_nat (fb f)) e i
  else if e =? EXP_SAT f then
    let* i := cshl I x (EXP_BITS f + 1) in
    if negb (i =? 0) then Ok FP_ILOGBNAN else Ok (imax (SI 32))
  else csub (SI 32) e (EXP_BIAS f).

(** generic/scalbn.rs:20-121; the debug assertions of lines 54 and 75 are assertions on
    constants, included. Also ldexp, ldexp.rs. *)
Definition scalbn (o : fops) (x n : Z) : res Z :=
  let sig_total_bits := fs f + 1 in
  let exp_max := EXP_MAX in
  let exp_min := EXP_MIN in
  let* b := cshl (UI 32) (EXP_BIAS f) 1 in
  let* f_exp_max := from_parts false b 0 in
  let* f_exp_min := from_parts false 1 0 in
  let* b := cadd (UI 32) sig_total_bits (EXP_BIAS f) in
  let* f_pow_subnorm := from_parts false b 0 in
  let* xn :=
    (if exp_max <? n then
       let* _ := assert (- exp_min + fs f + exp_max <=? exp_max * 3) in
       let x := o_mul o x f_exp_max in
       let* n := csub (SI 32) n exp_max in
       if exp_max <? n then
         let x := o_mul o x f_exp_max in
         let* n := csub (SI 32) n exp_max in
         Ok (x, if exp_max <? n then exp_max else n)
       else Ok (x, n)
     else if n <? exp_min then
       if 16 <? fb f then
         let mul := o_mul o f_exp_min f_pow_subnorm in
         let* add := csub (SI 32) (- exp_min) sig_total_bits in
         let* _ := assert (- exp_min + fs f + exp_max <=? add * 2 + - exp_min) in
         let x := o_mul o x mul in
         let* n := cadd (SI 32) n add in
         if n <? exp_min then
           let x := o_mul o x mul in
           let* n := cadd (SI 32) n add in
           Ok (x, if n <? exp_min then exp_min else n)
         else Ok (x, n)
       else
         let* t := cadd (SI 32) n sig_total_bits in
         let* add := cneg (SI 32) (Z.max t exp_min) in
         let* b := csub (SI 32) (EXP_BIAS f) add in
         let* mul := from_parts false (norm (UI 32) b) 0 in
         let x := o_mul o x mul in
         let* n := cadd (SI 32) n add in
         if n <? exp_min then
           let* t := cadd (SI 32) n sig_total_bits in
           let* add := cneg (SI 32) (Z.max t exp_min) in
           let* b := csub (SI 32) (EXP_BIAS f) add in
           let* mul := from_parts false (norm (UI 32) b) 0 in
           let x := o_mul o x mul in
           let* n := cadd (SI 32) n add in
           Ok (x, if n <? exp_min then exp_min else n)
         else Ok (x, n)
     else Ok (x, n)) in
  let '(x, n) := xn in
  let* b := cadd (SI 32) (EXP_BIAS f) n in
  let* scale := from_parts false (norm (UI 32) b) 0 in
  Ok (o_mul o x scale).

(** * Neighbours and splitting *)
(** nextafter.rs:2-37 (f64) and nextafterf.rs:2-37 (f32), the same text up to the masks. *)
Definition nextafter (o : fops) (x y : Z) : res Z :=
  if is_nanb x || is_nanb y then Ok (o_add o x y)
  else if x =? y then Ok y
  else
    let ax := Z.land x (abs_mask f) in
    let ay := Z.land y (abs_mask f) in
    if ax =? 0 then
      if ay =? 0 then Ok y
      else Ok (Z.lor (Z.land y (SIGN_MASK f)) 1)
    else if (ay <? ax) || negb (Z.land (Z.lxor x y) (SIGN_MASK f) =? 0) then csub I x 1
    else cadd I x 1.
(** modf.rs:2-36 (f64) and modff.rs:2-35 (f32), the same text up to the constants:
    (fraction, integer part). *)
Definition modf (o : fops) (x : Z) : res (Z * Z) :=
  let* e := csub (SI 32) (norm (SI 32) (Z.land (Z.shiftr x (fs f)) (EXP_SAT f))) (EXP_BIAS f) in
  if fs f <=? e then
    let* sh := cshl I x (EXP_BITS f + 1) in
    if (e =? EXP_BIAS f + 1) && negb (sh =? 0) then Ok (x, x)
    else Ok (Z.land x (SIGN_MASK f), x)
  else if e <? 0 then Ok (x, Z.land x (SIGN_MASK f))
  else
    let* mask := cshr I (SIG_MASK f) e in
    if Z.land x mask =? 0 then Ok (Z.land x (SIGN_MASK f), x)
    else
      let rv2 := Z.land x (inot I mask) in
      Ok (o_sub o x rv2, rv2).
End Format.
