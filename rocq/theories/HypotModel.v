(** Model of the Euclidean distance of libm: libm/src/math/hypot.rs.
    Floats are bit patterns; hexadecimal float literals are written as their bits. The flag
    functions (hypot.rs:295-301) do nothing. Definitions only. *)
From Coq Require Import ZArith List Bool.
From Verif Require Import Base FloatModel LibmModel RemModel FmaModel SqrtModel.
Import ListNotations.
Open Scope Z_scope.

Section Hypot.
(** The float operations of the target, the casts i64 to f64 and f64 to u64, and whether
    overflow checks are compiled in. *)
Context (o : fops) (conv tou : Z -> Z) (checks : bool).

(** Float::fma of float_traits.rs:361-371 without intrinsics: fma of libm. *)
Definition hfma (x y z : Z) : res Z := fma_round F64 o conv x y z.
(** super::sqrt, sqrt of libm on a target with 64-bit usize *)
Definition hsqrt (x : Z) : res Z := sqrt_round F64 64 o x.
Definition hneg (x : Z) : Z := Z.lxor x (2 ^ 63).
Definition habs (x : Z) : Z := Z.land x (2 ^ 63 - 1).
(** A plain - on i64: it panics in a build with overflow checks and wraps in a build without.
    Written out for the two subtractions that can overflow; all other operators of the file
    are modelled with the check. *)
Definition sub_i64 (a b : Z) : res Z := if checks then csub (SI 64) a b else Ok (wrapping_sub (SI 64) a b).

(** hypot.rs:172-180, one round of the loop *)
Definition step_down (st : Z * Z) : res (Z * Z) :=
  let '(rm, re) := st in
  if rm =? 2 ^ 52 then let* re := csub (SI 32) re 1 in Ok (2 ^ 53 - 1, re)
  else let* rm := csub (UI 64) rm 1 in Ok (rm, re).

(** hypot.rs:201-210; OutOfFuel stands for a loop that does not end *)
Fixpoint climb (fuel : nat) (m2 k rm : Z) : res (Z * Z) :=
  match fuel with
  | O => Err OutOfFuel
  | S n =>
      let* rm := cadd (UI 64) rm (1 + b2z (2 ^ 53 <=? rm)) in
      let* tm := cshl (UI 64) rm k in
      let rm2 := wrapping_mul (UI 64) tm tm in
      let* d := sub_i64 (norm (SI 64) m2) (norm (SI 64) rm2) in
      if d <=? 0 then Ok (rm, d) else climb n m2 k rm
  end.

(** hypot.rs:182-196: the low 64 bits of (x^2 + y^2) 2^108, with a sticky bit *)
Definition square_sum (bm lm be le : Z) : res Z :=
  let* bm := cshl (UI 64) bm 2 in
  let m2 := wrapping_mul (UI 64) bm bm in
  let* de := csub (SI 32) be le in
  let* ls := csub (SI 32) 2 de in
  if 0 <=? ls then
    let* lm := cshl (UI 64) lm ls in
    Ok (wrapping_add (UI 64) m2 (wrapping_mul (UI 64) lm lm))
  else
    let* lm2 := cmul (UI 128) lm lm in
    let* ls := cmul (SI 32) ls 2 in
    let* nls := cneg (SI 32) ls in
    let* t := cshr (UI 128) lm2 nls in
    let m2 := wrapping_add (UI 64) m2 (norm (UI 64) t) in
    let* s := cadd (SI 32) 128 ls in
    let* u := cshl (UI 128) lm2 s in
    Ok (Z.lor m2 (b2z (negb (u =? 0)))).

(** hypot.rs:212-227: the choice between the two neighbours *)
Definition choose (m2 k rm d : Z) : res Z :=
  let op := o_add o 0x3ff0000000000000 0x3c90000000000000 in
  let om := o_sub o 0x3ff0000000000000 0x3c90000000000000 in
  if d =? 0 then Ok rm
  else if o_eq o op om then
    let* t := cshl (UI 64) rm k in
    let* s := csub (SI 32) k (b2z (rm <=? 2 ^ 53)) in
    let* h := cshl (UI 64) 1 s in
    let* tm := csub (UI 64) t h in
    let* d := sub_i64 (norm (SI 64) m2) (norm (SI 64) (wrapping_mul (UI 64) tm tm)) in
    if d =? 0 then csub (UI 64) rm (Z.land rm 1)
    else let* s := cshr (SI 64) d 63 in Ok (wrapping_add (UI 64) rm (norm (UI 64) s))
  else
    let* t := cshl (UI 64) (b2z (o_eq o op 0x3ff0000000000000)) (b2z (2 ^ 53 <? rm)) in
    csub (UI 64) rm t.

(** as_hypot_hard, hypot.rs:157-238 *)
Definition hypot_hard (fuel : nat) (x y : Z) : res Z :=
  let bm := Z.lor (Z.land x (2 ^ 52 - 1)) (2 ^ 52) in
  let lm := Z.lor (Z.land y (2 ^ 52 - 1)) (2 ^ 52) in
  let* be := cshr (UI 64) x 52 in
  let be := norm (SI 32) be in
  let* le := cshr (UI 64) y 52 in
  let le := norm (SI 32) le in
  let* ri := hsqrt (o_add o (o_mul o x x) (o_mul o y y)) in
  let rm := Z.land ri (2 ^ 52 - 1) in
  let* re := cshr (UI 64) ri 52 in
  let* re := csub (SI 32) (norm (SI 32) re) 0x3ff in
  let rm := Z.lor rm (2 ^ 52) in
  let* st := step_down (rm, re) in
  let* st := step_down st in
  let* st := step_down st in
  let '(rm, re) := st in
  let* m2 := square_sum bm lm be le in
  let* k := cadd (SI 32) 2 re in
  let* rd := climb fuel m2 k rm in
  let '(rm, d) := rd in
  let* rm := choose m2 k rm d in
  let* rr := (if 2 ^ 53 <=? rm then let* rm := cshr (UI 64) rm 1 in let* re := cadd (SI 32) re 1 in Ok (rm, re) else Ok (rm, re)) in
  let '(rm, re) := rr in
  let* e := csub (SI 32) be 1 in
  let* e := cadd (SI 32) e re in
  let* e := cshl (UI 64) (norm (UI 64) e) 52 in
  cadd (UI 64) e rm.

(** hypot.rs:260-269 *)
Fixpoint denorm_loop (fuel : nat) (drm rm d dd : Z) : res (Z * Z * Z) :=
  match fuel with
  | O => Err OutOfFuel
  | S n =>
      let p_d := d in
      let rm := wrapping_add (UI 64) rm (norm (UI 64) drm) in
      let d := wrapping_sub (SI 64) d dd in
      let dd := wrapping_add (SI 64) dd 8 in
      if Z.lxor d p_d <=? 0 then Ok (rm, d, p_d) else denorm_loop n drm rm d dd
  end.

(** as_hypot_denorm, hypot.rs:240-293 *)
Definition hypot_denorm (fuel : nat) (a b : Z) : res Z :=
  let op := o_add o 0x3ff0000000000000 0x3c90000000000000 in
  let om := o_sub o 0x3ff0000000000000 0x3c90000000000000 in
  let af := conv (norm (SI 64) a) in
  let bf := conv (norm (SI 64) b) in
  let* a := cshl (UI 64) a 1 in
  let* b := cshl (UI 64) b 1 in
  let* r := hsqrt (o_add o (o_mul o af af) (o_mul o bf bf)) in
  let rm := tou r in
  let* tm := cshl (UI 64) rm 1 in
  let d := wrapping_add (SI 64) (wrapping_sub (SI 64) (norm (SI 64) (wrapping_mul (UI 64) a a)) (norm (SI 64) (wrapping_mul (UI 64) tm tm)))
             (norm (SI 64) (wrapping_mul (UI 64) b b)) in
  let* sd := cshr (SI 64) d 63 in
  let* um := csub (SI 64) (Z.lxor (norm (SI 64) rm) sd) sd in
  let* drm := cadd (SI 64) sd 1 in
  let* t := cshl (SI 64) um 3 in
  let* dd := cadd (SI 64) t 4 in
  let* rm := csub (UI 64) rm (norm (UI 64) drm) in
  let* drm := cadd (SI 64) drm sd in
  let* st := denorm_loop fuel drm rm d dd in
  let '(rm, d, p_d) := st in
  let* p_d := cadd (SI 64) (Z.land sd d) (Z.land (inot (SI 64) sd) p_d) in
  if negb (p_d =? 0) then
    if o_eq o op om then
      let sum := wrapping_sub (SI 64) (wrapping_sub (SI 64) p_d (norm (SI 64) (wrapping_mul (UI 64) 4 rm))) 1 in
      if negb (sum =? 0) then
        let* s := cshr (SI 64) sum 63 in
        Ok (wrapping_add (UI 64) rm (norm (UI 64) (wrapping_add (SI 64) s 1)))
      else cadd (UI 64) rm (Z.land rm 1)
    else cadd (UI 64) rm (b2z (o_lt o 0x3ff0000000000000 op))
  else Ok rm.

(** hypot.rs:105-115: x^2 + y^2 in two doubles, and its root as [th] + [tl] *)
Definition hypot_fast (x y : Z) : res (Z * Z) :=
  let x2 := o_mul o x x in
  let* dx2 := hfma x x (hneg x2) in
  let y2 := o_mul o y y in
  let* dy2 := hfma y y (hneg y2) in
  let r2 := o_add o x2 y2 in
  let ir2 := o_div o 0x3fe0000000000000 r2 in
  let dr2 := o_add o (o_add o (o_sub o x2 r2) y2) (o_add o dx2 dy2) in
  let* th := hsqrt r2 in
  let rsqrt := o_mul o th ir2 in
  let* t := hfma th th (hneg r2) in
  let dz := o_sub o dr2 t in
  let tl := o_mul o rsqrt dz in
  (* fasttwosum, hypot.rs:137-142 *)
  let s := o_add o th tl in
  let z := o_sub o s th in
  Ok (s, o_sub o tl z).

(** hypot.rs:117-124: is the result of [hypot_fast] too close to a tie or to a double? *)
Definition near_tie (th tl : Z) : bool :=
  let ex := Z.land th (0x7ff * 2 ^ 52) in
  let aidr := wrapping_sub (UI 64) (wrapping_add (UI 64) (habs tl) (0x3fe * 2 ^ 52)) ex in
  let mid := Z.shiftr (wrapping_add (UI 64) (wrapping_sub (UI 64) aidr 0x3c90000000000000) 16) 5 in
  (mid =? 0) || negb ((0x39b0000000000000 <=? aidr) && (aidr <=? 0x3c9fffffffffff80)).

(** hypot.rs:94-134; [u] and [v] are the operands, [xd] and [yd] their bits with a
    subnormal [v] written with an exponent below 0 (modulo 2^64) *)
Definition hypot_main (fuel : nat) (u v xd yd : Z) : res Z :=
  let de := wrapping_sub (UI 64) xd yd in
  if 27 * 2 ^ 52 <? de then hfma 0x3e40000000000000 v u
  else
    let* off := csub (SI 64) (0x3ff * 2 ^ 52) (norm (SI 64) (Z.land xd (0x7ff * 2 ^ 52))) in
    let x := wrapping_add (UI 64) xd (norm (UI 64) off) in
    let y := wrapping_add (UI 64) yd (norm (UI 64) off) in
    let* p := hypot_fast x y in
    let '(th, tl) := p in
    let* thd := (if near_tie th tl then hypot_hard fuel x y else Ok th) in
    let thd := wrapping_sub (UI 64) thd (norm (UI 64) off) in
    if 0x7ff * 2 ^ 52 <=? thd then
      (* as_hypot_overflow, hypot.rs:144-151 *)
      Ok (o_add o 0x7fefffffffffffff 0x7fefffffffffffff)
    else Ok thd.

(** hypot, hypot.rs:24-93. core's max and min are only used on ordered operands. *)
Definition hypot (fuel : nat) (x y : Z) : res Z :=
  let emsk := 0x7ff * 2 ^ 52 in
  let ax := habs x in
  let ay := habs y in
  if (Z.land x emsk =? emsk) || (Z.land y emsk =? emsk) then
    let wx := norm (UI 64) (Z.shiftl x 1) in
    let wy := norm (UI 64) (Z.shiftl y 1) in
    let wm := norm (UI 64) (Z.shiftl emsk 1) in
    let one_inf := xorb (wx =? wm) (wy =? wm) in
    let one_nan := xorb (is_nanb F64 ax) (is_nanb F64 ay) in
    if one_inf && one_nan then Ok 0x7ff0000000000000 else Ok (o_add o ax ay)
  else
    let u := if o_lt o ax ay then ay else ax in
    let v := if o_lt o ay ax then ay else ax in
    let xd := u in
    let yd := v in
    let* h := cshr (UI 64) yd 52 in
    if h =? 0 then
      if yd =? 0 then Ok xd
      else
        let* g := cshr (UI 64) xd 52 in
        if g =? 0 then
          if xd =? 0 then Ok 0 else hypot_denorm fuel xd yd
        else
          let nz := nlz 64 yd in
          let* s := csub (UI 32) nz 11 in
          let* e := cshl (UI 64) yd s in
          let e := Z.land e (2 ^ 52 - 1) in
          let* n := csub (SI 64) nz 12 in
          let* t := cshl (SI 64) n 52 in
          hypot_main fuel u v xd (wrapping_sub (UI 64) e (norm (UI 64) t))
    else hypot_main fuel u v xd yd.
End Hypot.
