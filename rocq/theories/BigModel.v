(** Model of the wide-integer support code of libm:
    libm/src/math/support/big.rs, int_traits/narrowing_div.rs, modular.rs.
    Definitions only. *)
From Coq Require Import ZArith Bool List.
From Verif Require Import Base.
Open Scope Z_scope.

(** * big.rs *)

(** [u256] and [i256], big.rs:14-60: two limbs. The element type [t] of [b_hi] is
    [UI 128] for u256 and [SI 128] for i256; [b_lo] is always a u128. *)
Record big := Big { b_hi : Z; b_lo : Z }.

(** int_traits.rs:189-201 *)
Definition carrying_add (t : ity) (a b : Z) (c : bool) : Z * bool :=
  let '(ab, of1) := overflowing_add t a b in
  let '(abc, of2) := overflowing_add t ab (b2z c) in (abc, xorb of1 of2).
Definition borrowing_sub (t : ity) (a b : Z) (c : bool) : Z * bool :=
  let '(ab, of1) := overflowing_sub t a b in
  let '(abc, of2) := overflowing_sub t ab (b2z c) in (abc, xorb of1 of2).

(** [debug_assert!] with debug assertions on or off. *)
Definition debug_assert (dbg : bool) (b : bool) : res unit :=
  if dbg then assert b else Ok tt.

(** derived PartialOrd/Ord on the struct, big.rs:13,39: lexicographic, hi first. *)
Definition big_ltb (a b : big) : bool :=
  (b_hi a <? b_hi b) || ((b_hi a =? b_hi b) && (b_lo a <? b_lo b)).
Definition big_eqb (a b : big) : bool := (b_hi a =? b_hi b) && (b_lo a =? b_lo b).

(** big.rs:91-99 *)
Definition big_or (a b : big) : big := Big (Z.lor (b_hi a) (b_hi b)) (Z.lor (b_lo a) (b_lo b)).
(** big.rs:101-109 *)
Definition big_not (t : ity) (a : big) : big := Big (inot t (b_hi a)) (inot (UI 128) (b_lo a)).
(** big.rs:111-120 *)
Definition big_add (dbg : bool) (t : ity) (a b : big) : res big :=
  let '(l, carry) := overflowing_add (UI 128) (b_lo a) (b_lo b) in
  let '(h, of) := carrying_add t (b_hi a) (b_hi b) carry in
  let* _ := debug_assert dbg (negb of) in
  Ok (Big h l).
(** big.rs:122-131 *)
Definition big_sub (dbg : bool) (t : ity) (a b : big) : res big :=
  let '(l, borrow) := overflowing_sub (UI 128) (b_lo a) (b_lo b) in
  let '(h, of) := borrowing_sub t (b_hi a) (b_hi b) borrow in
  let* _ := debug_assert dbg (negb of) in
  Ok (Big h l).
(** big.rs:133-157 *)
Definition big_shl (dbg : bool) (t : ity) (a : big) (rhs : Z) : res big :=
  let* _ := debug_assert dbg (rhs <? 256) in
  let half_bits := 256 / 2 in
  let low_mask := half_bits - 1 in
  let s := Z.land rhs low_mask in
  let* l := cshl (UI 128) (b_lo a) s in
  if Z.land rhs half_bits =? 0 then
    let* x := cshr (UI 128) (b_lo a) (Z.lxor low_mask s) in
    let* x := cshr (UI 128) x 1 in
    let* y := cshl t (b_hi a) s in
    Ok (Big (Z.lor (norm t x) y) l)
  else Ok (Big (norm t l) 0).
(** big.rs:159-184 *)
Definition big_shr (dbg : bool) (t : ity) (a : big) (rhs : Z) : res big :=
  let* _ := debug_assert dbg (rhs <? 256) in
  let half_bits := 256 / 2 in
  let low_mask := half_bits - 1 in
  let s := Z.land rhs low_mask in
  let* h := cshr t (b_hi a) s in
  if Z.land rhs half_bits =? 0 then
    let* x := cshl t (b_hi a) (Z.lxor low_mask s) in
    let* x := cshl t x 1 in
    let* y := cshr (UI 128) (b_lo a) s in
    Ok (Big h (Z.lor (norm (UI 128) x) y))
  else Ok (Big (if b_hi a <? 0 then inot t 0 else 0) (norm (UI 128) h)).

(** u256::signed / i256::unsigned, big.rs:28-34, 55-61 *)
Definition big_signed (a : big) : big := Big (norm (SI 128) (b_hi a)) (b_lo a).
Definition big_unsigned (a : big) : big := Big (norm (UI 128) (b_hi a)) (b_lo a).

(** impl HInt for u128, big.rs:191-230 *)
Definition u128_widen (x : Z) : big := Big 0 x.
Definition u128_widen_hi (x : Z) : big := Big x 0.
Definition u128_widen_mul (a b : Z) : res big :=
  let m64 := 2 ^ 64 - 1 in
  let l0 := Z.land a m64 in
  let l1 := Z.land b m64 in
  let* h0 := cshr (UI 128) a 64 in
  let* h1 := cshr (UI 128) b 64 in
  let p_ll := wrapping_mul (UI 128) l0 l1 in
  let p_lh := wrapping_mul (UI 128) l0 h1 in
  let p_hl := wrapping_mul (UI 128) h0 l1 in
  let p_hh := wrapping_mul (UI 128) h0 h1 in
  let* x := cshr (UI 128) p_ll 64 in
  let* s0 := cadd (UI 128) p_hl x in
  let* y := cshl (UI 128) s0 64 in
  let* s1 := cadd (UI 128) (Z.land p_ll m64) y in
  let* z := cshr (UI 128) s1 64 in
  let* s2 := cadd (UI 128) p_lh z in
  let* v := cshl (UI 128) s2 64 in
  let* l := cadd (UI 128) (Z.land p_ll m64) v in
  let* s0h := cshr (UI 128) s0 64 in
  let* s2h := cshr (UI 128) s2 64 in
  let* h := cadd (UI 128) p_hh s0h in
  let* h := cadd (UI 128) h s2h in
  Ok (Big h l).

(** impl HInt for i128, big.rs:232-258 *)
Definition i128_widen (x : Z) : big := Big (if x <? 0 then -1 else 0) (norm (UI 128) x).
Definition i128_zero_widen (x : Z) : big := big_signed (u128_widen (norm (UI 128) x)).
Definition i128_zero_widen_mul (a b : Z) : res big :=
  let* p := u128_widen_mul (norm (UI 128) a) (norm (UI 128) b) in Ok (big_signed p).
Definition i128_widen_hi (x : Z) : big := Big x 0.
(** impl DInt for u256 / i256, big.rs:260-282 *)
Definition u256_lo (a : big) : Z := b_lo a.
Definition i256_lo (a : big) : Z := norm (SI 128) (b_lo a).
Definition big_hi (a : big) : Z := b_hi a.
(** DInt::from_lo_hi (int_traits.rs:328-330) at u256 *)
Definition u256_from_lo_hi (l h : Z) : big := big_or (u128_widen l) (u128_widen_hi h).

(** * int_traits/narrowing_div.rs *)

(** impl_narrowing_div_primitive!, narrowing_div.rs:30-41; [n] is the width of the
    dividend type, [/] and [%] are the primitive operators. *)
Definition nd_unchecked_prim (n a d : Z) : res (Z * Z) :=
  if d <=? hi (UI n) a then Err UB
  else
    let* q := ccast (half (UI n)) (a / widen (half (UI n)) d) in
    let* r := ccast (half (UI n)) (a mod widen (half (UI n)) d) in
    Ok (q, r).
(** checked_narrowing_div_rem, narrowing_div.rs:19-25, at a primitive type *)
Definition nd_checked_prim (n a d : Z) : res (option (Z * Z)) :=
  if hi (UI n) a <? d then let* p := nd_unchecked_prim n a d in Ok (Some p) else Ok None.

(** div_three_digits_by_two, narrowing_div.rs:88-146; [w] is the digit width (the
    crate instantiates it at u64). The statements after the if/else, lines 134-146. *)
Definition d3by2_tail (w q r n : Z) : res (Z * Z) :=
  let '(r, wrap) := overflowing_add (UI (2 * w)) r n in
  if wrap then Ok (q, r)
  else
    let* q := csub (UI w) q 1 in
    let '(r, wrap) := overflowing_add (UI (2 * w)) r n in
    let* _ := assert wrap in
    Ok (q, r).
Definition d3by2 (w a0 a n : Z) : res (Z * Z) :=
  let D := UI (2 * w) in
  if (0 <? nlz (2 * w) n) || (n <=? a) then Err UB
  else
    let n0 := lo D n in let n1 := hi D n in
    let a1 := lo D a in let a2 := hi D a in
    let* c := nd_checked_prim (2 * w) a n1 in
    match c with
    | Some (q, r1) =>
        let r := from_lo_hi D a0 r1 in
        let d := widen_mul (UI w) q n0 in
        let '(r, wrap) := overflowing_sub D r d in
        if negb wrap then Ok (q, r)
        else
          let* q := csub (UI w) q 1 in
          d3by2_tail w q r n
    | None =>
        let* _ := assert ((a2 =? n1) && (a1 <? n0)) in
        let r := from_lo_hi D a0 (wrapping_sub (UI w) a1 n0) in
        d3by2_tail w (2 ^ w - 1) r n
    end.

(** impl_narrowing_div_recurse!(u256), narrowing_div.rs:46-73 *)
Definition nd_unchecked_u256 (dbg : bool) (x : big) (n : Z) : res (Z * Z) :=
  if n <=? b_hi x then Err UB
  else
    let lz := nlz 128 n in
    let* a := big_shl dbg (UI 128) x lz in
    let* b := cshl (UI 128) n lz in
    let ah := big_hi a in
    let a0 := lo (UI 128) (u256_lo a) in
    let a1 := hi (UI 128) (u256_lo a) in
    let* p := d3by2 64 a1 ah b in
    let '(q1, r) := p in
    let* p := d3by2 64 a0 r b in
    let '(q0, r) := p in
    let* r := cshr (UI 128) r lz in
    Ok (from_lo_hi (UI 128) q0 q1, r).
(** checked_narrowing_div_rem, narrowing_div.rs:19-25, at u256 *)
Definition nd_checked_u256 (dbg : bool) (x : big) (n : Z) : res (option (Z * Z)) :=
  if big_hi x <? n then let* p := nd_unchecked_u256 dbg x n in Ok (Some p) else Ok None.

(** * modular.rs *)

(** The operations of [U] that involve its double-width type [U::D], i.e. the
    HInt/DInt/NarrowingDiv methods used by modular.rs, as a dictionary. *)
Record dict := Dict {
  D : Type;
  d_lo : D -> Z; d_hi : D -> Z;
  d_from_lo_hi : Z -> Z -> D;
  d_widen_hi : Z -> D;
  d_widen_mul : Z -> Z -> res D;
  d_add : D -> D -> res D;
  d_shl : D -> Z -> res D;
  d_ndiv : D -> Z -> res (option (Z * Z))
}.

(** U = u8, u16, u32, u64 ([w] bits) with a primitive double-width type;
    int_traits.rs:355-411 and narrowing_div.rs:76-79. *)
Definition prim_dict (w : Z) : dict :=
  let T := UI (2 * w) in
  {| D := Z; d_lo := lo T; d_hi := hi T; d_from_lo_hi := from_lo_hi T;
     d_widen_hi := widen_hi (UI w);
     d_widen_mul := fun a b => Ok (widen_mul (UI w) a b);
     d_add := cadd T; d_shl := cshl T;
     d_ndiv := nd_checked_prim (2 * w) |}.
(** U = u128 with U::D = u256. *)
Definition u256_dict (dbg : bool) : dict :=
  {| D := big; d_lo := u256_lo; d_hi := big_hi; d_from_lo_hi := u256_from_lo_hi;
     d_widen_hi := u128_widen_hi; d_widen_mul := u128_widen_mul;
     d_add := big_add dbg (UI 128); d_shl := big_shl dbg (UI 128);
     d_ndiv := nd_checked_u256 dbg |}.

Section Modular.
Context (w : Z) (d : dict).

(** struct Reducer, modular.rs:70-83 *)
Record reducer := Reducer { r_m : Z; r_r : Z; r_2xq : D d }.

(** Reducer::new, modular.rs:93-121; [Option::unwrap] on [None] panics. *)
Definition reducer_new (x n : Z) : res reducer :=
  let* c := cshl (UI w) 1 (w - 3) in
  let* _ := assert (c <? n) in
  let* c := cshl (UI w) 1 (w - 2) in
  let* _ := assert (n <? c) in
  let* m := cshl (UI w) n 1 in
  let* _ := assert (x <? m) in
  let* c := cshl (UI w) 1 (w - 1) in
  let* c := csub (UI w) c m in
  let dividend := d_widen_hi d c in
  let* o := d_ndiv d dividend m in
  match o with
  | None => Err Panic
  | Some (f, r) =>
      let* x2 := cadd (UI w) x x in
      let* p := d_widen_mul d x2 f in
      let* x2q := d_add d (d_widen_hi d x2) p in
      Ok (Reducer m r x2q)
  end.

(** Reducer::partial_remainder, modular.rs:124-161 *)
Definition partial_remainder (s : reducer) : res Z :=
  let u := d_hi d (r_2xq s) in
  let* two := cadd (UI w) 1 1 in
  let* u2 := cadd (UI w) u two in
  let* p := d_widen_mul d (r_m s) u2 in
  Ok (d_hi d p).

(** Reducer::shift_reduce, modular.rs:167-192; the returned quotient is unused by
    the caller and kept in the model's result. *)
Definition shift_reduce (s : reducer) (k : Z) : res (reducer * Z) :=
  let* _ := assert (k <? w) in
  let* sh := csub (UI 32) (w - 1) k in
  let* a := cshr (UI w) (d_hi d (r_2xq s)) sh in
  let* y := d_shl d (r_2xq s) k in
  let low := d_lo d y in let high := d_hi d y in
  let* mk := cshr (UI w) (2 ^ w - 1) 1 in
  let b := d_from_lo_hi d low (Z.land high mk) in
  let* p := d_widen_mul d a (r_r s) in
  let* z := d_add d p b in
  Ok (Reducer (r_m s) (r_r s) z, a).

(** Reducer::word_reduce, modular.rs:200-224 *)
Definition word_reduce (s : reducer) : res (reducer * Z) :=
  let v := d_lo d (r_2xq s) in let u := d_hi d (r_2xq s) in
  let* p := d_widen_mul d u (r_r s) in
  let* vh := cshr (UI w) v 1 in
  let* z := d_add d p (d_widen_hi d vh) in
  Ok (Reducer (r_m s) (r_r s) z, u).

(** The while loop, modular.rs:51-54. *)
Fixpoint lmr_loop (fuel : nat) (s : reducer) (e : Z) : res (reducer * Z) :=
  if w - 1 <=? e then
    match fuel with
    | O => Err OutOfFuel
    | S fuel =>
        let* p := word_reduce s in
        let* e := csub (UI 32) e (w - 1) in
        lmr_loop fuel (fst p) e
    end
  else Ok (s, e).

(** linear_mul_reduction, modular.rs:17-63. The loop bound is the number of
    [w-1]-bit steps in [e]. *)
Definition linear_mul_reduction (x e y : Z) : res Z :=
  let* _ := assert (y <=? Z.shiftr (2 ^ w - 1) 2) in
  let* y2 := cshl (UI w) y 1 in
  let* _ := assert (x <? y2) in
  let* y1 := csub (UI w) y 1 in
  if Z.land y y1 =? 0 then
    if e <? w then let* z := cshl (UI w) x e in Ok (Z.land z y1) else Ok 0
  else
    let* s := csub (UI 32) (nlz w y) 2 in
    let* e := cadd (UI 32) e s in
    let* y := cshl (UI w) y s in
    let* m := reducer_new x y in
    let* p := lmr_loop (Z.to_nat (e / (w - 1))) m e in
    let* p := shift_reduce (fst p) (snd p) in
    let* r := partial_remainder (fst p) in
    cshr (UI w) (if y <=? r then r - y else r) s.
End Modular.
