(** Model of the integer intrinsics other than division:
    compiler-builtins/src/int/{addsub,shift,mul,leading_zeros,trailing_zeros,bswap}.rs.
    Definitions only. [t] is the Rust type ([UI 128] for u128, [SI 128] for i128 ...). *)

From Coq Require Import ZArith Bool List.
From Verif Require Import Base.
Import ListNotations.
Open Scope Z_scope.

(** * addsub.rs *)

(** UAddSub::uadd, addsub.rs:4-9 *)
Definition uadd (t : ity) (self other : Z) : Z :=
  let '(l, carry) := overflowing_add (half t) (lo t self) (lo t other) in
  let h := wrapping_add (half t) (hi t self) (hi t other) in
  let carry := if carry then 1 else 0 in
  from_lo_hi t l (wrapping_add (half t) h carry).

(** UAddSub::uadd_one, addsub.rs:10-14 *)
Definition uadd_one (t : ity) (self : Z) : Z :=
  let '(l, carry) := overflowing_add (half t) (lo t self) 1 in
  let carry := if carry then 1 else 0 in
  from_lo_hi t l (wrapping_add (half t) (hi t self) carry).

(** UAddSub::usub, addsub.rs:15-18 *)
Definition usub (t : ity) (self other : Z) : Z :=
  let uneg := uadd_one t (inot t other) in
  uadd t self uneg.

(** AddSub::add / sub, addsub.rs:27-32; [t] may be signed, the unsigned
    counterpart is [UI (bits t)]. *)
Definition addsub_add (t : ity) (self other : Z) : Z :=
  let u := UI (bits t) in norm t (uadd u (norm u self) (norm u other)).
Definition addsub_sub (t : ity) (self other : Z) : Z :=
  let u := UI (bits t) in norm t (usub u (norm u self) (norm u other)).

(** Addo::addo, addsub.rs:42-45 *)
Definition addo (t : ity) (self other : Z) : Z * bool :=
  let sum := addsub_add t self other in
  (sum, negb (eqb (other <? 0) (sum <? self))).
(** Subo::subo, addsub.rs:55-58 *)
Definition subo (t : ity) (self other : Z) : Z * bool :=
  let sum := addsub_sub t self other in
  (sum, negb (eqb (other <? 0) (self <? sum))).

(** The exported symbols, addsub.rs:64-104. The [&mut i32] out-parameter is the
    second component (a bool converted with [into()]: 0 or 1). *)
Definition rust_i128_add (a b : Z) : Z := addsub_add (SI 128) a b.
Definition rust_i128_addo (a b : Z) : Z * Z := let '(r, o) := addo (SI 128) a b in (r, b2z o).
Definition rust_u128_add (a b : Z) : Z := addsub_add (UI 128) a b.
Definition rust_u128_addo (a b : Z) : Z * Z := let '(r, o) := addo (UI 128) a b in (r, b2z o).
Definition rust_i128_sub (a b : Z) : Z := addsub_sub (SI 128) a b.
Definition rust_i128_subo (a b : Z) : Z * Z := let '(r, o) := subo (SI 128) a b in (r, b2z o).
Definition rust_u128_sub (a b : Z) : Z := addsub_sub (UI 128) a b.
Definition rust_u128_subo (a b : Z) : Z * Z := let '(r, o) := subo (UI 128) a b in (r, b2z o).

(** * shift.rs *)

(** Ashl::ashl, shift.rs:5-18. [shl - n_h] is a plain u32 subtraction. *)
Definition ashl (t : ity) (self shl : Z) : res Z :=
  let n_h := bits t / 2 in
  if negb (Z.land shl n_h =? 0) then
    let* s := csub (UI 32) shl n_h in
    Ok (widen_hi (half t) (wrapping_shl (half t) (lo t self) s))
  else if shl =? 0 then Ok self
  else
    Ok (from_lo_hi t
          (wrapping_shl (half t) (lo t self) shl)
          (Z.lor (logical_shr (half t) (lo t self) (wrapping_sub (UI 32) n_h shl))
                 (wrapping_shl (half t) (hi t self) shl))).

(** Ashr::ashr, shift.rs:27-43 *)
Definition ashr (t : ity) (self shr : Z) : res Z :=
  let n_h := bits t / 2 in
  if negb (Z.land shr n_h =? 0) then
    let* s := csub (UI 32) shr n_h in
    let* s1 := csub (UI 32) n_h 1 in
    Ok (from_lo_hi t (wrapping_shr (half t) (hi t self) s)
                     (wrapping_shr (half t) (hi t self) s1))
  else if shr =? 0 then Ok self
  else
    Ok (from_lo_hi t
          (Z.lor (logical_shr (half t) (lo t self) shr)
                 (wrapping_shl (half t) (hi t self) (wrapping_sub (UI 32) n_h shr)))
          (wrapping_shr (half t) (hi t self) shr)).

(** Lshr::lshr, shift.rs:52-64 *)
Definition lshr (t : ity) (self shr : Z) : res Z :=
  let n_h := bits t / 2 in
  if negb (Z.land shr n_h =? 0) then
    let* s := csub (UI 32) shr n_h in
    Ok (zero_widen (half t) (logical_shr (half t) (hi t self) s))
  else if shr =? 0 then Ok self
  else
    Ok (from_lo_hi t
          (Z.lor (logical_shr (half t) (lo t self) shr)
                 (wrapping_shl (half t) (hi t self) (wrapping_sub (UI 32) n_h shr)))
          (logical_shr (half t) (hi t self) shr)).

(** shift.rs:71-116. [c_uint] is taken to be 32 bits wide (it is 16 on AVR and
    MSP430, where [b as u32] widens it). *)
Definition ashlsi3 := ashl (UI 32).
Definition ashldi3 := ashl (UI 64).
Definition ashlti3 := ashl (UI 128).
Definition ashrsi3 := ashr (SI 32).
Definition ashrdi3 := ashr (SI 64).
Definition ashrti3 := ashr (SI 128).
Definition lshrsi3 := lshr (UI 32).
Definition lshrdi3 := lshr (UI 64).
Definition lshrti3 := lshr (UI 128).

(** * mul.rs *)

(** Mul::mul, mul.rs:7-27 *)
Definition mul (t : ity) (self rhs : Z) : res Z :=
  let h := half t in
  let q := half h in
  let lhs_lo := lo t self in
  let rhs_lo := lo t rhs in
  let tmp_0 := zero_widen_mul q (lo h lhs_lo) (lo h rhs_lo) in
  let tmp_1 := zero_widen_mul q (lo h lhs_lo) (hi h rhs_lo) in
  let tmp_2 := zero_widen_mul q (hi h lhs_lo) (lo h rhs_lo) in
  let tmp_3 := zero_widen_mul q (hi h lhs_lo) (hi h rhs_lo) in
  let* s1 := cshl t (zero_widen h tmp_1) (bits t / 4) in
  let* s2 := cshl t (zero_widen h tmp_2) (bits t / 4) in
  let m := wrapping_add t (wrapping_add t (from_lo_hi t tmp_0 tmp_3) s1) s2 in
  Ok (wrapping_add t
        (wrapping_add t m (widen_hi h (wrapping_mul h lhs_lo (hi t rhs))))
        (widen_hi h (wrapping_mul h (hi t self) rhs_lo))).

(** UMulo::mulo, mul.rs:34-53 *)
Definition umulo (t : ity) (self rhs : Z) : Z * bool :=
  let h := half t in
  match hi t self =? 0, hi t rhs =? 0 with
  | false, false => (wrapping_mul t self rhs, true)
  | true, false =>
      let mul_lo := widen_mul h (lo t self) (lo t rhs) in
      let mul_hi := widen_mul h (lo t self) (hi t rhs) in
      let '(m, o) := overflowing_add t mul_lo (widen_hi h (lo t mul_hi)) in
      (m, o || negb (hi t mul_hi =? 0))
  | false, true =>
      let mul_lo := widen_mul h (lo t rhs) (lo t self) in
      let mul_hi := widen_mul h (lo t rhs) (hi t self) in
      let '(m, o) := overflowing_add t mul_lo (widen_hi h (lo t mul_hi)) in
      (m, o || negb (hi t mul_hi =? 0))
  | true, true => (widen_mul h (lo t self) (lo t rhs), false)
  end.

(** impl_signed_mulo!, mul.rs:60-94; [n] is the width. *)
Definition signed_mulo (n : Z) (lhs rhs : Z) : Z * bool :=
  let iD := SI n in let uD := UI n in
  if (lhs =? 0) || (rhs =? 0) then (0, false)
  else
    let lhs_neg := lhs <? 0 in
    let rhs_neg := rhs <? 0 in
    let lhs := if lhs_neg then wrapping_neg iD lhs else lhs in
    let rhs := if rhs_neg then wrapping_neg iD rhs else rhs in
    let mul_neg := negb (eqb lhs_neg rhs_neg) in
    let '(m, o) := umulo uD (norm uD lhs) (norm uD rhs) in
    let m := norm iD m in
    let m := if mul_neg then wrapping_neg iD m else m in
    if negb (eqb (m <? 0) mul_neg) then (m, true) else (m, o).

(** The shift-and-add loop of __mulsi3 / __muldi3 on targets without a
    multiplier, mul.rs:120-133 and 140-151. [n] is the width; [b <<= 1] is a plain
    shift (never panics since 1 < n). *)
Fixpoint peasant_loop (fuel : nat) (n a b r : Z) : res Z :=
  match fuel with
  | O => Err OutOfFuel
  | S fuel =>
      if 0 <? a then
        let r := if 0 <? Z.land a 1 then wrapping_add (UI n) r b else r in
        let* a := cshr (UI n) a 1 in
        let* b := cshl (UI n) b 1 in
        peasant_loop fuel n a b r
      else Ok r
  end.
Definition peasant_mul (n a b : Z) : res Z := peasant_loop (S (Z.to_nat n)) n a b 0.

(** mul.rs:119-162. [no_m] is the cfg choosing the loop in __muldi3. *)
Definition mulsi3 (a b : Z) : res Z := peasant_mul 32 a b.
Definition muldi3 (no_m : bool) (a b : Z) : res Z :=
  if no_m then peasant_mul 64 a b else mul (UI 64) a b.
Definition multi3 (a b : Z) : res Z := mul (SI 128) a b.

(** mul.rs:164-204 *)
Definition mulosi4 (a b : Z) : Z * Z := let '(m, o) := signed_mulo 32 a b in (m, b2z o).
Definition mulodi4 (a b : Z) : Z * Z := let '(m, o) := signed_mulo 64 a b in (m, b2z o).
Definition muloti4 (a b : Z) : Z * Z := let '(m, o) := signed_mulo 128 a b in (m, b2z o).
(** UEFI x86_64 variant, mul.rs:184-192: operands arrive as u64 halves. *)
Definition muloti4_uefi (a_lo a_hi b_lo b_hi : Z) : res (Z * Z) :=
  let* ah := cshl (SI 128) a_hi 64 in
  let* bh := cshl (SI 128) b_hi 64 in
  let '(m, o) := signed_mulo 128 (Z.lor ah a_lo) (Z.lor bh b_lo) in
  Ok (m, b2z o).
Definition rust_i128_mulo (a b : Z) : Z * Z := let '(m, o) := signed_mulo 128 a b in (m, b2z o).
Definition rust_u128_mulo (a b : Z) : Z * Z := let '(m, o) := umulo (UI 128) a b in (m, b2z o).

(** * leading_zeros.rs *)

(** One bisection step of leading_zeros_default, leading_zeros.rs:35-39 (and
    42-46, 49-53, 54-58, 59-63); [usz] is the width of usize. *)
Definition clz_step (usz k : Z) (st : Z * Z) : res (Z * Z) :=
  let '(x, z) := st in
  let t := Z.shiftr x k in
  if negb (t =? 0) then
    let* z := csub (UI usz) z k in Ok (t, z)
  else Ok (x, z).

(** leading_zeros_default, leading_zeros.rs:16-83; [n] is I::BITS. *)
Definition leading_zeros_default (usz n x : Z) : res Z :=
  let* st := (if 64 <=? n then clz_step usz 32 (x, n) else Ok (x, n)) in
  let* st := (if 32 <=? n then clz_step usz 16 st else Ok st) in
  let* st := clz_step usz 8 st in
  let* st := clz_step usz 4 st in
  let* st := clz_step usz 2 st in
  let '(x, z) := st in
  let t := Z.shiftr x 1 in
  if negb (t =? 0) then csub (UI usz) z 2
  else
    let* c := ccast (UI usz) x in
    csub (UI usz) z c.

(** One step of leading_zeros_condset, leading_zeros.rs:115-121 (and 124-126,
    129-131, 132-134, 135-137, 138-140): [k = 2 ^ lg]. *)
Definition clz_condset_step (n k lg : Z) (st : Z * Z) : res (Z * Z) :=
  let '(x, z) := st in
  let* th := cshl (UI n) 1 k in
  let* t := cshl (UI 32) (b2z (th <=? x)) lg in
  let* x := cshr (UI n) x t in
  let* z := csub (UI 32) z t in
  Ok (x, z).

(** leading_zeros_condset, leading_zeros.rs:93-144 *)
Definition leading_zeros_condset (usz n x : Z) : res Z :=
  let* st := (if 64 <=? n then clz_condset_step n 32 5 (x, n) else Ok (x, n)) in
  let* st := (if 32 <=? n then clz_condset_step n 16 4 st else Ok st) in
  let* st := clz_condset_step n 8 3 st in
  let* st := clz_condset_step n 4 2 st in
  let* st := clz_condset_step n 2 1 st in
  let* st := clz_condset_step n 1 0 st in
  let '(x, z) := st in
  let* c := ccast (UI usz) x in
  csub (UI usz) (norm (UI usz) z) c.

(** leading_zeros.rs:147-177; [condset] is the target-architecture cfg. *)
Definition clzsi2 (usz : Z) (condset : bool) (x : Z) : res Z :=
  if condset then leading_zeros_condset usz 32 x else leading_zeros_default usz 32 x.
Definition clzdi2 (usz : Z) (condset : bool) (x : Z) : res Z :=
  if condset then leading_zeros_condset usz 64 x else leading_zeros_default usz 64 x.
Definition clzti2 (usz : Z) (condset : bool) (x : Z) : res Z :=
  let h := norm (UI 64) (Z.shiftr x 64) in
  if h =? 0 then
    let* c := clzdi2 usz condset (norm (UI 64) x) in cadd (UI usz) 64 c
  else clzdi2 usz condset h.

(** * trailing_zeros.rs *)

(** trailing_zeros, trailing_zeros.rs:11-51; [n] is I::BITS. *)
Definition trailing_zeros (usz n x : Z) : res Z :=
  let r := 0 in
  let* st := (if 64 <=? n then
                let* t := cshl (UI 32) (b2z (norm (UI 32) x =? 0)) 5 in
                let* r := cadd (UI 32) r t in
                let* x := cshr (UI n) x r in Ok (x, r)
              else Ok (x, r)) in
  let '(x, r) := st in
  let* st := (if 32 <=? n then
                let* t := cshl (UI 32) (b2z (norm (UI 16) x =? 0)) 4 in
                let* r := cadd (UI 32) r t in
                let* x := cshr (UI n) x t in Ok (x, r)
              else Ok (x, r)) in
  let '(x, r) := st in
  let* t := cshl (UI 32) (b2z (norm (UI 8) x =? 0)) 3 in
  let* x := cshr (UI n) x t in
  let* r := cadd (UI 32) r t in
  let x := norm (UI 8) x in
  let* t := cshl (UI 32) (b2z (Z.land x 15 =? 0)) 2 in
  let* x := cshr (UI 8) x t in
  let* r := cadd (UI 32) r t in
  let* t := cshl (UI 32) (b2z (Z.land x 3 =? 0)) 1 in
  let* x := cshr (UI 8) x t in
  let* r := cadd (UI 32) r t in
  let x := Z.land x 3 in
  let* d := csub (UI usz) 2 (Z.shiftr x 1) in
  let m := Z.land d (wrapping_neg (UI usz) (b2z (Z.land x 1 =? 0))) in
  cadd (UI usz) (norm (UI usz) r) m.

(** trailing_zeros.rs:54-74 *)
Definition ctzsi2 (usz x : Z) : res Z := trailing_zeros usz 32 x.
Definition ctzdi2 (usz x : Z) : res Z := trailing_zeros usz 64 x.
Definition ctzti2 (usz x : Z) : res Z :=
  let l := norm (UI 64) x in
  if l =? 0 then
    let* c := ctzdi2 usz (norm (UI 64) (Z.shiftr x 64)) in cadd (UI usz) 64 c
  else ctzdi2 usz l.

(** * bswap.rs *)

(** core's [swap_bytes] (bswap.rs:5,11,17 delegate to it): shift the bytes of
    [x] out from the low end and into an accumulator from the low end. *)
Fixpoint swap_bytes_loop (k : nat) (x acc : Z) : Z :=
  match k with
  | O => acc
  | S k => swap_bytes_loop k (Z.shiftr x 8) (Z.lor (Z.shiftl acc 8) (Z.land x 255))
  end.
Definition bswapsi2 (x : Z) : Z := swap_bytes_loop 4 x 0.
Definition bswapdi2 (x : Z) : Z := swap_bytes_loop 8 x 0.
Definition bswapti2 (x : Z) : Z := swap_bytes_loop 16 x 0.
