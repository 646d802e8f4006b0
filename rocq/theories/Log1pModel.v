(** Model of the natural logarithm of 1+x of libm: libm/src/math/log1p.rs.
    Floats are bit patterns. The constants are those of log.rs, with the same values (log1p.rs:56-64);
    a decimal literal is written as the bits in the comment of its line, which are those of the
    nearest double. The exception flags raised by force_eval! are not modelled. Definitions only. *)
From Coq Require Import ZArith List Bool.
From Verif Require Import Base FloatModel LibmModel ElemModel.
Open Scope Z_scope.

Section Ops.
Context (o : fops) (c : icast).
Local Notation "a +. b" := (o_add o a b) (at level 50, left associativity).
Local Notation "a -. b" := (o_sub o a b) (at level 50, left associativity).
Local Notation "a *. b" := (o_mul o a b) (at level 40, left associativity).
Local Notation "a /. b" := (o_div o a b) (at level 40, left associativity).

(** log1p.rs:133-141: from the reduced argument [f], the correction [cc] and the exponent [k]. *)
Definition log1p_main (f cc k : Z) : Z :=
  let hfsq := half *. f *. f in
  let s := f /. (two +. f) in
  let z := s *. s in
  let w := z *. z in
  let t1 := w *. (LG2 +. w *. (LG4 +. w *. LG6)) in
  let t2 := z *. (LG1 +. w *. (LG3 +. w *. (LG5 +. w *. LG7))) in
  let r := t2 +. t1 in
  let dk := c_ofi c k in
  s *. (hfsq +. r) +. (dk *. LN2LO +. cc) -. hfsq +. f +. dk *. LN2HI.

(** log1p.rs:117-127: the correction term, for u = 1 + x. *)
Definition log1p_corr (x u k : Z) : Z :=
  if k <? 54 then (if 2 <=? k then one -. (u -. x) else x -. (u -. one)) /. u else 0.

(** log1p.rs:112-131: the argument reduction, and the rest of the function. *)
Definition log1p_reduce (x : Z) : res Z :=
  let ui := one +. x in
  let* hu := cadd (UI 32) (high_word ui) (0x3ff00000 - 0x3fe6a09e) in
  let* k := csub (SI 32) (norm (SI 32) (Z.shiftr hu 20)) 0x3ff in
  let cc := log1p_corr x ui k in
  let* hu := cadd (UI 32) (Z.land hu 0x000fffff) 0x3fe6a09e in
  let* h := cshl (UI 64) hu 32 in
  Ok (log1p_main (Z.lor h (Z.land ui 0xffffffff) -. one) cc k).

(** log1p, log1p.rs:68-142. The variable k is 1 where the reduction follows and 0 otherwise. *)
Definition libm_log1p (x : Z) : res Z :=
  let hx := high_word x in
  if (hx <? 0x3fda827a) || (0 <? Z.shiftr hx 31) then
    if 0xbff00000 <=? hx then
      if o_eq o x neg_one then Ok (x /. 0) else Ok ((x -. x) /. 0)
    else
      let* h1 := cshl (UI 32) hx 1 in
      let* l1 := cshl (UI 32) 0x3ca00000 1 in
      if h1 <? l1 then Ok x
      else if hx <=? 0xbfd2bec4 then Ok (log1p_main x 0 0)
      else log1p_reduce x
  else if 0x7ff00000 <=? hx then Ok x
  else log1p_reduce x.
End Ops.
