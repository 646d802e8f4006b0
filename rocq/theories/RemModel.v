(** Model of the floating-point remainders: libm/src/math/generic/fmod.rs,
    libm/src/math/{remquo,remquof,remainder,remainderf}.rs. Definitions only. *)
From Coq Require Import ZArith Bool List.
From Verif Require Import Base BigModel FloatModel LibmModel.
Open Scope Z_scope.

(** The double-width operations of [F::Int] (BigModel.v); u128 has u256. [dbg]: debug
    assertions inside u256. *)
Definition fdict (f : fmt) (dbg : bool) : dict := if fb f =? 128 then u256_dict dbg else prim_dict (fb f).

Section Format.
Context (f : fmt).
Notation I := (fI f).

(** [%] of the unsigned integers: panics on zero. *)
Definition crem (a b : Z) : res Z := if b =? 0 then Err Panic else Ok (a mod b).
(** [a.checked_sub(b).unwrap_or(d)] *)
Definition sub_or (a b d : Z) : Z := if b <=? a then a - b else d.

(** generic/fmod.rs:54-62 *)
Definition into_sig_exp (bits : Z) : res (Z * Z) :=
  let bits := Z.land bits (inot I (SIGN_MASK f)) in
  let sat := sub_or bits (IMPLICIT_BIT f) 0 in
  let* sig := csub I bits (Z.land sat (EXP_MASK f)) in
  let* e := ccast (UI 32) (Z.shiftr sat (fs f)) in
  Ok (sig, e).

(** The loop of generic/fmod.rs:99-103. *)
Fixpoint reduce_loop (k : nat) (x y : Z) : res Z :=
  match k with
  | O => Ok (sub_or x y x)
  | S k => let* x := cshl I (sub_or x y x) 1 in reduce_loop k x y
  end.
(** generic/fmod.rs:65-117; [widen] is from_lo_hi with a zero high half. *)
Definition reduction (dbg : bool) (x e y : Z) : res Z :=
  if fb f =? 16 then
    let* _ := assert (EXP_MAX f - EXP_MIN f =? 29) in
    let* _ := assert (e <=? 29) in
    let* u := ccast (UI 16) x in
    let* v := ccast (UI 16) y in
    let* u := cshl (UI 64) u e in
    let* r := crem u v in
    Ok (norm I (norm (UI 16) r))
  else
    let* y2 := cshl I y 1 in
    let* x := (if y2 <=? x then crem x y else Ok x) in
    if (fb f =? 64) && (e <? 32) then reduce_loop (Z.to_nat e) x y
    else
      let d := fdict f dbg in
      let* fast := (if e <? fb f then
                      let* w := d_shl d (d_from_lo_hi d x 0) e in
                      let* o := d_ndiv d w y in
                      Ok (option_map snd o)
                    else Ok None) in
      match fast with
      | Some r => Ok r
      | None => linear_mul_reduction (fb f) d x e y
      end.

(** generic/fmod.rs:5-49 *)
Definition fmod (o : fops) (dbg : bool) (x y : Z) : res Z :=
  let sx := Z.land x (SIGN_MASK f) in
  let ux := Z.land x (inot I (SIGN_MASK f)) in
  let uy := Z.land y (inot I (SIGN_MASK f)) in
  let x_nan_or_inf := Z.land ux (EXP_MASK f) =? EXP_MASK f in
  let y_nan_or_zero := Z.land (wrapping_sub I uy 1) (EXP_MASK f) =? EXP_MASK f in
  if x_nan_or_inf || y_nan_or_zero then Ok (o_div o (o_mul o x y) (o_mul o x y))
  else if ux <? uy then Ok x
  else
    let* nx := into_sig_exp ux in
    let '(num, ex) := nx in
    let* ny := into_sig_exp uy in
    let '(div, ey) := ny in
    let* e := csub (UI 32) ex ey in
    let* rem := reduction dbg num e div in
    if rem =? 0 then Ok sx
    else
      let* t := csub (UI 32) (fs f) (Z.log2 rem) in
      let shift := Z.min ey t in
      let* a := cshl I rem shift in
      let* t := csub (UI 32) ey shift in
      let* t := ccast I t in
      let* b := cshl I t (fs f) in
      let* bits := cadd I a b in
      cadd I sx bits.

(** The normalisation loops, remquo.rs:23-26 and 34-37: while the top bit of [i] is
    clear. *)
Fixpoint top_loop (k : nat) (e i : Z) : res Z :=
  match k with
  | O => Err OutOfFuel
  | S k =>
      let* t := cshr I i (fb f - 1) in
      if t =? 0 then
        let* e := csub (SI 32) e 1 in
        let* i := cshl I i 1 in
        top_loop k e i
      else Ok e
  end.
(** remquo.rs:21-31 and 32-42 (the same text for x and for y): exponent and significand. *)
Definition rq_normalize (e ui : Z) : res (Z * Z) :=
  if e =? 0 then
    let* i := cshl I ui (EXP_BITS f + 1) in
    let* e := top_loop (Z.to_nat (fb f)) e i in
    let* s := cneg (SI 32) e in
    let* s := cadd (SI 32) s 1 in
    let* ui := cshl I ui s in
    Ok (e, ui)
  else
    let* m := cshr I (2 ^ fb f - 1) (EXP_BITS f + 1) in
    let* b := cshl I 1 (fs f) in
    Ok (e, Z.lor (Z.land ui m) b).
(** One conditional subtraction, remquo.rs:53-57 and 62-66. *)
Definition rq_sub (uxi uy q : Z) : res (Z * Z) :=
  let i := wrapping_sub I uxi uy in
  let* t := cshr I i (fb f - 1) in
  if t =? 0 then let* q := cadd (UI 32) q 1 in Ok (i, q) else Ok (uxi, q).
(** The loop of remquo.rs:52-61; [k] is the exponent difference. *)
Fixpoint rq_loop (k : nat) (uxi uy q : Z) : res (Z * Z) :=
  match k with
  | O => rq_sub uxi uy q
  | S k =>
      let* p := rq_sub uxi uy q in
      let* uxi := cshl I (fst p) 1 in
      let* q := cshl (UI 32) (snd p) 1 in
      rq_loop k uxi uy q
  end.
(** The loop of remquo.rs:70-73. *)
Fixpoint rq_renorm (k : nat) (e uxi : Z) : res (Z * Z) :=
  match k with
  | O => Err OutOfFuel
  | S k =>
      let* t := cshr I uxi (fs f) in
      if t =? 0 then
        let* uxi := cshl I uxi 1 in
        let* e := csub (SI 32) e 1 in
        rq_renorm k e uxi
      else Ok (e, uxi)
  end.
(** The literal 2.0. *)
Definition TWO : Z := Z.shiftl (EXP_BIAS f + 1) (fs f).
(** The sentinel exponent of a zero remainder: -60 in remquo.rs:68, -30 in
    remquof.rs:67. *)
Definition rq_sentinel : Z := if fb f =? 64 then -60 else -30.

(** remquo.rs:2-95 and remquof.rs:2-92, the same text up to the constants and to the final
    increment of [q]: wrapping in remquo.rs:91, a plain [+=] in remquof.rs:88. The latter
    panics on overflow when overflow checks are on ([checks]) and wraps otherwise. *)
Definition remquo (o : fops) (checks : bool) (x y : Z) : res (Z * Z) :=
  let* ex := ccast (SI 32) (Z.land (Z.shiftr x (fs f)) (EXP_SAT f)) in
  let* ey := ccast (SI 32) (Z.land (Z.shiftr y (fs f)) (EXP_SAT f)) in
  let sx := negb (Z.shiftr x (fb f - 1) =? 0) in
  let sy := negb (Z.shiftr y (fb f - 1) =? 0) in
  let* y2 := cshl I y 1 in
  let* x2 := cshl I x 1 in
  if (y2 =? 0) || is_nanb f y || (ex =? EXP_SAT f) then Ok (o_div o (o_mul o x y) (o_mul o x y), 0)
  else if x2 =? 0 then Ok (x, 0)
  else
    let* nx := rq_normalize ex x in
    let '(ex, uxi) := nx in
    let* ny := rq_normalize ey y in
    let '(ey, uy) := ny in
    let* ex1 := cadd (SI 32) ex 1 in
    if negb (ex1 =? ey) && (ex <? ey) then Ok (x, 0)
    else
      let* st :=
        (if negb (ex1 =? ey) then
           let* p := rq_loop (Z.to_nat (ex - ey)) uxi uy 0 in
           let '(uxi, q) := p in
           if uxi =? 0 then Ok (rq_sentinel, uxi, q)
           else let* p := rq_renorm (Z.to_nat (fb f)) ey uxi in Ok (p, q)
         else Ok (ex, uxi, 0)) in
      let '(ex, uxi, q) := st in
      let* bits :=
        (if 0 <? ex then
           let* b := cshl I 1 (fs f) in
           let* uxi := csub I uxi b in
           let* e := cshl I (norm I ex) (fs f) in
           Ok (Z.lor uxi e)
         else
           let* s := cneg (SI 32) ex in
           let* s := cadd (SI 32) s 1 in
           cshr I uxi s) in
      let ya := if sy then Z.lxor y (SIGN_MASK f) else y in
      let x2 := o_mul o TWO bits in
      let* ex1 := cadd (SI 32) ex 1 in
      let* xq :=
        (if (ex =? ey) || (ex1 =? ey) && (o_lt o ya x2 || o_eq o x2 ya && negb (q mod 2 =? 0)) then
           let* q := (if (fb f =? 64) || negb checks then Ok (wrapping_add (UI 32) q 1) else cadd (UI 32) q 1) in
           Ok (o_sub o bits ya, q)
         else Ok (bits, q)) in
      let '(xr, q) := xq in
      let q := Z.land q (2 ^ 31 - 1) in
      let* quo := (if xorb sx sy then cneg (SI 32) (norm (SI 32) q) else Ok (norm (SI 32) q)) in
      Ok (if sx then Z.lxor xr (SIGN_MASK f) else xr, quo).
(** remainder.rs:2-5, remainderf.rs:2-5 *)
Definition remainder (o : fops) (checks : bool) (x y : Z) : res Z :=
  let* p := remquo o checks x y in Ok (fst p).
End Format.
