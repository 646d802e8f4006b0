(** Model of the fused multiply-add: libm/src/math/generic/{fma,fma_wide}.rs and
    libm/src/math/{fma,fmaf16}.rs. Definitions only. The status flags of [FpResult] are left
    out: the exported functions return [.val] (fma.rs:25,44,53). *)
From Coq Require Import ZArith Bool List.
From Verif Require Import Base FloatModel FloatConvModel LibmModel RemModel.
Open Scope Z_scope.

Section Format.
Context (f : fmt).
Notation I := (fI f).

(** The operators of the target, and the conversion [as F] from the signed integer of the
    same width ([F::cast_from_lossy], int_traits.rs:475-488). *)
Context (o : fops) (of_int : Z -> Z).

(** float_traits.rs:285 *)
Definition MIN_POSITIVE_NORMAL : Z := Z.shiftl 1 (fs f).
(** Unary minus on floats. *)
Definition fneg (x : Z) : Z := Z.lxor x (SIGN_MASK f).
(** Norm::EXP_UNBIAS and Norm::ZERO_INF_NAN, generic/fma.rs:230-234. *)
Definition EXP_UNBIAS : Z := EXP_BIAS f + fs f + 1.
Definition ZERO_INF_NAN : Z := EXP_SAT f - EXP_UNBIAS.
(** Norm::from_float, generic/fma.rs:236-266: significand, exponent, sign. *)
Definition norm_float (x : Z) : res (Z * Z * bool) :=
  let e := ex f x in
  let neg := sign_negative f x in
  let* p :=
    (if e =? 0 then
       let scale_i := fb f - 1 in
       let* b := cadd (UI 32) scale_i (EXP_BIAS f) in
       let* scale_f := from_parts f false b 0 in
       let scaled := o_mul o x scale_f in
       let e := ex f scaled in
       let* e := (if e =? 0 then cshl (SI 32) 1 (EXP_BITS f) else csub (SI 32) e scale_i) in
       Ok (scaled, e)
     else Ok (x, e)) in
  let '(ix, e) := p in
  let* e := csub (SI 32) e EXP_UNBIAS in
  let* m := cshl I (Z.lor (Z.land ix (SIG_MASK f)) (IMPLICIT_BIT f)) 1 in
  Ok (m, e, neg).

(** Alignment of the product [rhi:rlo] * 2^[e] and of [zm] * 2^[ze], generic/fma.rs:41-100.
    Result: (rlo, rhi, zlo, zhi, e). In the branch of lines 73-77 the sticky bit of line 76
    is taken from [rlo] after line 74 has replaced it. *)
Definition fma_align (rlo rhi e zm ze : Z) : res (Z * Z * Z * Z * Z) :=
  let* d := csub (SI 32) ze e in
  let sbits := fb f in
  if 0 <? d then
    if d <? sbits then
      let* zlo := cshl I zm d in
      let* zhi := cshr I zm (sbits - d) in
      Ok (rlo, rhi, zlo, zhi, e)
    else
      let* d := csub (SI 32) d sbits in
      let* e := csub (SI 32) ze sbits in
      if d =? 0 then Ok (rlo, rhi, 0, zm, e)
      else if d <? sbits then
        let* a := cshl I rhi (sbits - d) in
        let* b := cshr I rlo d in
        let rlo := Z.lor a b in
        let* t := cshl I rlo (sbits - d) in
        let rlo := Z.lor rlo (b2z (negb (t =? 0))) in
        let* rhi := cshr I rhi d in
        Ok (rlo, rhi, 0, zm, e)
      else Ok (1, 0, 0, zm, e)
  else
    let* d := cneg (SI 32) d in
    if d =? 0 then Ok (rlo, rhi, zm, 0, e)
    else if d <? sbits then
      let* t := cshl I zm (sbits - d) in
      let* b := cshr I zm d in
      Ok (rlo, rhi, Z.lor b (b2z (negb (t =? 0))), 0, e)
    else Ok (rlo, rhi, 1, 0, e).

(** Addition or subtraction, generic/fma.rs:102-123. Result: (neg, rlo, rhi, rhi_nonzero). *)
Definition fma_combine (neg zneg : bool) (rlo rhi zlo zhi : Z) : res (bool * Z * Z * bool) :=
  if xorb (negb neg) zneg then
    let rlo := wrapping_add I rlo zlo in
    let* t := cadd I zhi (b2z (rlo <? zlo)) in
    let* rhi := cadd I rhi t in
    Ok (neg, rlo, rhi, true)
  else
    let borrow := rlo <? zlo in
    let rlo := wrapping_sub I rlo zlo in
    let rhi := wrapping_sub I rhi (wrapping_add I zhi (b2z borrow)) in
    let* t := cshr I rhi (fb f - 1) in
    let* st :=
      (if negb (t =? 0) then
         let rlo := wrapping_neg I rlo in
         let* rhi := csub I (wrapping_neg I rhi) (b2z (negb (rlo =? 0))) in
         Ok (negb neg, rlo, rhi)
       else Ok (neg, rlo, rhi)) in
    let '(neg, rlo, rhi) := st in
    Ok (neg, rlo, rhi, negb (rhi =? 0)).

(** Left alignment in [rhi] with a sticky last bit, generic/fma.rs:125-149. [None]: exact
    zero. *)
Definition fma_top (rhi_nonzero : bool) (rlo rhi e : Z) : res (option (Z * Z)) :=
  let sbits := fb f in
  if rhi_nonzero then
    let* e := cadd (SI 32) e sbits in
    let* d := csub (SI 32) (nlz (fb f) rhi) 1 in
    let* a := cshl I rhi d in
    let* b := cshr I rlo (sbits - d) in
    let* t := cshl I rlo d in
    let rhi := Z.lor (Z.lor a b) (b2z (negb (t =? 0))) in
    let* e := csub (SI 32) e d in
    Ok (Some (rhi, e))
  else if negb (rlo =? 0) then
    let* d := csub (SI 32) (nlz (fb f) rlo) 1 in
    let* rhi := (if d <? 0 then let* t := cshr I rlo 1 in Ok (Z.lor t (Z.land rlo 1)) else cshl I rlo d) in
    let* e := csub (SI 32) e d in
    Ok (Some (rhi, e))
  else Ok None.

(** [i = rhi.signed(); if neg { i = -i }] followed by the conversion, generic/fma.rs:151-160. *)
Definition fma_conv (neg : bool) (rhi : Z) : res Z :=
  let i := norm (SI (fb f)) rhi in
  let* i := (if neg then cneg (SI (fb f)) i else Ok i) in
  Ok (of_int i).

(** Rounding and scaling, generic/fma.rs:151-215. *)
Definition fma_finish (neg : bool) (rhi e : Z) : res Z :=
  let* r := fma_conv neg rhi in
  let* max_pow := cadd (UI 32) (fb f - 1) (EXP_BIAS f) in
  let* lim := csub (SI 32) max_pow 2 in
  let* lim1 := csub (SI 32) max_pow 1 in
  let* rr :=
    (if e <? - lim then
       if e =? - lim1 then
         let* c := from_parts f false max_pow 0 in
         let c := if neg then fneg c else c in
         if o_eq o r c then Ok (inl (copysign f MIN_POSITIVE_NORMAL r))
         else
           let* t := cshl I rhi (fs f + 1) in
           if negb (t =? 0) then
             let* h := cshr I rhi 1 in
             let* b := cshl I 1 (fb f - 2) in
             let* r := fma_conv neg (Z.lor (Z.lor h (Z.land rhi 1)) b) in
             Ok (inr (o_sub o (o_mul o (TWO f) r) c))
           else Ok (inr r)
       else
         let* d := csub (SI 32) (EXP_BITS f) 1 in
         let* t := cshl I rhi (fb f - d) in
         let* h := cshr I rhi d in
         let* i := cshl I (Z.lor h (b2z (negb (t =? 0)))) d in
         let* r := fma_conv neg i in
         Ok (inr r)
     else Ok (inr r)) in
  match rr with
  | inl r => Ok r
  | inr r => scalbn f o r e
  end.

(** fma_round, generic/fma.rs:11-216, and with it fma and fmaf128 (fma.rs:32-54). *)
Definition fma_round (x y z : Z) : res Z :=
  let* nx := norm_float x in
  let* ny := norm_float y in
  let* nz := norm_float z in
  let '(mx, e_x, sx) := nx in
  let '(my, e_y, sy) := ny in
  let '(mz, e_z, sz) := nz in
  if (ZERO_INF_NAN <=? e_x) || (ZERO_INF_NAN <=? e_y) then Ok (o_add o (o_mul o x y) z)
  else if ZERO_INF_NAN <=? e_z then
    if ZERO_INF_NAN <? e_z then Ok (o_mul o x y) else Ok z
  else
    let* p := wmul_lo_hi f mx my in
    let '(rlo, rhi) := p in
    let* e := cadd (SI 32) e_x e_y in
    let* al := fma_align rlo rhi e mz e_z in
    let '(rlo, rhi, zlo, zhi, e) := al in
    let* st := fma_combine (xorb sx sy) sz rlo rhi zlo zhi in
    let '(neg, rlo, rhi, nonzero) := st in
    let* tp := fma_top nonzero rlo rhi e in
    match tp with
    | None => Ok (o_add o (o_mul o x y) z)
    | Some (rhi, e) => fma_finish neg rhi e
    end.
End Format.

(** fma_wide_round with Round::Nearest, generic/fma_wide.rs:11-72, and with it fmaf
    (fma.rs:11-26). [f] is the narrow format and [g] the wide one; [widen] and [narrow] are
    the casts of float_traits.rs:477-503. Lines 42-58 only concern the status flags. *)
Definition fma_wide (f g : fmt) (o : fops) (widen narrow : Z -> Z) (x y z : Z) : res Z :=
  let xy := o_mul o (widen x) (widen y) in
  let result := o_add o xy (widen z) in
  let ui := result in
  let re := ex g result in
  let zb := widen z in
  let* prec_diff := csub (UI 32) (fs g) (fs f) in
  let* t := cshl (fI g) 1 prec_diff in
  let* m := csub (fI g) t 1 in
  let excess_prec := Z.land ui m in
  let* pd1 := csub (UI 32) prec_diff 1 in
  let* halfway := cshl (fI g) 1 pd1 in
  if negb (excess_prec =? halfway) || (re =? EXP_SAT g) || (o_eq o (o_sub o result xy) zb && o_eq o (o_sub o result zb) xy)
  then Ok (narrow result)
  else
    let* s := cshr (fI g) ui (fb g - 1) in
    let neg := negb (s =? 0) in
    let err := if Bool.eqb neg (o_lt o xy zb) then o_add o (o_sub o xy result) zb else o_add o (o_sub o zb result) xy in
    let* ui := (if Bool.eqb neg (o_lt o err 0) then cadd (fI g) ui 1 else csub (fI g) ui 1) in
    Ok (narrow ui).

(** f16_from_u21_43, fmaf16.rs:133-168 *)
Definition f16_from_u21_43 (r64 : Z) : res Z :=
  let extra_bits := 64 - 16 in
  let* max_finite_lz := csub (UI 32) (64 - fs F16 - extra_bits) 1 in
  let* m := cshl (UI 64) (2 ^ 64 - 1) (64 - max_finite_lz) in
  if negb (Z.land r64 m =? 0) then Ok (EXP_MASK F16)
  else
    let* t := cadd (UI 32) (norm (UI 32) (EXP_MAX F16)) (EXP_BIAS F16) in
    let* exp_max_biased_m1 := csub (UI 32) t 1 in
    let lz := nlz 64 r64 in
    let* t := cadd (UI 32) exp_max_biased_m1 max_finite_lz in
    let rexp := sub_or t lz 0 in
    let* shift := csub (UI 32) exp_max_biased_m1 rexp in
    let* r64 := cshl (UI 64) r64 shift in
    let* round_bit := cshl (UI 64) 1 (extra_bits - 1) in
    let* u := cshl (UI 64) 1 (extra_bits + 1) in
    let* u := csub (UI 64) u 1 in
    let up_mask := Z.land u (inot (UI 64) round_bit) in
    let round_up := b2z (negb (Z.land r64 round_bit =? 0) && negb (Z.land r64 up_mask =? 0)) in
    let* t := cshr (UI 64) r64 extra_bits in
    let r := norm (UI 16) t in
    let* e := ccast (UI 16) rexp in
    let* e := cshl (UI 16) e (fs F16) in
    let* r := cadd (UI 16) r e in
    cadd (UI 16) r round_up.

(** fmaf16.rs:13-130; [dbg]: the debug assertion of lines 91-95. *)
Definition fmaf16 (o : fops) (dbg : bool) (x y z : Z) : res Z :=
  let I := fI F16 in
  let na := inot I (SIGN_MASK F16) in
  let ix := Z.land x na in
  let iy := Z.land y na in
  let iz := Z.land z na in
  let mneg := xorb (sign_negative F16 x) (sign_negative F16 y) in
  let zneg := sign_negative F16 z in
  if (ix =? 0) || (EXP_MASK F16 <=? ix) || (iy =? 0) || (EXP_MASK F16 <=? iy) then Ok (o_add o (o_mul o x y) z)
  else if iz =? 0 then Ok (o_mul o x y)
  else if EXP_MASK F16 <=? iz then Ok z
  else
    let xexp := ex F16 x in
    let yexp := ex F16 y in
    let zexp := ex F16 z in
    let xsig := Z.land ix (SIG_MASK F16) in
    let ysig := Z.land iy (SIG_MASK F16) in
    let zsig := Z.land iz (SIG_MASK F16) in
    let xsig := if negb (xexp =? 0) then Z.lor xsig (IMPLICIT_BIT F16) else xsig in
    let ysig := if negb (yexp =? 0) then Z.lor ysig (IMPLICIT_BIT F16) else ysig in
    let zsig := if negb (zexp =? 0) then Z.lor zsig (IMPLICIT_BIT F16) else zsig in
    let xexp := sub_or xexp 1 0 in
    let yexp := sub_or yexp 1 0 in
    let zexp := sub_or zexp 1 0 in
    let* adjbias := csub (UI 32) (EXP_BIAS F16) 1 in
    let* mexp := cadd (UI 32) xexp yexp in
    let* mbias := cmul (UI 32) adjbias 2 in
    let* inf_exp := cadd (UI 32) mbias (norm (UI 32) (EXP_MAX F16)) in
    let* inf_exp1 := cadd (UI 32) inf_exp 1 in
    if inf_exp1 <? mexp then Ok (if mneg then Z.lor (SIGN_MASK F16) (EXP_MASK F16) else EXP_MASK F16)
    else
      let* m := cmul (UI 32) xsig ysig in
      let* m64 :=
        (if 5 <=? mexp then
           let mshift := mexp - 5 in
           let* s := csub (UI 32) 64 mshift in
           let* _ := (if dbg then assert ((if s <? 64 then m / 2 ^ s else 0) =? 0) else Ok tt) in
           cshl (UI 64) m mshift
         else
           let sticky := negb (Z.land m 31 =? 0) in
           let* t := cshr (UI 64) m (5 - mexp) in
           Ok (Z.lor t (b2z sticky))) in
      let* t := cadd (UI 32) zexp 43 in
      let* t := csub (UI 32) t (fs F16) in
      let* zshift := csub (UI 32) t adjbias in
      let* z64 := cshl (UI 64) zsig zshift in
      let sub := xorb mneg zneg in
      let* rr :=
        (if sub then
           if z64 <? m64 then Ok (mneg, wrapping_sub (UI 64) m64 z64)
           else if m64 =? z64 then Ok (false, wrapping_sub (UI 64) m64 z64)
           else Ok (zneg, wrapping_sub (UI 64) z64 m64)
         else let* s := cadd (UI 64) m64 z64 in Ok (mneg, s)) in
      let '(rneg, r64) := rr in
      let* r := f16_from_u21_43 r64 in
      Ok (copysign F16 r (if rneg then NEG_ONE F16 else ONE F16)).
