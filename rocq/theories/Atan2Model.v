(** Model of the two-argument arc tangent of libm: libm/src/math/atan2.rs.
    Floats are bit patterns. Definitions only. *)
From Coq Require Import ZArith List Bool.
From Verif Require Import Base FloatModel LibmModel ElemModel TrigModel AtanModel.
Open Scope Z_scope.

(** atan2.rs:42-43 *)
Definition PI64 : Z := 0x400921FB54442D18. (* 3.1415926535897931160E+00 *)
Definition PI_LO64 : Z := 0x3CA1A62633145C07. (* 1.2246467991473531772E-16 *)
(** The literals 3.0, 4.0 and -3.0. *)
Definition lit3 : Z := 0x4008000000000000.
Definition lit4 : Z := 0x4010000000000000.
Definition litm3 : Z := 0xc008000000000000.
(** x.to_bits() as u32 *)
Definition low_word (x : Z) : Z := norm (UI 32) x.

Section Ops.
Context (o : fops).
(** atan2, atan2.rs:51-112 *)
Definition libm_atan2 (y x : Z) : res Z :=
  if is_nanb F64 x || is_nanb F64 y then Ok (o_add o x y)
  else
    let ix := high_word x in
    let lx := low_word x in
    let iy := high_word y in
    let ly := low_word y in
    if Z.lor (norm (UI 32) (ix - 0x3ff00000)) lx =? 0 then libm_atan o y
    else
      let m := Z.lor (Z.land (Z.shiftr iy 31) 1) (Z.land (Z.shiftr ix 30) 2) in
      let ix := Z.land ix 0x7fffffff in
      let iy := Z.land iy 0x7fffffff in
      if Z.lor iy ly =? 0 then
        Ok (if (m =? 0) || (m =? 1) then y else if m =? 2 then PI64 else fneg PI64)
      else if Z.lor ix lx =? 0 then
        Ok (if negb (Z.land m 1 =? 0) then o_div o (fneg PI64) two else o_div o PI64 two)
      else if ix =? 0x7ff00000 then
        if iy =? 0x7ff00000 then
          Ok (if m =? 0 then o_div o PI64 lit4
              else if m =? 1 then o_div o (fneg PI64) lit4
              else if m =? 2 then o_div o (o_mul o lit3 PI64) lit4
              else o_div o (o_mul o litm3 PI64) lit4)
        else
          Ok (if m =? 0 then 0
              else if m =? 1 then 0x8000000000000000
              else if m =? 2 then PI64
              else fneg PI64)
      else if (norm (UI 32) (ix + Z.shiftl 64 20) <? iy) || (iy =? 0x7ff00000) then
        Ok (if negb (Z.land m 1 =? 0) then o_div o (fneg PI64) two else o_div o PI64 two)
      else
        let* z := if negb (Z.land m 2 =? 0) && (norm (UI 32) (iy + Z.shiftl 64 20) <? ix) then Ok 0
                  else libm_atan o (atan_fabs (o_div o y x)) in
        Ok (if m =? 0 then z
            else if m =? 1 then fneg z
            else if m =? 2 then o_sub o PI64 (o_sub o z PI_LO64)
            else o_sub o (o_sub o z PI_LO64) PI64).
End Ops.
