(** Model of libm/src/math/generic/sqrt.rs, the square root behind libm/src/math/sqrt.rs
    (sqrtf16, sqrtf, sqrt, sqrtf128). Definitions only. The [Status] of the result is left
    out: the exported functions drop it. *)
From Coq Require Import ZArith Bool List.
From Verif Require Import Base FloatModel LibmModel.
Import ListNotations.
Open Scope Z_scope.

(** sqrt.rs:335-352 *)
Definition RSQRT_TAB : list Z :=
  [0xb451; 0xb2f0; 0xb196; 0xb044; 0xaef9; 0xadb6; 0xac79; 0xab43; 0xaa14; 0xa8eb; 0xa7c8; 0xa6aa; 0xa592; 0xa480; 0xa373; 0xa26b;
   0xa168; 0xa06a; 0x9f70; 0x9e7b; 0x9d8a; 0x9c9d; 0x9bb5; 0x9ad1; 0x99f0; 0x9913; 0x983a; 0x9765; 0x9693; 0x95c4; 0x94f8; 0x9430;
   0x936b; 0x92a9; 0x91ea; 0x912e; 0x9075; 0x8fbe; 0x8f0a; 0x8e59; 0x8daa; 0x8cfe; 0x8c54; 0x8bac; 0x8b07; 0x8a64; 0x89c4; 0x8925;
   0x8889; 0x87ee; 0x8756; 0x86c0; 0x862b; 0x8599; 0x8508; 0x8479; 0x83ec; 0x8361; 0x82d8; 0x8250; 0x81c9; 0x8145; 0x80c2; 0x8040;
   0xff02; 0xfd0e; 0xfb25; 0xf947; 0xf773; 0xf5aa; 0xf3ea; 0xf234; 0xf087; 0xeee3; 0xed47; 0xebb3; 0xea27; 0xe8a3; 0xe727; 0xe5b2;
   0xe443; 0xe2dc; 0xe17a; 0xe020; 0xdecb; 0xdd7d; 0xdc34; 0xdaf1; 0xd9b3; 0xd87b; 0xd748; 0xd61a; 0xd4f1; 0xd3cd; 0xd2ad; 0xd192;
   0xd07b; 0xcf69; 0xce5b; 0xcd51; 0xcc4a; 0xcb48; 0xca4a; 0xc94f; 0xc858; 0xc764; 0xc674; 0xc587; 0xc49d; 0xc3b7; 0xc2d4; 0xc1f4;
   0xc116; 0xc03c; 0xbf65; 0xbe90; 0xbdbe; 0xbcef; 0xbc23; 0xbb59; 0xba91; 0xb9cc; 0xb90a; 0xb84a; 0xb78c; 0xb6d0; 0xb617; 0xb560]%list.

(** SqrtHelper, sqrt.rs:284-329: the widths of ISet1 and ISet2, and the rounds at ISet1, at
    ISet2 and at F::Int. *)
Record sqrt_cfg := SqrtCfg { is1 : Z; is2 : Z; rounds1 : nat; rounds2 : nat; final_rounds : nat }.
Definition sqrt_config (f : fmt) : sqrt_cfg :=
  if fb f =? 16 then SqrtCfg 16 16 0 0 2
  else if fb f =? 32 then SqrtCfg 32 32 0 0 3
  else if fb f =? 64 then SqrtCfg 32 32 0 2 2
  else SqrtCfg 32 64 1 2 2.

(** sqrt.rs:224-226 *)
Definition wmulh (n a b : Z) : Z := hi (dbl (UI n)) (widen_mul (UI n) a b).

(** sqrt.rs:239-272: rounds [i] to [i + todo - 1] of [count]; [n] is I::BITS. The pair is
    (r_u0, s_u2). *)
Fixpoint goldschmidt_loop (n : Z) (count : Z) (final_set : bool) (todo : nat) (i r_u0 s_u2 u_u0 : Z) : res (Z * Z) :=
  match todo with
  | O => Ok (r_u0, s_u2)
  | S todo =>
      let s_u2 := wmulh n s_u2 u_u0 in
      let* s_u2 := if (0 <? i) && (negb final_set || (i + 1 <? count)) then cshl (UI n) s_u2 1 else Ok s_u2 in
      let d_u2 := wmulh n s_u2 r_u0 in
      let* three_u2 := cshl (UI n) 3 (n - 2) in
      let u_u0 := wrapping_sub (UI n) three_u2 d_u2 in
      let* r_u0 := cshl (UI n) (wmulh n r_u0 u_u0) 1 in
      goldschmidt_loop n count final_set todo (i + 1) r_u0 s_u2 u_u0
  end.
Definition goldschmidt (n : Z) (r_u0 s_u2 : Z) (count : nat) (final_set : bool) : res (Z * Z) :=
  goldschmidt_loop n (Z.of_nat count) final_set count 0 r_u0 s_u2 r_u0.

(** sqrt.rs:276-281 *)
Inductive exp_repr := Shifted (v : Z) | NoShift (v : Z).

Section Format.
Context (f : fmt).
Notation I := (fI f).
Notation U32 := (UI 32).

(** F::NAN, float_traits.rs:267-271 (MIPS_NAN is false on all targets but old MIPS, which is
    not modelled). *)
Definition sqrt_NAN : Z := qnan_rep f.

(** sqrt.rs:78-108, the special cases: the final result, or the bits to work on and, when
    the exponent is kept in a u32, that exponent. *)
Definition sqrt_special (o : fops) (x : Z) : res (Z + Z * Z) :=
  let* ix2 := cshl I x 1 in
  if ix2 =? 0 then Ok (inl x)
  else if x =? EXP_MASK f then Ok (inl x)
  else if EXP_MASK f <? x then Ok (inl sqrt_NAN)
  else
    let* e := cadd U32 (fs f) (EXP_BIAS f) in
    let* p := from_parts f false e 0 in
    let scaled := o_mul o x p in
    if fb f <=? 32 then
      let* k := cshl U32 (fs f) (fs f) in
      let* k := ccast I k in
      Ok (inr (wrapping_sub I scaled k, 0))
    else Ok (inr (scaled, wrapping_sub U32 (ex f scaled) (fs f))).

(** sqrt.rs:110-142: m_u2 and the exponent of the result. *)
Definition sqrt_reduce (ix top : Z) : res (Z * exp_repr) :=
  if fb f <=? 32 then
    let* one := cshl I 1 (fs f) in
    let even := negb (Z.land ix one =? 0) in
    let* e := cshr I ix 1 in
    let* h := cshr I (SIGN_MASK f) 1 in
    let* c := cshr I (Z.lxor (EXP_MASK f) h) 1 in
    let* e := cadd I e c in
    let e := Z.land e (EXP_MASK f) in
    let* m1 := cshl I ix (EXP_BITS f) in
    let m1 := Z.lor m1 (SIGN_MASK f) in
    let* m0 := cshl I ix (EXP_BITS f - 1) in
    let m0 := Z.land m0 (inot I (SIGN_MASK f)) in
    Ok (if even then m0 else m1, NoShift e)
  else
    let* m := cshl I (Z.lor ix (IMPLICIT_BIT f)) (EXP_BITS f) in
    let even := negb (Z.land top 1 =? 0) in
    let* m := if even then cshr I m 1 else Ok m in
    let* h := cshr U32 (EXP_SAT f) 1 in
    let* e := cshr U32 (wrapping_add U32 top h) 1 in
    Ok (m, Shifted e).

(** sqrt.rs:144-163: the table lookup and the iterations; the result is s_u2. [usz] is the
    width of usize. *)
Definition sqrt_iterate (usz ix m_u2 : Z) : res Z :=
  let c := sqrt_config f in
  let* i := cshr I ix (fs f - 6) in
  let* i := ccast (UI usz) i in
  let i := Z.land i 127 in
  let* r := match nth_error RSQRT_TAB (Z.to_nat i) with Some r => Ok r | None => Err Panic end in
  let* r := ccast (UI (is1 c)) r in
  let* r := cshl (UI (is1 c)) r (is1 c - 16) in
  let* s := cshr I m_u2 (fb f - is1 c) in
  let* s := ccast (UI (is1 c)) s in
  let* (r, _) := goldschmidt (is1 c) r s (rounds1 c) false in
  let* r := cshl (UI (is2 c)) r (is2 c - is1 c) in
  let* s := cshr I m_u2 (fb f - is2 c) in
  let* s := ccast (UI (is2 c)) s in
  let* (r, _) := goldschmidt (is2 c) r s (rounds2 c) false in
  let* r := cshl I r (fb f - is2 c) in
  let* (_, s) := goldschmidt (fb f) r m_u2 (final_rounds c) true in
  Ok s.

(** sqrt.rs:165-218: the rounding and the final addition. *)
Definition sqrt_finish (o : fops) (m_u2 s_u2 : Z) (exp : exp_repr) : res Z :=
  let* m := cshr I s_u2 (EXP_BITS f - 2) in
  let* shift := csub U32 (2 * fs f) (fb f - 2) in
  let* k := cshl I m_u2 shift in
  let d0 := wrapping_sub I k (wrapping_mul I m m) in
  let d1 := wrapping_sub I m d0 in
  let* b := cshr I d1 (fb f - 1) in
  let* m := cadd I m b in
  let m := Z.land m (SIG_MASK f) in
  let* m := match exp with
            | Shifted e => let* e := ccast I e in let* e := cshl I e (fs f) in Ok (Z.lor m e)
            | NoShift e => Ok (Z.lor m e)
            end in
  if fb f <=? 16 then Ok m
  else
    let d2 := wrapping_add I (wrapping_add I d1 m) 1 in
    let tiny := if d2 =? 0 then 0 else IMPLICIT_BIT f in
    let t := Z.lor tiny (Z.land (Z.lxor d1 d2) (SIGN_MASK f)) in
    Ok (o_add o m t).

(** sqrt.rs:49-221 *)
Definition sqrt_round (usz : Z) (o : fops) (x : Z) : res Z :=
  let* one := cshl I 1 (fs f) in
  let* top := cshr I x (fs f) in
  let* top := if fb f <=? 32 then Ok 0 else ccast U32 top in
  let special := if fb f <=? 32 then EXP_MASK f - one <=? wrapping_sub I x one
                 else EXP_SAT f - 1 <=? wrapping_sub U32 top 1 in
  let* r := if special then sqrt_special o x else Ok (inr (x, top)) in
  match r with
  | inl y => Ok y
  | inr (ix, top) =>
      let* (m_u2, exp) := sqrt_reduce ix top in
      let* s_u2 := sqrt_iterate usz ix m_u2 in
      sqrt_finish o m_u2 s_u2 exp
  end.
End Format.
