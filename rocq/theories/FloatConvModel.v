(** Model of the software floating-point comparisons and conversions:
    compiler-builtins/src/float/{cmp,extend,trunc,conv}.rs. A float is its bit pattern.
    Definitions only. *)
From Coq Require Import ZArith Bool List.
From Verif Require Import Base FloatModel.
Open Scope Z_scope.

(** * cmp.rs *)

(** enum Result, cmp.rs:31-37 *)
Inductive cmp_result := Less | Equal | Greater | Unordered.

(** to_default_cmp_result, cmp.rs:51-58 *)
Definition to_default_cmp_result (r : cmp_result) : Z :=
  match r with Less => -1 | Equal => 0 | Greater => 1 | Unordered => 1 end.
(** to_gt_ge_cmp_result, cmp.rs:60-67 *)
Definition to_gt_ge_cmp_result (r : cmp_result) : Z :=
  match r with Less => -1 | Equal => 0 | Greater => 1 | Unordered => -1 end.

(** cmp, cmp.rs:70-119 *)
Definition cmp (f : fmt) (a b : Z) : cmp_result :=
  let inf_rep := EXP_MASK f in
  let a_abs := Z.land a (abs_mask f) in
  let b_abs := Z.land b (abs_mask f) in
  if (inf_rep <? a_abs) || (inf_rep <? b_abs) then Unordered
  else if Z.lor a_abs b_abs =? 0 then Equal
  else
    let a_srep := norm (SI (fb f)) a in
    let b_srep := norm (SI (fb f)) b in
    if 0 <=? Z.land a_srep b_srep then
      if a_srep <? b_srep then Less else if a_srep =? b_srep then Equal else Greater
    else if b_srep <? a_srep then Less
    else if a_srep =? b_srep then Equal else Greater.

(** unord, cmp.rs:121-135 *)
Definition unord (f : fmt) (a b : Z) : bool :=
  let inf_rep := EXP_MASK f in
  let a_abs := Z.land a (abs_mask f) in
  let b_abs := Z.land b (abs_mask f) in
  (inf_rep <? a_abs) || (inf_rep <? b_abs).

(** The exported comparisons __leXf2, __geXf2, __unordXf2, __eqXf2, __ltXf2, __neXf2,
    __gtXf2, cmp.rs:138-264, each for f16, f32, f64 and f128. *)
Definition le2 (f : fmt) (a b : Z) : Z := to_default_cmp_result (cmp f a b).
Definition ge2 (f : fmt) (a b : Z) : Z := to_gt_ge_cmp_result (cmp f a b).
Definition unord2 (f : fmt) (a b : Z) : Z := b2z (unord f a b).
Definition eq2 (f : fmt) (a b : Z) : Z := to_default_cmp_result (cmp f a b).
Definition lt2 (f : fmt) (a b : Z) : Z := to_default_cmp_result (cmp f a b).
Definition ne2 (f : fmt) (a b : Z) : Z := to_default_cmp_result (cmp f a b).
Definition gt2 (f : fmt) (a b : Z) : Z := to_gt_ge_cmp_result (cmp f a b).

(** The ARM run-time ABI comparisons __aeabi_{f,d}cmp{le,ge,eq,lt,gt}, cmp.rs:266-308. *)
Definition aeabi_cmple (f : fmt) (a b : Z) : Z := b2z (le2 f a b <=? 0).
Definition aeabi_cmpge (f : fmt) (a b : Z) : Z := b2z (0 <=? ge2 f a b).
Definition aeabi_cmpeq (f : fmt) (a b : Z) : Z := b2z (eq2 f a b =? 0).
Definition aeabi_cmplt (f : fmt) (a b : Z) : Z := b2z (lt2 f a b <? 0).
Definition aeabi_cmpgt (f : fmt) (a b : Z) : Z := b2z (0 <? gt2 f a b).

(** * extend.rs *)

(** extend, extend.rs:4-69; [f] is the source format and [g] the destination. *)
Definition extend (f g : fmt) (a : Z) : res Z :=
  let* src_abs_mask := csub (fI f) (SIGN_MASK f) 1 in
  let* src_nan_code := csub (fI f) (SIG_MASK f) 1 in
  let* sig_bits_delta := csub (UI 32) (fs g) (fs f) in
  let* exp_bias_delta := csub (UI 32) (EXP_BIAS g) (EXP_BIAS f) in
  let a_abs := Z.land a src_abs_mask in
  let* abs_result :=
    (if wrapping_sub (fI f) a_abs (IMPLICIT_BIT f)
        <? wrapping_sub (fI f) (EXP_MASK f) (IMPLICIT_BIT f) then
       let* abs_dst := ccast (fI g) a_abs in
       let* bias_dst := ccast (fI g) exp_bias_delta in
       cadd (fI g) (wrapping_shl (fI g) abs_dst sig_bits_delta)
                   (wrapping_shl (fI g) bias_dst (fs g))
     else if EXP_MASK f <=? a_abs then
       let* qnan_dst := ccast (fI g) (Z.land a_abs (SIG_MASK f)) in
       let* nan_code_dst := ccast (fI g) (Z.land a_abs src_nan_code) in
       let* inf_exp_dst := ccast (fI g) (EXP_SAT g) in
       Ok (Z.lor (Z.lor (wrapping_shl (fI g) inf_exp_dst (fs g))
                        (wrapping_shl (fI g) qnan_dst sig_bits_delta))
                 (wrapping_shl (fI g) nan_code_dst sig_bits_delta))
     else if negb (a_abs =? 0) then
       let* scale := csub (UI 32) (nlz (fb f) a_abs) (nlz (fb f) (IMPLICIT_BIT f)) in
       let* abs_dst := ccast (fI g) a_abs in
       let* d := csub (UI 32) exp_bias_delta scale in
       let* d := cadd (UI 32) d 1 in
       let* bias_dst := ccast (fI g) d in
       let* sh := cadd (UI 32) sig_bits_delta scale in
       let abs_result := wrapping_shl (fI g) abs_dst sh in
       Ok (Z.lor (Z.lxor abs_result (IMPLICIT_BIT g)) (wrapping_shl (fI g) bias_dst (fs g)))
     else Ok 0) in
  let* sign_result := ccast (fI g) (Z.land a (SIGN_MASK f)) in
  let* sh := csub (UI 32) (fb g) (fb f) in
  Ok (Z.lor abs_result (wrapping_shl (fI g) sign_result sh)).

(** * trunc.rs *)

(** Rounding of the destination significand by the dropped source bits,
    trunc.rs:58-65 and 100-108. *)
Definition trunc_round (g : fmt) (abs_result round_bits halfway : Z) : res Z :=
  if halfway <? round_bits then cadd (fI g) abs_result 1
  else if round_bits =? halfway then cadd (fI g) abs_result (Z.land abs_result 1)
  else Ok abs_result.

(** trunc, trunc.rs:3-115; [f] is the source format and [g] the destination. *)
Definition trunc (f g : fmt) (a : Z) : res Z :=
  let* src_abs_mask := csub (fI f) (SIGN_MASK f) 1 in
  let* sig_bits_delta := csub (UI 32) (fs f) (fs g) in
  let* rm := cshl (fI f) 1 sig_bits_delta in
  let* round_mask := csub (fI f) rm 1 in
  let* hs := csub (UI 32) sig_bits_delta 1 in
  let* halfway := cshl (fI f) 1 hs in
  let* src_qnan := cshl (fI f) 1 (fs f - 1) in
  let* src_nan_code := csub (fI f) src_qnan 1 in
  let* ue := csub (UI 32) (EXP_BIAS f + 1) (EXP_BIAS g) in
  let* ue := ccast (fI f) ue in
  let* oe := csub (UI 32) (EXP_BIAS f + EXP_SAT g) (EXP_BIAS g) in
  let* oe := ccast (fI f) oe in
  let* underflow := cshl (fI f) ue (fs f) in
  let* overflow := cshl (fI f) oe (fs f) in
  let* dst_qnan := cshl (fI g) 1 (fs g - 1) in
  let* dst_nan_code := csub (fI g) dst_qnan 1 in
  let a_abs := Z.land a src_abs_mask in
  let sign := Z.land a (SIGN_MASK f) in
  let* abs_result :=
    (if wrapping_sub (fI f) a_abs underflow <? wrapping_sub (fI f) a_abs overflow then
       let* x := cshr (fI f) a_abs sig_bits_delta in
       let* bias_diff := ccast (fI g) (wrapping_sub (UI 32) (EXP_BIAS f) (EXP_BIAS g)) in
       let* tmp := cshl (fI g) bias_diff (fs g) in
       let abs_result := wrapping_sub (fI g) (norm (fI g) x) tmp in
       trunc_round g abs_result (Z.land a_abs round_mask) halfway
     else if EXP_MASK f <? a_abs then
       let* dst_inf_exp := ccast (fI g) (EXP_SAT g) in
       let* abs_result := cshl (fI g) dst_inf_exp (fs g) in
       let* p := cshr (fI f) (Z.land a_abs src_nan_code) sig_bits_delta in
       let* p := ccast (fI g) p in
       Ok (Z.lor (Z.lor abs_result dst_qnan) (Z.land dst_nan_code p))
     else if overflow <=? a_abs then
       let* dst_inf_exp := ccast (fI g) (EXP_SAT g) in
       cshl (fI g) dst_inf_exp (fs g)
     else
       let* a_exp := cshr (fI f) a_abs (fs f) in
       let* a_exp := ccast (UI 32) a_exp in
       let* d := csub (UI 32) (EXP_BIAS f) (EXP_BIAS g) in
       let* d := csub (UI 32) d a_exp in
       let* shift := cadd (UI 32) d 1 in
       let significand := Z.lor (Z.land a (SIG_MASK f)) (IMPLICIT_BIT f) in
       if fs f <? shift then Ok 0
       else
         let* st := csub (UI 32) (fb f) shift in
         let* st := cshl (fI f) significand st in
         let sticky := b2z (negb (st =? 0)) in
         let* h := cshr (fI f) significand shift in
         let denormalized_significand := Z.lor h sticky in
         let* x := cshr (fI f) denormalized_significand sig_bits_delta in
         let* abs_result := ccast (fI g) x in
         trunc_round g abs_result (Z.land denormalized_significand round_mask) halfway) in
  let* sh := csub (UI 32) (fb f) (fb g) in
  let* s := ccast (fI g) (wrapping_shr (fI f) sign sh) in
  Ok (Z.lor abs_result s).

(** * conv.rs: integers to floats *)

(** exp, conv.rs:32-34; [n] leading zeros of an [ib]-bit integer. *)
Definition i2f_exp (f : fmt) (ib n : Z) : res Z :=
  let* e := csub (UI 32) (EXP_BIAS f) 1 in
  let* e := cadd (UI 32) e ib in
  let* e := csub (UI 32) e n in
  ccast (fI f) e.

(** m_adj, conv.rs:40-47 *)
Definition m_adj (f : fmt) (m_base dropped_bits : Z) : res Z :=
  let* t := cshr (fI f) dropped_bits (fb f - 1) in
  let* d := csub (fI f) dropped_bits (Z.land t (inot (fI f) m_base)) in
  let* adj := cshr (fI f) d (fb f - 1) in
  cadd (fI f) m_base adj.

(** repr, conv.rs:53-56 *)
Definition i2f_repr (f : fmt) (e m : Z) : res Z :=
  let* x := cshl (fI f) e (fs f) in cadd (fI f) x m.

(** shift_f_lt_i, conv.rs:59-61 *)
Definition shift_f_lt_i (f : fmt) (ib : Z) : res Z :=
  let* d := csub (UI 32) ib (fb f) in cadd (UI 32) d (EXP_BITS f).

(** shift_f_gt_i, conv.rs:64-66 *)
Definition shift_f_gt_i (f : fmt) (ib n : Z) : res Z :=
  let* d := csub (UI 32) (fs f) ib in
  let* d := cadd (UI 32) d 1 in
  cadd (UI 32) d n.

(** u32_to_f32_bits, u64_to_f64_bits and u128_to_f128_bits, conv.rs:80-92, 136-147 and
    195-206: the same text at three widths, integer and float equally wide. *)
Definition same_width_bits (f : fmt) (i : Z) : res Z :=
  if i =? 0 then Ok 0
  else
    let n := nlz (fb f) i in
    let* i_m := cshl (fI f) i n in
    let* m_base := cshr (fI f) i_m (EXP_BITS f) in
    let* adj := cshl (fI f) i_m (fs f + 1) in
    let* m := m_adj f m_base adj in
    let* e := i2f_exp f (fb f) n in
    let* e := csub (fI f) e 1 in
    i2f_repr f e m.
Definition u32_to_f32_bits (i : Z) : res Z := same_width_bits F32 i.
Definition u64_to_f64_bits (i : Z) : res Z := same_width_bits F64 i.
Definition u128_to_f128_bits (i : Z) : res Z := same_width_bits F128 i.

(** u32_to_f64_bits and u64_to_f128_bits, conv.rs:94-103 and 150-159. *)
Definition exact_bits (f : fmt) (ib : Z) (i : Z) : res Z :=
  if i =? 0 then Ok 0
  else
    let n := nlz ib i in
    let* sh := shift_f_gt_i f ib n in
    let* m := cshl (fI f) i sh in
    let* e := i2f_exp f ib n in
    let* e := csub (fI f) e 1 in
    i2f_repr f e m.
Definition u32_to_f64_bits (i : Z) : res Z := exact_bits F64 32 i.
Definition u64_to_f128_bits (i : Z) : res Z := exact_bits F128 64 i.

(** u32_to_f128_bits, conv.rs:106-121 *)
Definition u32_to_f128_bits (i : Z) : res Z :=
  if i =? 0 then Ok 0
  else
    let n := nlz 32 i in
    let* sh := shift_f_gt_i F128 32 n in
    let* sh := csub (UI 32) sh 64 in
    let* m := cshl (UI 64) i sh in
    let* e := i2f_exp F128 32 n in
    let* e := csub (UI 64) (norm (UI 64) e) 1 in
    let* eh := cshl (UI 64) e (fs F128 - 64) in
    let* h := cadd (UI 64) eh m in
    cshl (UI 128) h 64.

(** u64_to_f32_bits and u128_to_f64_bits, conv.rs:123-134 and 181-192: [ib] bits to a
    float half as wide; [mask] is the literal of the source. *)
Definition half_width_bits (f : fmt) (ib mask : Z) (i : Z) : res Z :=
  let n := nlz ib i in
  let i_m := wrapping_shl (UI ib) i n in
  let* sh := shift_f_lt_i f ib in
  let* mb := cshr (UI ib) i_m sh in
  let m_base := norm (fI f) mb in
  let* hi := cshr (UI ib) i_m (EXP_BITS f) in
  let adj := norm (fI f) (Z.lor hi (Z.land i_m mask)) in
  let* m := m_adj f m_base adj in
  let* e := (if i =? 0 then Ok 0 else let* e := i2f_exp f ib n in csub (fI f) e 1) in
  i2f_repr f e m.
Definition u64_to_f32_bits (i : Z) : res Z := half_width_bits F32 64 65535 i.
Definition u128_to_f64_bits (i : Z) : res Z := half_width_bits F64 128 4294967295 i.

(** u128_to_f32_bits, conv.rs:161-179 *)
Definition u128_to_f32_bits (i : Z) : res Z :=
  let n := nlz 128 i in
  let i_m := wrapping_shl (UI 128) i n in
  let* sh := shift_f_lt_i F32 128 in
  let* mb := cshr (UI 128) i_m sh in
  let m_base := norm (UI 32) mb in
  let* d1 := cshr (UI 128) i_m (128 - 32 - 23 - 1) in
  let d1 := norm (UI 32) d1 in
  let* t := cshl (UI 128) i_m 32 in
  let* t := cshr (UI 128) t 32 in
  let d2 := b2z (negb (t =? 0)) in
  let adj := Z.lor d1 d2 in
  let* m := m_adj F32 m_base adj in
  let* e := (if i =? 0 then Ok 0 else let* e := i2f_exp F32 128 n in csub (UI 32) e 1) in
  i2f_repr F32 e m.

(** signed, conv.rs:69-78; [ib] is the width of the integer. *)
Definition i2f_signed (f : fmt) (ib : Z) (conv : Z -> res Z) (i : Z) : res Z :=
  let* s := cshr (SI ib) i (ib - 1) in
  let* sign_bit := cshl (fI f) (norm (fI f) s) (fb f - 1) in
  let* r := conv (Z.abs i) in
  Ok (Z.lor r sign_bit).

(** The exported conversions, conv.rs:210-329, by integer width and format. The
    UEFI variants reassemble the same 128-bit integer from two halves. *)
Definition float_un (ib : Z) (f : fmt) (i : Z) : res Z :=
  match ib, fb f with
  | 32, 32 => u32_to_f32_bits i
  | 32, 64 => u32_to_f64_bits i
  | 32, 128 => u32_to_f128_bits i
  | 64, 32 => u64_to_f32_bits i
  | 64, 64 => u64_to_f64_bits i
  | 64, 128 => u64_to_f128_bits i
  | 128, 32 => u128_to_f32_bits i
  | 128, 64 => u128_to_f64_bits i
  | 128, 128 => u128_to_f128_bits i
  | _, _ => Err UB
  end.
Definition float_si (ib : Z) (f : fmt) (i : Z) : res Z := i2f_signed f ib (float_un ib f) i.
(** The UEFI x86_64 entry points, conv.rs:237-249 and 298-310. *)
Definition float_un_lo_hi (f : fmt) (l h : Z) : res Z :=
  float_un 128 f (Z.lor (norm (UI 128) (Z.shiftl h 64)) l).
Definition float_si_lo_hi (f : fmt) (l h : Z) : res Z :=
  float_si 128 f (Z.lor (norm (SI 128) (Z.shiftl h 64)) l).

(** * conv.rs: floats to integers *)

(** F::ONE.to_bits(); ONE is the literal 1.0 (float_traits.rs:256). *)
Definition ONE_bits (f : fmt) : Z := Z.shiftl (EXP_BIAS f) (fs f).

(** float_to_int_inner, conv.rs:367-410; [t] is I, [fbits], [neg] and [oob] are what the
    callers pass. *)
Definition float_to_int_inner (f : fmt) (t : ity) (fbits : Z) (neg : bool) (oob : Z) : res Z :=
  let ib := bits t in
  let* mx := cadd (UI 32) (EXP_BIAS f) (Z.log2 (imax t)) in
  let* int_max_exp := cadd (UI 32) mx 1 in
  let* fo := cadd (UI 32) (EXP_BIAS f) ib in
  let* foobar := csub (UI 32) fo 1 in
  let* me := ccast (fI f) int_max_exp in
  let* me := cshl (fI f) me (fs f) in
  if fbits <? ONE_bits f then Ok 0
  else if fbits <? me then
    let* m_base :=
      (if fb f <=? ib then
         let* x := ccast (UI ib) fbits in
         let* s := csub (UI 32) ib (fs f) in
         let* s := csub (UI 32) s 1 in
         cshl (UI ib) x s
       else
         let* s := csub (UI 32) (fs f) ib in
         let* s := cadd (UI 32) s 1 in
         let* x := cshr (fI f) fbits s in
         Ok (norm (UI ib) x)) in
    let* top := cshl (UI ib) 1 (ib - 1) in
    let m := Z.lor top m_base in
    let* e := cshr (fI f) fbits (fs f) in
    let* e := ccast (UI 32) e in
    let* s := csub (UI 32) foobar e in
    let* u := cshr (UI ib) m s in
    let i := norm t u in
    if neg then cneg t i else Ok i
  else if fbits <=? EXP_MASK f then Ok oob
  else Ok 0.

(** float_to_unsigned_int, conv.rs:332-342: the exported __fixunsXfYi. *)
Definition float_to_unsigned_int (f : fmt) (ib : Z) (a : Z) : res Z :=
  float_to_int_inner f (UI ib) a false (imax (UI ib)).

(** float_to_signed_int, conv.rs:345-359: the exported __fixXfYi; is_sign_negative is
    the sign bit (float_traits.rs:333-335). *)
Definition float_to_signed_int (f : fmt) (ib : Z) (a : Z) : res Z :=
  let neg := negb (Z.land a (SIGN_MASK f) =? 0) in
  float_to_int_inner f (SI ib) (Z.land a (inot (fI f) (SIGN_MASK f))) neg
    (if neg then imin (SI ib) else imax (SI ib)).
