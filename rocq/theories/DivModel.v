(** Model of integer division:
    compiler-builtins/src/int/specialized_div_rem/*.rs, int/udiv.rs, int/sdiv.rs.
    Definitions only. *)
From Coq Require Import ZArith Bool List.
From Verif Require Import Base.
Open Scope Z_scope.

(** * norm_shift.rs *)

(** The bisection loop, norm_shift.rs:76-91; [usz] is the width of usize. *)
Fixpoint norm_bisect (fuel : nat) (usz n div test shl lvl : Z) : res Z :=
  match fuel with
  | O => Err OutOfFuel
  | S fuel =>
      let* tmp := cshr (UI n) test lvl in
      let* st := (if div <=? tmp then let* s := cadd (UI usz) shl lvl in Ok (tmp, s) else Ok (test, shl)) in
      let '(test, shl) := st in
      let lvl := Z.shiftr lvl 1 in
      if lvl =? 0 then Ok shl else norm_bisect fuel usz n div test shl lvl
  end.

(** impl_normalization_shift!, norm_shift.rs:49-104; [use_lz] is the cfg constant
    USE_LZ of mod.rs:80-111. *)
Definition normalization_shift (usz : Z) (use_lz : bool) (n duo div : Z) (full : bool) : res Z :=
  if use_lz then
    let* shl := csub (UI 32) (nlz n div) (nlz n duo) in
    if full then
      let* d := cshl (UI n) div shl in
      if duo <? d then csub (UI usz) shl 1 else Ok shl
    else Ok shl
  else norm_bisect (Z.to_nat n) usz n div duo 0 (Z.shiftr n 1).

(** * binary_long.rs *)

(** The restoring loop, binary_long.rs:428-437. *)
Fixpoint bl_loop (i : nat) (n duo div : Z) : Z :=
  match i with
  | O => duo
  | S i =>
      let duo := wrapping_sub (UI n) (wrapping_shl (UI n) duo 1) div in
      let mask := norm (UI n) (wrapping_shr (SI n) (norm (SI n) duo) (n - 1)) in
      let duo := wrapping_add (UI n) duo (Z.land div mask) in
      bl_loop i n duo div
  end.

(** impl_binary_long!, binary_long.rs:23-438 (the code not inside comments). *)
Definition binary_long (usz : Z) (use_lz : bool) (n duo div : Z) : res (Z * Z) :=
  if div =? 0 then Err Trap
  else if duo <? div then Ok (0, duo)
  else
    let div_original := div in
    let* shl := normalization_shift usz use_lz n duo div true in
    let* div := cshl (UI n) div shl in
    let duo := wrapping_sub (UI n) duo div in
    let* quo := cshl (UI n) 1 shl in
    if duo <? div_original then Ok (quo, duo)
    else
      (* continuation: lines 427-438 *)
      let finish shl div duo quo mask :=
        let div := wrapping_sub (UI n) div 1 in
        let duo := bl_loop (Z.to_nat shl) n duo div in
        let* r := cshr (UI n) duo shl in
        Ok (Z.lor (Z.land duo mask) quo, r) in
      if norm (SI n) div <? 0 then
        let* div := cshr (UI n) div 1 in
        let* shl := csub (UI usz) shl 1 in
        let* tmp := cshl (UI n) 1 shl in
        let* mask := csub (UI n) tmp 1 in
        let sub := wrapping_sub (UI n) duo div in
        let '(duo, quo) := (if 0 <=? norm (SI n) sub then (sub, Z.lor quo tmp) else (duo, quo)) in
        if duo <? div_original then Ok (quo, duo) else finish shl div duo quo mask
      else
        let* mask := csub (UI n) quo 1 in
        finish shl div duo quo mask.

(** * delegate.rs *)

(** checked_div / checked_rem pair used as the half-size division,
    mod.rs:134-141 and 235-242. On targets without the hardware instruction this
    compiles to a call to the corresponding division symbol of this library; the
    theorems allow any correct half division in its place. *)
Definition hw_div_rem (duo div : Z) : res (Z * Z) :=
  if div =? 0 then Err Trap else Ok (duo / div, duo mod div).

(** The subtraction loops of impl_delegate!, delegate.rs:81-96, 138-156, 170-181
    (same loop, different exit test [stop]). Returns the quotient bits and the
    remaining dividend at the exit. [n] is the width of $uX, $uD is 2n wide. *)
Fixpoint dlg_loop (stop : Z -> bool) (fuel : nat) (n duo div pow_lo quo_lo : Z) : res (Z * Z) :=
  match fuel with
  | O => Err OutOfFuel
  | S fuel =>
      let sub := wrapping_sub (UI (2 * n)) duo div in
      let next duo quo_lo := dlg_loop stop fuel n duo (Z.shiftr div 1) (Z.shiftr pow_lo 1) quo_lo in
      if 0 <=? norm (SI (2 * n)) sub then
        let duo := sub in
        let quo_lo := Z.lor quo_lo pow_lo in
        if stop duo then Ok (quo_lo, duo) else next duo quo_lo
      else next duo quo_lo
  end.

(** impl_delegate!, delegate.rs:20-184. [n_h] is $n_h; [norm_shift] is
    $half_normalization_shift with full_normalization = false; [half_div] is
    $half_division. *)
Definition delegate (norm_shift : Z -> Z -> res Z) (half_div : Z -> Z -> res (Z * Z))
    (n_h duo div : Z) : res (Z * Z) :=
  let n := n_h * 2 in
  let uX := UI n in let uD := UI (2 * n) in
  let duo_lo := norm uX duo in
  let* t := cshr uD duo n in let duo_hi := norm uX t in
  let div_lo := norm uX div in
  let* t := cshr uD div n in let div_hi := norm uX t in
  let hi_zero := fun d => norm uX (Z.shiftr d n) =? 0 in
  let fuel := S (Z.to_nat n) in
  match div_lo =? 0, div_hi =? 0, duo_hi =? 0 with
  | true, true, _ => Err Trap
  | _, false, true => Ok (0, duo)
  | false, true, true => half_div duo_lo div_lo
  | false, true, false =>
      if duo_hi <? div_lo then
        let* ns := norm_shift div_lo duo_hi in
        let* shl := (if ns =? 0 then csub (UI 32) n 1 else csub (UI 32) n ns) in
        let* div := cshl uD div shl in
        let* pow_lo := cshl uX 1 shl in
        let* st := dlg_loop hi_zero fuel n duo div pow_lo 0 in
        let '(quo_lo, duo) := st in
        let* tmp := half_div (norm uX duo) div_lo in
        Ok (Z.lor quo_lo (fst tmp), snd tmp)
      else if duo_hi =? div_lo then
        let* tmp := half_div (norm uX duo) (norm uX div) in
        let* one := cshl uD 1 n in
        Ok (Z.lor one (fst tmp), snd tmp)
      else
        let* top := cshr uX div_lo n_h in
        if top =? 0 then
          let div_0 := norm (UI n_h) div_lo in
          let* st := half_div duo_hi div_0 in
          let '(quo_hi, rem_3) := st in
          let* a := cshr uD duo n_h in
          let* b := cshl uX rem_3 n_h in
          let duo_mid := Z.lor (norm (UI n_h) a) b in
          let* st := half_div duo_mid div_0 in
          let '(quo_1, rem_2) := st in
          let* b := cshl uX rem_2 n_h in
          let duo_lo := Z.lor (norm (UI n_h) duo) b in
          let* st := half_div duo_lo div_0 in
          let '(quo_0, rem_1) := st in
          let* q1 := cshl uD quo_1 n_h in
          let* qh := cshl uD quo_hi n in
          Ok (Z.lor (Z.lor quo_0 q1) qh, rem_1)
        else
          let duo_lo := norm uX duo in
          let* tmp := half_div duo_hi div_lo in
          let quo_hi := fst tmp in
          let* r := cshl uD (snd tmp) n in
          let duo := Z.lor duo_lo r in
          let* qh := cshl uD quo_hi n in
          if duo <? div then Ok (qh, duo)
          else
            let* div := cshl uD div (n - 1) in
            let* pow_lo := cshl uX 1 (n - 1) in
            let* st := dlg_loop hi_zero fuel n duo div pow_lo 0 in
            let '(quo_lo, duo) := st in
            let* tmp := half_div (norm uX duo) div_lo in
            Ok (Z.lor (Z.lor (fst tmp) quo_lo) qh, snd tmp)
  | _, false, false =>
      if duo <? div then Ok (0, duo)
      else
        let div_original := div in
        let* shl := norm_shift duo_hi div_hi in
        let* div := cshl uD div shl in
        let* pow_lo := cshl uX 1 shl in
        dlg_loop (fun d => d <? div_original) fuel n duo div pow_lo 0
  end.

(** * asymmetric.rs *)

(** u128_by_u64_div_rem / u64_by_u32_div_rem, mod.rs:196-215 and 282-301: the
    x86 [div] instruction faults on a zero divisor or when the quotient does not
    fit. *)
Definition asym_div_rem (n duo div : Z) : res (Z * Z) :=
  if (div =? 0) || (2 ^ n <=? duo / div) then Err Trap else Ok (duo / div, duo mod div).

(** impl_asymmetric!, asymmetric.rs:20-67 *)
Definition asymmetric (half_div asym_div : Z -> Z -> res (Z * Z)) (n_h duo div : Z) : res (Z * Z) :=
  let n := n_h * 2 in
  let uX := UI n in let uD := UI (2 * n) in
  let duo_lo := norm uX duo in
  let* t := cshr uD duo n in let duo_hi := norm uX t in
  let div_lo := norm uX div in
  let* t := cshr uD div n in let div_hi := norm uX t in
  if div_hi =? 0 then
    if div_lo =? 0 then Err Trap
    else if duo_hi <? div_lo then asym_div duo div_lo
    else
      let* st := half_div duo_hi div_lo in
      let '(quo_hi, rem_hi) := st in
      let* r := cshl uD rem_hi n in
      let* tmp := asym_div (Z.lor duo_lo r) div_lo in
      let* qh := cshl uD quo_hi n in
      Ok (Z.lor (fst tmp) qh, snd tmp)
  else
    let div_lz := nlz n div_hi in
    let* div_extra := csub (UI 32) n div_lz in
    let* t := cshr uD div div_extra in
    let div_sig_n := norm uX t in
    let* d1 := cshr uD duo 1 in
    let* tmp := asym_div d1 div_sig_n in
    let* s := csub (UI 32) (n - 1) div_lz in
    let* quo := cshr uX (fst tmp) s in
    let* quo := (if negb (quo =? 0) then csub uX quo 1 else Ok quo) in
    let* rem := csub uD duo (wrapping_mul uD quo div) in
    if div <=? rem then
      let* quo := cadd uX quo 1 in
      let* rem := csub uD rem div in
      Ok (quo, rem)
    else Ok (quo, rem).

(** * trifecta.rs *)

(** carrying_mul, trifecta.rs:25-28; [n] is the width of $uX. *)
Definition carrying_mul (n lhs rhs : Z) : Z * Z :=
  let tmp := wrapping_mul (UI (2 * n)) lhs rhs in
  (norm (UI n) tmp, norm (UI n) (Z.shiftr tmp n)).
(** carrying_mul_add, trifecta.rs:29-34 *)
Definition carrying_mul_add (n lhs mul add : Z) : Z * Z :=
  let tmp := wrapping_add (UI (2 * n)) (wrapping_mul (UI (2 * n)) lhs mul) add in
  (norm (UI n) tmp, norm (UI n) (Z.shiftr tmp n)).

(** The undersubtracting loop, trifecta.rs:321-383. *)
Fixpoint tri_loop (half_div : Z -> Z -> res (Z * Z)) (fuel : nat) (n_h div div_lz div_extra add1 : Z)
    (duo duo_lz quo : Z) : res (Z * Z) :=
  let n := n_h * 2 in
  let uX := UI n in let uD := UI (2 * n) in
  match fuel with
  | O => Err OutOfFuel
  | S fuel =>
      let* duo_extra := csub (UI 32) n duo_lz in
      let* t := cshr uD duo duo_extra in
      let duo_sig_n := norm uX t in
      if div_extra <=? duo_extra then
        let* st := half_div duo_sig_n add1 in
        let quo_part := fst st in
        let* extra_shl := csub (UI 32) duo_extra div_extra in
        let* q := cshl uD quo_part extra_shl in
        let* quo := cadd uD quo q in
        let* m := cshl uD (wrapping_mul uD div quo_part) extra_shl in
        let* duo := csub uD duo m in
        let duo_lz := nlz (2 * n) duo in
        if div_lz <=? duo_lz then
          if div <=? duo then
            let* q := cadd uD quo 1 in let* r := csub uD duo div in Ok (q, r)
          else Ok (quo, duo)
        else if n <=? duo_lz then
          let* tmp := half_div (norm uX duo) (norm uX div) in
          let* q := cadd uD quo (fst tmp) in Ok (q, snd tmp)
        else tri_loop half_div fuel n_h div div_lz div_extra add1 duo duo_lz quo
      else
        let* shift := csub (UI 32) n duo_lz in
        let* t := cshr uD duo shift in let duo_sig_n := norm uX t in
        let* t := cshr uD div shift in let div_sig_n := norm uX t in
        let* st := half_div duo_sig_n div_sig_n in
        let quo_part := fst st in
        let div_lo := norm uX div in
        let* t := cshr uD div n in let div_hi := norm uX t in
        let '(tmp_lo, carry) := carrying_mul n quo_part div_lo in
        let '(tmp_hi, _) := carrying_mul_add n quo_part div_hi carry in
        let* th := cshl uD tmp_hi n in
        let tmp := Z.lor tmp_lo th in
        if duo <? tmp then
          let* qp := csub uX quo_part 1 in
          let* q := cadd uD quo qp in
          Ok (q, wrapping_sub uD (wrapping_add uD duo div) tmp)
        else
          let* q := cadd uD quo quo_part in
          let* r := csub uD duo tmp in
          Ok (q, r)
  end.

(** impl_trifecta!, trifecta.rs:18-384 *)
Definition trifecta (half_div : Z -> Z -> res (Z * Z)) (n_h duo div : Z) : res (Z * Z) :=
  let n := n_h * 2 in
  let uX := UI n in let uD := UI (2 * n) in
  if div =? 0 then Err Trap
  else
    let div_lz := nlz (2 * n) div in
    let duo_lz := nlz (2 * n) duo in
    if div_lz <=? duo_lz then
      if div <=? duo then let* r := csub uD duo div in Ok (1, r) else Ok (0, duo)
    else if n <=? duo_lz then half_div (norm uX duo) (norm uX div)
    else if n + n_h <=? div_lz then
      let* t := cshr uD duo n in let duo_hi := norm uX t in
      let div_0 := norm (UI n_h) div in
      let* st := half_div duo_hi div_0 in
      let '(quo_hi, rem_3) := st in
      let* a := cshr uD duo n_h in
      let* b := cshl uX rem_3 n_h in
      let duo_mid := Z.lor (norm (UI n_h) a) b in
      let* st := half_div duo_mid div_0 in
      let '(quo_1, rem_2) := st in
      let* b := cshl uX rem_2 n_h in
      let duo_lo := Z.lor (norm (UI n_h) duo) b in
      let* st := half_div duo_lo div_0 in
      let '(quo_0, rem_1) := st in
      let* q1 := cshl uD quo_1 n_h in
      let* qh := cshl uD quo_hi n in
      Ok (Z.lor (Z.lor quo_0 q1) qh, rem_1)
    else
      let* lz_diff := csub (UI 32) div_lz duo_lz in
      if lz_diff <? n_h then
        let* shift := csub (UI 32) n duo_lz in
        let* t := cshr uD duo shift in let duo_sig_n := norm uX t in
        let* t := cshr uD div shift in let div_sig_n := norm uX t in
        let* st := half_div duo_sig_n div_sig_n in
        let quo := fst st in
        let div_lo := norm uX div in
        let* t := cshr uD div n in let div_hi := norm uX t in
        let '(tmp_lo, carry) := carrying_mul n quo div_lo in
        let '(tmp_hi, overflow) := carrying_mul_add n quo div_hi carry in
        let* th := cshl uD tmp_hi n in
        let tmp := Z.lor tmp_lo th in
        if negb (overflow =? 0) || (duo <? tmp) then
          let* q := csub uX quo 1 in
          Ok (q, wrapping_sub uD (wrapping_add uD duo div) tmp)
        else
          let* r := csub uD duo tmp in
          Ok (quo, r)
      else
        let* div_extra := csub (UI 32) (n + n_h) div_lz in
        let* t := cshr uD div div_extra in
        let div_sig_n_h := norm (UI n_h) t in
        let* add1 := cadd uX div_sig_n_h 1 in
        tri_loop half_div (S (Z.to_nat n)) n_h div div_lz div_extra add1 duo duo_lz 0.

(** * mod.rs: the division functions of each target configuration *)

(** u32_div_rem, mod.rs:317-325 *)
Definition u32_div_rem (usz : Z) (use_lz : bool) := binary_long usz use_lz 32.

(** The three cfg-selected definitions of u64_div_rem: mod.rs:246-260 (delegate),
    263-274 (binary_long), 304-314 (asymmetric, x86). *)
Inductive u64_cfg := D64_delegate | D64_binary_long | D64_asymmetric.
Definition u64_div_rem (c : u64_cfg) (usz : Z) (use_lz : bool) (h32 : Z -> Z -> res (Z * Z))
    (duo div : Z) : res (Z * Z) :=
  match c with
  | D64_delegate => delegate (fun a b => normalization_shift usz use_lz 32 a b false) h32 16 duo div
  | D64_binary_long => binary_long usz use_lz 64 duo div
  | D64_asymmetric => asymmetric h32 (asym_div_rem 32) 16 duo div
  end.

(** The cfg-selected definitions of u128_div_rem: mod.rs:149-165 (trifecta),
    170-188 (delegate), 218-228 (asymmetric, x86_64); and u128_divide_sparc,
    delegate.rs:197-317, which is the text of impl_delegate! at u64/u128 with the
    remainder returned through a reference. *)
Inductive u128_cfg := D128_trifecta | D128_delegate | D128_asymmetric | D128_sparc.
Definition u128_div_rem (c : u128_cfg) (usz : Z) (use_lz : bool) (h64 : Z -> Z -> res (Z * Z))
    (duo div : Z) : res (Z * Z) :=
  match c with
  | D128_trifecta => trifecta h64 32 duo div
  | D128_delegate | D128_sparc =>
      delegate (fun a b => normalization_shift usz use_lz 64 a b false) h64 32 duo div
  | D128_asymmetric => asymmetric h64 (asym_div_rem 64) 32 duo div
  end.

(** u32_by_u32_div_rem / u64_by_u64_div_rem (mod.rs:133-141, 233-241) use core's
    [checked_div]/[checked_rem] at half width. Depending on the target these are a
    machine instruction ([hw]) or a call back into the crate's own narrower
    division. *)
Definition half32 (hw : bool) (usz : Z) (use_lz : bool) : Z -> Z -> res (Z * Z) :=
  if hw then hw_div_rem else u32_div_rem usz use_lz.
Definition half64 (hw : bool) (c : u64_cfg) (usz : Z) (use_lz : bool) (h32 : Z -> Z -> res (Z * Z)) :
    Z -> Z -> res (Z * Z) :=
  if hw then hw_div_rem else u64_div_rem c usz use_lz h32.

(** * udiv.rs: __udivXi3, __umodXi3 and __udivmodXi4 return the first, the second
    and both components (udiv.rs:10-31, 136-154, 160-198); [dr] is the
    [uN_div_rem] in force. *)
Definition udiv (dr : Z -> Z -> res (Z * Z)) (n d : Z) : res Z := let* p := dr n d in Ok (fst p).
Definition umod (dr : Z -> Z -> res (Z * Z)) (n d : Z) : res Z := let* p := dr n d in Ok (snd p).
Definition udivmod (dr : Z -> Z -> res (Z * Z)) (n d : Z) : res (Z * Z) := let* p := dr n d in Ok (fst p, snd p).
(** AVR's __udivmodsi4, udiv.rs:40-44: packed in a u64. *)
Definition avr_udivmodsi4 (dr : Z -> Z -> res (Z * Z)) (n d : Z) : res Z :=
  let* p := dr n d in
  let* r := cshl (UI 64) (snd p) 32 in
  Ok (Z.lor r (fst p)).

(** * sdiv.rs; [w] is the width. *)
(** sdivmod!, sdiv.rs:16-42: returns (quotient, remainder). *)
Definition sdivmod (w : Z) (dr : Z -> Z -> res (Z * Z)) (a b : Z) : res (Z * Z) :=
  let iX := SI w in let uX := UI w in
  let a_neg := a <? 0 in
  let b_neg := b <? 0 in
  let a := if a_neg then wrapping_neg iX a else a in
  let b := if b_neg then wrapping_neg iX b else b in
  let* tr := udivmod dr (norm uX a) (norm uX b) in
  let t := norm iX (fst tr) in
  let r := norm iX (snd tr) in
  let r := if a_neg then wrapping_neg iX r else r in
  Ok ((if negb (eqb a_neg b_neg) then wrapping_neg iX t else t), r).
(** sdiv!, sdiv.rs:60-77, and __divsi3, sdiv.rs:165-182. *)
Definition sdiv (w : Z) (dr : Z -> Z -> res (Z * Z)) (a b : Z) : res Z :=
  let iX := SI w in let uX := UI w in
  let a_neg := a <? 0 in
  let b_neg := b <? 0 in
  let a := if a_neg then wrapping_neg iX a else a in
  let b := if b_neg then wrapping_neg iX b else b in
  let* t := udiv dr (norm uX a) (norm uX b) in
  let t := norm iX t in
  Ok (if negb (eqb a_neg b_neg) then wrapping_neg iX t else t).
(** smod!, sdiv.rs:95-112 *)
Definition smod (w : Z) (dr : Z -> Z -> res (Z * Z)) (a b : Z) : res Z :=
  let iX := SI w in let uX := UI w in
  let a_neg := a <? 0 in
  let b_neg := b <? 0 in
  let a := if a_neg then wrapping_neg iX a else a in
  let b := if b_neg then wrapping_neg iX b else b in
  let* r := umod dr (norm uX a) (norm uX b) in
  let r := norm iX r in
  Ok (if a_neg then wrapping_neg iX r else r).
(** AVR's __divmodsi4, sdiv.rs:132-157 *)
Definition avr_divmodsi4 (dr : Z -> Z -> res (Z * Z)) (a b : Z) : res Z :=
  let iX := SI 32 in let uX := UI 32 in
  let a_neg := a <? 0 in
  let b_neg := b <? 0 in
  let a := if a_neg then wrapping_neg iX a else a in
  let b := if b_neg then wrapping_neg iX b else b in
  let* tr := avr_udivmodsi4 dr (norm uX a) (norm uX b) in
  let t := norm iX (norm uX tr) in
  let* th := cshr (UI 64) tr 32 in
  let r := norm iX (norm uX th) in
  let r := if a_neg then wrapping_neg iX r else r in
  let t := if negb (eqb a_neg b_neg) then wrapping_neg iX t else t in
  let* rh := cshl (UI 64) (norm uX r) 32 in
  Ok (Z.lor rh (norm uX t)).
