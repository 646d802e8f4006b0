(** Model of libm/src/math/support/hex_float.rs: parsing and printing of hexadecimal
    floating-point literals, and the status flags of libm/src/math/support/env.rs.
    A [&str] is its list of bytes (each a [Z]). Definitions only. *)
From Coq Require Import ZArith Bool List.
From Verif Require Import Base FloatModel LibmModel.
Open Scope Z_scope.
Import ListNotations.

(** Round, env.rs:40-49. *)
Inductive mode := Nearest | Negative | Positive | Zero.

(** Status, env.rs:52-134: the flags are bits of a [u8]. *)
Definition OK : Z := 0.
Definition OVERFLOW : Z := Z.shiftl 1 2.
Definition UNDERFLOW : Z := Z.shiftl 1 3.
Definition INEXACT : Z := Z.shiftl 1 4.
Definition underflow (s : Z) : bool := negb (Z.land s UNDERFLOW =? 0).
Definition overflow (s : Z) : bool := negb (Z.land s OVERFLOW =? 0).
Definition inexact (s : Z) : bool := negb (Z.land s INEXACT =? 0).

(** HexFloatParseError, hex_float.rs:41-42: one constructor for each message. *)
Inductive herr := UnsupportedConfig | NoHexIndicator | UnexpectedPoint | ExpectedHexDigit
  | NoDigits | ExpectedDecDigit | NoExpDigits | TooHuge | TooTiny | TooPrecise.

(** hex_float.rs:313-318. The bytes 0-9 are 48-57. *)
Definition dec_digit (c : Z) : option Z :=
  if (48 <=? c) && (c <=? 57) then Some (c - 48) else None.
(** hex_float.rs:320-327. The bytes a-f are 97-102, A-F are 65-70. *)
Definition hex_digit (c : Z) : option Z :=
  if (48 <=? c) && (c <=? 57) then Some (c - 48)
  else if (97 <=? c) && (c <=? 102) then Some (c - 97 + 10)
  else if (65 <=? c) && (c <=? 70) then Some (c - 65 + 10)
  else None.

(** The first loop of parse_hex, hex_float.rs:231-268, from the state (sig, exp,
    seen_point, some_digits, inexact); returns the state and the unread bytes. The byte
    '.' is 46, 'p' is 112, 'P' is 80. *)
Fixpoint hex_digits (b : list Z) (sig exp : Z) (seen_point some_digits inex : bool)
    : res (herr + (Z * Z * bool * bool * list Z)) :=
  match b with
  | [] => Ok (inr (sig, exp, some_digits, inex, []))
  | c :: rest =>
    if c =? 46 then
      if seen_point then Ok (inl UnexpectedPoint)
      else hex_digits rest sig exp true some_digits inex
    else if (c =? 112) || (c =? 80) then Ok (inr (sig, exp, some_digits, inex, rest))
    else
      match hex_digit c with
      | None => Ok (inl ExpectedHexDigit)
      | Some digit =>
        let* (sig, exp, inex) :=
          (if Z.shiftr sig 124 =? 0 then
             let* s := cshl (UI 128) sig 4 in Ok (Z.lor s digit, exp, inex)
           else
             let* e := cadd (SI 32) exp 4 in Ok (sig, e, inex || negb (digit =? 0))) in
        let* exp := (if seen_point then csub (SI 32) exp 4 else Ok exp) in
        hex_digits rest sig exp seen_point true inex
      end
  end.

(** The second loop of parse_hex, hex_float.rs:286-296. *)
Fixpoint dec_digits (b : list Z) (pexp : Z) (some_digits : bool) : res (herr + (Z * bool)) :=
  match b with
  | [] => Ok (inr (pexp, some_digits))
  | c :: rest =>
    match dec_digit c with
    | None => Ok (inl ExpectedDecDigit)
    | Some digit =>
      let pexp := Z.min (pexp * 10) (imax (UI 32)) in
      let* pexp := cadd (UI 32) pexp digit in
      dec_digits rest pexp true
    end
  end.

(** A leading sign, hex_float.rs:73-76, 281-284: is it '-' (45), and the bytes after a
    '-' or '+' (43). *)
Definition take_sign (b : list Z) : bool * list Z :=
  match b with
  | c :: rest => (c =? 45, if (c =? 45) || (c =? 43) then rest else b)
  | [] => (false, b)
  end.

(** parse_hex, hex_float.rs:223-311: the parsed value is sig * 2^exp. *)
Definition parse_hex (b : list Z) : res (herr + (Z * Z)) :=
  let* r := hex_digits b 0 0 false false false in
  match r with
  | inl e => Ok (inl e)
  | inr (sig, exp, some_digits, inex, b) =>
    let sig := Z.lor sig (b2z inex) in
    if negb some_digits then Ok (inl NoDigits)
    else
      let '(negate_exp, b) := take_sign b in
      let* r := dec_digits b 0 false in
      match r with
      | inl e => Ok (inl e)
      | inr (pexp, some_digits) =>
        if negb some_digits then Ok (inl NoExpDigits)
        else
          let exp := if negate_exp then Z.max (exp - pexp) (imin (SI 32))
                     else Z.min (exp + pexp) (imax (SI 32)) in
          Ok (inr (sig, exp))
      end
  end.

(** shr_odd_rounding, hex_float.rs:192-199. *)
Definition shr_odd_rounding (x k : Z) : res Z :=
  if k <? 128 then
    let* h := cshr (UI 128) x k in
    Ok (Z.lor h (b2z (ntz 128 x <? k)))
  else Ok (b2z (negb (x =? 0))).

(** shr2_round, hex_float.rs:202-213; 200 is 0b11001000. *)
Definition shr2_round (x : Z) (m : mode) : res Z :=
  let t := Z.land (norm (UI 32) x) 7 in
  let* x := cshr (UI 128) x 2 in
  match m with
  | Nearest => let* l := cshr (UI 8) 200 t in cadd (UI 128) x (Z.land l 1)
  | Negative => Ok x
  | Zero => Ok x
  | Positive => cadd (UI 128) x (b2z (negb (Z.land t 3 =? 0)))
  end.

(** The rounding block of parse_finite, hex_float.rs:137-152: the rounded significand
    and the status. *)
Definition round_sig (sig round_bits : Z) (m : mode) : res (Z * Z) :=
  if 0 <? round_bits then
    let* sig := (if round_bits =? 1 then cshl (UI 128) sig 1
                 else if 2 <? round_bits then
                   let* k := csub (SI 32) round_bits 2 in
                   shr_odd_rounding sig (norm (UI 32) k)
                 else Ok sig) in
    let status := if negb (Z.land sig 3 =? 0) then INEXACT else OK in
    let* sig := shr2_round sig m in
    Ok (sig, status)
  else if round_bits <? 0 then
    let* k := cneg (SI 32) round_bits in
    let* sig := cshl (UI 128) sig k in
    Ok (sig, OK)
  else Ok (sig, OK).

(** The encoding of the result, hex_float.rs:157-184. *)
Definition encode (sig exp min_lsb exp_bits sig_bits status : Z) (m : mode) : res (Z * Z) :=
  let* d := csub (SI 32) exp min_lsb in
  let* uexp := cshl (UI 128) (norm (UI 128) d) sig_bits in
  let* two := cshl (UI 128) 2 sig_bits in
  let* _ := assert (sig <=? two) in
  let* one := cshl (UI 128) 1 exp_bits in
  let* emask := csub (UI 128) one 1 in
  let* inf := cshl (UI 128) emask sig_bits in
  if fitsb (UI 128) (sig + uexp) && (sig + uexp <? inf) then
    let* implicit := cshl (UI 128) 1 sig_bits in
    Ok (sig + uexp,
        if inexact status && (sig + uexp <? implicit) then Z.lor status UNDERFLOW else status)
  else
    let status := Z.lor (Z.lor status OVERFLOW) INEXACT in
    match m with
    | Positive | Nearest => Ok (inf, status)
    | Negative | Zero => let* b := csub (UI 128) inf 1 in Ok (b, status)
    end.

(** parse_finite, hex_float.rs:109-185. *)
Definition parse_finite (b : list Z) (nbits sig_bits : Z) (m : mode) : res (herr + (Z * Z)) :=
  let* e := csub (UI 32) nbits sig_bits in
  let* exp_bits := csub (UI 32) e 1 in
  let* e := csub (UI 32) exp_bits 1 in
  let* e := cshl (SI 32) 1 e in
  let* max_msb := csub (SI 32) e 1 in
  let* e := csub (SI 32) 1 max_msb in
  let* min_lsb := csub (SI 32) e (norm (SI 32) sig_bits) in
  let* r := parse_hex b in
  match r with
  | inl e => Ok (inl e)
  | inr (sig, exp) =>
    if sig =? 0 then Ok (inr (0, OK))
    else
      let* round_bits := csub (SI 32) (norm (SI 32) (Z.log2 sig)) (norm (SI 32) sig_bits) in
      let* lim := csub (SI 32) min_lsb round_bits in
      let* round_bits := (if exp <? lim then csub (SI 32) min_lsb exp else Ok round_bits) in
      let* exp := cadd (SI 32) exp round_bits in
      let* (sig, status) := round_sig sig round_bits m in
      let* (bits, status) := encode sig exp min_lsb exp_bits sig_bits status m in
      Ok (inr (bits, status))
  end.

(** ASCII letters up to case: the byte is the upper-case [c] or the lower-case [c + 32]. *)
Definition is_letter (c b : Z) : bool := (b =? c) || (b =? c + 32).

(** parse_any, hex_float.rs:61-107. The letters: I 73, N 78, F 70, A 65, X 88; '0' is 48. *)
Definition parse_any (s : list Z) (nbits sig_bits : Z) (m : mode) : res (herr + (Z * Z)) :=
  if (119 <? sig_bits) || (128 <? nbits) || (nbits <? sig_bits + 3) || (sig_bits + 30 <? nbits)
  then Ok (inl UnsupportedConfig)
  else
    let '(neg, b) := take_sign s in
    let* k := csub (UI 32) nbits 1 in
    let* sign_bit := cshl (UI 128) 1 k in
    let* k := csub (UI 32) sig_bits 1 in
    let* quiet_bit := cshl (UI 128) 1 k in
    let* nan := csub (UI 128) sign_bit quiet_bit in
    let* inf := csub (UI 128) nan quiet_bit in
    let flip (r : herr + (Z * Z)) :=
      match r with
      | inl e => Ok (inl e)
      | inr (x, status) => Ok (inr (if neg then Z.lxor x sign_bit else x, status))
      end in
    let hex (_ : unit) :=
      match b with
      | c0 :: c1 :: rest =>
        if (c0 =? 48) && is_letter 88 c1 then
          let m := match neg, m with
                   | true, Positive => Negative
                   | true, Negative => Positive
                   | _, _ => m
                   end in
          let* r := parse_finite rest nbits sig_bits m in
          flip r
        else Ok (inl NoHexIndicator)
      | _ => Ok (inl NoHexIndicator)
      end in
    match b with
    | [c0; c1; c2] =>
      if is_letter 73 c0 && is_letter 78 c1 && is_letter 70 c2 then flip (inr (inf, OK))
      else if is_letter 78 c0 && is_letter 65 c1 && is_letter 78 c2 then flip (inr (nan, OK))
      else hex tt
    | _ => hex tt
    end.

(** parse_hex_exact, hex_float.rs:45-58; the last arm is [unreachable!()]. *)
Definition parse_hex_exact (s : list Z) (nbits sig_bits : Z) : res (herr + Z) :=
  let* r := parse_any s nbits sig_bits Nearest in
  match r with
  | inl e => Ok (inl e)
  | inr (bits, status) =>
    if status =? OK then Ok (inr bits)
    else if overflow status then Ok (inl TooHuge)
    else if underflow status then Ok (inl TooTiny)
    else if inexact status then Ok (inl TooPrecise)
    else Err Panic
  end.

(** hf16, hf32, hf64, hf128, hex_float.rs:9-40: panic on an error. *)
Definition hf (f : fmt) (s : list Z) : res Z :=
  let* r := parse_hex_exact s (fb f) (fs f) in
  match r with
  | inl _ => Err Panic
  | inr bits => Ok (norm (fI f) bits)
  end.

(** * Printing *)
(** core's formatting of integers: the digits of [n] in base [base], most significant
    first, at least one; [fuel] is an upper bound of their number. *)
Definition digit_char (d : Z) : Z := if d <? 10 then 48 + d else 87 + d.
Fixpoint digits_fuel (fuel : nat) (base n : Z) : list Z :=
  match fuel with
  | O => []
  | S k => (if n <? base then [] else digits_fuel k base (n / base)) ++ [digit_char (n mod base)]
  end.
Definition digits (base n : Z) : list Z := digits_fuel (Z.to_nat (Z.log2 n + 1)) base n.
(** [{n:0width$x}]: zero-padded to a width. *)
Definition pad (width : Z) (s : list Z) : list Z :=
  repeat 48 (Z.to_nat (width - Z.of_nat (length s))) ++ s.
(** [{n:+}] *)
Definition signed_dec (n : Z) : list Z := (if n <? 0 then 45 else 43) :: digits 10 (Z.abs n).

Section Format.
Context (f : fmt).
(** float_traits.rs:135-151, with MIPS_NAN false. *)
Definition is_qnanb (x : Z) : bool := is_nanb f x && negb (Z.land x (SIG_TOP_BIT f) =? 0).
Definition is_snanb (x : Z) : bool := is_nanb f x && negb (is_qnanb x).

(** fmt_any_hex, hex_float.rs:335-378. *)
Definition fmt_any_hex (x : Z) : res (list Z) :=
  let sign := if sign_negative f x then 45 else 43 in
  if is_nanb f x then
    let payload := Z.land (Z.land x (SIG_MASK f)) (inot (fI f) (SIG_TOP_BIT f)) in
    (* div_ceil_u32, support/mod.rs:75-79 *)
    let width := fs f / 4 + (if 0 <? fs f mod 4 then 1 else 0) + 2 in
    (* "sNaN" or "qNaN", "(", "0x" and the padded payload (the prefix counts), ")" *)
    Ok (sign :: (if is_snanb x then 115 else 113) :: [78; 97; 78; 40; 48; 120] ++
        pad (width - 2) (digits 16 payload) ++ [41])
  else if Z.land x (abs_mask f) =? EXP_MASK f then Ok (sign :: [105; 110; 102])
  else if Z.land x (abs_mask f) =? 0 then Ok (sign :: [48; 120; 48; 112; 43; 48])
  else
    let* exponent := exp_unbiased f x in
    let sig := Z.land x (SIG_MASK f) in
    let bias := EXP_BIAS f in
    let mshift := (4 - fs f mod 4) mod 4 in
    let* sig := cshl (fI f) sig mshift in
    let mwidth := (fs f + 3) / 4 in
    let* (exponent, leading) :=
      (if exponent =? - bias then let* e := cadd (SI 32) exponent 1 in Ok (e, 48) else Ok (exponent, 49)) in
    Ok (sign :: 48 :: 120 :: leading :: 46 :: pad mwidth (digits 16 sig) ++ 112 :: signed_dec exponent).
End Format.
