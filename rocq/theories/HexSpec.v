(** Specification of hexadecimal floating-point literals, independent of the parser. *)
From Coq Require Import ZArith Reals Bool List.
From Flocq Require Import Core.
From Verif Require Import FloatModel FloatSpec.
Open Scope Z_scope.
Import ListNotations.

(** * The literals *)
(** The byte [c] is a decimal / hexadecimal digit of value [d] (ASCII). *)
Definition decd (c d : Z) : Prop := 0 <= d <= 9 /\ c = 48 + d.
Definition hexd (c d : Z) : Prop :=
  0 <= d <= 9 /\ c = 48 + d \/ 10 <= d <= 15 /\ (c = 65 + (d - 10) \/ c = 97 + (d - 10)).
(** The number written by a list of digits, most significant first. *)
Definition num (base : Z) (ds : list Z) : Z := fold_left (fun n d => n * base + d) ds 0.
(** An optional sign: nothing or '+', or '-'. *)
Definition opt_sign (s : list Z) (neg : bool) : Prop :=
  if neg then s = [45] else s = [] \/ s = [43].
(** [c] is the letter with upper-case code [u], in either case. *)
Definition letter (u c : Z) : Prop := c = u \/ c = u + 32.

(** What a literal denotes, up to its sign: N * 2^(P - 4 k), infinity or a NaN. *)
Inductive lit := Fin (N k P : Z) | Inf | Nan.

(** [sign] 0x [digits] . [digits] p [sign] [decimal digits]; the point may be missing,
    there is at least one digit around it, and the exponent is mandatory. *)
Inductive denotes : list Z -> bool -> lit -> Prop :=
| den_fin sg neg x ip point fp ds p es en eds ed :
    opt_sign sg neg -> letter 88 x ->
    Forall2 hexd (ip ++ fp) ds -> ds <> [] ->
    (point = [46] \/ point = [] /\ fp = []) ->
    letter 80 p -> opt_sign es en -> Forall2 decd eds ed -> ed <> [] ->
    denotes (sg ++ 48 :: x :: ip ++ point ++ fp ++ p :: es ++ eds) neg
      (Fin (num 16 ds) (Z.of_nat (length fp)) (if en then - num 10 ed else num 10 ed))
| den_inf sg neg a b c :
    opt_sign sg neg -> letter 73 a -> letter 78 b -> letter 70 c -> denotes (sg ++ [a; b; c]) neg Inf
| den_nan sg neg a b c :
    opt_sign sg neg -> letter 78 a -> letter 65 b -> letter 78 c -> denotes (sg ++ [a; b; c]) neg Nan.

(** The real number of a finite literal. *)
Definition lit_value (neg : bool) (N k P : Z) : R :=
  let v := (IZR N * bpow radix2 (P - 4 * k))%R in if neg then (- v)%R else v.

(** * Rounding *)
(** The four rounding directions of IEEE 754. *)
Inductive dir := ToNearest | Down | Up | ToZero.
Definition rnd (d : dir) : R -> Z :=
  match d with ToNearest => ZnearestE | Down => Zfloor | Up => Zceil | ToZero => Ztrunc end.
(** The rounding of [x] to the precision of the format, with unbounded exponent above. *)
Definition round_in (f : fmt) (d : dir) (x : R) : R :=
  round radix2 (FLT_exp (emin f) (prec f)) (rnd d) x.
(** Overflow (7.4): infinity, except in the directions that lead back to the largest
    finite number. *)
Definition overflow_to_inf (d : dir) (neg : bool) : bool :=
  match d with ToNearest => true | Up => negb neg | Down => neg | ToZero => false end.
Definition max_finite (f : fmt) : R := (bpow radix2 (emax f) - bpow radix2 (emax f - prec f))%R.

(** [r] is the encoding of [x], of sign [neg], rounded once in the direction [d]. *)
Definition rounds_in (f : fmt) (d : dir) (neg : bool) (x : R) (r : Z) : Prop :=
  is_float f r /\ sign_of f r = neg /\
  (let y := round_in f d x in
   if Rlt_bool (Rabs y) (bpow radix2 (emax f)) then is_finite f r /\ value f r = y
   else if overflow_to_inf d neg then is_inf f r
   else is_finite f r /\ value f r = if neg then (- max_finite f)%R else max_finite f).

(** The status: overflow (4), underflow (8: the rounded number is inexact and subnormal
    or zero) and inexact (16), and nothing else. *)
Definition status_ok (f : fmt) (d : dir) (x : R) (st : Z) : Prop :=
  let y := round_in f d x in
  exists ov un ix : bool,
    st = (if ov then 4 else 0) + (if un then 8 else 0) + (if ix then 16 else 0) /\
    (ov = true <-> (bpow radix2 (emax f) <= Rabs y)%R) /\
    (un = true <-> (Rabs y < bpow radix2 (emin f + fs f))%R /\ y <> x) /\
    (ix = true <-> (bpow radix2 (emax f) <= Rabs y)%R \/ y <> x).

(** The result of parsing a literal. *)
Definition parsed (f : fmt) (d : dir) (neg : bool) (l : lit) (r st : Z) : Prop :=
  match l with
  | Fin N k P =>
    rounds_in f d neg (lit_value neg N k P) r /\ status_ok f d (lit_value neg N k P) st
  | Inf => is_float f r /\ is_inf f r /\ sign_of f r = neg /\ st = 0
  | Nan => is_float f r /\ is_qnan f r /\ sign_of f r = neg /\ st = 0
  end.
