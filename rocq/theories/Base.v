(** Common modelling vocabulary: the error monad and Rust's machine integers.

    Nothing in this file models a particular function of the repository except
    where a comment says so; it fixes the meaning of Rust's integer operators
    (core library semantics) that every model file uses. *)

From Coq Require Import ZArith Bool List.
Open Scope Z_scope.

(** ** Outcomes

    [Panic]: an overflow check, assertion, or index check fails (in a build
    profile where such checks are enabled).
    [Trap]: control reaches the division-by-zero handler
    (compiler-builtins/src/int/specialized_div_rem/mod.rs:73-78, [zero_div_fn],
    which is [intrinsics::unreachable]) or the hardware divide fault.
    [UB]: undefined behaviour, e.g. an access outside memory.
    [OutOfFuel]: the model's loop bound was exhausted. *)
Inductive err := Panic | Trap | UB | OutOfFuel.

Inductive res (A : Type) := Ok (a : A) | Err (e : err).
Arguments Ok {A} a.
Arguments Err {A} e.

Definition bind {A B} (m : res A) (f : A -> res B) : res B :=
  match m with Ok a => f a | Err e => Err e end.

Notation "'let*' x := m 'in' f" := (bind m (fun x => f))
  (at level 200, x pattern, m at level 100, f at level 200, right associativity).

Definition assert (b : bool) : res unit := if b then Ok tt else Err Panic.

(** ** Integer types: width and signedness.
    [u8 .. u128], [i8 .. i128]; libm/src/math/support/int_traits.rs:298-303. *)
Record ity := Ity { bits : Z; signed : bool }.

Definition UI (n : Z) : ity := Ity n false.
Definition SI (n : Z) : ity := Ity n true.

Definition imin (t : ity) : Z := if signed t then - 2 ^ (bits t - 1) else 0.
Definition imax (t : ity) : Z := if signed t then 2 ^ (bits t - 1) - 1 else 2 ^ bits t - 1.

(** The set of values of a type. *)
Definition fits (t : ity) (x : Z) : Prop := imin t <= x <= imax t.
Definition fitsb (t : ity) (x : Z) : bool := (imin t <=? x) && (x <=? imax t).

(** Two's complement reduction: the unique value of [t] congruent to [x]
    modulo [2 ^ bits t]. Meaning of [x as t] between integer types. *)
Definition norm (t : ity) (x : Z) : Z :=
  if signed t
  then (x + 2 ^ (bits t - 1)) mod 2 ^ bits t - 2 ^ (bits t - 1)
  else x mod 2 ^ bits t.

(** Wrapping operators. *)
Definition wrapping_add (t : ity) (a b : Z) : Z := norm t (a + b).
Definition wrapping_sub (t : ity) (a b : Z) : Z := norm t (a - b).
Definition wrapping_mul (t : ity) (a b : Z) : Z := norm t (a * b).
Definition wrapping_neg (t : ity) (a : Z) : Z := norm t (- a).
(** [wrapping_shl]/[wrapping_shr] mask the shift amount. [Z.shiftr] is
    arithmetic on negative numbers, hence right for signed types. *)
Definition wrapping_shl (t : ity) (a s : Z) : Z := norm t (Z.shiftl a (s mod bits t)).
Definition wrapping_shr (t : ity) (a s : Z) : Z := Z.shiftr a (s mod bits t).
(** int_traits.rs:123-125 *)
Definition logical_shr (t : ity) (a s : Z) : Z :=
  norm t (wrapping_shr (UI (bits t)) (norm (UI (bits t)) a) s).
Definition overflowing_add (t : ity) (a b : Z) : Z * bool :=
  (norm t (a + b), negb (fitsb t (a + b))).
Definition overflowing_sub (t : ity) (a b : Z) : Z * bool :=
  (norm t (a - b), negb (fitsb t (a - b))).
(** Bitwise not. *)
Definition inot (t : ity) (a : Z) : Z := norm t (Z.lnot a).

(** Checked operators: the plain [+ - * << >>] and unary [-] of Rust, which
    panic when overflow checks are on. *)
Definition chk (t : ity) (x : Z) : res Z := if fitsb t x then Ok x else Err Panic.
Definition cadd (t : ity) (a b : Z) : res Z := chk t (a + b).
Definition csub (t : ity) (a b : Z) : res Z := chk t (a - b).
Definition cmul (t : ity) (a b : Z) : res Z := chk t (a * b).
Definition cneg (t : ity) (a : Z) : res Z := chk t (- a).
(** Plain shifts panic on an amount outside [0, bits); bits shifted out are lost
    silently. *)
Definition cshl (t : ity) (a s : Z) : res Z :=
  if (0 <=? s) && (s <? bits t) then Ok (norm t (Z.shiftl a s)) else Err Panic.
Definition cshr (t : ity) (a s : Z) : res Z :=
  if (0 <=? s) && (s <? bits t) then Ok (Z.shiftr a s) else Err Panic.
(** [CastInto::cast] (int_traits.rs:450-456): exact cast, checked by a
    [debug_assert!] in some configurations. *)
Definition ccast (t : ity) (x : Z) : res Z := chk t x.

Definition b2z (b : bool) : Z := if b then 1 else 0.

(** ** Double-width view: traits DInt/HInt, int_traits.rs:307-398. *)
Definition half (t : ity) : ity := Ity (bits t / 2) (signed t).
Definition dbl (t : ity) : ity := Ity (2 * bits t) (signed t).

(** int_traits.rs:363-368 *)
Definition lo (t : ity) (x : Z) : Z := norm (half t) x.
Definition hi (t : ity) (x : Z) : Z := norm (half t) (Z.shiftr x (bits t / 2)).
(** int_traits.rs:383-385; [t] is the half type. *)
Definition zero_widen (t : ity) (x : Z) : Z := norm (dbl t) (norm (UI (bits t)) x).
(** int_traits.rs:380-382 *)
Definition widen (t : ity) (x : Z) : Z := norm (dbl t) x.
(** int_traits.rs:386-391 *)
Definition zero_widen_mul (t : ity) (a b : Z) : Z :=
  wrapping_mul (dbl t) (zero_widen t a) (zero_widen t b).
Definition widen_mul (t : ity) (a b : Z) : Z :=
  wrapping_mul (dbl t) (widen t a) (widen t b).
(** int_traits.rs:392-394 *)
Definition widen_hi (t : ity) (x : Z) : Z := norm (dbl t) (Z.shiftl (norm (dbl t) x) (bits t)).
(** int_traits.rs:328-330; [t] is the double type. *)
Definition from_lo_hi (t : ity) (l h : Z) : Z :=
  Z.lor (zero_widen (half t) l) (widen_hi (half t) h).

(** Number of leading zeros of an n-bit unsigned value (core's
    [leading_zeros], a compiler intrinsic). *)
Definition nlz (n x : Z) : Z := if x <=? 0 then n else n - 1 - Z.log2 x.
(** core's [trailing_zeros]. *)
Fixpoint ptz (p : positive) : Z :=
  match p with xO q => 1 + ptz q | _ => 0 end.
Definition ntz (n x : Z) : Z := match x with Zpos p => ptz p | Zneg p => ptz p | Z0 => n end.
