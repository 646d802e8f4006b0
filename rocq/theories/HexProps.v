(** C45, C46: parsing and printing of hexadecimal floating-point literals. *)
From Coq Require Import ZArith Reals Bool List Lia Lra.
From Flocq Require Import Core.
From Verif Require Import Base BaseLemmas FloatModel FloatSpec LibmModel HexModel HexSpec.
From Verif Require Import FloatProofs.
From Verif Require HexProofs HexProofs2 HexProofs5 HexProofs6 HexProofs7.
Open Scope Z_scope.
Import ListNotations.

(** The formats that the parser accepts: [bits] wide with [sig_bits] fraction bits,
    between 2 and 29 exponent bits. (A format without fraction bits passes the check but
    panics: [C45_no_fraction_refuted].) *)
Definition supported (bits sig_bits : Z) : Prop :=
  1 <= sig_bits <= 119 /\ bits <= 128 /\ sig_bits + 3 <= bits <= sig_bits + 30.
(** The IEEE rounding direction of each mode. *)
Definition direction (m : mode) : dir :=
  match m with Nearest => ToNearest | Negative => Down | Positive => Up | Zero => ToZero end.

(** The literals on which the parser is claimed to work: fewer than 2^26 characters, an
    exponent between -2^32 and 2^30, and, for formats of more than 97 fraction bits
    (f128), a number below 2^(2^(128 - sig_bits) - bias), which is 2^49153 for f128. *)
Definition tractable (bits sig_bits : Z) (s : list Z) (neg : bool) (l : lit) : Prop :=
  Z.of_nat (length s) < 2 ^ 26 /\
  match l with
  | Fin N k P => - 2 ^ 32 < P <= 2 ^ 30 /\
      (sig_bits <= 97 \/ (Rabs (lit_value neg N k P) < bpow radix2 (2 ^ (128 - sig_bits) - bias (Fmt bits sig_bits)))%R)
  | _ => True
  end.

Lemma supported_cfg bits sig_bits : supported bits sig_bits -> HexProofs.cfg (Fmt bits sig_bits).
Proof. intros (H1 & H2 & H3). split; unfold eb; cbn; lia. Qed.
Lemma direction_eq m : HexProofs2.to_dir m = direction m.
Proof. destruct m; reflexivity. Qed.
Lemma tractable_range bits sig_bits s neg l : tractable bits sig_bits s neg l -> HexProofs6.in_range (Fmt bits sig_bits) neg l.
Proof. intros [_ H]. destruct l; exact H. Qed.

(** Every literal is accepted in every mode: the result is the number it denotes, rounded
    once in the requested direction (with the overflow rule of that direction), and the
    status flags are exactly overflow, underflow and inexact.
    Full statement: without [tractable]. Missing: the literals outside it, for which the
    statement is false: [C45_f128_wraps_refuted], [C45_exponent_refuted]. *)
Theorem C45_accepts_partial : forall bits sig_bits m s neg l,
  supported bits sig_bits -> denotes s neg l -> tractable bits sig_bits s neg l ->
  exists r st, parse_any s bits sig_bits m = Ok (inr (r, st)) /\
    parsed (Fmt bits sig_bits) (direction m) neg l r st.
Proof.
  intros bits sig_bits m s neg l HS HD HT. pose proof (supported_cfg _ _ HS) as C.
  destruct (HexProofs6.accept_ok _ C s neg l m HD (proj1 HT) (tractable_range _ _ _ _ _ HT)) as (r & st & E & HP).
  exists r, st. rewrite <- direction_eq. split; [exact E|exact HP].
Qed.

(** A string that is accepted is a literal. *)
Theorem C45_sound : forall bits sig_bits m s r,
  supported bits sig_bits -> parse_any s bits sig_bits m = Ok (inr r) -> exists neg l, denotes s neg l.
Proof. intros bits sig_bits m s r HS E. exact (HexProofs6.parse_any_sound _ (supported_cfg _ _ HS) s m r E). Qed.

(** A string that is not a literal is answered with an error, never a panic.
    Missing: strings of 2^26 characters or more, and strings with more than nine
    characters after a 'p' (where the exponent may overflow: [C45_exponent_refuted]). *)
Theorem C45_rejects_partial : forall bits sig_bits m s,
  supported bits sig_bits -> (forall neg l, ~ denotes s neg l) -> Z.of_nat (length s) < 2 ^ 26 ->
  (forall a p es, s = a ++ p :: es -> letter 80 p -> (length es <= 9)%nat) ->
  exists e, parse_any s bits sig_bits m = Ok (inl e).
Proof. intros bits sig_bits m s HS HN HL HE. exact (HexProofs6.reject_ok _ (supported_cfg _ _ HS) s m HL HN HE). Qed.

(** Other formats are refused, whatever the string. *)
Theorem C45_unsupported : forall bits sig_bits m s, 0 <= sig_bits -> ~ supported bits sig_bits -> sig_bits <> 0 ->
  parse_any s bits sig_bits m = Ok (inl UnsupportedConfig).
Proof.
  intros bits sig_bits m s H0 HN H1. unfold parse_any. unfold supported in HN.
  destruct (Z.ltb_spec 119 sig_bits), (Z.ltb_spec 128 bits), (Z.ltb_spec bits (sig_bits + 3)), (Z.ltb_spec (sig_bits + 30) bits); try reflexivity.
  exfalso. lia.
Qed.

(** parse_hex_exact: the encoding of exactly the number denoted, or an error when no
    finite pattern of the format has that value. *)
Theorem C45_exact_partial : forall bits sig_bits s neg N k P,
  supported bits sig_bits -> denotes s neg (Fin N k P) -> tractable bits sig_bits s neg (Fin N k P) ->
  exists res, parse_hex_exact s bits sig_bits = Ok res /\
    match res with
    | inr r => is_float (Fmt bits sig_bits) r /\ is_finite (Fmt bits sig_bits) r /\
               sign_of (Fmt bits sig_bits) r = neg /\ value (Fmt bits sig_bits) r = lit_value neg N k P
    | inl e => (e = TooHuge \/ e = TooTiny \/ e = TooPrecise) /\
               forall r, is_float (Fmt bits sig_bits) r -> is_finite (Fmt bits sig_bits) r ->
                 value (Fmt bits sig_bits) r <> lit_value neg N k P
    end.
Proof.
  intros bits sig_bits s neg N k P HS HD HT. pose proof (supported_cfg _ _ HS) as C.
  exact (HexProofs6.exact_ok _ C s neg N k P HD (proj1 HT) (tractable_range _ _ _ _ _ HT)).
Qed.

(** ** Where the full statement fails *)
Definition str_1p (e : list Z) : list Z := [48; 120; 49; 112] ++ e.
Lemma den_1p e ed : Forall2 decd e ed -> ed <> [] -> denotes (str_1p e) false (Fin 1 0 (num 10 ed)).
Proof.
  intros F NE. apply (den_fin [] false 120 [49] [] [] [1] 112 [] false e ed); unfold letter, opt_sign; auto; try discriminate.
  constructor; [unfold hexd; lia|constructor].
Qed.
Ltac decs := repeat (constructor; [unfold decd; lia|]); constructor.

(** "0x1p65536" read as an f128 is 1.0, with no overflow reported: the exponent field is
    shifted out of the 128-bit word. *)
Theorem C45_f128_wraps_refuted : exists s r, denotes s false (Fin 1 0 65536) /\
  parse_any s 128 112 Nearest = Ok (inr (r, 0)) /\ value F128 r = 1%R /\
  ~ parsed F128 ToNearest false (Fin 1 0 65536) r 0.
Proof.
  exists (str_1p [54; 53; 53; 51; 54]), (16383 * 2 ^ 112).
  split; [apply (den_1p _ [6; 5; 5; 3; 6]); [decs|discriminate]|]. split; [vm_compute; reflexivity|].
  assert (value F128 (16383 * 2 ^ 112) = 1%R) as V1.
  { change F128 with (Fmt 128 112). unfold value.
    change (exp_field _ _) with 16383. change (sign_of _ _) with false. change (frac_field _ _) with 0. change (16383 =? 0) with false. cbv iota.
    change (2 ^ fs (Fmt 128 112) + 0) with (2 ^ 112). change (16383 - bias _ - fs _) with (-112). rewrite <- HexProofs2.bpow_pow2 by lia. rewrite <- bpow_plus. reflexivity. }
  split; [exact V1|]. intros [_ (ov & un & ix & E & O & _)].
  assert (ov = false) as -> by (destruct ov, un, ix; try reflexivity; discriminate).
  assert (false = true); [|discriminate]. apply O. clear O.
  assert (lit_value false 1 0 65536 = bpow radix2 65536) as -> by (unfold lit_value; rewrite Rmult_1_l; reflexivity).
  assert (round_in F128 ToNearest (bpow radix2 65536) = bpow radix2 65536) as ->.
  { unfold round_in. apply round_generic; [apply HexProofs.valid_rnd|]. apply generic_format_bpow. unfold FLT_exp.
    change (emin F128) with (-16494). change (prec F128) with 113. lia. }
  rewrite Rabs_pos_eq by apply bpow_ge_0. apply bpow_le. change (emax F128) with 16384. lia.
Qed.

(** A huge exponent makes the parser panic (with overflow checks) instead of returning an
    infinity: the first two overflow the accumulation of the digits and the last the
    exponent arithmetic. *)
Theorem C45_exponent_refuted :
  (exists s P, denotes s false (Fin 1 0 P) /\ parse_any s 32 23 Nearest = Err Panic) /\
  (exists s, denotes s false (Fin 1 0 (2 ^ 32)) /\ forall m, parse_any s 64 52 m = Err Panic) /\
  (exists s, denotes s false (Fin 1 0 (2 ^ 31 - 1)) /\ forall m, parse_any s 32 23 m = Err Panic).
Proof.
  split; [|split].
  - exists (str_1p [57; 57; 57; 57; 57; 57; 57; 57; 57; 57; 57; 57]), 999999999999.
    split; [|reflexivity]. apply (den_1p _ [9; 9; 9; 9; 9; 9; 9; 9; 9; 9; 9; 9]); [decs|discriminate].
  - exists (str_1p [52; 50; 57; 52; 57; 54; 55; 50; 57; 54]).
    split; [|intros []; reflexivity]. apply (den_1p _ [4; 2; 9; 4; 9; 6; 7; 2; 9; 6]); [decs|discriminate].
  - exists (str_1p [50; 49; 52; 55; 52; 56; 51; 54; 52; 55]).
    split; [|intros []; reflexivity]. apply (den_1p _ [2; 1; 4; 7; 4; 8; 3; 6; 4; 7]); [decs|discriminate].
Qed.

(** A format without fraction bits passes the configuration check and panics. *)
Theorem C45_no_fraction_refuted : forall s m, parse_any s 3 0 m = Err Panic.
Proof. intros s m. unfold parse_any. destruct (take_sign s). reflexivity. Qed.

(** * Printing *)
(** Printing a finite float writes a literal that denotes exactly its value, and reading
    it back returns the same bits: with any rounding mode and no status flag, and with
    the exact parser. *)
Theorem C46_round_trip : forall f x, std f -> is_float f x -> is_finite f x ->
  exists s N k P, fmt_any_hex f x = Ok s /\
    denotes s (sign_of f x) (Fin N k P) /\ lit_value (sign_of f x) N k P = value f x /\
    (forall m, parse_any s (fb f) (fs f) m = Ok (inr (x, 0))) /\ hf f s = Ok x.
Proof.
  intros f x ST Fx Nx. pose proof (std_wf f ST) as W. destruct (split_float f W x Fx) as (s & n & -> & Hn).
  apply (is_finite_mk f W) in Nx; [|exact Hn]. rewrite (sign_of_mk f W) by exact Hn.
  destruct (HexProofs7.fmt_finite f ST s n ltac:(lia)) as (str & N & k & P & E & D & V & HP & HL).
  exists str, N, k, P. split; [exact E|]. split; [exact D|]. split; [exact V|].
  assert (0 <= n < inf f) as Hi by lia.
  split; [intros m; apply (HexProofs7.read_back f ST s n str N k P m Hi D V HP HL)|apply (HexProofs7.read_back f ST s n str N k P Nearest Hi D V HP HL)].
Qed.

(** The infinities. *)
Theorem C46_infinity : forall f x, std f -> is_float f x -> is_inf f x ->
  exists s, fmt_any_hex f x = Ok s /\ denotes s (sign_of f x) Inf /\
    (forall m, parse_any s (fb f) (fs f) m = Ok (inr (x, 0))) /\ hf f s = Ok x.
Proof.
  intros f x ST Fx Nx. pose proof (std_wf f ST) as W. destruct (split_float f W x Fx) as (s & n & -> & Hn).
  apply (is_inf_mk f W) in Nx; [|exact Hn]. subst n. rewrite (sign_of_mk f W) by exact Hn.
  exists (HexProofs7.sign_char s :: [105; 110; 102]). split; [apply HexProofs7.fmt_inf; exact ST|].
  split; [apply (den_inf [HexProofs7.sign_char s] s); unfold letter; [apply HexProofs7.sign_char_ok|lia..]|].
  assert (forall m, parse_any (HexProofs7.sign_char s :: [105; 110; 102]) (fb f) (fs f) m = Ok (inr (b2z s * 2 ^ (fb f - 1) + inf f, 0))) as PA.
  { intros m. destruct ST as [->|[->|[->| ->]]], s, m; vm_compute; reflexivity. }
  split; [exact PA|]. unfold hf, parse_hex_exact. rewrite PA. cbn. f_equal. apply Z.mod_small. exact Fx.
Qed.

(** A NaN is written as its sign, "qNaN" or "sNaN", and its payload (the fraction below
    the quiet bit) in hexadecimal. The parser does not accept this form. *)
Theorem C46_nan : forall f x, std f -> is_float f x -> is_nan f x ->
  exists cs ds s,
    s = (if sign_of f x then 45 else 43) :: (if frac_field f x <? 2 ^ (fs f - 1) then 115 else 113) :: [78; 97; 78; 40; 48; 120] ++ cs ++ [41] /\
    fmt_any_hex f x = Ok s /\ Forall2 hexd cs ds /\ num 16 ds = frac_field f x mod 2 ^ (fs f - 1) /\
    Z.of_nat (length cs) = (fs f + 3) / 4 /\
    (forall m, parse_any s (fb f) (fs f) m = Ok (inl NoHexIndicator)).
Proof.
  intros f x ST Fx Nx. pose proof (std_wf f ST) as W. destruct (split_float f W x Fx) as (s & n & -> & Hn).
  apply (is_nan_mk f W) in Nx; [|exact Hn]. rewrite (sign_of_mk f W), (frac_field_mk f W) by exact Hn.
  destruct (HexProofs7.fmt_nan f ST s n ltac:(lia)) as (cs & ds & E & F & V & L). fold (HexProofs7.sign_char s).
  exists cs, ds, (HexProofs7.sign_char s :: (if n mod 2 ^ fs f <? 2 ^ (fs f - 1) then 115 else 113) :: [78; 97; 78; 40; 48; 120] ++ cs ++ [41]).
  split; [reflexivity|]. split; [exact E|]. split; [exact F|]. split; [exact V|]. split; [exact L|].
  intros m. set (k := if n mod 2 ^ fs f <? 2 ^ (fs f - 1) then 115 else 113).
  assert (k = 115 \/ k = 113) as Hk by (unfold k; destruct (_ <? _); auto).
  rewrite (HexProofs5.parse_any_unfold f (HexProofs7.std_cfg f ST) _ m s (k :: [78; 97; 78; 40; 48; 120] ++ cs ++ [41])); [|destruct s; reflexivity].
  destruct Hk as [-> | ->]; reflexivity.
Qed.

(** Printing loses nothing: two floats, NaNs included, that print the same are the same. *)
Theorem C46_injective : forall f x y, std f -> is_float f x -> is_float f y ->
  fmt_any_hex f x = fmt_any_hex f y -> x = y.
Proof.
  intros f x y ST Fx Fy E.
  assert (forall x, is_float f x -> ~ is_nan f x -> exists s, fmt_any_hex f x = Ok s /\ parse_any s (fb f) (fs f) Nearest = Ok (inr (x, 0))) as G.
  { intros z Fz Nz. pose proof (std_wf f ST) as W. destruct (split_float f W z Fz) as (t & n & Ez & Hn).
    destruct (Z.lt_trichotomy n (inf f)) as [L|[L|L]].
    - destruct (C46_round_trip f z ST Fz) as (s & N & k & P & E1 & _ & _ & E2 & _); [subst z; apply (is_finite_mk f W); [exact Hn|exact L]|]. eauto.
    - destruct (C46_infinity f z ST Fz) as (s & E1 & _ & E2 & _); [subst z; apply (is_inf_mk f W); [exact Hn|exact L]|]. eauto.
    - exfalso. apply Nz. subst z. apply (is_nan_mk f W); [exact Hn|exact L]. }
  assert (forall x, is_nan f x \/ ~ is_nan f x) as DN.
  { intros z. unfold is_nan. destruct (Z.eq_dec (exp_field f z) (exp_all_ones f)), (Z.eq_dec (frac_field f z) 0); tauto. }
  destruct (DN x) as [Nx|Nx], (DN y) as [Ny|Ny].
  - pose proof (std_wf f ST) as W.
    destruct (split_float f W x Fx) as (s & n & -> & Hn). destruct (split_float f W y Fy) as (t & m & -> & Hm).
    apply (is_nan_mk f W) in Nx; [|exact Hn]. apply (is_nan_mk f W) in Ny; [|exact Hm].
    destruct (HexProofs7.fmt_nan f ST s n ltac:(lia)) as (cs & ds & E1 & F1 & V1 & L1).
    destruct (HexProofs7.fmt_nan f ST t m ltac:(lia)) as (cs' & ds' & E2 & F2 & V2 & L2).
    rewrite E1, E2 in E. clear E1 E2. injection E. intros Ecs Ek Es.
    assert (s = t) as -> by (destruct s, t; try reflexivity; discriminate).
    apply app_inj_tail in Ecs as [<- _].
    assert (ds = ds') as <-.
    { clear - F1 F2. revert ds' F2. induction F1 as [|c d l l' Hc F IH]; intros ds' F2; inversion F2; subst; [reflexivity|]. f_equal; [|apply IH; assumption].
      unfold hexd in *. lia. }
    rewrite V1 in V2.
    pose proof (S_pos f W) as SP. assert (0 < 2 ^ (fs f - 1)) as QP by (apply pow2_pos; destruct W; lia).
    assert (2 ^ fs f = 2 * 2 ^ (fs f - 1)) as SE by (destruct W; apply pow2_S; lia).
    pose proof (Z.mod_pos_bound n (2 ^ fs f) SP). pose proof (Z.mod_pos_bound m (2 ^ fs f) SP).
    assert (n mod 2 ^ fs f = m mod 2 ^ fs f) as EM.
    { set (q := 2 ^ (fs f - 1)) in *. set (a := n mod 2 ^ fs f) in *. set (b := m mod 2 ^ fs f) in *.
      assert (forall a, q <= a < 2 * q -> a mod q = a - q) as MQ by (intros z Hz; symmetry; apply (Z.mod_unique _ _ 1); lia).
      destruct (Z.ltb_spec a q), (Z.ltb_spec b q); try discriminate.
      - rewrite !Z.mod_small in V2 by lia. exact V2.
      - rewrite !MQ in V2 by lia. lia. }
    assert (n / 2 ^ fs f = m / 2 ^ fs f) as ED.
    { assert (forall n, inf f < n < 2 ^ (fb f - 1) -> n / 2 ^ fs f = 2 ^ eb f - 1) as G1.
      { intros z Hz. unfold inf in Hz. rewrite (B_eq f W) in Hz. symmetry.
        apply (Z.div_unique _ _ _ (z - 2 ^ fs f * (2 ^ eb f - 1))); nia. }
      rewrite !G1 by lia. reflexivity. }
    rewrite (Z.div_mod n (2 ^ fs f)), (Z.div_mod m (2 ^ fs f)), EM, ED by lia. reflexivity.
  - exfalso. destruct (C46_nan f x ST Fx Nx) as (cs & ds & s & _ & E1 & _ & _ & _ & E2). destruct (G y Fy Ny) as (s' & E3 & E4).
    assert (s = s') as <- by congruence. rewrite E2 in E4. discriminate.
  - exfalso. destruct (C46_nan f y ST Fy Ny) as (cs & ds & s & _ & E1 & _ & _ & _ & E2). destruct (G x Fx Nx) as (s' & E3 & E4).
    assert (s = s') as <- by congruence. rewrite E2 in E4. discriminate.
  - destruct (G x Fx Nx) as (s & E1 & E2). destruct (G y Fy Ny) as (s' & E3 & E4).
    assert (s = s') as <- by congruence. congruence.
Qed.

(** Concrete cases. *)
Definition s_pi : list Z := (* "-0x1.921fb54442d18p+1" *)
  [45; 48; 120; 49; 46; 57; 50; 49; 102; 98; 53; 52; 52; 52; 50; 100; 49; 56; 112; 43; 49].
Example ex_hex_den : denotes s_pi true (Fin 0x1921fb54442d18 13 1) /\ tractable 64 52 s_pi true (Fin 0x1921fb54442d18 13 1) /\ supported 64 52.
Proof.
  split; [|split; [|unfold supported; lia]].
  - apply (den_fin [45] true 120 [49] [46] [57; 50; 49; 102; 98; 53; 52; 52; 52; 50; 100; 49; 56] [1; 9; 2; 1; 15; 11; 5; 4; 4; 4; 2; 13; 1; 8] 112 [43] false [49] [1]);
      unfold letter, opt_sign; auto; try discriminate; [|decs].
    repeat (constructor; [unfold hexd; lia|]). constructor.
  - split; [cbn; lia|]. split; [lia|left; lia].
Qed.
Example ex_hex_parse : parse_any s_pi 64 52 Nearest = Ok (inr (0xc00921fb54442d18, 0)) /\ parse_any s_pi 32 23 Nearest = Ok (inr (0xc0490fdb, 16)) /\
  parse_any s_pi 32 23 Positive = Ok (inr (0xc0490fda, 16)) /\ parse_any s_pi 16 10 Zero = Ok (inr (0xc248, 16)) /\
  parse_hex_exact s_pi 32 23 = Ok (inl TooPrecise) /\ parse_any (str_1p [49; 50; 56]) 32 23 Negative = Ok (inr (0x7f7fffff, 20)).
Proof. repeat split; vm_compute; reflexivity. Qed.
Example ex_hex_reject : (forall neg l, ~ denotes [48; 120; 112; 49] neg l) /\ parse_any [48; 120; 112; 49] 64 52 Nearest = Ok (inl NoDigits) /\
  (forall a p es, [48; 120; 112; 49] = a ++ p :: es -> letter 80 p -> (length es <= 9)%nat).
Proof.
  split; [|split; [vm_compute; reflexivity|]].
  - intros neg l D. remember [48; 120; 112; 49] as s eqn:E1.
    destruct D as [sg ng x ip point fp ds p es en eds ed Hsg Hx HF Hds Hpt Hp He HD Hed|sg ng a b c Hsg Ha Hb Hc|sg ng a b c Hsg Ha Hb Hc].
    all: assert (sg = [] \/ sg = [43] \/ sg = [45]) as [-> |[-> | ->]] by (unfold opt_sign in Hsg; destruct ng; tauto); try discriminate.
    injection E1 as -> E1.
    destruct ip as [|c1 ip]; [|injection E1 as -> E1; inversion HF; subst; unfold hexd in *; lia].
    destruct Hpt as [-> |[-> ->]]; [discriminate|]. inversion HF; subst; contradiction.
  - intros a p es E _. assert (length (a ++ p :: es) = 4)%nat as L by (rewrite <- E; reflexivity). rewrite app_length in L. cbn in L. lia.
Qed.
Example ex_hex_print : fmt_any_hex F64 0xc00921fb54442d18 = Ok s_pi /\
  fmt_any_hex F32 1 = Ok [43; 48; 120; 48; 46; 48; 48; 48; 48; 48; 50; 112; 45; 49; 50; 54] /\ is_finite F64 0xc00921fb54442d18 /\
  fmt_any_hex F16 0xfe01 = Ok [45; 113; 78; 97; 78; 40; 48; 120; 48; 48; 49; 41] /\ is_nan F16 0xfe01 /\ is_inf F16 0x7c00.
Proof. repeat split; vm_compute; try reflexivity; intros; congruence. Qed.

Definition HexProps_all := (C45_accepts_partial, C45_sound, C45_rejects_partial, C45_unsupported, C45_exact_partial, C45_f128_wraps_refuted,
  C45_exponent_refuted, C45_no_fraction_refuted, C46_round_trip, C46_infinity, C46_nan, C46_injective).
Print Assumptions HexProps_all.
