(** parse_any: literals are accepted, other strings are rejected; parse_hex_exact. *)
From Coq Require Import ZArith Reals Bool List Lia Lra Psatz.
From Flocq Require Import Core.
From Verif Require Import Base BaseLemmas FloatModel FloatSpec HexModel HexSpec HexProofs HexProofs2 HexProofs3 HexProofs4 HexProofs5.
From Verif Require FloatProofs.
Open Scope Z_scope.
Import ListNotations.

Section Fmt.
Context (f : fmt) (W : cfg f).
Notation S := (2 ^ fs f).
Notation B := (2 ^ (fb f - 1)).
Notation u := (bpow radix2 (emin f)).

(** The limits of the parser: see HexProps.v. *)
Definition in_range (neg : bool) (l : lit) : Prop :=
  match l with
  | Fin N k P => - 2 ^ 32 < P <= 2 ^ 30 /\
      (fs f <= 97 \/ (Rabs (lit_value neg N k P) < bpow radix2 (2 ^ (128 - fs f) - bias f))%R)
  | _ => True
  end.

Lemma lit_value_abs neg N k P : 0 <= N -> Rabs (lit_value neg N k P) = (IZR N * bpow radix2 (P - 4 * k))%R.
Proof using.
  intros H. unfold lit_value. assert (0 <= IZR N * bpow radix2 (P - 4 * k))%R.
  { apply Rmult_le_pos; [apply (IZR_le 0); lia|apply bpow_ge_0]. }
  destruct neg; rewrite ?Rabs_Ropp; apply Rabs_pos_eq; assumption.
Qed.

Lemma hex_branch s neg m x rest : take_sign s = (neg, 48 :: x :: rest) -> letter 88 x ->
  parse_any s (fb f) (fs f) m = (let* r := parse_finite rest (fb f) (fs f) (flip_mode neg m) in after_hex neg B r).
Proof using W.
  intros T H. rewrite (parse_any_unfold f W _ m neg _ T). apply is_letter_spec in H.
  destruct rest as [|c2 [|c3 r]]; cbn; rewrite H; reflexivity.
Qed.

Lemma accept_ok s neg l m : denotes s neg l -> Z.of_nat (length s) < 2 ^ 26 -> in_range neg l ->
  exists r st, parse_any s (fb f) (fs f) m = Ok (inr (r, st)) /\ parsed f (to_dir m) neg l r st.
Proof using W.
  pose proof (inf_pos f W) as IP. pose proof (S_pos f W) as SP.
  assert (S = 2 * 2 ^ (fs f - 1)) as SE by (destruct W; apply pow2_S; lia).
  assert (inf f + 2 ^ (fs f - 1) < B) as NB by (unfold FloatProofs.inf in *; lia).
  intros D Hlen HR. destruct D as [sg neg x ip point fp ds p es en eds ed Hsg Hx HF Hds Hpt Hp He HD Hed|sg neg a b c Hsg Ha Hb Hc|sg neg a b c Hsg Ha Hb Hc].
  - cbn [in_range] in HR. destruct HR as [HP HW]. rewrite lit_value_abs in HW by (apply (num16_nonneg _ _ HF)).
    assert (take_sign (sg ++ 48 :: x :: ip ++ point ++ fp ++ p :: es ++ eds) = (neg, 48 :: x :: ip ++ point ++ fp ++ p :: es ++ eds)) as T
      by (apply take_sign_opt; [assumption|lia|lia]).
    rewrite (hex_branch _ neg m x _ T Hx).
    assert (Z.of_nat (length (ip ++ fp)) < 2 ^ 26) as HL.
    { rewrite app_length in *. cbn [length] in Hlen. rewrite !app_length in Hlen. lia. }
    destruct (finite_ok f W ip point fp ds p es en eds ed (flip_mode neg m) HF Hds Hpt Hp He HD Hed HL HP HW) as (r & st & -> & M).
    cbn [bind after_hex]. set (X := (IZR (num 16 ds) * bpow radix2 _)%R) in M.
    assert (0 <= X)%R as HX by (apply Rmult_le_pos; [apply (IZR_le 0), (num16_nonneg _ _ HF)|apply bpow_ge_0]).
    destruct (finish_sign f W m neg X r st HX M) as (Rd & St & Hr).
    rewrite (signed_mk f W) by assumption. eexists _, _. split; [reflexivity|]. cbn [parsed]. split; assumption.
  - assert (take_sign (sg ++ [a; b; c]) = (neg, [a; b; c])) as T by (apply take_sign_opt; [assumption|unfold letter in Ha; lia..]).
    rewrite (parse_any_unfold f W _ m neg _ T). apply is_letter_spec in Ha, Hb, Hc. rewrite Ha, Hb, Hc. cbn [andb after_hex].
    rewrite (signed_mk f W) by lia. eexists _, _. split; [reflexivity|]. cbn [parsed].
    split; [apply (is_float_mk f W); lia|]. split; [apply (is_inf_mk f W); lia|]. split; [apply (sign_of_mk f W); lia|reflexivity].
  - assert (take_sign (sg ++ [a; b; c]) = (neg, [a; b; c])) as T by (apply take_sign_opt; [assumption|unfold letter in Ha; lia..]).
    rewrite (parse_any_unfold f W _ m neg _ T).
    assert (is_letter 73 a = false) as ->. { destruct (is_letter 73 a) eqn:E; [|reflexivity]. apply is_letter_spec in E. unfold letter in *. lia. }
    apply is_letter_spec in Ha, Hb, Hc. rewrite Ha, Hb, Hc. cbn [andb after_hex].
    rewrite (signed_mk f W) by (assert (0 < 2 ^ (fs f - 1)) by lia; lia). eexists _, _. split; [reflexivity|]. cbn [parsed].
    assert (0 <= inf f + 2 ^ (fs f - 1) < B) as NB2 by lia.
    split; [apply (is_float_mk f W); assumption|]. split; [apply (is_qnan_mk f W); [assumption|lia]|]. split; [apply (sign_of_mk f W); assumption|reflexivity].
Qed.

(** parse_finite follows parse_hex. *)
Lemma parse_finite_pre b m : exists K : Z -> Z -> res (herr + (Z * Z)),
  parse_finite b (fb f) (fs f) m = (let* r := parse_hex b in match r with inl e => Ok (inl e) | inr (sig, exp) => K sig exp end).
Proof using W.
  unfold parse_finite. pose proof (bias_big f W) as BB. pose proof (emin_big f W) as EM. destruct W as [Ws We Wb W8].
  rewrite csub_u by (change (2 ^ 32) with (2 * 2 ^ 31); lia). cbn [bind].
  rewrite csub_u by (change (2 ^ 32) with (2 * 2 ^ 31); lia). cbn [bind].
  replace (fb f - fs f - 1) with (eb f) by lia.
  rewrite csub_u by (change (2 ^ 32) with (2 * 2 ^ 31); lia). cbn [bind].
  rewrite cshl_ok by (rewrite bits_s; lia). rewrite Z.mul_1_l.
  assert (2 ^ (eb f - 1) = bias f + 1) as -> by (rewrite (bias_eq f W); lia).
  rewrite (norm_id (SI 32) ltac:(rewrite bits_s; lia) (bias f + 1)) by (apply cfits; lia). cbn [bind].
  unfold csub at 1. rewrite chk_ok by (apply cfits; lia). cbn [bind].
  unfold csub at 1. rewrite chk_ok by (apply cfits; lia). cbn [bind].
  rewrite (norm_id (SI 32) ltac:(rewrite bits_s; lia) (fs f)) by (apply cfits; lia).
  unfold csub at 1. rewrite chk_ok by (apply cfits; lia). cbn [bind].
  eexists (fun sig exp => _). reflexivity.
Qed.

Lemma parse_any_sound s m r : parse_any s (fb f) (fs f) m = Ok (inr r) -> exists neg l, denotes s neg l.
Proof using W.
  destruct (take_sign s) as [neg b] eqn:T. rewrite (parse_any_unfold f W s m neg b T). destruct (take_sign_sound _ _ _ T) as (sg & Hsg & ->).
  assert (forall b, parse_hex_part f neg m b = Ok (inr r) -> exists l, denotes (sg ++ b) neg l) as HH.
  { clear T b. intros b. unfold parse_hex_part. destruct b as [|c0 [|c1 rest]]; try discriminate.
    destruct (Z.eqb_spec c0 48) as [->|]; [|discriminate]. destruct (is_letter 88 c1) eqn:L; cbn [andb]; [|discriminate]. apply is_letter_spec in L.
    destruct (parse_finite_pre rest (flip_mode neg m)) as (K & ->).
    destruct (parse_hex rest) as [[e|[sig exp]]|] eqn:PH; cbn [bind after_hex]; try discriminate. intros _.
    destruct (parse_hex_sound _ _ _ PH) as (ip & point & fp & ds & p & es & en & eds & ed & -> & HF & Hds & Hpt & Hp & He & HD & Hed).
    eexists. eapply den_fin; eassumption. }
  destruct b as [|c0 [|c1 [|c2 [|c3 b]]]]; try (intros H; destruct (HH _ H); eauto; fail).
  destruct (is_letter 73 c0 && is_letter 78 c1 && is_letter 70 c2) eqn:L1.
  { intros _. apply andb_prop in L1 as [L1 L3]. apply andb_prop in L1 as [L1 L2]. apply is_letter_spec in L1, L2, L3. eauto using den_inf. }
  destruct (is_letter 78 c0 && is_letter 65 c1 && is_letter 78 c2) eqn:L2.
  { intros _. apply andb_prop in L2 as [L2 L4]. apply andb_prop in L2 as [L2 L3]. apply is_letter_spec in L2, L3, L4. eauto using den_nan. }
  intros H. destruct (HH _ H). eauto.
Qed.

Lemma parse_hex_no_panic b : Z.of_nat (length b) < 2 ^ 26 ->
  (forall a p es, b = a ++ p :: es -> letter 80 p -> (length es <= 9)%nat) -> exists r, parse_hex b = Ok r.
Proof using.
  intros Hlen Hexp. unfold parse_hex.
  destruct (hex_digits_no_panic b 0 0 false false false ltac:(lia) ltac:(change (2 ^ 30) with (16 * 2 ^ 26); lia) ltac:(change (2 ^ 30) with (16 * 2 ^ 26); lia)) as (r & E).
  rewrite E. cbn [bind]. destruct r as [e|[[[[s e] sm] i] rest]]; [eauto|]. destruct sm; cbn [negb]; [|eauto].
  destruct (hex_digits_sound _ _ _ _ _ _ _ _ _ _ _ E) as (ip & point & fp & ds & tl & -> & _ & _ & Ht & _).
  assert (length rest <= 9)%nat as L9.
  { destruct Ht as [[_ ->]|(p & Hp & ->)]; [cbn; lia|]. apply (Hexp (ip ++ point ++ fp) p rest); [rewrite <- !app_assoc; reflexivity|assumption]. }
  destruct (take_sign rest) as [ng rest'] eqn:E2. destruct (take_sign_sound _ _ _ E2) as (sg & _ & ->). rewrite app_length in L9.
  destruct (dec_digits_no_panic rest' 0 false ltac:(lia)) as (r & ->).
  { apply Z.le_lt_trans with (10 ^ 9); [|reflexivity]. rewrite Z.mul_1_l. apply Z.pow_le_mono_r; lia. }
  cbn [bind]. destruct r as [e2|[P sm]]; [eauto|]. destruct sm; cbn [negb]; eauto.
Qed.

Lemma reject_ok s m : Z.of_nat (length s) < 2 ^ 26 -> (forall neg l, ~ denotes s neg l) ->
  (forall a p es, s = a ++ p :: es -> letter 80 p -> (length es <= 9)%nat) ->
  exists e, parse_any s (fb f) (fs f) m = Ok (inl e).
Proof using W.
  intros Hlen HN Hexp.
  assert (forall r, parse_any s (fb f) (fs f) m <> Ok (inr r)) as NR.
  { intros r H. destruct (parse_any_sound _ _ _ H) as (neg & l & D). exact (HN _ _ D). }
  assert (exists r, parse_any s (fb f) (fs f) m = Ok r) as (r & E).
  { destruct (take_sign s) as [neg b] eqn:T. rewrite (parse_any_unfold f W s m neg b T) in *. destruct (take_sign_sound _ _ _ T) as (sg & Hsg & ->).
    assert (exists r, parse_hex_part f neg m b = Ok r \/ exists l, denotes (sg ++ b) neg l) as (r & [HH|(l & D)]); [| |exfalso; exact (HN _ _ D)].
    { unfold parse_hex_part. destruct b as [|c0 [|c1 rest]]; try (eexists; left; reflexivity).
      destruct (Z.eqb_spec c0 48) as [->|]; [|eexists; left; reflexivity].
      destruct (is_letter 88 c1) eqn:L; cbn [andb]; [|eexists; left; reflexivity]. apply is_letter_spec in L.
      destruct (parse_finite_pre rest (flip_mode neg m)) as (K & ->).
      destruct (parse_hex_no_panic rest) as (r & PH).
      - rewrite app_length in Hlen. cbn [length] in Hlen. lia.
      - intros a p es -> Hp. apply (Hexp (sg ++ 48 :: c1 :: a) p es); [|assumption]. rewrite <- app_assoc. reflexivity.
      - rewrite PH. cbn [bind]. destruct r as [e|[sig exp]]; [eexists; left; reflexivity|].
        exists (inl NoDigits). right.
        destruct (parse_hex_sound _ _ _ PH) as (ip & point & fp & ds & p & es & en & eds & ed & -> & HF & Hds & Hpt & Hp & He & HD & Hed).
        eexists. eapply den_fin; eassumption. }
    destruct b as [|c0 [|c1 [|c2 [|c3 b]]]]; rewrite ?HH; eauto.
    unfold after_hex. destruct (is_letter 73 c0 && is_letter 78 c1 && is_letter 70 c2); [eauto|].
    destruct (is_letter 78 c0 && is_letter 65 c1 && is_letter 78 c2); rewrite ?HH; eauto. }
  destruct r as [e|r]; [eauto|]. exfalso. exact (NR _ E).
Qed.

(** Every finite pattern is its own rounding. *)
Lemma value_exact d r : is_float f r -> is_finite f r -> round_in f d (value f r) = value f r /\ (Rabs (value f r) < bpow radix2 (emax f))%R.
Proof using W.
  intros Fr Hf. destruct (split_float f W r Fr) as (s & n & -> & Hn). apply (is_finite_mk f W) in Hf; [|assumption].
  rewrite (value_mk f W) by assumption. set (v := (IZR (V f n) * u)%R).
  assert (0 <= v)%R as V0 by (apply Rmult_le_pos; [apply (IZR_le 0), V_nonneg; [assumption|lia]|apply bpow_ge_0]).
  assert (v < bpow radix2 (emax f))%R as VM.
  { rewrite <- (V_inf f W). apply Rmult_lt_compat_r; [apply bpow_gt_0|]. apply IZR_lt, V_lt; [assumption|lia]. }
  assert (forall d, round_in f d v = v) as VR.
  { intros d'. destruct (enc_dec f W n ltac:(lia)) as (E & q & -> & HE & Hq & Hc).
    assert (v = IZR q * bpow radix2 (E - 1 + emin f))%R as ->.
    { unfold v. rewrite (V_enc f W) by lia. rewrite mult_IZR, <- bpow_pow2 by lia. rewrite Rmult_assoc, <- bpow_plus. reflexivity. }
    rewrite (round_scaled f W); [|lia|split; [apply (IZR_le 0); lia|apply IZR_lt; lia]|destruct Hc; [left; assumption|right; apply IZR_le; assumption]].
    f_equal. apply f_equal. apply (@Zrnd_IZR (rnd d') (HexProofs.valid_rnd d')). }
  destruct s.
  - rewrite round_in_opp, VR, Rabs_Ropp, Rabs_pos_eq by assumption. auto.
  - rewrite VR, Rabs_pos_eq by assumption. auto.
Qed.

(** parse_hex_exact *)
Lemma exact_ok s neg N k P : denotes s neg (Fin N k P) -> Z.of_nat (length s) < 2 ^ 26 -> in_range neg (Fin N k P) ->
  exists res, parse_hex_exact s (fb f) (fs f) = Ok res /\
    match res with
    | inr r => is_float f r /\ is_finite f r /\ sign_of f r = neg /\ value f r = lit_value neg N k P
    | inl e => (e = TooHuge \/ e = TooTiny \/ e = TooPrecise) /\
               forall r, is_float f r -> is_finite f r -> value f r <> lit_value neg N k P
    end.
Proof using W.
  intros D Hlen HR. unfold parse_hex_exact. destruct (accept_ok s neg _ Nearest D Hlen HR) as (r & st & -> & HP & HS). cbn [bind].
  set (x := lit_value neg N k P) in *. change (to_dir Nearest) with ToNearest in *.
  destruct HP as (P1 & P2 & P3). cbv zeta in P3. unfold status_ok in HS. cbv zeta in HS. destruct HS as (ov & un & ix & -> & O & U & I).
  set (y := round_in f ToNearest x) in *.
  assert ((ov = true \/ un = true \/ ix = true) -> forall r, is_float f r -> is_finite f r -> value f r <> x) as NV.
  { intros H r' F1 F2 E. destruct (value_exact ToNearest r' F1 F2) as [E1 E2]. rewrite E in E1, E2. fold y in E1.
    rewrite E1 in O, U, I. destruct H as [H|[H|H]]; [apply O in H; lra|apply U in H; tauto|apply I in H as [H|H]; [lra|tauto]]. }
  destruct ov, un, ix; cbn; eexists; (split; [reflexivity|]); try (split; [tauto|apply NV; tauto]).
  split; [exact P1|].
  destruct (Rlt_bool_spec (Rabs y) (bpow radix2 (emax f))) as [L|L].
  - destruct P3 as [P3 P4]. split; [exact P3|]. split; [exact P2|]. rewrite P4.
    destruct (Req_dec y x) as [|NE]; [assumption|]. assert (false = true) by (apply I; tauto). discriminate.
  - assert (false = true) by (apply O; lra). discriminate.
Qed.
End Fmt.
