(** fmt_any_hex: what is printed denotes the number, and reading it back gives it. *)
From Coq Require Import ZArith Reals Bool List Lia Lra Psatz.
From Flocq Require Import Core.
From Verif Require Import Base BaseLemmas FloatModel FloatSpec LibmModel HexModel HexSpec.
From Verif Require Import FloatProofs FloatProofs2 FloatProofs7 FloatLib LibmProofs.
From Verif Require HexProofs HexProofs2 HexProofs3 HexProofs4 HexProofs6.
Open Scope Z_scope.
Import ListNotations.

Lemma std_cfg f : std f -> HexProofs.cfg f.
Proof. intros [->|[->|[->| ->]]]; split; unfold eb; cbn; lia. Qed.

(** Digits. *)
Section Digits.
Context (base : Z) (Q : Z -> Z -> Prop).
Hypothesis (Hb : 2 <= base) (HQ : forall d, 0 <= d < base -> Q (digit_char d) d).

Lemma digits_fuel_ok k : forall n, 0 <= n -> Z.log2 n < Z.of_nat k ->
  exists ds, Forall2 Q (digits_fuel k base n) ds /\ num base ds = n /\ ds <> [] /\
    forall w, 1 <= w -> n < base ^ w -> Z.of_nat (length ds) <= w.
Proof using Hb HQ.
  induction k as [|k IH]; intros n Hn Hl; [pose proof (Z.log2_nonneg n); lia|]. cbn [digits_fuel].
  pose proof (Z.mod_pos_bound n base ltac:(lia)) as MB. pose proof (Z.div_mod n base ltac:(lia)) as DM.
  destruct (Z.ltb_spec n base) as [L|L].
  - exists [n mod base]. rewrite Z.mod_small by lia. split; [constructor; [apply HQ; lia|constructor]|].
    split; [unfold num; cbn; lia|]. split; [discriminate|]. intros w Hw _. cbn. lia.
  - destruct (IH (n / base)) as (ds & F & E & NE & LE).
    + apply Z.div_pos; lia.
    + apply Z.le_lt_trans with (Z.log2 (n / 2)).
      * apply Z.log2_le_mono, Z.div_le_compat_l; lia.
      * assert (Z.log2 n = Z.log2 (n / 2) + 1); [|lia]. pose proof (Z.div_mod n 2 ltac:(lia)). pose proof (Z.mod_pos_bound n 2 ltac:(lia)).
        rewrite <- Z.div2_div. rewrite Z.div2_spec, Z.log2_shiftr by lia.
        assert (1 <= Z.log2 n) by (apply Z.log2_le_pow2; lia). lia.
    + exists (ds ++ [n mod base]). split; [apply Forall2_app; [assumption|constructor; [apply HQ; lia|constructor]]|].
      split; [rewrite HexProofs4.num_app, E; lia|]. split; [destruct ds; discriminate|].
      intros w Hw HL. rewrite app_length. cbn [length].
      assert (w <> 1) by (intros ->; rewrite Z.pow_1_r in HL; lia).
      specialize (LE (w - 1) ltac:(lia)).
      assert (n / base < base ^ (w - 1)); [|lia]. apply Z.div_lt_upper_bound; [lia|].
      rewrite <- Z.pow_succ_r by lia. replace (Z.succ (w - 1)) with w by lia. assumption.
Qed.
Lemma digits_ok n : 0 <= n -> exists ds, Forall2 Q (digits base n) ds /\ num base ds = n /\ ds <> [] /\
  forall w, 1 <= w -> n < base ^ w -> Z.of_nat (length ds) <= w.
Proof using Hb HQ. intros Hn. apply digits_fuel_ok; [assumption|]. pose proof (Z.log2_nonneg n). lia. Qed.
End Digits.

Lemma num_zeros base k ds : num base (repeat 0 k ++ ds) = num base ds.
Proof.
  induction k as [|k IH]; [reflexivity|]. cbn [repeat app]. rewrite HexProofs4.num_cons, IH. lia.
Qed.
Lemma hexd_char d : 0 <= d < 16 -> hexd (digit_char d) d.
Proof. intros H. unfold digit_char, hexd. destruct (Z.ltb_spec d 10); lia. Qed.
Lemma decd_char d : 0 <= d < 10 -> decd (digit_char d) d.
Proof. intros H. unfold digit_char, decd. destruct (Z.ltb_spec d 10); lia. Qed.

Lemma pad_ok w n : 1 <= w -> 0 <= n < 16 ^ w ->
  exists ds, Forall2 hexd (pad w (digits 16 n)) ds /\ num 16 ds = n /\ Z.of_nat (length ds) = w.
Proof.
  intros Hw Hn. destruct (digits_ok 16 hexd ltac:(lia) hexd_char n ltac:(lia)) as (ds & F & E & _ & LE).
  specialize (LE w Hw ltac:(lia)). pose proof (HexProofs4.Forall2_length _ _ _ F) as FL. unfold pad. rewrite FL.
  exists (repeat 0 (Z.to_nat (w - Z.of_nat (length ds))) ++ ds). split.
  - apply Forall2_app; [|assumption]. induction (Z.to_nat _) as [|k IH]; [constructor|]. constructor; [|exact IH]. unfold hexd. lia.
  - split; [rewrite num_zeros; assumption|]. rewrite app_length, repeat_length. lia.
Qed.
Lemma dec_ok n : exists es en ed, signed_dec n = es ++ digits 10 (Z.abs n) /\ opt_sign es en /\ Forall2 decd (digits 10 (Z.abs n)) ed /\ ed <> [] /\
  (if en then - num 10 ed else num 10 ed) = n.
Proof.
  destruct (digits_ok 10 decd ltac:(lia) decd_char (Z.abs n) ltac:(lia)) as (ed & F & E & NE & _).
  unfold signed_dec. destruct (Z.ltb_spec n 0).
  - exists [45], true, ed. cbn. rewrite E. repeat split; auto; lia.
  - exists [43], false, ed. cbn. rewrite E. repeat split; auto; lia.
Qed.
Lemma digits_len n : 0 <= n -> (length (digits 10 n) <= Z.to_nat (Z.log2 n + 1))%nat.
Proof.
  intros _. unfold digits. generalize (Z.to_nat (Z.log2 n + 1)) as k. intros k. revert n.
  induction k as [|k IH]; intros n; [cbn; lia|]. cbn [digits_fuel]. rewrite app_length. cbn [length].
  destruct (n <? 10); [cbn; lia|]. specialize (IH (n / 10)). lia.
Qed.

Section Fmt.
Context (f : fmt) (ST : std f).
Let W : wf f := std_wf f ST.
Notation S := (2 ^ fs f).
Notation B := (2 ^ (fb f - 1)).
Notation mk s n := (b2z s * B + n).

Definition sign_char (s : bool) : Z := if s then 45 else 43.
Lemma sign_char_ok s : opt_sign [sign_char s] s.
Proof using. destruct s; [reflexivity|right; reflexivity]. Qed.

Lemma value_parts s n : 0 <= n < B -> value f (mk s n) =
  let mag := if n / S =? 0 then (IZR (n mod S) * bpow radix2 (emin f))%R else (IZR (S + n mod S) * bpow radix2 (n / S - bias f - fs f))%R in
  if s then (- mag)%R else mag.
Proof using W. intros H. unfold value. rewrite (exp_field_mk f W), (frac_field_mk f W), (sign_of_mk f W) by assumption. reflexivity. Qed.

Lemma fmt_finite s n : 0 <= n < inf f ->
  exists str N k P, fmt_any_hex f (mk s n) = Ok str /\ denotes str s (Fin N k P) /\ lit_value s N k P = value f (mk s n) /\
    - 2 ^ 20 < P < 2 ^ 20 /\ Z.of_nat (length str) < 2 ^ 20.
Proof using W ST.
  intros Hn0. assert (0 <= n < B) as Hn by (pose proof (inf_pos f W); lia). pose proof (S_pos f W) as SP.
  unfold fmt_any_hex. rewrite (sign_negative_mk f W), (is_nanb_mk f W), (EXP_MASK_eq f W), (mag_of f W) by assumption.
  destruct (Z.ltb_spec (inf f) n); [lia|]. destruct (Z.eqb_spec n (inf f)); [lia|].
  fold (sign_char s). rewrite value_parts by assumption. cbv zeta.
  destruct (Z.eqb_spec n 0) as [->|N0].
  { exists [sign_char s; 48; 120; 48; 112; 43; 48], 0, 0, 0. split; [reflexivity|].
    split; [change (denotes ([sign_char s] ++ 48 :: 120 :: [48] ++ [] ++ [] ++ 112 :: [43] ++ [48]) s (Fin (num 16 [0]) (Z.of_nat (length (@nil Z))) (num 10 [0])))|].
    - apply (den_fin [sign_char s] s 120 [48] [] [] [0] 112 [43] false [48] [0]); try apply sign_char_ok; unfold letter, opt_sign; auto; try discriminate.
      + constructor; [unfold hexd; lia|constructor].
      + constructor; [unfold decd; lia|constructor].
    - split; [|cbn; lia]. rewrite Z.div_0_l, Z.mod_0_l by lia. unfold lit_value. cbn [Z.eqb]. rewrite !Rmult_0_l. destruct s; reflexivity. }
  pose proof (Z.mod_pos_bound n S ltac:(lia)) as MB. pose proof (div_range f W n Hn) as DR. pose proof (EB_big f W) as EB.
  pose proof (bias_range f W) as (BR & Eb & _).
  rewrite (exp_unbiased_mk f W) by assumption. cbn [bind]. rewrite <- Eb in *.
  assert (Z.land (mk s n) (SIG_MASK f) = n mod S) as ->.
  { rewrite (SIG_MASK_eq f W), land_ones_mod by (destruct W; lia).
    replace (mk s n) with (n + b2z s * 2 ^ eb f * S); [apply Z.mod_add; lia|]. rewrite (B_eq f W). ring. }
  set (sh := (4 - fs f mod 4) mod 4). set (w := (fs f + 3) / 4).
  assert (0 <= sh <= 3 /\ 4 * w = fs f + sh /\ 1 <= w <= 40 /\ fs f + sh <= fb f - 1) as (HS & HW & HW1 & HSB).
  { unfold sh, w. destruct ST as [->|[->|[->| ->]]]; cbn; lia. }
  assert (S * 2 ^ sh = 16 ^ w) as EW.
  { rewrite <- Z.pow_add_r by (destruct W; lia). rewrite <- HW. rewrite Z.pow_mul_r by lia. reflexivity. }
  pose proof (pow2_pos sh ltac:(lia)) as PS.
  unfold fI. rewrite cshl_u_exact; [|destruct W; lia|lia|]. 2: { apply Z.lt_le_trans with (2 ^ (fs f + sh)); [rewrite Z.pow_add_r by (destruct W; lia); nia|apply pow2_le; destruct W; lia]. }
  cbn [bind].
  destruct (pad_ok w (n mod S * 2 ^ sh) ltac:(lia)) as (ds & F & E & L); [split; nia|].
  assert (Forall2 hexd [49] [1]) as F1 by (constructor; [unfold hexd; lia|constructor]).
  assert (Forall2 hexd [48] [0]) as F0 by (constructor; [unfold hexd; lia|constructor]).
  assert (forall lead ld e, Forall2 hexd [lead] [ld] -> - 2 ^ 19 < e < 2 ^ 19 ->
    denotes (sign_char s :: 48 :: 120 :: lead :: 46 :: pad w (digits 16 (n mod S * 2 ^ sh)) ++ 112 :: signed_dec e) s (Fin (num 16 (ld :: ds)) w e) /\
    lit_value s (num 16 (ld :: ds)) w e = (let v := (IZR (ld * S + n mod S) * bpow radix2 (e - fs f))%R in if s then - v else v)%R /\
    - 2 ^ 20 < e < 2 ^ 20 /\ Z.of_nat (length (sign_char s :: 48 :: 120 :: lead :: 46 :: pad w (digits 16 (n mod S * 2 ^ sh)) ++ 112 :: signed_dec e)) < 2 ^ 20) as G.
  { intros lead ld e FL He. pose proof (HexProofs4.Forall2_length _ _ _ F) as LF.
    destruct (dec_ok e) as (es & en & ed & E1 & E2 & E3 & E4 & E5). split.
    - rewrite E1.
      pose proof (den_fin [sign_char s] s 120 [lead] [46] (pad w (digits 16 (n mod S * 2 ^ sh))) (ld :: ds) 112 es en (digits 10 (Z.abs e)) ed (sign_char_ok s)
        ltac:(unfold letter; lia) ltac:(apply (Forall2_app FL F)) ltac:(discriminate) ltac:(auto) ltac:(unfold letter; lia) E2 E3 E4) as D.
      cbn [app] in D. rewrite LF, L, E5 in D. exact D.
    - split; [|split; [lia|]].
      + unfold lit_value. cbv zeta. rewrite HexProofs4.num_cons, E, L.
        assert ((IZR (ld * 16 ^ w + n mod S * 2 ^ sh) * bpow radix2 (e - 4 * w) = IZR (ld * S + n mod S) * bpow radix2 (e - fs f))%R) as ->; [|destruct s; reflexivity].
        rewrite <- EW, Z.mul_assoc, <- Z.mul_add_distr_r, mult_IZR, <- HexProofs2.bpow_pow2, Rmult_assoc, <- bpow_plus by lia.
        do 2 f_equal. lia.
      + cbn [length]. rewrite app_length. cbn [length]. unfold signed_dec. cbn [length]. rewrite LF. pose proof (digits_len (Z.abs e) ltac:(lia)).
        assert (Z.log2 (Z.abs e) <= 19) by (apply Z.lt_succ_r; destruct (Z.eq_dec (Z.abs e) 0) as [->|]; [cbn; lia|apply Z.log2_lt_pow2; lia]).
        assert (Z.of_nat (length (digits 10 (Z.abs e))) <= 20) by (pose proof (Z.log2_nonneg (Z.abs e)); lia). lia. }
  assert (bias f <= 2 ^ 15) as B15 by (destruct ST as [->|[->|[->| ->]]]; cbn; lia).
  assert (n / S <= 2 ^ 16) as N16.
  { assert (2 ^ eb f <= 2 ^ 16) by (apply pow2_le; destruct W; lia). lia. }
  destruct (Z.eqb_spec (n / S - bias f) (- bias f)) as [C|C].
  - unfold cadd. rewrite chk_ok by (apply HexProofs3.cfits; lia). cbn [bind].
    destruct (G 48 0 (n / S - bias f + 1) F0 ltac:(lia)) as (G1 & G2 & G3 & G4).
    eexists _, _, _, _. split; [reflexivity|]. split; [exact G1|]. split; [|split; [exact G3|exact G4]]. rewrite G2. cbv zeta.
    destruct (Z.eqb_spec (n / S) 0) as [Z0|Z0]; [|lia]. replace (n / S - bias f + 1 - fs f) with (emin f) by (unfold emin; lia).
    rewrite Z.mul_0_l, Z.add_0_l. reflexivity.
  - cbn [bind]. destruct (G 49 1 (n / S - bias f) F1 ltac:(lia)) as (G1 & G2 & G3 & G4).
    eexists _, _, _, _. split; [reflexivity|]. split; [exact G1|]. split; [|split; [exact G3|exact G4]]. rewrite G2. cbv zeta.
    destruct (Z.eqb_spec (n / S) 0) as [Z0|Z0]; [lia|]. rewrite Z.mul_1_l. reflexivity.
Qed.

Lemma fmt_inf s : fmt_any_hex f (mk s (inf f)) = Ok (sign_char s :: [105; 110; 102]).
Proof using W ST.
  pose proof (inf_pos f W) as IP. unfold fmt_any_hex.
  rewrite (sign_negative_mk f W), (is_nanb_mk f W), (EXP_MASK_eq f W), (mag_of f W) by lia.
  rewrite Z.ltb_irrefl, Z.eqb_refl. reflexivity.
Qed.

(** NaN: the kind and the payload below the quiet bit. *)
Lemma fmt_nan s n : inf f < n < B ->
  exists cs ds, fmt_any_hex f (mk s n) = Ok (sign_char s :: (if n mod S <? 2 ^ (fs f - 1) then 115 else 113) :: [78; 97; 78; 40; 48; 120] ++ cs ++ [41]) /\
    Forall2 hexd cs ds /\ num 16 ds = n mod S mod 2 ^ (fs f - 1) /\ Z.of_nat (length cs) = (fs f + 3) / 4.
Proof using W ST.
  intros Hn0. pose proof (inf_pos f W) as IP. assert (0 <= n < B) as Hn by lia. pose proof (S_pos f W) as SP.
  assert (S = 2 * 2 ^ (fs f - 1)) as SE by (destruct W; apply pow2_S; lia).
  pose proof (Z.mod_pos_bound n S ltac:(lia)) as MB.
  unfold fmt_any_hex, is_snanb, is_qnanb. rewrite (sign_negative_mk f W), (is_nanb_mk f W) by assumption.
  destruct (Z.ltb_spec (inf f) n); [|lia]. cbn [andb]. fold (sign_char s).
  assert (Z.land (mk s n) (SIG_MASK f) = n mod S) as ->.
  { rewrite (SIG_MASK_eq f W), land_ones_mod by (destruct W; lia).
    replace (mk s n) with (n + b2z s * 2 ^ eb f * S); [apply Z.mod_add; lia|]. rewrite (B_eq f W). ring. }
  assert (SIG_TOP_BIT f = 2 ^ (fs f - 1)) as ->.
  { destruct ST as [->|[->|[->| ->]]]; reflexivity. }
  set (q := 2 ^ (fs f - 1)) in *. assert (0 < q) as Q0 by (apply pow2_pos; destruct W; lia).
  assert (Z.land (n mod S) (inot (fI f) q) = n mod S mod q) as ->.
  { unfold inot, fI. rewrite norm_u. apply Z.bits_inj'. intros i Hi. rewrite Z.land_spec.
    destruct (Z_lt_dec i (fs f)) as [L|L].
    - rewrite (Z.mod_pow2_bits_low _ (fb f)), Z.lnot_spec by (destruct W; lia). unfold q. rewrite Z.pow2_bits_eqb by (destruct W; lia).
      destruct (Z.eqb_spec (fs f - 1) i) as [->|].
      + rewrite (Z.mod_pow2_bits_high _ i) by (destruct W; lia). apply andb_false_r.
      + rewrite (Z.mod_pow2_bits_low _ (fs f - 1)) by (destruct W; lia). apply andb_true_r.
    - rewrite (Z.mod_pow2_bits_high n) by (destruct W; lia). unfold q. rewrite (Z.mod_pow2_bits_high _ (fs f - 1)) by (destruct W; lia). reflexivity. }
  set (w := fs f / 4 + (if 0 <? fs f mod 4 then 1 else 0) + 2 - 2).
  assert (w = (fs f + 3) / 4 /\ 1 <= w /\ fs f <= 4 * w) as (EW & W1 & W4).
  { unfold w. destruct ST as [->|[->|[->| ->]]]; cbn; lia. }
  destruct (pad_ok w (n mod S mod q) W1) as (ds & F & E & L).
  { pose proof (Z.mod_pos_bound (n mod S) q Q0). split; [lia|]. apply Z.lt_le_trans with S; [lia|].
    apply Z.le_trans with (2 ^ (4 * w)); [apply pow2_le; destruct W; lia|]. rewrite Z.pow_mul_r by lia. apply Z.le_refl. }
  exists (pad w (digits 16 (n mod S mod q))), ds. rewrite (HexProofs4.Forall2_length _ _ _ F). split; [|split; [exact F|split; [exact E|lia]]].
  assert (negb (negb (Z.land (mk s n) q =? 0)) = (n mod S <? q)) as ->; [|reflexivity]. rewrite negb_involutive.
  assert (Z.land (mk s n) q = Z.land (n mod S) q) as ->.
  { rewrite <- (land_ones_mod n (fs f)) by (destruct W; lia).
    replace (mk s n) with (n + b2z s * 2 ^ eb f * S) by (rewrite (B_eq f W); ring).
    apply Z.bits_inj'. intros j Hj. rewrite !Z.land_spec. unfold q. rewrite Z.pow2_bits_eqb by (destruct W; lia).
    destruct (Z.eqb_spec (fs f - 1) j) as [<-|]; [|rewrite !andb_false_r; reflexivity]. rewrite !andb_true_r.
    change (2 ^ fs f - 1) with (Z.pred (2 ^ fs f)). rewrite <- Z.ones_equiv, Z.ones_spec_low, andb_true_r by (destruct W; lia).
    rewrite <- (Z.mod_pow2_bits_low (n + _) (fs f)) by (destruct W; lia). rewrite Z.mod_add by lia. apply Z.mod_pow2_bits_low. destruct W; lia. }
  unfold q. apply land_top; [destruct W; lia|fold q; lia].
Qed.

(** Reading back. *)
Lemma read_back s n str N k P m : 0 <= n < inf f -> denotes str s (Fin N k P) -> lit_value s N k P = value f (mk s n) ->
  - 2 ^ 20 < P < 2 ^ 20 -> Z.of_nat (length str) < 2 ^ 20 ->
  HexModel.parse_any str (fb f) (fs f) m = Ok (inr (mk s n, 0)) /\ hf f str = Ok (mk s n).
Proof using W ST.
  intros Hn0 D EV HP HL. assert (0 <= n < B) as Hn by (pose proof (inf_pos f W); lia).
  pose proof (std_cfg f ST) as C.
  assert (is_float f (mk s n)) as Fx by (apply (is_float_mk f W); assumption).
  assert (is_finite f (mk s n)) as Fin_x by (apply (is_finite_mk f W); [assumption|lia]).
  assert (HexProofs6.in_range f s (Fin N k P)) as IR.
  { cbn. split; [change (2 ^ 20) with 1048576 in *; lia|]. destruct (Z_le_dec (fs f) 97); [left; assumption|right].
    rewrite EV. apply Rlt_le_trans with (bpow radix2 (emax f)); [apply (HexProofs6.value_exact f C ToNearest); assumption|].
    apply bpow_le. destruct ST as [->|[->|[->| ->]]]; cbn in *; lia. }
  assert (Z.of_nat (length str) < 2 ^ 26) as HL26 by (change (2 ^ 26) with (64 * 2 ^ 20); lia).
  split.
  - destruct (HexProofs6.accept_ok f C str s _ m D HL26 IR) as (r & st & -> & (R1 & R2 & R3) & HS). cbv zeta in R3.
    destruct (HexProofs6.value_exact f C (HexProofs2.to_dir m) (mk s n) Fx Fin_x) as [VE VM].
    rewrite EV, VE in R3. rewrite Rlt_bool_true in R3 by assumption. destruct R3 as [R3 R4].
    assert (r = mk s n) as ->.
    { apply (value_inj f W); try assumption. rewrite R2. symmetry. apply (sign_of_mk f W). assumption. }
    destruct HS as (ov & un & ix & -> & O & U & I). rewrite EV, VE in O, U, I.
    destruct ov; [assert (bpow radix2 (emax f) <= Rabs (value f (mk s n)))%R by (apply O; reflexivity); lra|].
    destruct un; [destruct (proj1 U eq_refl) as [_ NE]; exfalso; apply NE; reflexivity|].
    destruct ix; [destruct (proj1 I eq_refl) as [LE|NE]; [lra|exfalso; apply NE; reflexivity]|]. reflexivity.
  - unfold hf. destruct (HexProofs6.exact_ok f C str s N k P D HL26 IR) as (res & -> & HR). cbn [bind]. destruct res as [e|r].
    + destruct HR as [_ HR]. exfalso. apply (HR (mk s n) Fx Fin_x). symmetry. exact EV.
    + destruct HR as (R1 & R2 & R3 & R4). assert (r = mk s n) as ->.
      { apply (value_inj f W); try assumption; [|congruence]. rewrite R3. symmetry. apply (sign_of_mk f W). assumption. }
      unfold fI. rewrite norm_u, Z.mod_small by exact Fx. reflexivity.
Qed.
End Fmt.
