(** parse_any and parse_hex_exact. *)
From Coq Require Import ZArith Reals Bool List Lia Lra Psatz.
From Flocq Require Import Core.
From Verif Require Import Base BaseLemmas FloatModel FloatSpec FloatProofs2 HexModel HexSpec HexProofs HexProofs2 HexProofs3 HexProofs4.
From Verif Require FloatProofs.
Open Scope Z_scope.
Import ListNotations.

Definition flip_mode (neg : bool) (m : mode) : mode :=
  match neg, m with true, Positive => Negative | true, Negative => Positive | _, _ => m end.
Definition after_hex (neg : bool) (sign_bit : Z) (r : herr + (Z * Z)) : res (herr + (Z * Z)) :=
  match r with
  | inl e => Ok (inl e)
  | inr (x, status) => Ok (inr (if neg then Z.lxor x sign_bit else x, status))
  end.
Lemma is_letter_spec c b : is_letter c b = true <-> letter c b.
Proof. unfold is_letter, letter. destruct (Z.eqb_spec b c), (Z.eqb_spec b (c + 32)); cbn [orb]; intuition discriminate. Qed.

Section Fmt.
Context (f : fmt) (W : cfg f).
Notation S := (2 ^ fs f).
Notation B := (2 ^ (fb f - 1)).
Notation u := (bpow radix2 (emin f)).

Definition parse_hex_part (neg : bool) (m : mode) (b : list Z) : res (herr + (Z * Z)) :=
  match b with
  | c0 :: c1 :: rest =>
    if (c0 =? 48) && is_letter 88 c1 then
      let* r := parse_finite rest (fb f) (fs f) (flip_mode neg m) in after_hex neg B r
    else Ok (inl NoHexIndicator)
  | _ => Ok (inl NoHexIndicator)
  end.

Lemma parse_any_unfold s m neg b : take_sign s = (neg, b) ->
  parse_any s (fb f) (fs f) m =
  match b with
  | [c0; c1; c2] =>
    if is_letter 73 c0 && is_letter 78 c1 && is_letter 70 c2 then after_hex neg B (inr (inf f, OK))
    else if is_letter 78 c0 && is_letter 65 c1 && is_letter 78 c2 then after_hex neg B (inr (inf f + 2 ^ (fs f - 1), OK))
    else parse_hex_part neg m b
  | _ => parse_hex_part neg m b
  end.
Proof using W.
  intros T. unfold parse_any. rewrite T. pose proof (S_pos f W) as SP. pose proof (inf_pos f W) as IP. pose proof (B_eq f W) as BE.
  assert (S = 2 * 2 ^ (fs f - 1)) as SE by (destruct W; apply pow2_S; lia).
  assert (2 * B <= 2 ^ 128) as B128 by (destruct W; rewrite <- (pow2_S (fb f)) by lia; apply pow2_le; lia).
  pose proof (EB_big f W) as EB.
  assert ((119 <? fs f) || (128 <? fb f) || (fb f <? fs f + 3) || (fs f + 30 <? fb f) = false) as ->.
  { destruct W. destruct (Z.ltb_spec 119 (fs f)), (Z.ltb_spec 128 (fb f)), (Z.ltb_spec (fb f) (fs f + 3)), (Z.ltb_spec (fs f + 30) (fb f)); try lia; reflexivity. }
  assert (0 < 2 ^ (fs f - 1)) as QP by lia.
  rewrite csub_u by (destruct W; change (2 ^ 32) with (2 * 2 ^ 31); lia). cbn [bind].
  rewrite cshl_u_exact; [|destruct W; lia|lia|lia]. rewrite Z.mul_1_l. cbn [bind].
  rewrite csub_u by (destruct W; change (2 ^ 32) with (2 * 2 ^ 31); lia). cbn [bind].
  rewrite cshl_u_exact; [|destruct W; lia|lia|nia]. rewrite Z.mul_1_l. cbn [bind].
  assert (2 ^ (fs f - 1) < B) as QB by nia.
  rewrite csub_u by lia. cbn [bind]. rewrite csub_u by (unfold FloatProofs.inf in IP; lia). cbn [bind].
  replace (B - 2 ^ (fs f - 1) - 2 ^ (fs f - 1)) with (inf f) by (unfold FloatProofs.inf; lia).
  replace (B - 2 ^ (fs f - 1)) with (inf f + 2 ^ (fs f - 1)) by (unfold FloatProofs.inf; lia).
  unfold parse_hex_part, flip_mode, after_hex. destruct b as [|c0 [|c1 [|c2 [|c3 b]]]]; reflexivity.
Qed.

Lemma lxor_top n : 0 <= n < B -> Z.lxor n B = n + B.
Proof using W.
  intros H. destruct W. rewrite <- Z.add_nocarry_lxor; [reflexivity|].
  apply Z.bits_inj'. intros i Hi. rewrite Z.land_spec, Z.bits_0.
  destruct (Z.eq_dec i (fb f - 1)) as [->|N].
  - destruct (Z.eq_dec n 0) as [->|]; [rewrite Z.bits_0; reflexivity|]. rewrite Z.bits_above_log2; [reflexivity|lia|]. apply Z.log2_lt_pow2; lia.
  - rewrite Z.pow2_bits_false by lia. apply andb_false_r.
Qed.
Lemma signed_mk (neg : bool) n : 0 <= n < B -> (if neg then Z.lxor n B else n) = b2z neg * B + n.
Proof using W. intros H. destruct neg; cbn [b2z]; [rewrite lxor_top by assumption|]; lia. Qed.

Lemma V_max : (IZR (V f (inf f - 1)) * u)%R = max_finite f.
Proof using W.
  pose proof (S_big f W) as SB. pose proof (EB_big f W) as EB. pose proof (bias_eq f W) as BI.
  replace (inf f - 1) with (enc f (2 ^ eb f - 2) (2 * S - 1)) by (rewrite (inf_eq f W); unfold FloatProofs.enc; ring).
  rewrite (V_enc f W) by lia. rewrite mult_IZR, <- bpow_pow2 by lia. rewrite Rmult_assoc, <- bpow_plus.
  unfold max_finite. rewrite minus_IZR.
  assert (2 ^ eb f = 2 * 2 ^ (eb f - 1)) as E2 by (destruct W; apply pow2_S; lia).
  replace (2 ^ eb f - 2 - 1 + emin f) with (emax f - prec f) by (unfold emin, emax, prec; lia).
  replace (2 * S) with (2 ^ (prec f)) by (unfold prec; destruct W; rewrite pow2_add by lia; lia).
  rewrite <- bpow_pow2 by (unfold prec; destruct W; lia). rewrite Rmult_minus_distr_r, <- bpow_plus.
  replace (prec f + (emax f - prec f)) with (emax f) by lia. ring.
Qed.

(** From the magnitude to the signed result. *)
Lemma finish_sign m neg X r st : (0 <= X)%R -> mag_ok f (to_dir (flip_mode neg m)) X r st ->
  let x := if neg then (- X)%R else X in
  rounds_in f (to_dir m) neg x (b2z neg * B + r) /\ status_ok f (to_dir m) x st /\ 0 <= r < B.
Proof using W.
  intros HX (M1 & M2 & M3 & M4) x. pose proof (inf_pos f W) as IP. pose proof (S_pos f W) as SP.
  set (d' := to_dir (flip_mode neg m)) in *.
  assert (round_in f (to_dir m) x = if neg then - round_in f d' X else round_in f d' X)%R as RX.
  { unfold x, d'. destruct neg; [|reflexivity]. rewrite round_in_opp. destruct m; reflexivity. }
  assert (overflow_to_inf (to_dir m) neg = overflow_to_inf d' false) as OI by (unfold d'; destruct neg, m; reflexivity).
  assert (Rabs (round_in f (to_dir m) x) = round_in f d' X) as RA.
  { rewrite RX. destruct neg; rewrite ?Rabs_Ropp; apply Rabs_pos_eq; assumption. }
  assert (0 <= r < B) as RB.
  { destruct (Rle_or_lt (bpow radix2 (emax f)) (round_in f d' X)) as [L|L].
    - rewrite (M2 L). destruct (overflow_to_inf d' false); lia.
    - destruct (M1 L). lia. }
  split; [|split; [|exact RB]].
  - unfold rounds_in. cbv zeta. split; [apply is_float_mk; assumption|]. split; [apply sign_of_mk; assumption|].
    rewrite RA, OI. destruct (Rlt_bool_spec (round_in f d' X) (bpow radix2 (emax f))) as [L|L].
    + destruct (M1 L) as [Lr E]. split; [apply is_finite_mk; [assumption|assumption|lia]|]. rewrite (value_mk f W) by assumption. rewrite RX, E. reflexivity.
    + specialize (M2 L). destruct (overflow_to_inf d' false).
      * apply is_inf_mk; assumption.
      * split; [apply is_finite_mk; [assumption|assumption|lia]|]. rewrite (value_mk f W) by assumption. rewrite M2, V_max. reflexivity.
  - unfold status_ok in *. cbv zeta in *. destruct M4 as (ov & un & ix & E & O & U & I). exists ov, un, ix.
    assert (round_in f (to_dir m) x <> x <-> round_in f d' X <> X) as NE.
    { rewrite RX. unfold x. destruct neg; [|reflexivity]. split; intros N Q; apply N; lra. }
    rewrite Rabs_pos_eq in O, U, I by assumption. rewrite RA, NE. auto.
Qed.

Lemma mag_ok_0 d : mag_ok f d 0 0 OK.
Proof using W.
  pose proof (inf_pos f W) as IP. pose proof (S_pos f W) as SP. pose proof (bpow_gt_0 radix2 (emax f)).
  unfold mag_ok. rewrite round_in_0. split; [|split; [|split; [lra|]]].
  - intros _. split; [lia|]. rewrite (V_0 f W). ring.
  - intros. lra.
  - unfold status_ok. cbv zeta. rewrite round_in_0, Rabs_R0. exists false, false, false. split; [reflexivity|].
    split; [|split]; (split; [discriminate|]); intros; exfalso; try lra; tauto.
Qed.

(** The parsed significand stands for the written one. *)
Lemma st_ok_sticky N k t sig exp inex : st_ok N k t sig exp inex -> 0 <= N ->
  let s := Z.lor sig (b2z inex) in
  (s = 0 <-> N = 0) /\
  (0 < N -> 0 < s < 2 ^ 128 /\ exists T, (IZR N * bpow radix2 (- 4 * k) = T * bpow radix2 exp)%R /\ (0 < T < bpow radix2 128)%R /\
    sticky T s /\ (T = IZR s \/ 2 ^ 124 < s)).
Proof using.
  intros (d & Hd & Hs & HN & Hi & He & Hb & Ht) N0. cbv zeta. rewrite lor_b2z by lia.
  assert (0 < 16 ^ d) as P by (apply Z.pow_pos_nonneg; lia).
  assert (16 ^ d = 2 ^ (4 * d)) as P2 by (rewrite Z.pow_mul_r by lia; reflexivity).
  pose proof (Z.mod_pos_bound sig 2 ltac:(lia)) as M2.
  assert (inex = true -> 2 ^ 124 <= sig) as Hx.
  { intros ->. destruct Hb as [->|]; [|assumption]. change (16 ^ 0) with 1 in *. exfalso. destruct (Z.eqb_spec N (sig * 1)); [discriminate|lia]. }
  assert (2 ^ 124 mod 2 = 0) as M124 by reflexivity.
  assert (2 ^ 128 mod 2 = 0) as M128 by reflexivity.
  assert (sig + 1 - sig mod 2 < 2 ^ 128 \/ inex = false) as SB.
  { destruct inex; [left|right; reflexivity]. pose proof (Z.div_mod sig 2 ltac:(lia)). change (2 ^ 128) with (2 * 2 ^ 127) in *. lia. }
  assert (0 < N -> 0 < sig) as SN.
  { intros. destruct Hb as [->|]; [change (16 ^ 0) with 1 in *|]; lia. }
  split.
  { destruct inex; [specialize (Hx eq_refl)|].
    - split; [lia|]. intros ->. nia.
    - split; [|intros ->; nia]. intros ->. destruct (Z.eqb_spec N (0 * 16 ^ d)); [lia|discriminate]. }
  intros NP. specialize (SN NP). split; [destruct inex; [specialize (Hx eq_refl)|]; lia|].
  exists (IZR N / IZR (16 ^ d))%R.
  assert (0 < IZR (16 ^ d))%R as PR by (apply (IZR_lt 0); lia).
  set (T := (IZR N / IZR (16 ^ d))%R).
  assert (IZR N = T * IZR (16 ^ d))%R as TN by (unfold T; field; lra).
  assert (IZR sig <= T < IZR sig + 1)%R as TB.
  { destruct HN as [H1 H2]. apply IZR_le in H1. apply IZR_lt in H2. rewrite mult_IZR in H1, H2. rewrite plus_IZR in H2.
    rewrite TN in H1, H2. split; [apply Rmult_le_reg_r with (IZR (16 ^ d))|apply Rmult_lt_reg_r with (IZR (16 ^ d))]; lra. }
  split; [|split; [|split]].
  - rewrite TN, P2, <- bpow_pow2 by lia. rewrite Rmult_assoc, <- bpow_plus. do 2 f_equal. lia.
  - assert (0 < IZR sig)%R by (apply (IZR_lt 0); lia). split; [lra|]. rewrite bpow_pow2 by lia.
    assert (sig + 1 <= 2 ^ 128) as Q by lia. apply IZR_le in Q. rewrite plus_IZR in Q. lra.
  - destruct inex.
    + right. assert (T <> IZR sig) as TS.
      { intros Q. destruct (Z.eqb_spec N (sig * 16 ^ d)) as [|NE]; [discriminate|]. apply NE. apply eq_IZR. rewrite mult_IZR, TN, Q. reflexivity. }
      rewrite minus_IZR, plus_IZR. pose proof (Z.div_mod sig 2 ltac:(lia)) as D.
      split.
      * replace (sig + 1 - sig mod 2) with (1 + (sig / 2) * 2) by lia. rewrite Z.mod_add by lia. reflexivity.
      * assert (sig mod 2 = 0 \/ sig mod 2 = 1) as [-> | ->] by lia; lra.
    + left. destruct (Z.eqb_spec N (sig * 16 ^ d)) as [E|]; [|discriminate]. unfold T. rewrite E, mult_IZR. field. lra.
  - destruct inex.
    + right. specialize (Hx eq_refl). pose proof (Z.div_mod sig 2 ltac:(lia)). change (2 ^ 124) with (2 * 2 ^ 123) in *. lia.
    + left. destruct (Z.eqb_spec N (sig * 16 ^ d)) as [E|]; [|discriminate]. unfold T. rewrite E, mult_IZR. field. lra.
Qed.

Lemma num16_nonneg l ds : Forall2 hexd l ds -> 0 <= num 16 ds.
Proof using.
  intros HF. induction HF as [|c d l l' Hc HF IH]; [cbn; lia|]. rewrite num_cons. pose proof (hexd_facts c d Hc).
  assert (0 < 16 ^ Z.of_nat (length l')) by (apply Z.pow_pos_nonneg; lia). nia.
Qed.

(** The digits and the exponent, together. *)
Lemma finite_ok ip point fp ds p es en eds ed m :
  Forall2 hexd (ip ++ fp) ds -> ds <> [] -> (point = [46] \/ point = [] /\ fp = []) -> letter 80 p ->
  opt_sign es en -> Forall2 decd eds ed -> ed <> [] ->
  let N := num 16 ds in let k := Z.of_nat (length fp) in
  let P := if en then - num 10 ed else num 10 ed in
  Z.of_nat (length (ip ++ fp)) < 2 ^ 26 -> - 2 ^ 32 < P <= 2 ^ 30 ->
  (fs f <= 97 \/ (IZR N * bpow radix2 (P - 4 * k) < bpow radix2 (2 ^ (128 - fs f) - bias f))%R) ->
  exists r st, parse_finite (ip ++ point ++ fp ++ p :: es ++ eds) (fb f) (fs f) m = Ok (inr (r, st)) /\
    mag_ok f (to_dir m) (IZR N * bpow radix2 (P - 4 * k)) r st.
Proof using W.
  intros HF Hds Hpt Hp He HD Hed N k P Hlen HP HW.
  pose proof (num_nonneg ed eds HD) as E0. pose proof (num16_nonneg _ _ HF) as N0.
  destruct (parse_hex_ok ip point fp ds p es en eds ed HF Hds Hpt Hp He HD Hed Hlen) as (sig & exp & inex & St & EH).
  { unfold P in HP. destruct en; [lia|change (2 ^ 32) with (4 * 2 ^ 30); lia]. }
  destruct (st_ok_sticky _ _ _ _ _ _ St N0) as [SZ SP]. fold N in SZ, SP, N0. fold k in SP, St.
  set (s := Z.lor sig (b2z inex)) in *. set (b := ip ++ point ++ fp ++ p :: es ++ eds) in *.
  assert (- 2 ^ 28 <= exp <= 2 ^ 28) as EB.
  { destruct St as (d & Hd & _ & _ & _ & -> & _ & Hdt). assert (0 <= k <= Z.of_nat (length (ip ++ fp))) by (unfold k; rewrite app_length; lia).
    change (2 ^ 28) with (4 * 2 ^ 26). lia. }
  destruct (Z.eq_dec N 0) as [ZN|ZN].
  - exists 0, OK. rewrite ZN, Rmult_0_l. split; [|apply mag_ok_0].
    assert (s = 0) as Zs by tauto. unfold parse_finite.
    pose proof (bias_big f W) as BB. pose proof (emin_big f W) as EM. destruct W as [Ws We Wb W8].
    rewrite csub_u by (change (2 ^ 32) with (2 * 2 ^ 31); lia). cbn [bind].
    rewrite csub_u by (change (2 ^ 32) with (2 * 2 ^ 31); lia). cbn [bind].
    replace (fb f - fs f - 1) with (eb f) by lia.
    rewrite csub_u by (change (2 ^ 32) with (2 * 2 ^ 31); lia). cbn [bind].
    rewrite cshl_ok by (rewrite bits_s; lia). rewrite Z.mul_1_l.
    assert (2 ^ (eb f - 1) = bias f + 1) as -> by (rewrite (bias_eq f W); lia).
    rewrite (norm_id (SI 32) ltac:(rewrite bits_s; lia) (bias f + 1)) by (apply cfits; lia). cbn [bind].
    unfold csub at 1. rewrite chk_ok by (apply cfits; lia). cbn [bind].
    unfold csub at 1. rewrite chk_ok by (apply cfits; lia). cbn [bind].
    rewrite (norm_id (SI 32) ltac:(rewrite bits_s; lia) (fs f)) by (apply cfits; lia).
    unfold csub at 1. rewrite chk_ok by (apply cfits; lia). cbn [bind].
    rewrite EH, Zs. reflexivity.
  - destruct (SP ltac:(lia)) as (Hs & T & TX & TB & TS & TE).
    assert (IZR N * bpow radix2 (P - 4 * k) = T * bpow radix2 (exp + P))%R as XE.
    { replace (P - 4 * k) with (- 4 * k + P) by lia. rewrite !bpow_plus, <- !Rmult_assoc, TX. reflexivity. }
    rewrite XE in *.
    destruct (Z_le_gt_dec (- 2 ^ 31) (exp + P)) as [NS|SA].
    + apply (parse_finite_ok f W b m s (exp + P) T); [|assumption| |left; tauto|assumption].
      * rewrite EH. do 3 f_equal. unfold P in *. change (2 ^ 31) with (2 * 2 ^ 30) in *. destruct en; lia.
      * change (2 ^ 31) with (2 * 2 ^ 30) in *. lia.
    + replace (T * bpow radix2 (exp + P))%R with (T * bpow radix2 (exp + P + 2 ^ 31) * bpow radix2 (- 2 ^ 31))%R in *.
      2:{ rewrite Rmult_assoc, <- bpow_plus. do 2 f_equal. lia. }
      apply (parse_finite_ok f W b m s (- 2 ^ 31)); [|assumption|lia| |assumption].
      * rewrite EH. do 3 f_equal. unfold P in *. destruct en; lia.
      * right. split; [reflexivity|]. pose proof (bpow_gt_0 radix2 (exp + P + 2 ^ 31)) as Bp.
        assert (bpow radix2 (exp + P + 2 ^ 31) <= 1)%R as B1 by (change 1%R with (bpow radix2 0); apply bpow_le; lia).
        split; nra.
Qed.
End Fmt.
