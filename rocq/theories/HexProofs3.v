(** parse_finite after the digits have been read. *)
From Coq Require Import ZArith Reals Bool List Lia Lra Psatz.
From Flocq Require Import Core.
From Verif Require Import Base BaseLemmas FloatModel FloatSpec HexModel HexSpec HexProofs HexProofs2.
From Verif Require FloatProofs.
Open Scope Z_scope.

Section Fmt.
Context (f : fmt) (W : cfg f).
Notation S := (2 ^ fs f).
Notation u := (bpow radix2 (emin f)).

Lemma bias_big : 1 <= bias f <= 2 ^ 28 - 1.
Proof using W.
  rewrite (bias_eq f W). destruct W. pose proof (pow2_le 1 (eb f - 1) ltac:(lia)). pose proof (pow2_le (eb f - 1) 28 ltac:(lia)).
  change (2 ^ 1) with 2 in *. lia.
Qed.
Lemma emin_big : - (2 ^ 28 + 119) <= emin f <= -1.
Proof using W. unfold emin. pose proof bias_big. destruct W. lia. Qed.

(** hex_float.rs:157-184. *)
Lemma encode_ok q e st m : emin f <= e -> e - emin f < 2 ^ 31 -> e - emin f < 2 ^ (128 - fs f) -> 0 <= q <= 2 * S ->
  encode q e (emin f) (eb f) (fs f) st m =
  let n := enc f (e - emin f + 1) q in
  if n <? inf f then Ok (n, if inexact st && (n <? S) then Z.lor st UNDERFLOW else st)
  else Ok (match m with Positive | Nearest => inf f | _ => inf f - 1 end, Z.lor (Z.lor st OVERFLOW) INEXACT).
Proof using W.
  intros He He31 HeW Hq. pose proof (S_pos f W) as SP. pose proof (inf_pos f W) as IP. pose proof (B_eq f W) as BE.
  pose proof (inf_eq f W) as IE. pose proof (EB_big f W) as EB.
  assert (2 ^ (fb f - 1) <= 2 ^ 127) as B127 by (destruct W; apply pow2_le; lia).
  assert (2 ^ 128 = 2 ^ (128 - fs f) * S) as P128 by (destruct W; rewrite <- pow2_add by lia; f_equal; lia).
  assert (2 * S <= 2 ^ 120) as S120.
  { change (2 ^ 120) with (2 * 2 ^ 119). destruct W. pose proof (pow2_le (fs f) 119 ltac:(lia)). lia. }
  unfold encode. unfold csub at 1. rewrite chk_ok by (apply fits_s; change (2 ^ (32 - 1)) with (2 ^ 31); lia). cbn [bind].
  rewrite norm_u, Z.mod_small by (split; [lia|apply Z.lt_trans with (2 ^ 31); [lia|reflexivity]]).
  rewrite cshl_u_exact; [|destruct W; lia|lia|rewrite P128; nia]. cbn [bind].
  rewrite (cshl_u_exact 128 2); [|destruct W; lia|lia|]. 2:{ apply Z.le_lt_trans with (2 ^ 120); [lia|reflexivity]. }
  cbn [bind]. destruct (Z.leb_spec q (2 * S)); [|lia]. unfold assert. cbn [bind].
  rewrite (cshl_u_exact 128 1); [|destruct W; lia|lia|]. 2:{ apply Z.le_lt_trans with 536870912; [lia|reflexivity]. }
  rewrite Z.mul_1_l. cbn [bind]. rewrite csub_u by (split; [lia|apply Z.lt_trans with 536870912; [lia|reflexivity]]). cbn [bind].
  rewrite cshl_u_exact; [|destruct W; lia|lia|]. 2:{ rewrite <- IE. apply Z.lt_le_trans with (2 ^ 127); [lia|apply pow2_le; lia]. }
  rewrite <- IE. cbn [bind].
  replace (q + (e - emin f) * S) with (enc f (e - emin f + 1) q) by (unfold FloatProofs.enc; ring).
  set (n := enc f (e - emin f + 1) q).
  assert (0 <= n) as N0 by (unfold n, FloatProofs.enc; nia).
  assert (fitsb (UI 128) n && (n <? inf f) = (n <? inf f)) as ->.
  { destruct (Z.ltb_spec n (inf f)); [|apply andb_false_r]. rewrite andb_true_r. apply fitsb_spec, fits_u. change (2 ^ 128) with (2 * 2 ^ 127). lia. }
  cbv zeta. destruct (n <? inf f).
  - rewrite cshl_u_exact; [|destruct W; lia|lia|]. 2:{ apply Z.le_lt_trans with (2 ^ 120); [lia|reflexivity]. }
    rewrite Z.mul_1_l. reflexivity.
  - rewrite csub_u by (split; [lia|apply Z.lt_le_trans with (2 ^ 127); [lia|apply pow2_le; lia]]). destruct m; reflexivity.
Qed.

(** The result for a positive number. *)
Definition mag_ok (d : dir) (X : R) (r st : Z) : Prop :=
  ((round_in f d X < bpow radix2 (emax f))%R -> 0 <= r < inf f /\ round_in f d X = (IZR (V f r) * u)%R) /\
  ((bpow radix2 (emax f) <= round_in f d X)%R -> r = if overflow_to_inf d false then inf f else inf f - 1) /\
  (0 <= round_in f d X)%R /\ status_ok f d X st.

Lemma finish_mag m E y : let d := to_dir m in 1 <= E -> (0 <= y < IZR (2 * S))%R -> (E = 1 \/ (IZR S <= y)%R) ->
  let q := rnd d y in let n := enc f E q in
  forall st, (st = OK /\ IZR q = y \/ st = INEXACT /\ IZR q <> y) ->
  let p := if n <? inf f then (n, if inexact st && (n <? S) then Z.lor st UNDERFLOW else st)
           else (match m with Positive | Nearest => inf f | _ => inf f - 1 end, Z.lor (Z.lor st OVERFLOW) INEXACT) in
  mag_ok d (y * bpow radix2 (E - 1 + emin f)) (fst p) (snd p).
Proof using W.
  intros d HE Hy Hn q n st Hst p.
  destruct (round_enc f W d E y HE Hy Hn) as [N0 RE]. fold q in N0, RE. fold n in N0, RE.
  pose proof (round_scaled f W d E y HE Hy Hn) as RS. fold q in RS.
  set (X := (y * bpow radix2 (E - 1 + emin f))%R) in *.
  pose proof (bpow_gt_0 radix2 (emin f)) as U0. pose proof (bpow_gt_0 radix2 (E - 1 + emin f)) as UE.
  pose proof (S_pos f W) as SP. pose proof (inf_pos f W) as IP.
  assert (round_in f d X = X <-> IZR q = y) as EX.
  { rewrite RS. unfold X. split; [|intros ->; reflexivity]. intros Q. apply Rmult_eq_reg_r in Q; lra. }
  assert ((round_in f d X < bpow radix2 (emax f))%R <-> n < inf f) as OV.
  { rewrite RE, <- (V_inf f W). split; intros L.
    - apply Rmult_lt_reg_r, lt_IZR in L; [|lra]. destruct (Z_lt_ge_dec n (inf f)); [assumption|]. pose proof (V_mono f W (inf f) n). lia.
    - apply Rmult_lt_compat_r; [lra|]. apply IZR_lt. apply V_lt; [assumption|lia]. }
  assert (V f S = S) as VS.
  { replace S with (enc f 1 S) at 1 by (unfold FloatProofs.enc; ring). rewrite (V_enc f W) by lia. change (2 ^ (1 - 1)) with 1. lia. }
  assert (bpow radix2 (emin f + fs f) = IZR S * u)%R as BS.
  { rewrite <- bpow_pow2 by (destruct W; lia). rewrite <- bpow_plus. f_equal. lia. }
  assert ((round_in f d X < bpow radix2 (emin f + fs f))%R <-> n < S) as SU.
  { rewrite RE, BS, <- VS at 1. split; intros L.
    - apply Rmult_lt_reg_r, lt_IZR in L; [|lra]. destruct (Z_lt_ge_dec n S); [assumption|]. pose proof (V_mono f W S n). lia.
    - apply Rmult_lt_compat_r; [lra|]. apply IZR_lt. apply V_lt; [assumption|lia]. }
  assert (0 <= round_in f d X)%R as R0.
  { rewrite RE. apply Rmult_le_pos; [|lra]. apply (IZR_le 0). apply V_nonneg; assumption. }
  unfold p. clear p.
  destruct (Z.ltb_spec n (inf f)) as [L|L]; cbn [fst snd]; (split; [|split; [|split; [exact R0|]]]).
  - intros _. split; [lia|exact RE].
  - intros Q. apply OV in L. lra.
  - apply OV in L. unfold status_ok. cbv zeta. rewrite Rabs_pos_eq by lra.
    destruct Hst as [[-> Q]|[-> Q]].
    + exists false, false, false. split; [reflexivity|]. rewrite EX, SU. split; [|split]; (split; [discriminate|]); intros; exfalso; try lra; tauto.
    + change (inexact INEXACT) with true. cbn [andb]. exists false, (n <? S), true.
      split; [destruct (n <? S); reflexivity|]. rewrite EX, SU. split; [split; [discriminate|lra]|]. split; [|tauto].
      rewrite Z.ltb_lt. tauto.
  - intros Q. apply OV in Q. lia.
  - intros _. unfold d. destruct m; reflexivity.
  - assert (bpow radix2 (emax f) <= round_in f d X)%R as L2.
    { destruct (Rle_or_lt (bpow radix2 (emax f)) (round_in f d X)) as [|Q]; [assumption|]. apply OV in Q. lia. }
    unfold status_ok. cbv zeta. rewrite Rabs_pos_eq by lra. exists true, false, true.
    split; [destruct Hst as [[-> _]|[-> _]]; reflexivity|]. rewrite SU. split; [tauto|]. split; [|tauto].
    split; [discriminate|]. lia.
Qed.

Lemma cfits a : - 2 ^ 31 <= a < 2 ^ 31 -> fits (SI 32) a.
Proof using. intros. apply fits_s. exact H. Qed.

(** hex_float.rs:115-184: the parsed significand [sig] stands for [T]; in the second case
    the exponent was saturated. *)
Lemma parse_finite_ok b m sig exp T :
  parse_hex b = Ok (inr (sig, exp)) -> 0 < sig < 2 ^ 128 -> -2 ^ 31 <= exp <= 2 ^ 30 + 2 ^ 28 ->
  (sticky T sig /\ (T = IZR sig \/ 2 ^ 124 < sig) \/ exp = -2 ^ 31 /\ (0 < T < bpow radix2 128)%R) ->
  (fs f <= 97 \/ (T * bpow radix2 exp < bpow radix2 (2 ^ (128 - fs f) - bias f))%R) ->
  exists r st, parse_finite b (fb f) (fs f) m = Ok (inr (r, st)) /\
    mag_ok (to_dir m) (T * bpow radix2 exp) r st.
Proof using W.
  intros Hp Hs He HT HW. pose proof emin_big as EM. pose proof bias_big as BB. destruct W as [Ws We Wb W8].
  pose proof (Z.log2_spec sig ltac:(lia)) as [Hl1 Hl2]. pose proof (Z.log2_nonneg sig) as Hl0.
  assert (Z.log2 sig < 128) as Hl3 by (apply Z.log2_lt_pow2; lia).
  set (l := Z.log2 sig) in *.
  assert (2 ^ Z.succ l = 2 * 2 ^ l) as PS by (rewrite Z.pow_succ_r; lia).
  assert (0 < T < bpow radix2 128)%R as TB.
  { destruct HT as [[[->|[Od St]] _]|[_ ?]]; [..|assumption].
    - split; [apply (IZR_lt 0); lia|]. rewrite bpow_pow2 by lia. apply IZR_lt. lia.
    - assert (1 <= IZR sig)%R by (apply (IZR_le 1); lia). split; [lra|]. rewrite bpow_pow2 by lia.
      assert (sig + 1 <= 2 ^ 128) as Q by lia. apply IZR_le in Q. rewrite plus_IZR in Q. lra. }
  assert ((bpow radix2 l <= T < bpow radix2 (l + 1))%R \/ exp = -2 ^ 31) as TL.
  { destruct HT as [[St Big]|[? _]]; [left|right; assumption]. rewrite !bpow_pow2 by lia.
    replace (2 ^ (l + 1)) with (2 * 2 ^ l) by (unfold Z.succ in PS; lia).
    destruct St as [->|[Od St]].
    - split; [apply IZR_le; lia|apply IZR_lt; lia].
    - destruct Big as [->|Big].
      + split; [apply IZR_le; lia|apply IZR_lt; lia].
      + assert (2 ^ l + 1 <= sig) as Q1.
        { assert (sig <> 2 ^ l); [|lia]. intros Q. rewrite Q, (pow2_S l), Z.mul_comm, Z.mod_mul in Od; [discriminate|lia|].
          assert (l <> 0); [|lia]. intros Q0. rewrite Q0 in Q. change (2 ^ 0) with 1 in Q. lia. }
        assert (sig + 1 <= 2 * 2 ^ l) as Q2 by lia.
        apply IZR_le in Q1, Q2. rewrite plus_IZR in Q1, Q2. lra. }
  unfold parse_finite.
  rewrite csub_u by (change (2 ^ 32) with (2 * 2 ^ 31); lia). cbn [bind].
  rewrite csub_u by (change (2 ^ 32) with (2 * 2 ^ 31); lia). cbn [bind].
  replace (fb f - fs f - 1) with (eb f) by lia.
  rewrite csub_u by (change (2 ^ 32) with (2 * 2 ^ 31); lia). cbn [bind].
  rewrite cshl_ok by (rewrite bits_s; lia). rewrite Z.mul_1_l.
  assert (2 ^ (eb f - 1) = bias f + 1) as EB by (rewrite (bias_eq f W); lia).
  rewrite EB. rewrite (norm_id (SI 32) ltac:(rewrite bits_s; lia) (bias f + 1)) by (apply cfits; lia). cbn [bind].
  unfold csub at 1. rewrite chk_ok by (apply cfits; lia). cbn [bind].
  unfold csub at 1. rewrite chk_ok by (apply cfits; lia). cbn [bind].
  rewrite (norm_id (SI 32) ltac:(rewrite bits_s; lia) (fs f)) by (apply cfits; lia).
  unfold csub at 1. rewrite chk_ok by (apply cfits; lia). cbn [bind].
  replace (1 - (bias f + 1 - 1) - fs f) with (emin f) by (unfold emin; lia).
  rewrite Hp. cbn [bind]. destruct (Z.eqb_spec sig 0); [lia|].
  rewrite (norm_id (SI 32) ltac:(rewrite bits_s; lia) (Z.log2 sig)) by (apply cfits; fold l; lia). fold l.
  unfold csub at 1. rewrite chk_ok by (apply cfits; lia). cbn [bind].
  unfold csub at 1. rewrite chk_ok by (apply cfits; lia). cbn [bind].
  assert (exists rb, (if exp <? emin f - (l - fs f) then csub (SI 32) (emin f) exp else Ok (l - fs f)) = Ok rb /\
     (rb = emin f - exp /\ exp < emin f - (l - fs f) \/ rb = l - fs f /\ emin f <= exp + rb)) as (rb & -> & Hrb).
  { destruct (Z.ltb_spec exp (emin f - (l - fs f))).
    - exists (emin f - exp). split; [|lia]. unfold csub. apply chk_ok, cfits. lia.
    - exists (l - fs f). split; [reflexivity|lia]. }
  cbn [bind]. unfold cadd at 1. rewrite chk_ok by (apply cfits; lia). cbn [bind].
  assert (exp = -2 ^ 31 -> 130 <= rb) as Sat by (change (2 ^ 31) with (8 * 2 ^ 28); lia).
  assert (-127 <= rb < 2 ^ 31) as RBB by lia.
  assert (rb <= 1 -> sig * 2 ^ (2 - rb) < 2 ^ 128) as Hsh.
  { intros. apply Z.lt_le_trans with (2 ^ (l + 1) * 2 ^ (2 - rb)).
    - apply Z.mul_lt_mono_pos_r; [apply pow2_pos; lia|]. exact Hl2.
    - rewrite <- pow2_add by lia. apply pow2_le. lia. }
  assert (sticky T sig \/ 130 <= rb) as HA by (destruct HT as [[? _]|[? _]]; [tauto|right; auto]).
  assert (T = IZR sig \/ 2 <= rb) as HB.
  { destruct HT as [[_ [?|Big]]|[? _]]; [tauto| |right; specialize (Sat ltac:(assumption)); lia]. right.
    assert (124 <= l) by (apply Z.log2_le_pow2; lia). lia. }
  destruct (round_sig_ok T sig rb m Hs TB HA HB RBB Hsh) as (st & -> & Hst). cbn [bind].
  set (y := (T / bpow radix2 rb)%R) in *.
  assert (T = y * bpow radix2 rb)%R as Ty by (unfold y; field; pose proof (bpow_gt_0 radix2 rb); lra).
  assert (T * bpow radix2 exp = y * bpow radix2 (exp + rb))%R as XE by (rewrite Ty, Rmult_assoc, <- bpow_plus, Z.add_comm; reflexivity).
  set (e := exp + rb) in *.
  assert (emin f <= e) as Ee by lia.
  pose proof (bpow_gt_0 radix2 rb) as RB0.
  assert (IZR (2 * S) = bpow radix2 (fs f + 1)) as S2.
  { rewrite bpow_pow2 by lia. f_equal. rewrite pow2_add by lia. lia. }
  assert (0 <= y < IZR (2 * S))%R as Hy.
  { split; [apply Rmult_le_reg_r with (bpow radix2 rb); lra|]. rewrite S2.
    apply Rmult_lt_reg_r with (bpow radix2 rb); [lra|]. rewrite <- Ty, <- bpow_plus.
    destruct TL as [[_ TL]|TL].
    - apply Rlt_le_trans with (1 := TL). apply bpow_le. lia.
    - destruct TB as [_ TB]. apply Rlt_le_trans with (1 := TB). apply bpow_le. specialize (Sat TL). lia. }
  assert (e - emin f + 1 = 1 \/ (IZR S <= y)%R) as Hn.
  { destruct Hrb as [[Q _]|[Q Q2]]; [left; lia|].
    destruct TL as [[TL _]|TL]; [right|left; specialize (Sat TL); change (2 ^ 31) with (8 * 2 ^ 28) in *; lia].
    rewrite <- bpow_pow2 by lia. apply Rmult_le_reg_r with (bpow radix2 rb); [lra|]. rewrite <- Ty, <- bpow_plus.
    replace (fs f + rb) with l by lia. exact TL. }
  assert (0 <= rnd (to_dir m) y <= 2 * S) as Hq by (apply rnd_bounds; lra).
  assert (e - emin f < 2 ^ 31) as H31 by lia.
  assert (e - emin f < 2 ^ (128 - fs f)) as H128.
  { destruct HW as [HW|HW].
    - apply Z.lt_le_trans with (1 := H31). apply pow2_le. lia.
    - destruct Hn as [Hn|Hn]; [pose proof (pow2_pos (128 - fs f)); lia|].
      rewrite XE in HW. assert (bpow radix2 (fs f + e) < bpow radix2 (2 ^ (128 - fs f) - bias f))%R as Q.
      { apply Rle_lt_trans with (2 := HW). rewrite bpow_plus, (bpow_pow2 (fs f)) by lia. apply Rmult_le_compat_r; [apply bpow_ge_0|exact Hn]. }
      apply lt_bpow in Q. unfold emin in *. lia. }
  rewrite (encode_ok _ e st m Ee H31 H128 Hq). cbv zeta.
  rewrite XE.
  pose proof (finish_mag m (e - emin f + 1) y ltac:(lia) Hy Hn st Hst) as FM. cbv zeta in FM.
  replace (e - emin f + 1 - 1 + emin f) with e in FM by lia.
  set (nn := enc f (e - emin f + 1) (rnd (to_dir m) y)) in *.
  destruct (nn <? inf f); cbn [bind fst snd] in *; eexists _, _; (split; [reflexivity|exact FM]).
Qed.
End Fmt.
