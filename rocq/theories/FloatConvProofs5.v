(** Proofs for the conversions from floats to integers (conv.rs). *)
From Coq Require Import ZArith Reals Bool List Lia Lra.
From Flocq Require Import Core.
From Verif Require Import Base BaseLemmas FloatModel FloatSpec FloatProofs FloatProofs2 FloatProofs3 FloatProofs5 FloatProofs7 FloatConvModel FloatConvSpec FloatConvProofs2 FloatConvProofs3 FloatConvProofs4.
Open Scope Z_scope.

Section Fmt.
Context (f : fmt) (W : wf f) (ib : Z) (IB : 8 <= ib <= 128) (FI : fb f <= ib \/ ib <= fs f) (HE : EXP_BIAS f + ib <= 2 ^ eb f - 1).
Notation S := (2 ^ fs f).
Notation B := (2 ^ (fb f - 1)).
Notation u := (bpow radix2 (emin f)).
Notation bi := (EXP_BIAS f).

(** The magnitude of a finite pattern, truncated. *)
Definition fl (n : Z) : Z := Zfloor (IZR (V f n) * u).

Lemma trunc_value s n : 0 <= n < B -> Ztrunc (value f (b2z s * B + n)) = if s then - fl n else fl n.
Proof using W.
  intros Hn. rewrite (value_mk f W) by assumption. unfold fl.
  assert (0 <= IZR (V f n) * u)%R as P. { apply Rmult_le_pos; [apply IZR_le, (V_nonneg f W); lia|apply bpow_ge_0]. }
  destruct s; [rewrite Ztrunc_opp; f_equal|]; apply Ztrunc_floor; exact P.
Qed.

Lemma mag_mono n m : 0 <= n <= m -> (IZR (V f n) * u <= IZR (V f m) * u)%R.
Proof using W. intros H. apply Rmult_le_compat_r; [apply bpow_ge_0|]. apply IZR_le, (V_mono f W). lia. Qed.
Lemma fl_mono n m : 0 <= n <= m -> fl n <= fl m.
Proof using W. intros H. unfold fl. apply Zfloor_le. apply mag_mono, H. Qed.
Lemma fl_nonneg n : 0 <= n -> 0 <= fl n.
Proof using W.
  intros H. replace 0 with (fl 0). - apply fl_mono. lia.
  - unfold fl. rewrite (V_0 f W), Rmult_0_l. apply (Zfloor_IZR 0).
Qed.
Lemma mag_pow e : 1 <= e -> (IZR (V f (e * S)) * u = bpow radix2 (e - bi))%R.
Proof using W.
  intros He. pose proof (S_pos f W). assert (e * S = enc f e S) as E by (unfold enc; ring).
  rewrite (IZR_V f W e S _ E) by lia. rewrite (IZR_Zpower radix2) by (destruct W; lia). rewrite <- !bpow_plus. f_equal.
  unfold emin. destruct (bias_range f W) as (_ & -> & _). lia.
Qed.
Lemma fl_small n : 0 <= n < bi * S -> fl n = 0.
Proof using W.
  intros Hn. unfold fl. apply Zfloor_imp. split; [apply Rmult_le_pos; [apply IZR_le, (V_nonneg f W); lia|apply bpow_ge_0]|].
  pose proof (bias_range f W) as (BR & _).
  apply Rlt_le_trans with (IZR (V f (bi * S)) * u)%R.
  - apply Rmult_lt_compat_r; [apply bpow_gt_0|]. apply IZR_lt, (V_lt f W). lia.
  - rewrite mag_pow by lia. rewrite Z.sub_diag. cbn [bpow]. apply Rle_refl.
Qed.
Lemma fl_big n e : bi <= e -> e * S <= n -> 2 ^ (e - bi) <= fl n.
Proof using W.
  intros He Hn. pose proof (bias_range f W) as (BR & _). pose proof (S_pos f W).
  clear IB FI HE. apply Z.le_trans with (fl (e * S)).
  - unfold fl. rewrite mag_pow by lia. rewrite <- (IZR_Zpower radix2) by lia. rewrite Zfloor_IZR. reflexivity.
  - apply fl_mono. nia.
Qed.

(** The in-range computation. *)
Definition inb (n : Z) : res Z :=
  let* m_base :=
    (if fb f <=? ib then
       let* x := ccast (UI ib) n in
       let* s := csub (UI 32) ib (fs f) in
       let* s := csub (UI 32) s 1 in
       cshl (UI ib) x s
     else
       let* s := csub (UI 32) (fs f) ib in
       let* s := cadd (UI 32) s 1 in
       let* x := cshr (fI f) n s in
       Ok (norm (UI ib) x)) in
  let* top := cshl (UI ib) 1 (ib - 1) in
  let m := Z.lor top m_base in
  let* e := cshr (fI f) n (fs f) in
  let* e := ccast (UI 32) e in
  let* s := csub (UI 32) (bi + ib - 1) e in
  cshr (UI ib) m s.

Lemma mbase_lor x m0 : 0 <= m0 < 2 ^ (ib - 1) -> (exists j, x = j * 2 ^ (ib - 1) + m0) ->
  Z.lor (2 ^ (ib - 1)) (norm (UI ib) x) = 2 ^ (ib - 1) + m0.
Proof using IB f.
  intros Hm (j & ->). pose proof (pow2_S ib ltac:(lia)) as PS. rewrite norm_u.
  pose proof (Z.div_mod j 2 ltac:(lia)) as DJ. pose proof (Z.mod_pos_bound j 2 ltac:(lia)) as MJ.
  assert ((j * 2 ^ (ib - 1) + m0) mod 2 ^ ib = b2z (Z.odd j) * 2 ^ (ib - 1) + m0) as ->.
  { symmetry. apply Z.mod_unique with (j / 2); [left; destruct (Z.odd j); cbn [b2z]; lia|].
    rewrite PS. rewrite Zmod_odd in DJ. destruct (Z.odd j); cbn [b2z]; rewrite DJ at 1; ring. }
  rewrite Z.lor_comm. apply lor_mk_top; lia.
Qed.

Lemma inb_ok n : bi * S <= n -> n < (bi + ib) * S -> inb n = Ok (fl n).
Proof using W IB FI HE.
  intros H1 H2. pose proof (bias_range f W) as (BR & BB & _). pose proof (S_big f W) as SB. pose proof (fb_eq f W) as FE. pose proof (B_eq f W) as BE.
  pose proof (EB_big f W) as EB. pose proof (inf_eq f W) as IE. pose proof (inf_pos f W) as IP.
  assert (0 <= n < B) as Hn.
  { pose proof (Z.mul_le_mono_nonneg_r (bi + ib) (2 ^ eb f - 1) S ltac:(lia) ltac:(lia)).
    pose proof (Z.mul_le_mono_nonneg_r 0 bi S ltac:(lia) ltac:(lia)). lia. }
  pose proof (Z.div_mod n S ltac:(lia)) as DM. pose proof (Z.mod_pos_bound n S ltac:(lia)) as MB.
  set (e := n / S) in *. set (m := n mod S) in *.
  assert (bi <= e < bi + ib) as ER.
  { unfold e. split; [apply Z.div_le_lower_bound; lia|apply Z.div_lt_upper_bound; lia]. }
  assert (fs f < fb f) as FF by (destruct W; lia).
  set (s := bi + ib - 1 - e).
  (* value *)
  assert (IZR (V f n) * u = IZR (S + m) * bpow radix2 (e - bi - fs f))%R as VE.
  { rewrite (IZR_V f W e (S + m) n) by (unfold enc; lia). rewrite !Rmult_assoc, <- bpow_plus. do 2 f_equal. unfold emin. rewrite BB. lia. }
  assert (exists m0, 0 <= m0 < 2 ^ (ib - 1) /\ (2 ^ (ib - 1) + m0) / 2 ^ s = fl n /\
    (let* m_base :=
    (if fb f <=? ib then
       let* x := ccast (UI ib) n in
       let* s := csub (UI 32) ib (fs f) in
       let* s := csub (UI 32) s 1 in
       cshl (UI ib) x s
     else
       let* s := csub (UI 32) (fs f) ib in
       let* s := cadd (UI 32) s 1 in
       let* x := cshr (fI f) n s in
       Ok (norm (UI ib) x)) in
     let* top := cshl (UI ib) 1 (ib - 1) in Ok (Z.lor top m_base)) = Ok (2 ^ (ib - 1) + m0)) as (m0 & M0 & MV & ME).
  { assert (cshl (UI ib) 1 (ib - 1) = Ok (2 ^ (ib - 1))) as CT.
    { rewrite cshl_u_exact by (try lia; rewrite Z.mul_1_l; apply pow2_lt; lia). rewrite Z.mul_1_l. reflexivity. }
    assert (s = bi + ib - 1 - e) as SD by reflexivity. clearbody s.
    destruct (Z.leb_spec (fb f) ib) as [L|L].
    - set (k := ib - 1 - fs f). assert (2 ^ (ib - 1) = S * 2 ^ k) as E1 by (rewrite <- pow2_add by (destruct W; lia); f_equal; lia).
      pose proof (pow2_pos k ltac:(lia)) as KP.
      exists (m * 2 ^ k). split; [|split].
      + pose proof (scale_window 0 S m (2 ^ k) MB KP). lia.
      + unfold fl. rewrite VE. rewrite E1, <- Z.mul_add_distr_r.
        replace (IZR (S + m) * bpow radix2 (e - bi - fs f))%R with (IZR ((S + m) * 2 ^ k) / IZR (2 ^ s))%R.
        * rewrite Zfloor_div; [reflexivity|]. pose proof (pow2_pos s ltac:(lia)). lia.
        * rewrite mult_IZR, !(IZR_Zpower radix2) by lia. unfold Rdiv. rewrite <- bpow_opp, Rmult_assoc, <- bpow_plus. do 2 f_equal. unfold k. lia.
      + unfold ccast. rewrite chk_u by (pose proof (pow2_le (fb f) ib ltac:(lia)); lia). cbn [bind].
        rewrite csub_u by (rewrite shl32; destruct W; lia). cbn [bind]. rewrite csub_u by (rewrite shl32; destruct W; lia). cbn [bind].
        rewrite cshl_ok by (cbn [bits UI]; destruct W; lia). cbn [bind]. rewrite CT. cbn [bind]. f_equal.
        apply mbase_lor; [pose proof (scale_window 0 S m (2 ^ k) MB KP); lia|].
        exists e. rewrite E1. replace (ib - fs f - 1) with k by (unfold k; lia). rewrite DM at 1. ring.
    - assert (ib <= fs f) as Q by (destruct FI; [lia|assumption]). set (k := fs f - ib + 1).
      assert (S = 2 ^ (ib - 1) * 2 ^ k) as E1 by (rewrite <- pow2_add by lia; f_equal; lia).
      pose proof (pow2_pos k ltac:(lia)) as KP.
      exists (m / 2 ^ k). assert (0 <= m / 2 ^ k < 2 ^ (ib - 1)) as MK.
      { split; [apply Z.div_pos; lia|apply Z.div_lt_upper_bound; lia]. }
      split; [exact MK|split].
      + unfold fl. rewrite VE. rewrite <- Z.div_add_l by lia. rewrite <- E1.
        pose proof (pow2_pos s ltac:(lia)) as SP. rewrite Z.div_div by lia.
        replace (IZR (S + m) * bpow radix2 (e - bi - fs f))%R with (IZR (S + m) / IZR (2 ^ k * 2 ^ s))%R.
        * rewrite Zfloor_div; [reflexivity|]. apply Z.neq_mul_0. lia.
        * rewrite mult_IZR, !(IZR_Zpower radix2) by lia. unfold Rdiv. rewrite <- bpow_plus, <- bpow_opp. do 2 f_equal. unfold k. lia.
      + rewrite csub_u by (rewrite shl32; destruct W; lia). cbn [bind]. rewrite cadd_u by (rewrite shl32; destruct W; lia). cbn [bind].
        unfold fI. rewrite cshr_ok by (cbn [bits UI]; destruct W; lia). cbn [bind]. rewrite CT. cbn [bind]. f_equal.
        apply mbase_lor; [exact MK|]. exists e. fold k. rewrite DM at 1. rewrite (Z.mul_comm S e). rewrite E1 at 1. rewrite Z.mul_assoc, Z.div_add_l by lia. reflexivity. }
  unfold inb. match goal with |- bind ?a _ = _ => destruct a as [mb|]; [|discriminate ME] end. cbn [bind] in ME |- *.
  destruct (cshl (UI ib) 1 (ib - 1)) as [top|]; [|discriminate ME]. cbn [bind] in ME |- *. injection ME as ME. rewrite ME.
  unfold fI. rewrite cshr_ok by (cbn [bits UI]; destruct W; lia). cbn [bind]. fold e.
  unfold ccast. rewrite chk_u by (rewrite shl32; lia). cbn [bind]. rewrite csub_u by (rewrite shl32; lia). cbn [bind]. fold s.
  rewrite cshr_ok by (cbn [bits UI]; unfold s; lia). f_equal. exact MV.
Qed.

Lemma fl_bound n : bi * S <= n -> n < (bi + ib) * S -> 0 <= fl n < 2 ^ ib.
Proof using W IB.
  intros H1 H2. pose proof (bias_range f W) as (BR & BB & _). pose proof (S_big f W) as SB.
  pose proof (Z.mul_le_mono_nonneg_r 0 bi S ltac:(lia) ltac:(lia)).
  split; [apply fl_nonneg; lia|]. apply lt_IZR. apply Rle_lt_trans with (IZR (V f n) * u)%R; [apply Zfloor_lb|].
  apply Rlt_le_trans with (IZR (V f ((bi + ib) * S)) * u)%R.
  - apply Rmult_lt_compat_r; [apply bpow_gt_0|]. apply IZR_lt, (V_lt f W). lia.
  - rewrite mag_pow by lia. rewrite (IZR_Zpower radix2) by lia. apply bpow_le. lia.
Qed.

Lemma cneg_ok t i : fits t (- i) -> cneg t i = Ok (- i).
Proof using. intros H. unfold cneg. apply chk_ok, H. Qed.

Lemma inner_ok t L n neg oob : bits t = ib -> Z.log2 (imax t) + 1 = L -> ib - 1 <= L <= ib -> 0 <= n < 2 * B ->
  float_to_int_inner f t n neg oob =
  if n <? bi * S then Ok 0 else if n <? (bi + L) * S then (let i := norm t (fl n) in if neg then cneg t i else Ok i)
  else if n <=? EXP_MASK f then Ok oob else Ok 0.
Proof using W IB FI HE.
  intros Bt HL LR Hn. pose proof (bias_range f W) as (BR & BB & _). pose proof (S_big f W) as SB. pose proof (fb_eq f W) as FE. pose proof (B_eq f W) as BE.
  pose proof (EB_big f W) as EB. pose proof (inf_eq f W) as IE. pose proof (inf_pos f W) as IP.
  assert (2 ^ eb f = 2 * 2 ^ (eb f - 1)) as EBS by (rewrite <- pow2_S by (destruct W; lia); reflexivity).
  unfold float_to_int_inner. rewrite Bt.
  assert (Z.log2 (imax t) = L - 1) as -> by lia.
  rewrite (cadd_u 32 bi) by (rewrite shl32; lia). cbn [bind].
  rewrite (cadd_u 32 (bi + _)) by (rewrite shl32; lia). cbn [bind].
  rewrite (cadd_u 32 bi) by (rewrite shl32; lia). cbn [bind].
  rewrite (csub_u 32) by (rewrite shl32; lia). cbn [bind].
  assert (0 <= (bi + L) * S <= inf f) as ME.
  { pose proof (Z.mul_le_mono_nonneg_r (bi + L) (2 ^ eb f - 1) S ltac:(lia) ltac:(lia)).
    pose proof (Z.mul_le_mono_nonneg_r 0 (bi + L) S ltac:(lia) ltac:(lia)). lia. }
  assert (2 ^ eb f <= 2 ^ fb f) as EF by (apply pow2_le; destruct W; lia).
  unfold ccast at 1, fI. rewrite chk_u by lia. cbn [bind].
  assert (2 ^ fb f = 2 * B) as FB2 by (rewrite <- pow2_S by (destruct W; lia); reflexivity).
  replace (bi + (L - 1) + 1) with (bi + L) by lia.
  rewrite cshl_u_exact by (try (destruct W; lia); lia). cbn [bind].
  assert (ONE_bits f = bi * S) as ->. { unfold ONE_bits. rewrite shiftl_mul by (destruct W; lia). reflexivity. }
  destruct (Z.ltb_spec n (bi * S)) as [C1|C1]; [reflexivity|].
  destruct (Z.ltb_spec n ((bi + L) * S)) as [C2|C2]; [|reflexivity].
  assert (n < (bi + ib) * S) as C3. { pose proof (Z.mul_le_mono_nonneg_r (bi + L) (bi + ib) S ltac:(lia) ltac:(lia)). lia. }
  pose proof (inb_ok n C1 C3) as I. unfold inb, fI in I. 
  match goal with |- bind ?a _ = _ => destruct a as [mb|]; [|discriminate I] end. cbn [bind] in I |- *.
  destruct (cshl (UI ib) 1 (ib - 1)) as [top|]; [|discriminate I]. cbn [bind] in I |- *.
  destruct (cshr (UI (fb f)) n (fs f)) as [e|]; [|discriminate I]. cbn [bind] in I |- *.
  destruct (ccast (UI 32) e) as [e'|]; [|discriminate I]. cbn [bind] in I |- *.
  destruct (csub (UI 32) (bi + ib - 1) e') as [s|]; [|discriminate I]. cbn [bind] in I |- *.
  rewrite I. reflexivity.
Qed.

Lemma mag_of_land a : is_float f a -> exists s n, a = b2z s * B + n /\ 0 <= n < B /\ sign_of f a = s /\
  negb (Z.land a (SIGN_MASK f) =? 0) = s /\ Z.land a (inot (fI f) (SIGN_MASK f)) = n.
Proof using W.
  intros HA. destruct (split_float f W a HA) as (s & n & -> & Hn). exists s, n. pose proof (pow2_pos (fb f - 1) ltac:(destruct W; lia)) as BP.
  split; [reflexivity|]. split; [exact Hn|]. split; [apply (sign_of_mk f W), Hn|].
  split.
  - rewrite (sgn_of f W) by exact Hn. destruct s; cbn [b2z]; [|reflexivity]. rewrite Z.mul_1_l. destruct (Z.eqb_spec B 0); [lia|reflexivity].
  - assert (inot (fI f) (SIGN_MASK f) = B - 1) as ->.
    { unfold inot, fI. rewrite (SIGN_MASK_eq f W). assert (2 ^ fb f = 2 * B) as FB2 by (rewrite <- pow2_S by (destruct W; lia); reflexivity).
      apply norm_unique with 1; [rewrite bits_u; destruct W; lia|apply fits_u; lia|rewrite bits_u; unfold Z.lnot; lia]. }
    apply land_low_val; [destruct W; lia|exact Hn].
Qed.

Lemma fix_cut (t : ity) (s : bool) n (E : res Z) : 0 <= n < B ->
  (exists r : Z, E = Ok r /\ (inf f < n -> r = 0) /\ (n = inf f -> r = if s then imin t else imax t) /\
     (n < inf f -> r = clamp t (if s then - fl n else fl n))) ->
  exists r : Z, E = Ok r /\ fix_spec f t (b2z s * B + n) r.
Proof using W.
  intros Hn (r & HE' & P). exists r. split; [exact HE'|]. unfold fix_spec.
  rewrite (is_nan_mk f W), (is_inf_mk f W), (is_finite_mk f W), (sign_of_mk f W), trunc_value by assumption. exact P.
Qed.

Lemma fix_unsigned a : is_float f a -> exists r, float_to_unsigned_int f ib a = Ok r /\ fix_spec f (UI ib) a r.
Proof using W IB FI HE.
  intros HA. destruct (split_float f W a HA) as (s & n & -> & Hn).
  pose proof (bias_range f W) as (BR & BB & _). pose proof (S_big f W) as SB. pose proof (B_eq f W) as BE. pose proof (pow2_pos ib ltac:(lia)) as IPW.
  pose proof (inf_eq f W) as IE. pose proof (inf_pos f W) as IP.
  assert (Z.log2 (imax (UI ib)) + 1 = ib) as HL.
  { change (imax (UI ib)) with (2 ^ ib - 1). rewrite Z.sub_1_r, Z.log2_pred_pow2 by lia. lia. }
  unfold float_to_unsigned_int. apply fix_cut; [exact Hn|].
  rewrite (inner_ok (UI ib) ib) by (try reflexivity; try lia; destruct s; cbn [b2z]; lia).
  rewrite (EXP_MASK_eq f W). unfold clamp. change (imin (UI ib)) with 0. change (imax (UI ib)) with (2 ^ ib - 1).
  assert (0 <= (bi + ib) * S <= inf f /\ 0 <= bi * S < inf f) as (ME & MB).
  { pose proof (EB_big f W). pose proof (Z.mul_le_mono_nonneg_r (bi + ib) (2 ^ eb f - 1) S ltac:(lia) ltac:(lia)).
    pose proof (Z.mul_lt_mono_pos_r S bi (bi + ib) ltac:(lia)).
    pose proof (Z.mul_le_mono_nonneg_r 0 bi S ltac:(lia) ltac:(lia)). lia. }
  destruct s; cbn [b2z].
  - replace (1 * B + n) with (B + n) by ring.
    destruct (Z.ltb_spec (B + n) (bi * S)); [lia|]. destruct (Z.ltb_spec (B + n) ((bi + ib) * S)); [lia|].
    destruct (Z.leb_spec (B + n) (inf f)); [lia|]. exists 0. split; [reflexivity|]. split; [reflexivity|]. split; [reflexivity|].
    intros _. pose proof (fl_nonneg n ltac:(lia)). lia.
  - replace (0 * B + n) with n by ring. destruct (Z.ltb_spec n (bi * S)) as [C1|C1].
    { exists 0. split; [reflexivity|]. split; [reflexivity|]. split; [lia|]. intros _. rewrite fl_small by lia. lia. }
    destruct (Z.ltb_spec n ((bi + ib) * S)) as [C2|C2].
    { pose proof (fl_bound n C1 C2) as FB. cbv zeta. exists (fl n). split; [f_equal; apply norm_u_id, FB|].
      split; [lia|]. split; [lia|]. intros _. lia. }
    destruct (Z.leb_spec n (inf f)) as [C3|C3].
    { exists (2 ^ ib - 1). split; [reflexivity|]. split; [lia|]. split; [reflexivity|]. intros _.
      pose proof (fl_big n (bi + ib) ltac:(lia) C2) as G. replace (bi + ib - bi) with ib in G by lia. lia. }
    exists 0. split; [reflexivity|]. split; [reflexivity|]. split; lia.
Qed.

Lemma fix_signed a : is_float f a -> exists r, float_to_signed_int f ib a = Ok r /\ fix_spec f (SI ib) a r.
Proof using W IB FI HE.
  intros HA. destruct (mag_of_land a HA) as (s & n & E & Hn & ES & E1 & E2). unfold float_to_signed_int. rewrite E1, E2. clear ES E1 E2. subst a.
  pose proof (bias_range f W) as (BR & BB & _). pose proof (S_big f W) as SB. pose proof (B_eq f W) as BE. pose proof (pow2_pos (ib - 1) ltac:(lia)) as IPW.
  pose proof (inf_eq f W) as IE. pose proof (inf_pos f W) as IP.
  assert (Z.log2 (imax (SI ib)) + 1 = ib - 1) as HL.
  { change (imax (SI ib)) with (2 ^ (ib - 1) - 1). rewrite Z.sub_1_r, Z.log2_pred_pow2 by lia. lia. }
  apply fix_cut; [exact Hn|].
  rewrite (inner_ok (SI ib) (ib - 1)) by (try reflexivity; try lia).
  rewrite (EXP_MASK_eq f W). unfold clamp. change (imin (SI ib)) with (- 2 ^ (ib - 1)). change (imax (SI ib)) with (2 ^ (ib - 1) - 1).
  assert (0 <= (bi + (ib - 1)) * S <= inf f /\ 0 <= bi * S < inf f) as (ME & MB).
  { pose proof (EB_big f W). pose proof (Z.mul_le_mono_nonneg_r (bi + (ib - 1)) (2 ^ eb f - 1) S ltac:(lia) ltac:(lia)).
    pose proof (Z.mul_lt_mono_pos_r S bi (bi + (ib - 1)) ltac:(lia)).
    pose proof (Z.mul_le_mono_nonneg_r 0 bi S ltac:(lia) ltac:(lia)). lia. }
  destruct (Z.ltb_spec n (bi * S)) as [C1|C1].
  { exists 0. split; [reflexivity|]. split; [reflexivity|]. split; [lia|]. intros _. rewrite fl_small by lia. destruct s; lia. }
  destruct (Z.ltb_spec n ((bi + (ib - 1)) * S)) as [C2|C2].
  { assert (0 <= fl n < 2 ^ (ib - 1)) as FB.
    { split; [apply fl_nonneg; lia|]. apply lt_IZR. apply Rle_lt_trans with (IZR (V f n) * u)%R; [apply Zfloor_lb|].
      apply Rlt_le_trans with (IZR (V f ((bi + (ib - 1)) * S)) * u)%R.
      - apply Rmult_lt_compat_r; [apply bpow_gt_0|]. apply IZR_lt, (V_lt f W). lia.
      - rewrite mag_pow by lia. rewrite (IZR_Zpower radix2) by lia. apply bpow_le. lia. }
    cbv zeta. exists (if s then - fl n else fl n). split.
    - rewrite norm_id by (try (cbn [bits SI]; lia); apply fits_s; lia). destruct s; [|reflexivity]. apply cneg_ok. apply fits_s. lia.
    - split; [lia|]. split; [lia|]. intros _. destruct s; lia. }
  destruct (Z.leb_spec n (inf f)) as [C3|C3].
  { eexists. split; [reflexivity|]. split; [lia|]. split; [intros _; destruct s; reflexivity|]. intros _.
    pose proof (fl_big n (bi + (ib - 1)) ltac:(lia) C2) as G. replace (bi + (ib - 1) - bi) with (ib - 1) in G by lia. destruct s; lia. }
  exists 0. split; [reflexivity|]. split; [reflexivity|]. split; lia.
Qed.
End Fmt.

Lemma fix_correct ib f a : int_width ib -> conv_fmt f -> is_float f a ->
  (exists r, float_to_unsigned_int f ib a = Ok r /\ fix_spec f (UI ib) a r) /\
  (exists r, float_to_signed_int f ib a = Ok r /\ fix_spec f (SI ib) a r).
Proof.
  intros HI HF HA.
  assert (wf f) as W by (destruct HF as [-> | [-> | ->]]; [exact wf32|exact wf64|exact wf128]).
  assert (8 <= ib <= 128) as IB by (destruct HI as [-> | [-> | ->]]; lia).
  assert (fb f <= ib \/ ib <= fs f) as FI.
  { destruct HI as [-> | [-> | ->]]; destruct HF as [-> | [-> | ->]]; cbn; lia. }
  assert (EXP_BIAS f + ib <= 2 ^ eb f - 1) as HE.
  { destruct HI as [-> | [-> | ->]]; destruct HF as [-> | [-> | ->]]; vm_compute; congruence. }
  split; [apply (fix_unsigned f W ib IB FI HE a HA)|apply (fix_signed f W ib IB FI HE a HA)].
Qed.
