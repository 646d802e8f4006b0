(** sin is odd and cos is even: the reduction of opposite arguments, and the functions. *)
From Coq Require Import ZArith Reals Bool List Lia Lra Psatz.
From Flocq Require Import Core.
From Verif Require Import Base BaseLemmas FloatModel FloatSpec FloatProofs FloatProofs5 LibmModel LibmSpec LibmProps FloatConvSpec FloatErr PolyBound Elem ElemModel ElemSpec TrigModel F64Lib ExpProofs3 ExpProofs4 ExpProofs5 ExpProofs7 ExpProofs8 LogProofs LogProofs2 LogProofs4 TrigProofs TrigProofs2 TrigProofs3 TrigProofs4 TrigPi TrigDist TrigRed TrigRed2 TrigRed3 TrigRed4 TrigRed5 TrigLg TrigLg2 TrigLg10 TrigLg11 OddProofs ParityProofs.
Open Scope Z_scope.

Lemma near_opp v : ZnearestE (- v) = - ZnearestE v.
Proof.
  apply eq_IZR. rewrite opp_IZR. pose proof (round_NE_opp radix2 (FIX_exp 0) v) as H. unfold Generic_fmt.round, F2R, scaled_mantissa, cexp, FIX_exp in H. cbn [Fnum Fexp Z.opp] in H. change (bpow radix2 0) with 1%R in H. rewrite !Rmult_1_r in H. exact H.
Qed.
Lemma floor_shift v T : Zfloor (v + IZR T) = Zfloor v + T.
Proof. apply Zfloor_imp. pose proof (Zfloor_lb v). pose proof (Zfloor_ub v). rewrite !plus_IZR. cbn. lra. Qed.
Lemma ceil_shift v T : Zceil (v + IZR T) = Zceil v + T.
Proof. unfold Zceil. replace (- (v + IZR T))%R with (- v + IZR (- T))%R by (rewrite opp_IZR; ring). rewrite floor_shift. lia. Qed.
Lemma near_shift v T : Z.even T = true -> ZnearestE (v + IZR T) = ZnearestE v + T.
Proof.
  intros H. unfold Znearest. rewrite floor_shift, ceil_shift, plus_IZR. replace (v + IZR T - (IZR (Zfloor v) + IZR T))%R with (v - IZR (Zfloor v))%R by ring.
  rewrite Z.even_add, H. destruct (Rcompare _ _); [|reflexivity|reflexivity]. destruct (Z.even (Zfloor v)); reflexivity.
Qed.
Lemma rne_int v : (4503599627370496 <= v < 9007199254740992)%R -> rne F64 v = IZR (ZnearestE v).
Proof.
  intros H. unfold rne, Generic_fmt.round, F2R, scaled_mantissa, cexp. rewrite (mag_unique radix2 v 53).
  - change (FLT_exp (emin F64) (prec F64) 53) with 0. cbn [Fnum Fexp Z.opp bpow]. rewrite !Rmult_1_r. reflexivity.
  - change (bpow radix2 (53 - 1)) with 4503599627370496%R. change (bpow radix2 53) with 9007199254740992%R. rewrite Rabs_pos_eq; lra.
Qed.
Lemma rne_sym P : (Rabs P <= 4194304)%R -> exists q, rne F64 (P + IZR 6755399441055744) = (IZR q + IZR 6755399441055744)%R /\ rne F64 (- P + IZR 6755399441055744) = (- IZR q + IZR 6755399441055744)%R.
Proof.
  intros H. apply Rabs_le_inv in H. exists (ZnearestE P). rewrite !rne_int by lra. rewrite !near_shift by reflexivity. rewrite near_opp, !plus_IZR, opp_IZR. split; reflexivity.
Qed.

Section Trig.
Context (o : fops) (Ho : ieee_ops F64 o) (c : icast) (Hc : icast_ok c) (tbl : list Z) (Ht : forall j, 0 <= j < 66 -> tab tbl j = Ok (tt j)).
Ltac kf := match goal with |- rel false ?k ?k => apply rel_refl; vm_compute; split; congruence end.
Ltac go := repeat match goal with
  | H : rel ?s ?a ?b |- rel ?s ?a ?b => exact H
  | |- rel _ (o_add _ _ _) (o_add _ _ _) => apply (rel_add o Ho)
  | |- rel _ (o_sub _ _ _) (o_sub _ _ _) => apply (rel_sub o Ho)
  | |- rel _ (o_mul _ _ _) (o_mul _ _ _) => apply (mulF o Ho)
  | |- rel false ?k ?k => kf
  end.
Lemma rel_value s a b : rel s a b -> good a -> good b /\ value F64 b = sg s (value F64 a).
Proof using. clear. intros (Fa & Fb & [(A & B & C)|[(A & _)|(A & _)]]) [_ N]; [split; [split; assumption|exact C]|exfalso; apply (not_finite a Fa); tauto..]. Qed.
(** The nearest multiple of pi/2 *)
Lemma fn_sym x x' (f := fun x => o_sub o (o_add o (o_mul o x INV_PIO2) TO_INT) TO_INT) : rel true x x' -> good x -> (0.785 <= Rabs (value F64 x) <= 1647100)%R ->
  rel true (f x) (f x') /\ c_toi c (f x') = - c_toi c (f x).
Proof using Ho Hc.
  intros R G B. destruct (rel_value _ _ _ R G) as [G' V']. cbn [sg] in V'. assert (B' : (0.785 <= Rabs (value F64 x') <= 1647100)%R) by (rewrite V', Rabs_Ropp; exact B).
  destruct (medium_n o Ho c Hc x G B) as (N & Gf & Vf & Tf & _). destruct (medium_n o Ho c Hc x' G' B') as (N' & Gf' & Vf' & Tf' & _). change (o_sub o (o_add o (o_mul o x INV_PIO2) TO_INT) TO_INT) with (f x) in *. change (o_sub o (o_add o (o_mul o x' INV_PIO2) TO_INT) TO_INT) with (f x') in *.
  assert (VV : value F64 (f x') = (- value F64 (f x))%R).
  { unfold f. assert (I1 : (0 <= value F64 INV_PIO2 <= 1)%R). { pose proof value_INV as VI. apply Rabs_le_inv in VI. pose proof tau_pi. pose proof pi_num. assert (0.6 <= tau <= 0.7)%R by nra. change (bpow radix2 (-53)) with (/ 9007199254740992)%R in VI. lra. }
    assert (M : (Rabs (value F64 x * value F64 INV_PIO2) <= 1647100)%R) by (rewrite Rabs_mult, (Rabs_pos_eq (value F64 INV_PIO2)) by lra; pose proof (Rabs_pos (value F64 x)); nra).
    assert (B100 : forall v, (Rabs v <= 9007199254740992 -> Rabs v <= bpow radix2 100)%R) by (intros v Hv; apply (big_le v 53); [lia|exact Hv]).
    destruct (mul64 o Ho x INV_PIO2 G good_INV) as [Gp Vp]; [apply B100; lra|]. assert (Rp : rel true (o_mul o x INV_PIO2) (o_mul o x' INV_PIO2)) by go. set (p := o_mul o x INV_PIO2) in *. set (p' := o_mul o x' INV_PIO2) in *. destruct (rel_value _ _ _ Rp Gp) as [Gp' Vp']. cbn [sg] in Vp'.
    assert (BP : (Rabs (value F64 p) <= 4194304)%R). { pose proof (rne_error64 22 (value F64 x * value F64 INV_PIO2) ltac:(change (bpow radix2 22) with 4194304%R; lra) ltac:(lia)) as E. rewrite <- Vp in E. change (bpow radix2 (22 - 54)) with (/ 4294967296)%R in E. apply Rabs_le_inv in E, M. apply Rabs_le. lra. }
    destruct (rne_sym _ BP) as (q & Q1 & Q2). assert (BP2 := BP). apply Rabs_le_inv in BP2.
    destruct (add64 o Ho p TO_INT Gp good_TO) as [G2 V2]; [apply B100; rewrite value_TO; apply Rabs_le; lra|]. destruct (add64 o Ho p' TO_INT Gp' good_TO) as [G2' V2']; [apply B100; rewrite value_TO, Vp'; apply Rabs_le; lra|].
    rewrite value_TO, Q1 in V2. rewrite value_TO, Vp', Q2 in V2'.
    assert (Bq : (Rabs (IZR q) <= 4194305)%R). { pose proof (rne_error64 53 (value F64 p + IZR 6755399441055744) ltac:(change (bpow radix2 53) with 9007199254740992%R; apply Rabs_lt; lra) ltac:(lia)) as E. rewrite Q1 in E. change (bpow radix2 (53 - 54)) with (/ 2)%R in E. apply Rabs_le_inv in E. apply Rabs_le. lra. }
    assert (Bq2 := Bq). apply Rabs_le_inv in Bq2.
    destruct (sub64 o Ho (o_add o p TO_INT) TO_INT G2 good_TO) as [_ V3]; [apply B100; rewrite value_TO, V2; apply Rabs_le; lra|]. destruct (sub64 o Ho (o_add o p' TO_INT) TO_INT G2' good_TO) as [_ V3']; [apply B100; rewrite value_TO, V2'; apply Rabs_le; lra|].
    rewrite V3, V3', V2, V2', value_TO. rewrite <- rne_opp. f_equal. ring. }
  split.
  - destruct Gf, Gf'. split; [assumption|]. split; [assumption|]. left. auto.
  - rewrite Tf, Tf'. apply eq_IZR. rewrite opp_IZR, <- Vf, <- Vf'. exact VV.
Qed.

Definition opp3 (p q : Z * Z * Z) : Prop := let '(n, y0, y1) := p in let '(m, z0, z1) := q in m = - n /\ rel true y0 z0 /\ rel true y1 z1.
Lemma exp_diff n y : 0 <= n < 2 ^ 63 -> is_float F64 y -> exists d, csub (SI 32) (norm (SI 32) (Z.shiftr (n / 2 ^ 32) 20)) (exp_bits y) = Ok d.
Proof using.
  clear. intros Hn F. destruct (split64 y F) as (t & m & -> & Hm). rewrite exp_bits_mk by lia. rewrite Z.shiftr_div_pow2, Z.div_div by lia. change (2 ^ 32 * 2 ^ 20) with (2 ^ 52).
  assert (HE : 0 <= n / 2 ^ 52 <= 2047) by (split; [apply Z.div_pos; lia|assert (n / 2 ^ 52 < 2048) by (apply Z.div_lt_upper_bound; lia); lia]).
  assert (HF : 0 <= m / 2 ^ 52 <= 2047) by (split; [apply Z.div_pos; lia|assert (m / 2 ^ 52 < 2048) by (apply Z.div_lt_upper_bound; lia); lia]).
  rewrite norm_id by first [reflexivity|apply fits_s; lia]. eexists. apply chk_ok, fits_s; lia.
Qed.
Lemma medium_sym n : 0x3fe921fc00000000 <= n < 0x413921fb00000000 ->
  exists p q, rp_medium o c (mk64 false n) (n / 2 ^ 32) = Ok p /\ rp_medium o c (mk64 true n) (n / 2 ^ 32) = Ok q /\ opp3 p q.
Proof using Ho Hc.
  intros Hn. assert (R := rel_mk n ltac:(lia)). assert (G : good (mk64 false n)) by (apply good64; lia).
  assert (BX : (0.785 <= Rabs (value F64 (mk64 false n)) <= 1647100)%R).
  { rewrite Rabs64 by lia. split.
    - apply Rle_trans with (fx 19 0x6487f); [unfold fx; change (bpow radix2 (- (19))) with (/ 524288)%R; lra|]. apply (mag_ge 0x3fe921fc00000000); [vm_compute; reflexivity|lia|lia].
    - apply Rlt_le, Rlt_le_trans with (fx 0 0x1921fb); [|unfold fx; cbn [bpow Z.opp]; lra]. apply (mag_lt 0x413921fb00000000); [vm_compute; reflexivity|lia|lia]. }
  destruct (fn_sym _ _ R G BX) as [F C]. set (x := mk64 false n) in *. set (x' := mk64 true n) in *. cbv beta in F, C. unfold rp_medium.
  set (f := o_sub o (o_add o (o_mul o x INV_PIO2) TO_INT) TO_INT) in *. set (f' := o_sub o (o_add o (o_mul o x' INV_PIO2) TO_INT) TO_INT) in *. rewrite C. set (k := c_toi c f). clearbody k. clear C G BX. clearbody x x' f f'.
  assert (R1 : rel true (o_sub o x (o_mul o f PIO2_1)) (o_sub o x' (o_mul o f' PIO2_1))) by go. set (r := o_sub o x _) in *. set (r' := o_sub o x' _) in *. clearbody r r'.
  assert (W1 : rel true (o_mul o f PIO2_1T) (o_mul o f' PIO2_1T)) by go. set (w := o_mul o f PIO2_1T) in *. set (w' := o_mul o f' PIO2_1T) in *. clearbody w w'.
  assert (Y1 : rel true (o_sub o r w) (o_sub o r' w')) by go. set (y := o_sub o r w) in *. set (y' := o_sub o r' w') in *. clearbody y y'.
  destruct (exp_diff n y ltac:(lia) (proj1 Y1)) as (d & D). rewrite <- (rel_exp _ _ _ Y1), D. cbn [bind]. destruct (16 <? d).
  2:{ cbn [bind]. do 2 eexists. split; [reflexivity|]. split; [reflexivity|]. split; [reflexivity|]. split; go. }
  assert (V2 : rel true (o_mul o f PIO2_2) (o_mul o f' PIO2_2)) by go. set (v := o_mul o f PIO2_2) in *. set (v' := o_mul o f' PIO2_2) in *. clearbody v v'.
  assert (R2 : rel true (o_sub o r v) (o_sub o r' v')) by go. set (r2 := o_sub o r v) in *. set (r2' := o_sub o r' v') in *. clearbody r2 r2'.
  assert (W2 : rel true (o_sub o (o_mul o f PIO2_2T) (o_sub o (o_sub o r r2) v)) (o_sub o (o_mul o f' PIO2_2T) (o_sub o (o_sub o r' r2') v'))) by go. set (w2 := o_sub o (o_mul o f PIO2_2T) _) in *. set (w2' := o_sub o (o_mul o f' PIO2_2T) _) in *. clearbody w2 w2'.
  assert (Y2 : rel true (o_sub o r2 w2) (o_sub o r2' w2')) by go. set (y2 := o_sub o r2 w2) in *. set (y2' := o_sub o r2' w2') in *. clearbody y2 y2'.
  destruct (exp_diff n y2 ltac:(lia) (proj1 Y2)) as (d2 & D2). rewrite <- (rel_exp _ _ _ Y2), D2. cbn [bind]. destruct (49 <? d2).
  2:{ cbn [bind]. do 2 eexists. split; [reflexivity|]. split; [reflexivity|]. split; [reflexivity|]. split; go. }
  assert (V3 : rel true (o_mul o f PIO2_3) (o_mul o f' PIO2_3)) by go. set (v3 := o_mul o f PIO2_3) in *. set (v3' := o_mul o f' PIO2_3) in *. clearbody v3 v3'.
  assert (R3 : rel true (o_sub o r2 v3) (o_sub o r2' v3')) by go. set (r3 := o_sub o r2 v3) in *. set (r3' := o_sub o r2' v3') in *. clearbody r3 r3'.
  assert (W3 : rel true (o_sub o (o_mul o f PIO2_3T) (o_sub o (o_sub o r2 r3) v3)) (o_sub o (o_mul o f' PIO2_3T) (o_sub o (o_sub o r2' r3') v3'))) by go. set (w3 := o_sub o (o_mul o f PIO2_3T) _) in *. set (w3' := o_sub o (o_mul o f' PIO2_3T) _) in *. clearbody w3 w3'.
  cbn [bind]. do 2 eexists. split; [reflexivity|]. split; [reflexivity|]. split; [reflexivity|]. split; go.
Qed.
Lemma round_sym n k p t : 0 <= n < 2 ^ 63 -> is_float F64 p -> is_float F64 t ->
  exists a b, rp_round o (mk64 false n) 0 k p t = Ok a /\ rp_round o (mk64 true n) 1 k p t = Ok b /\ opp3 a b.
Proof using Ho.
  intros Hn Fp Ft. unfold rp_round. cbn [Z.eqb]. do 2 eexists. split; [reflexivity|]. split; [reflexivity|]. split; [reflexivity|]. pose proof (rel_mk n Hn) as R. apply rel_refl in Fp, Ft.
  assert (Z : rel true (o_sub o (mk64 false n) p) (o_add o (mk64 true n) p)) by (apply (rel_sub_add o Ho true); assumption). set (z := o_sub o _ p) in *. set (z' := o_add o _ p) in *. clearbody z z'.
  assert (Y : rel true (o_sub o z t) (o_add o z' t)) by (apply (rel_sub_add o Ho true); assumption). split; [exact Y|]. set (y := o_sub o z t) in *. set (y' := o_add o z' t) in *. clearbody y y'. apply (rel_sub_add o Ho true); [|assumption]. go.
Qed.
Lemma large_sym fuel n : (4 <= fuel)%nat -> 0x413921fb00000000 <= n < INF ->
  exists a b, rp_large o c tbl fuel (mk64 false n) (n / 2 ^ 32) 0 = Ok a /\ rp_large o c tbl fuel (mk64 true n) (n / 2 ^ 32) 1 = Ok b /\ opp3 a b.
Proof using Ho Hc Ht.
  intros Hf Hn. destruct (rp_large_ok o Ho c Hc tbl Ht fuel false n Hf Hn) as (k & y0 & y1 & j & E & (_ & (F0 & _) & (F1 & _) & _)). destruct (rp_large_ok o Ho c Hc tbl Ht fuel true n Hf Hn) as (k' & z0 & z1 & j' & E' & _). cbn [b2z] in E, E'.
  exists (k, y0, y1), (k', z0, z1). split; [exact E|]. split; [exact E'|]. revert E E'. unfold rp_large.
  replace (Z.land (mk64 true n) (Z.shiftr (inot (UI 64) 1) 12)) with (Z.land (mk64 false n) (Z.shiftr (inot (UI 64) 1) 12)).
  2:{ change (Z.shiftr (inot (UI 64) 1) 12) with (Z.ones 52). rewrite !Z.land_ones by lia. unfold mk64, b2z. rewrite Z.mul_0_l, Z.mul_1_l. replace (2 ^ 63 + n) with (n + 2 ^ 11 * 2 ^ 52) by lia. rewrite Z.mod_add by lia. f_equal. }
  match goal with |- context [bind (csub _ ?e ?g) ?h] => destruct (csub (SI 32) e g) as [e0|]; [|discriminate] end. cbn [bind]. match goal with |- context [rem_pio2_large o c tbl fuel ?a ?b ?d ?e] => destruct (rem_pio2_large o c tbl fuel a b d e) as [p|]; [|discriminate] end. cbn [bind].
  destruct (tab (snd p) 0) as [u|]; [|discriminate]. destruct (tab (snd p) 1) as [v|]; [|discriminate]. cbn [bind Z.eqb negb]. intros E. injection E as -> -> ->. unfold cneg. destruct (chk _ _) as [m|] eqn:M; [|discriminate]. cbn [bind]. intros E'. injection E' as <- <- <-.
  split; [unfold chk in M; destruct (fitsb _ _) in M; congruence|]. split; apply (rel_neg_r false), rel_refl; assumption.
Qed.
Lemma rem_sym fuel n : (4 <= fuel)%nat -> 0x3fe921fc00000000 <= n < INF ->
  exists p q, rem_pio2 o c tbl fuel (mk64 false n) = Ok p /\ rem_pio2 o c tbl fuel (mk64 true n) = Ok q /\ opp3 p q.
Proof using Ho Hc Ht.
  intros Hf Hn. unfold rem_pio2. rewrite !sign_mk, !high_abs by lia. cbn [b2z]. rewrite !hx_div', !hx_div.
  assert (Q : (n / 2 ^ 32 <? 0x413921fb) = (n <? 0x413921fb * 2 ^ 32)). { apply eq_true_iff_eq. rewrite !Z.ltb_lt. split; intros H; [|apply Z.div_lt_upper_bound; lia]. pose proof (Z_div_mod_eq_full n (2 ^ 32)). pose proof (Z.mod_pos_bound n (2 ^ 32) ltac:(lia)). lia. }
  rewrite Q. clear Q. assert (FM : forall a b, is_float F64 a -> is_float F64 b -> is_float F64 (o_mul o a b)) by (intros a b A B; exact (proj1 (ops_mul F64 o Ho a b A B))).
  destruct (Z.ltb_spec n ((0x400f6a7a + 1) * 2 ^ 32)) as [L|L].
  - destruct (_ =? 0x921fb); [apply medium_sym; lia|]. destruct (n <? (0x4002d97c + 1) * 2 ^ 32); apply round_sym; try lia; try apply FM; vm_compute; split; congruence.
  - destruct (Z.ltb_spec n ((0x401c463b + 1) * 2 ^ 32)) as [L2|L2].
    + destruct (n <? (0x4015fdbc + 1) * 2 ^ 32); (destruct (n / 2 ^ 32 =? _); [apply medium_sym; lia|]); apply round_sym; try lia; try apply FM; vm_compute; split; congruence.
    + destruct (Z.ltb_spec n (0x413921fb * 2 ^ 32)) as [L3|L3]; [apply medium_sym; lia|]. replace (0x7ff00000 * 2 ^ 32 <=? n) with false by lia. apply large_sym; [exact Hf|lia].
Qed.
End Trig.
