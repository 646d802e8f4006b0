(** Libm: nextafter, frexp, ilogb (C34, C35, C37). *)
From Coq Require Import ZArith Reals Bool Lia Lra.
From Flocq Require Import Core.
From Verif Require Import Base BaseLemmas FloatModel FloatSpec FloatConvSpec FloatConvModel FloatProofs FloatProofs2 FloatProofs3 FloatProofs4 FloatProofs5 FloatProofs7 FloatConvProofs FloatLib LibmModel LibmSpec LibmProofs LibmProofs2 LibmProofs3 LibmProofs4.
Open Scope Z_scope.

Section Fmt.
Context (f : fmt) (W : wf f).
Notation S := (2 ^ fs f).
Notation B := (2 ^ (fb f - 1)).
Notation u := (bpow radix2 (emin f)).
Notation mk s n := (b2z s * B + n).
Notation mag n := (IZR (V f n) * u)%R.
Notation p2 := (p2 f).
Notation key := (key f).
Context (o : fops) (O : ieee_ops f o).

Lemma V_step n m : 0 <= n -> 0 <= m -> V f n < V f m -> V f (n + 1) <= V f m.
Proof using W.
  intros Hn Hm H. apply (proj2 (V_inj_lt f W n m Hn Hm)) in H. destruct (Z.eq_dec (n + 1) m) as [<-|]; [lia|].
  apply Z.lt_le_incl. apply (proj1 (V_inj_lt f W (n + 1) m ltac:(lia) Hm)). lia.
Qed.
Lemma mk_inj s n t m : 0 <= n < B -> 0 <= m < B -> mk s n = mk t m -> s = t /\ n = m.
Proof using W. intros. destruct s, t; cbn [b2z] in *; split; lia || reflexivity. Qed.

Lemma nextafter_ok x y : is_float f x -> is_float f y -> exists r, nextafter f o x y = Ok r /\ is_float f r /\
  (is_nan f x \/ is_nan f y -> is_qnan f r) /\
  (num_eq f x y -> r = y) /\
  (num_lt f x y -> num_lt f x r /\ forall z, is_float f z -> num_lt f x z -> num_le f r z) /\
  (num_lt f y x -> num_lt f r x /\ forall z, is_float f z -> num_lt f z x -> num_le f z r) /\
  (num_lt f x y \/ num_lt f y x -> ~ is_zero f x -> sign_of f r = sign_of f x).
Proof using W O.
  intros Fx Fy. destruct (split_float f W x Fx) as (s & n & -> & Hn). destruct (split_float f W y Fy) as (t & m & -> & Hm).
  pose proof (nan_mk f W s n Hn) as Nx. pose proof (nan_mk f W t m Hm) as Ny. pose proof (num_eq_mk f W s n t m Hn Hm) as EQ. pose proof (num_lt_mk f W s n t m Hn Hm) as LT. pose proof (num_lt_mk f W t m s n Hm Hn) as GT.
  pose proof (is_zero_mk f W s n Hn) as Zx. pose proof (sign_of_mk f W s n Hn) as Sx.
  pose proof (inf_pos f W) as IP. pose proof (S_pos f W) as SP. pose proof (fb_eq f W) as FB. pose proof (V_0 f W) as V0.
  unfold nextafter. rewrite !is_nanb_mk by assumption.
  destruct (Z.ltb_spec (inf f) n) as [N1|N1]; [|destruct (Z.ltb_spec (inf f) m) as [N2|N2]]; cbn [orb].
  1-2: eexists; split; [reflexivity|]; destruct (ops_add f o O _ _ Fx Fy) as [Fr (AN & _)]; (split; [exact Fr|]); (split; [tauto|]); rewrite EQ, LT, GT; (split; [lia|]); (split; [lia|]); split; [lia|]; lia.
  destruct (Z.eqb_spec (mk s n) (mk t m)) as [E|E].
  { apply mk_inj in E; [|assumption..]. destruct E as [<- <-]. eexists; split; [reflexivity|]. split; [assumption|]. rewrite Nx, LT. split; [lia|]. split; [reflexivity|]. split; [lia|]. split; [lia|]. reflexivity. }
  rewrite !mag_of by assumption.
  pose proof (V_inj_lt f W n m ltac:(lia) ltac:(lia)) as I1. pose proof (V_inj_lt f W m n ltac:(lia) ltac:(lia)) as I2.
  pose proof (V_nonneg f W n ltac:(lia)) as P1. pose proof (V_nonneg f W m ltac:(lia)) as P2.
  (* the final comparison, once the result is [mk s' n'] *)
  assert (forall s' n', 0 <= n' <= inf f ->
    (key s n < key t m -> key s n < key s' n' /\ forall w k, 0 <= k <= inf f -> key s n < key w k -> key s' n' <= key w k) ->
    (key t m < key s n -> key s' n' < key s n /\ forall w k, 0 <= k <= inf f -> key w k < key s n -> key w k <= key s' n') ->
    (n <> 0 -> s' = s) -> key s n <> key t m ->
    exists r, Ok (mk s' n') = Ok r /\ is_float f r /\
      (is_nan f (mk s n) \/ is_nan f (mk t m) -> is_qnan f r) /\
      (num_eq f (mk s n) (mk t m) -> r = mk t m) /\
      (num_lt f (mk s n) (mk t m) -> num_lt f (mk s n) r /\ forall z, is_float f z -> num_lt f (mk s n) z -> num_le f r z) /\
      (num_lt f (mk t m) (mk s n) -> num_lt f r (mk s n) /\ forall z, is_float f z -> num_lt f z (mk s n) -> num_le f z r) /\
      (num_lt f (mk s n) (mk t m) \/ num_lt f (mk t m) (mk s n) -> ~ is_zero f (mk s n) -> sign_of f r = sign_of f (mk s n))) as Fin.
  { intros s' n' Hn' H1 H2 H3 H4. exists (mk s' n'). split; [reflexivity|]. split; [apply is_float_mk; [assumption|lia]|]. rewrite Nx, Ny, EQ, LT, GT, Zx, Sx. split; [lia|]. split; [lia|].
    rewrite !num_lt_mk, sign_of_mk by (assumption || lia). split; [|split].
    - intros (_ & _ & L). destruct (H1 L) as [H5 H6]. split; [lia|]. intros z Fz. destruct (split_float f W z Fz) as (w & k & -> & Hk). rewrite num_lt_mk, num_le_mk by (assumption || lia).
      intros (_ & Q & L2). split; [lia|]. split; [lia|]. apply H6; [lia|exact L2].
    - intros (_ & _ & L). destruct (H2 L) as [H5 H6]. split; [lia|]. intros z Fz. destruct (split_float f W z Fz) as (w & k & -> & Hk). rewrite num_lt_mk, num_le_mk by (assumption || lia).
      intros (Q & _ & L2). split; [lia|]. split; [lia|]. apply H6; [lia|exact L2].
    - intros _ NZ. apply H3. exact NZ. }
  assert (forall (w : bool) k, 0 <= k <= inf f -> 0 <= V f k /\ (V f k < V f n -> V f (k + 1) <= V f n) /\ (V f n < V f k -> V f (n + 1) <= V f k) /\ (0 < V f k -> V f 1 <= V f k) /\ (0 < n -> V f k < V f n -> V f k <= V f (n - 1))) as ST.
  { intros w k Hk. split; [apply (V_nonneg f W); lia|]. split; [apply V_step; lia|]. split; [apply V_step; lia|]. split.
    - intros Hv. rewrite <- V0 in Hv. apply (V_step 0); lia.
    - intros H0 Hv. apply (proj2 (V_inj_lt f W k n ltac:(lia) ltac:(lia))) in Hv. destruct (Z.eq_dec k (n - 1)) as [<-|]; [lia|]. apply Z.lt_le_incl. apply (proj1 (V_inj_lt f W k (n - 1) ltac:(lia) ltac:(lia))). lia. }
  assert (0 < V f 1) as V1 by (apply (V_pos f W); lia).
  destruct (Z.eqb_spec n 0) as [Zn|Zn].
  - subst n. destruct (Z.eqb_spec m 0) as [Zm|Zm].
    + subst m. eexists; split; [reflexivity|]. split; [assumption|]. rewrite Nx, Ny, EQ, LT, GT, !(key_0 f W). split; [lia|]. split; [reflexivity|]. split; [lia|]. split; [lia|]. lia.
    + assert (Z.lor (Z.land (mk t m) (SIGN_MASK f)) 1 = mk t 1) as ->.
      { rewrite sgn_of by assumption. replace (b2z t * B) with (mk t 0) at 1 by lia. rewrite lor_sign by (assumption || lia). rewrite Z.lor_0_l. reflexivity. }
      assert (0 < V f m) by (apply (V_pos f W); lia).
      apply Fin; [lia| | |lia|]; rewrite (key_0 f W) in *; unfold FloatConvProofs.key.
      * destruct t; [lia|]. intros _. split; [lia|]. intros w k Hk. pose proof (ST w k Hk). destruct w; lia.
      * destruct t; [|lia]. intros _. split; [lia|]. intros w k Hk. pose proof (ST w k Hk). destruct w; lia.
      * destruct t; lia.
  - assert (0 < V f n) as VN by (apply (V_pos f W); lia).
    assert ((m <? n) || negb (Z.land (Z.lxor (mk s n) (mk t m)) (SIGN_MASK f) =? 0) = (m <? n) || xorb s t) as ->.
    { f_equal. rewrite lxor_mk by (assumption || (destruct W; lia)). assert (0 <= Z.lxor n m < B) as LX.
      { split; [apply Z.lxor_nonneg; lia|]. destruct (Z.eq_dec (Z.lxor n m) 0); [lia|]. apply Z.log2_lt_pow2; [pose proof (Z.lxor_nonneg n m); lia|].
        pose proof (Z.log2_lxor n m ltac:(lia) ltac:(lia)). assert (Z.log2 n < fb f - 1) by (apply Z.log2_lt_pow2; lia).
        destruct (Z.eq_dec m 0) as [->|]; [change (Z.log2 0) with 0 in *; destruct W; lia|]. assert (Z.log2 m < fb f - 1) by (apply Z.log2_lt_pow2; lia). lia. }
      rewrite sgn_of by assumption. destruct (xorb s t); cbn [b2z]; [|reflexivity]. destruct (Z.eqb_spec (1 * B) 0); [lia|reflexivity]. }
    destruct (Z.ltb_spec m n) as [L|L]; [|destruct (xorb s t) eqn:X]; cbn [orb].
    + assert (csub (fI f) (mk s n) 1 = Ok (mk s (n - 1))) as ->. { unfold fI. rewrite csub_u; [f_equal; lia|]. destruct s; cbn [b2z]; lia. }
      pose proof (proj1 (V_inj_lt f W (n - 1) n ltac:(lia) ltac:(lia)) ltac:(lia)) as VL. apply I2 in L.
      apply Fin; [lia| | |reflexivity|]; unfold FloatConvProofs.key.
      * destruct s; [|destruct t; lia]. intros _. split; [lia|]. intros w k Hk. pose proof (ST w k Hk). pose proof (V_nonneg f W (n - 1) ltac:(lia)). destruct w; lia.
      * destruct s; [destruct t; lia|]. intros _. split; [lia|]. intros w k Hk. pose proof (ST w k Hk). pose proof (V_nonneg f W (n - 1) ltac:(lia)). destruct w; lia.
      * destruct s, t; lia.
    + assert (csub (fI f) (mk s n) 1 = Ok (mk s (n - 1))) as ->. { unfold fI. rewrite csub_u; [f_equal; lia|]. destruct s; cbn [b2z]; lia. }
      pose proof (proj1 (V_inj_lt f W (n - 1) n ltac:(lia) ltac:(lia)) ltac:(lia)) as VL.
      apply Fin; [lia| | |reflexivity|]; unfold FloatConvProofs.key.
      * destruct s; [|destruct t; (discriminate || lia)]. intros _. split; [lia|]. intros w k Hk. pose proof (ST w k Hk). pose proof (V_nonneg f W (n - 1) ltac:(lia)). destruct w; lia.
      * destruct s; [destruct t; (discriminate || lia)|]. intros _. split; [lia|]. intros w k Hk. pose proof (ST w k Hk). pose proof (V_nonneg f W (n - 1) ltac:(lia)). destruct w; lia.
      * destruct s, t; (discriminate || lia).
    + assert (s = t) by (destruct s, t; discriminate || reflexivity). subst t.
      assert (n < m) as NM. { destruct (Z.eq_dec n m) as [->|]; [exfalso; apply E; reflexivity|lia]. }
      assert (cadd (fI f) (mk s n) 1 = Ok (mk s (n + 1))) as ->. { unfold fI. rewrite cadd_u; [f_equal; lia|]. destruct s; cbn [b2z]; lia. }
      pose proof (proj1 (V_inj_lt f W n (n + 1) ltac:(lia) ltac:(lia)) ltac:(lia)) as VL. pose proof (proj1 I1 NM) as VNM.
      apply Fin; [lia| | |reflexivity|]; unfold FloatConvProofs.key.
      * destruct s; [lia|]. intros _. split; [lia|]. intros w k Hk. pose proof (ST w k Hk). destruct w; lia.
      * destruct s; [|lia]. intros _. split; [lia|]. intros w k Hk. pose proof (ST w k Hk). destruct w; lia.
      * destruct s; lia.
Qed.

(** [frexp]: the common end of the two paths. *)
Lemma frexp_pack s w : 0 <= w < B ->
  Z.lor (Z.land (mk s w) (Z.lor (SIGN_MASK f) (SIG_MASK f))) ((bias f - 1) * S) = mk s (enc f (bias f - 1) (S + w mod S)) /\
  0 <= enc f (bias f - 1) (S + w mod S) < inf f.
Proof using W.
  intros Hw. pose proof (S_pos f W) as SP. pose proof (inf_pos f W) as IP. pose proof (bias_pos f W) as Bp. pose proof (Z.mod_pos_bound w S ltac:(lia)) as M.
  pose proof (inf_eq f W) as IE. pose proof (eb_bias f W) as EBB. assert (0 <= fs f) by (destruct W; lia).
  assert (0 <= (bias f - 1) * S) as N0 by (apply Z.mul_nonneg_nonneg; lia). assert ((bias f - 1) * S + S < inf f) as N1. { rewrite IE. rewrite EBB. pose proof (Z.mul_lt_mono_pos_r S (bias f) (2 * bias f + 1) ltac:(lia)). lia. }
  rewrite SIGN_MASK_eq, SIG_MASK_eq by assumption.
  replace B with (mk true 0) at 2 by (cbn [b2z]; lia). rewrite lor_sign by (assumption || lia). rewrite Z.lor_0_l.
  rewrite land_mk by (lia || (destruct W; lia)). rewrite andb_true_r, land_ones_mod by lia. rewrite lor_sign by (assumption || lia).
  rewrite lor_add_low by lia. unfold enc. split; [f_equal; lia|lia].
Qed.

Lemma frexp_ok x : is_float f x -> exists r e, frexp f o x = Ok (r, e) /\
  (is_finite f x -> ~ is_zero f x ->
     is_float f r /\ is_finite f r /\ (/ 2 <= Rabs (value f r) < 1)%R /\ value f x = (value f r * bpow radix2 e)%R) /\
  (is_zero f x \/ ~ is_finite f x -> r = x /\ e = 0).
Proof using W O.
  intros Fx. destruct (split_float f W x Fx) as (s & n & -> & Hn). pose proof (bias_pos f W) as Bp. pose proof (bias_range f W) as (Hb & Eb & _). rewrite <- Eb in Hb.
  pose proof (inf_pos f W) as IP. pose proof (S_pos f W) as SP. pose proof (div_range f W n Hn) as DR. pose proof (EB_big f W) as EBb. pose proof (eb_bias f W) as EBB. assert (10 <= fs f) as FS by (destruct W; lia). pose proof (fb_big f W) as (FB1 & FB2 & FB3). pose proof (fb_eq f W) as FB. pose proof (inf_eq f W) as IE.
  pose proof (is_finite_mk f W s n Hn) as FM. pose proof (is_zero_mk f W s n Hn) as ZM.
  pose proof (Z.div_mod n S ltac:(lia)) as D. pose proof (Z.mod_pos_bound n S ltac:(lia)) as M.
  assert (forall w E, 0 <= w < B -> - 200 <= E <= 40000 ->
    (let* b := csub (SI 32) (EXP_BIAS f) 1 in
     let* e := csub (SI 32) E b in
     let ix := Z.land (mk s w) (Z.lor (SIGN_MASK f) (SIG_MASK f)) in
     let* b := csub (UI 32) (EXP_BIAS f) 1 in
     let* h := cshl (fI f) (norm (fI f) b) (fs f) in
     Ok (Z.lor ix h, e)) = Ok (mk s (enc f (bias f - 1) (S + w mod S)), E - (bias f - 1))) as Fin.
  { intros w E Hw HE. destruct (frexp_pack s w Hw) as [P1 P2]. rewrite <- Eb. unfold csub at 1. rewrite chk_s32 by lia. cbn [bind]. unfold csub at 1. rewrite chk_s32 by lia. cbn [bind].
    rewrite csub_u by lia. cbn [bind]. assert ((bias f - 1) * S < B) by (unfold enc in P2; pose proof (Z.mod_pos_bound w S ltac:(lia)); lia).
    unfold fI. rewrite norm_u_id by nia. rewrite cshl_u_exact by (lia || (destruct W; lia)). cbn [bind]. fold (fI f). rewrite P1. reflexivity. }
  assert (forall q, S <= q < 2 * S -> let r := mk s (enc f (bias f - 1) q) in 0 <= enc f (bias f - 1) q < inf f ->
    is_float f r /\ is_finite f r /\ (/ 2 <= Rabs (value f r) < 1)%R /\ value f r = (if s then - (IZR q * bpow radix2 (-1 - fs f)) else IZR q * bpow radix2 (-1 - fs f))%R) as Val.
  { intros q Hq r Hr. assert (0 <= enc f (bias f - 1) q < B) as HrB by lia.
    assert (mag (enc f (bias f - 1) q) = IZR q * bpow radix2 (-1 - fs f))%R as ME. { rewrite (mag_enc f W) by lia. do 2 f_equal. lia. }
    subst r. split; [apply is_float_mk; assumption|]. rewrite is_finite_mk, value_mk, ME by assumption. split; [lia|]. split; [|reflexivity].
    assert (IZR S * bpow radix2 (-1 - fs f) = / 2)%R as SH. { rewrite <- (bpow_S f W), <- bpow_plus. replace (fs f + (-1 - fs f)) with (-1) by lia. reflexivity. }
    pose proof (bpow_gt_0 radix2 (-1 - fs f)) as BP.
    assert (/ 2 <= IZR q * bpow radix2 (-1 - fs f))%R. { rewrite <- SH. apply Rmult_le_compat_r; [lra|apply IZR_le; lia]. }
    assert (IZR q * bpow radix2 (-1 - fs f) < 1)%R. { apply Rlt_le_trans with (IZR (2 * S) * bpow radix2 (-1 - fs f))%R; [apply Rmult_lt_compat_r; [lra|apply IZR_lt; lia]|]. rewrite mult_IZR, Rmult_assoc, SH. lra. }
    destruct s; [rewrite Rabs_Ropp|]; rewrite Rabs_pos_eq by lra; lra. }
  unfold frexp. rewrite ex_mk, norm_s32 by (assumption || lia). rewrite EXP_SAT_eq by assumption.
  destruct (Z.eqb_spec (n / S) 0) as [E0|E0].
  - change (o_eq o (mk s n) 0) with (o_eq o (mk s n) (mk false 0)). rewrite (eq_mk f W o O) by lia. rewrite (key_0 f W).
    destruct (Z.leb_spec n (inf f)); [|nia]. destruct (Z.leb_spec 0 (inf f)); [|lia]. cbn [andb].
    destruct (Z.eqb_spec (key s n) 0) as [K|K].
    + assert (n = 0) as ->. { apply (V_zero_iff f W); [lia|]. unfold FloatConvProofs.key in K. destruct s; lia. }
      eexists _, _. split; [reflexivity|]. rewrite ZM. split; [lia|]. tauto.
    + assert (n <> 0) as N0. { intros ->. apply K, (key_0 f W). }
      rewrite frac_of, Z.mod_small by (assumption || lia). destruct (normalize_ok f W n ltac:(lia)) as (h & -> & Hh & Hr). cbn [bind fst snd].
      assert (2 * S < B) as S2B by (rewrite (B_eq f W); nia).
      assert (Z.lor (n * 2 ^ h) (Z.land (mk s n) (SIGN_MASK f)) = mk s (n * 2 ^ h)) as ->.
      { rewrite sgn_of by assumption. rewrite Z.lor_comm. replace (b2z s * B) with (mk s 0) at 1 by lia. rewrite lor_sign by (assumption || lia). rewrite Z.lor_0_l. reflexivity. }
      assert (fs f <= 128) by (destruct W; lia).
      rewrite Fin by lia. eexists _, _. split; [reflexivity|]. rewrite FM, ZM. split; [|lia]. intros _ _.
      assert ((n * 2 ^ h) mod S = n * 2 ^ h - S) as EM. { symmetry. apply Z.mod_unique with 1; lia. }
      replace (S + (n * 2 ^ h) mod S) with (n * 2 ^ h) by lia.
      destruct (Val (n * 2 ^ h) ltac:(lia)) as (V1 & V2 & V3 & V4). { destruct (frexp_pack s (n * 2 ^ h) ltac:(lia)) as [_ P]. rewrite EM in P. replace (S + (n * 2 ^ h - S)) with (n * 2 ^ h) in P by lia. exact P. }
      split; [exact V1|]. split; [exact V2|]. split; [exact V3|]. rewrite V4, value_mk by assumption.
      assert (mag n = IZR (n * 2 ^ h) * bpow radix2 (-1 - fs f) * bpow radix2 (1 - h - (bias f - 1)))%R as EM2.
      { replace n with (enc f 1 n) at 1 by (unfold enc; lia). rewrite (mag_enc f W) by lia. rewrite mult_IZR, (IZR_Zpower radix2) by lia.
        rewrite !Rmult_assoc, <- !bpow_plus. do 2 f_equal. lia. }
      rewrite EM2. destruct s; ring.
  - pose proof (div_inf f W n Hn) as DI. destruct (Z.eqb_spec (n / S) (2 ^ eb f - 1)) as [E1|E1].
    + eexists _, _. split; [reflexivity|]. rewrite FM, ZM. split; [lia|]. tauto.
    + rewrite Fin by lia. eexists _, _. split; [reflexivity|]. rewrite FM, ZM. split; [|intros [->|]; [rewrite Z.div_0_l in E0; lia|lia]]. intros _ _.
      destruct (Val (S + n mod S) ltac:(lia)) as (V1 & V2 & V3 & V4). { apply (frexp_pack s n Hn). }
      split; [exact V1|]. split; [exact V2|]. split; [exact V3|]. rewrite V4, value_mk by assumption.
      assert (mag n = IZR (S + n mod S) * bpow radix2 (-1 - fs f) * bpow radix2 (n / S - (bias f - 1)))%R as EM2.
      { replace n with (enc f (n / S) (S + n mod S)) at 1 by (unfold enc; lia). rewrite (mag_enc f W) by lia.
        rewrite !Rmult_assoc, <- !bpow_plus. do 2 f_equal. lia. }
      rewrite EM2. destruct s; ring.
Qed.

Lemma ilogb_loop_ok k : forall e i, 0 < i < 2 ^ fb f -> fb f - 1 - Z.log2 i < Z.of_nat k -> - 2 ^ 30 <= e - (fb f - Z.log2 i) -> e <= 2 ^ 30 ->
  ilogb_loop f k e i = Ok (e - (fb f - 1 - Z.log2 i)).
Proof using W.
  assert (1 <= fb f <= 128) as FBr by (destruct W; lia).
  induction k as [|k IH]; intros e i Hi Hk He1 He2.
  - exfalso. assert (Z.log2 i < fb f) by (apply Z.log2_lt_pow2; lia). lia.
  - cbn [ilogb_loop]. rewrite cshr_ok by (cbn [bits fI UI]; lia). cbn [bind].
    assert (0 <= Z.log2 i < fb f) as L by (split; [apply Z.log2_nonneg|apply Z.log2_lt_pow2; lia]).
    pose proof (Z.log2_spec i ltac:(lia)) as [L1 L2]. pose proof (pow2_S (fb f) ltac:(lia)) as FB.
    destruct (Z.eqb_spec (i / B) 0) as [E|E].
    + apply Z.div_small_iff in E; [|lia]. assert (i < B) as HB by lia.
      assert (Z.log2 i < fb f - 1) by (apply Z.log2_lt_pow2; lia).
      unfold csub. rewrite chk_s32 by lia. cbn [bind]. unfold fI. rewrite cshl_u_exact by lia. cbn [bind].
      change (i * 2 ^ 1) with (i * 2). replace (i * 2) with (2 * i) by lia. rewrite IH by (rewrite ?Z.log2_double by lia; lia). rewrite Z.log2_double by lia. f_equal. lia.
    + assert (B <= i). { destruct (Z_lt_ge_dec i B); [exfalso; apply E; apply Z.div_small; lia|lia]. }
      assert (fb f - 1 <= Z.log2 i) by (apply Z.log2_le_pow2; lia). f_equal. lia.
Qed.
Lemma ilogb_ok x : is_float f x -> exists r, ilogb f x = Ok r /\
  (is_finite f x -> ~ is_zero f x -> (bpow radix2 r <= Rabs (value f x) < bpow radix2 (r + 1))%R) /\
  (is_zero f x \/ is_nan f x -> r = - 2 ^ 31) /\ (is_inf f x -> r = 2 ^ 31 - 1).
Proof using W.
  intros Fx. destruct (split_float f W x Fx) as (s & n & -> & Hn). pose proof (bias_pos f W) as Bp. pose proof (bias_range f W) as (Hb & Eb & _). rewrite <- Eb in Hb.
  pose proof (inf_pos f W) as IP. pose proof (S_pos f W) as SP. pose proof (div_range f W n Hn) as DR. pose proof (EB_big f W) as EBb. pose proof (eb_bias f W) as EBB. assert (10 <= fs f /\ fb f = fs f + eb f + 1 /\ 5 <= eb f <= 15 /\ fb f <= 128) as (FS & FBE & EBR & F128) by (destruct W; lia). pose proof (fb_eq f W) as FB. pose proof (inf_eq f W) as IE.
  pose proof (is_finite_mk f W s n Hn) as FM. pose proof (is_zero_mk f W s n Hn) as ZM. pose proof (is_inf_mk f W s n Hn) as IM. pose proof (is_nan_mk f W s n Hn) as NM. pose proof (value_mk f W s n Hn) as VM.
  pose proof (Z.div_mod n S ltac:(lia)) as D. pose proof (Z.mod_pos_bound n S ltac:(lia)) as M. pose proof (mag_nonneg f W n ltac:(lia)) as X0.
  assert (Rabs (value f (mk s n)) = mag n) as AV. { rewrite VM. destruct s; [rewrite Rabs_Ropp|]; apply Rabs_pos_eq; exact X0. }
  unfold ilogb. rewrite ex_mk, norm_s32, EXP_BITS_eq, EXP_SAT_eq by (assumption || lia). rewrite cshl_ok by (cbn [bits fI UI]; lia). cbn [bind].
  pose proof (pow2_pos (eb f + 1) ltac:(lia)) as PE.
  assert (2 ^ fb f = S * 2 ^ (eb f + 1)) as FBS by (rewrite <- pow2_add by lia; f_equal; lia).
  assert (norm (fI f) (mk s n * 2 ^ (eb f + 1)) = n mod S * 2 ^ (eb f + 1)) as ->.
  { unfold fI. rewrite norm_u, FBS. rewrite Z.mul_mod_distr_r by lia. rewrite (low_mk f W s n (fs f)) by lia. reflexivity. }
  assert ((n mod S * 2 ^ (eb f + 1) =? 0) = (n mod S =? 0)) as ->. { apply eq_true_iff_eq. rewrite !Z.eqb_eq. nia. }
  destruct (Z.eqb_spec (n / S) 0) as [E0|E0].
  - assert (n < S) as NS by nia. rewrite Z.mod_small by lia. destruct (Z.eqb_spec n 0) as [->|N0].
    + eexists. split; [reflexivity|]. rewrite FM, ZM, IM, NM. split; [lia|]. split; [reflexivity|lia].
    + unfold cneg. rewrite <- Eb. rewrite chk_s32 by lia. cbn [bind].
      pose proof (Z.log2_spec n ltac:(lia)) as [L1 L2]. assert (0 <= Z.log2 n < fs f) as LR by (split; [apply Z.log2_nonneg|apply Z.log2_lt_pow2; lia]).
      rewrite ilogb_loop_ok; [| |rewrite Z.log2_mul_pow2 by lia; lia|rewrite Z.log2_mul_pow2 by lia; lia|lia].
      2:{ rewrite FBS. split; [apply Z.mul_pos_pos; lia|apply Z.mul_lt_mono_pos_r; lia]. }
      rewrite Z.log2_mul_pow2 by lia. eexists. split; [reflexivity|]. rewrite FM, ZM, IM, NM. split; [|lia]. intros _ _. rewrite AV.
      assert (mag n = IZR n * u)%R as MN. { replace n with (enc f 1 n) at 1 by (unfold enc; lia). rewrite (mag_enc f W) by lia. reflexivity. }
      rewrite MN. replace (- bias f - (fb f - 1 - (eb f + 1 + Z.log2 n))) with (Z.log2 n + emin f) by (unfold emin; lia).
      pose proof (bpow_gt_0 radix2 (emin f)). split.
      * rewrite bpow_plus. apply Rmult_le_compat_r; [lra|]. rewrite <- (IZR_Zpower radix2) by lia. apply IZR_le. exact L1.
      * replace (Z.log2 n + emin f + 1) with (Z.succ (Z.log2 n) + emin f) by lia. rewrite bpow_plus. apply Rmult_lt_compat_r; [lra|]. rewrite <- (IZR_Zpower radix2) by lia. apply IZR_lt. exact L2.
  - pose proof (div_inf f W n Hn) as DI. destruct (Z.eqb_spec (n / S) (2 ^ eb f - 1)) as [E1|E1].
    + destruct (Z.eqb_spec (n mod S) 0) as [EM|EM]; cbn [negb]; (eexists; split; [reflexivity|]); rewrite FM, ZM, IM, NM; (split; [lia|]).
      * split; [nia|reflexivity].
      * split; [reflexivity|nia].
    + unfold csub. rewrite <- Eb. rewrite chk_s32 by lia. eexists. split; [reflexivity|]. rewrite FM, ZM, IM, NM. split; [|nia]. intros _ _. rewrite AV.
      assert (mag n = IZR (S + n mod S) * bpow radix2 (n / S - bias f - fs f))%R as MN. { replace n with (enc f (n / S) (S + n mod S)) at 1 by (unfold enc; lia). apply (mag_enc f W); lia. }
      rewrite MN. pose proof (bpow_gt_0 radix2 (n / S - bias f - fs f)). split.
      * replace (n / S - bias f) with (fs f + (n / S - bias f - fs f)) at 1 by lia. rewrite bpow_plus, (bpow_S f W). apply Rmult_le_compat_r; [lra|]. apply IZR_le. lia.
      * replace (n / S - bias f + 1) with (1 + fs f + (n / S - bias f - fs f)) by lia. rewrite !bpow_plus, (bpow_S f W). apply Rmult_lt_compat_r; [lra|]. change (bpow radix2 1) with 2%R. rewrite <- mult_IZR. apply IZR_lt. lia.
Qed.
End Fmt.
