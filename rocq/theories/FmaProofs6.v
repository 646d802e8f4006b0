(** Proofs about fmaf: the computation through the wider format. *)
From Coq Require Import ZArith Reals Bool Lia Lra Psatz.
From Flocq Require Import Core Pff2Flocq.
From Verif Require Import Base BaseLemmas FloatModel FloatSpec FloatConvSpec FloatProofs FloatProofs2 FloatProofs3 FloatProofs6 FloatConvProofs FloatLib LibmModel LibmSpec LibmProofs LibmProofs2 LibmProofs3 LibmProofs4 LibmProofs5 LibmProofs6 RemModel RemProofs3 FmaModel FmaSpec FmaProofs FmaProofs2 FmaProofs5.
Open Scope Z_scope.

(** lia splits on boolean hypotheses; none is needed here. *)
Local Ltac lia := repeat match goal with H : ?T |- _ => match T with context [@eq bool] => clear H | context [@eq R] => clear H | context [Rle] => clear H | context [Rlt] => clear H end end; Lia.lia.

Section W.
Context (o : fops) (O : ieee_ops g o) (widen narrow : Z -> Z) (WD : widens f g widen) (NW : narrows g f narrow).
Notation Bg := (2 ^ (fb g - 1)).
Notation mk s n := (b2z s * Bg + n).
Notation magg n := (IZR (V g n) * bpow radix2 (emin g))%R.

(** Finite binary32 values as integers times a power of two. *)
Lemma dec32 a : is_float f a -> is_finite f a -> exists M e, value f a = (IZR M * bp e)%R /\ Z.abs M < 2 ^ 24 /\ -149 <= e <= 104 /\
  sign_of f a = (match Rcompare (value f a) 0 with Lt => true | Gt => false | Eq => sign_of f a end).
Proof.
  intros Fa Fi. destruct (split_float f Wf a Fa) as (s & n & -> & Hn). apply is_finite_mk in Fi; [|apply Wf|exact Hn].
  rewrite sign_of_mk, value_mk by (apply Wf || assumption). destruct (enc_dec f Wf n ltac:(lia)) as (E & q & En & HE & Hq & Hs).
  change (2 ^ eb f) with 256 in HE. change (fs f) with 23 in *.
  exists (if s then - q else q), (E - bias f - fs f). change (bias f) with 127. change (fs f) with 23.
  assert (IZR (V f n) * bp (emin f) = IZR q * bp (E - 127 - 23))%R as M. { rewrite En. rewrite (mag_enc f Wf) by (change (fs f) with 23; lia). reflexivity. }
  split; [rewrite M; destruct s; [rewrite opp_IZR|]; ring|]. split; [destruct s; lia|]. split; [lia|].
  pose proof (mag_nonneg f Wf n ltac:(lia)) as P. destruct s; match goal with |- context [Rcompare ?t 0] => destruct (Rcompare_spec t 0) as [L|L|L] end; try reflexivity; lra.
Qed.

Lemma fmt_rne v : rne g v = v -> generic_format radix2 (FLT_exp (emin g) (prec g)) v.
Proof.
  intros E. assert (Valid_exp (FLT_exp (emin g) (prec g))) by (apply FLT_exp_valid; reflexivity). rewrite <- E. unfold rne. apply generic_format_round; auto with typeclass_instances.
Qed.
Lemma rne_fmt v : generic_format radix2 (FLT_exp (emin g) (prec g)) v -> rne g v = v.
Proof. intros E. unfold rne. apply round_generic; auto with typeclass_instances. Qed.

(** The computed error term is the exact error (Fast2Sum). *)
Lemma fts a b : rne g a = a -> rne g b = b -> (Rabs b <= Rabs a)%R -> (rne g (a + b) + rne g (b + rne g (a - rne g (a + b))) = a + b)%R.
Proof.
  intros Ha Hb L. apply (Fast2Sum_correct (emin g) (prec g) (fun x => negb (Z.even x))); try (apply fmt_rne; assumption).
  - reflexivity.
  - cbv. discriminate.
  - intros x. rewrite Z.even_opp, Z.even_add. cbn. destruct (Z.even x); reflexivity.
  - exact L.
Qed.

(** The value of a finite binary64 operation. *)
Lemma rt_small zs v r : rounds_to g zs v r -> (Rabs v <= bp 300)%R -> is_float g r /\ is_finite g r /\ value g r = rne g v /\ sign_of g r = match Rcompare v 0 with Lt => true | Gt => false | Eq => zs end.
Proof.
  intros (A & B & C) L. assert (Rabs (rne g v) <= bp 300)%R as LR.
  { assert (rne g (bp 300) = bp 300) as E by (replace (bp 300) with (IZR 1 * bp 300)%R by ring; apply (rne_int g Wg); cbn; lia).
    apply Rabs_le_inv in L. apply Rabs_le. rewrite <- E, <- rne_opp. split; apply (rne_mono g Wg); lra. }
  rewrite Rlt_bool_true in C by (apply Rle_lt_trans with (1 := LR), bpow_lt; reflexivity). tauto.
Qed.
Lemma rne_le k v : -1074 <= k -> (Rabs v <= bp k)%R -> (Rabs (rne g v) <= bp k)%R.
Proof.
  intros Hk L. assert (rne g (bp k) = bp k) as E by (replace (bp k) with (IZR 1 * bp k)%R by apply Rmult_1_l; apply (rne_int g Wg); [cbn; lia|exact Hk]).
  apply Rabs_le_inv in L. apply Rabs_le. rewrite <- E, <- rne_opp. split; apply (rne_mono g Wg); lra.
Qed.
Lemma bp_le_1 a b : (a <= b) -> (bp a <= bp b)%R. Proof. apply bpow_le. Qed.

Lemma land_low s n k : 0 <= k < 63 -> Z.land (mk s n) (2 ^ k - 1) = n mod 2 ^ k.
Proof.
  intros Hk. rewrite land_ones_mod by lia. change (fb g - 1) with 63. replace (b2z s * 2 ^ 63 + n) with (n + (b2z s * 2 ^ (63 - k)) * 2 ^ k) by (replace 63 with (63 - k + k) at 2 by lia; rewrite pow2_add by lia; ring).
  apply Z.mod_add. pose proof (pow2_pos k ltac:(lia)). lia.
Qed.

Lemma wide_finite x y z : is_float f x -> is_float f y -> is_float f z -> is_finite f x -> is_finite f y -> is_finite f z -> ~ double_rounding f g x y z ->
  exists r, fma_wide f g o widen narrow x y z = Ok r /\ rounds_to f (xorb (sign_of f x) (sign_of f y) && sign_of f z) (value f x * value f y + value f z) r.
Proof.
  intros Fx Fy Fz Ix Iy Iz ND.
  destruct (WD x Fx) as (WFx & _ & _ & Wx). destruct (Wx Ix) as (WIx & WSx & WVx). clear Wx.
  destruct (WD y Fy) as (WFy & _ & _ & Wy). destruct (Wy Iy) as (WIy & WSy & WVy). clear Wy.
  destruct (WD z Fz) as (WFz & _ & _ & Wz). destruct (Wz Iz) as (WIz & WSz & WVz). clear Wz.
  destruct (dec32 x Fx Ix) as (Mx & ex' & Vx & Bx & Ex & Sx). destruct (dec32 y Fy Iy) as (My & ey & Vy & By & Ey & Sy). destruct (dec32 z Fz Iz) as (Mz & ez & Vz & Bz & Ez & Sz).
  unfold fma_wide. set (wz := widen z) in *. set (xy := o_mul o (widen x) (widen y)). set (res := o_add o xy wz).
  set (a := (value f x * value f y)%R). set (c := value f z). set (v := (a + c)%R).
  assert (a = IZR (Mx * My) * bp (ex' + ey))%R as Ea by (unfold a; rewrite Vx, Vy, mult_IZR, bpow_plus; ring).
  assert (Z.abs (Mx * My) < 2 ^ 48) as BM. { rewrite Z.abs_mul. change (2 ^ 48) with (2 ^ 24 * 2 ^ 24). apply Z.mul_lt_mono_nonneg; lia. }
  assert (rne g a = a) as Ra. { rewrite Ea. apply (rne_int g Wg); [change (prec g) with 53; lia|change (emin g) with (-1074); lia]. }
  assert (rne g c = c) as Rc. { unfold c. rewrite Vz. apply (rne_int g Wg); [change (prec g) with 53; lia|change (emin g) with (-1074); lia]. }
  assert (forall M e k, Z.abs M < 2 ^ k -> 0 <= k -> (Rabs (IZR M * bp e) <= bp (k + e))%R) as BD.
  { intros M e k HM Hk. rewrite Rabs_mult, (Rabs_pos_eq (bp e)) by apply bpow_ge_0. rewrite bpow_plus. apply Rmult_le_compat_r; [apply bpow_ge_0|]. rewrite <- abs_IZR, <- (IZR_pow k) by lia. apply IZR_le. lia. }
  assert (Rabs a <= bp 256)%R as La. { rewrite Ea. apply Rle_trans with (1 := BD _ _ 48 BM ltac:(lia)). apply bpow_le. lia. }
  assert (Rabs c <= bp 128)%R as Lc. { unfold c. rewrite Vz. apply Rle_trans with (1 := BD _ _ 24 Bz ltac:(lia)). apply bpow_le. lia. }
  assert (bp 128 <= bp 256 /\ 2 * bp 256 <= bp 257 /\ bp 257 * 4 <= bp 300)%R as (P1 & P2 & P3).
  { split; [apply bpow_le; lia|]. split; [change 2%R with (bp 1); rewrite <- bpow_plus; apply bpow_le; lia|]. change 4%R with (bp 2). rewrite <- bpow_plus. apply bpow_le. lia. }
  pose proof (bpow_gt_0 radix2 256) as P4.
  assert (Rabs v <= bp 257)%R as Lv by (unfold v; pose proof (Rabs_triang a c); lra).
  (* the product *)
  destruct (ops_mul g o O _ _ WFx WFy) as [_ (_ & _ & _ & RM)]. specialize (RM WIx WIy). rewrite WVx, WVy, WSx, WSy in RM. fold xy a in RM.
  destruct (rt_small _ _ _ RM) as (Fxy & Ixy & Vxy & Sxy); [lra|]. rewrite Ra in Vxy.
  (* the sum *)
  destruct (ops_add g o O _ _ Fxy WFz) as [_ (_ & _ & _ & _ & RS)]. specialize (RS Ixy WIz). rewrite Vxy, WVz in RS. fold res c v in RS.
  destruct (rt_small _ _ _ RS) as (Fr & Ir & Vr & Sr); [lra|].
  assert (WVz' : value g wz = c) by exact WVz.
  (* operations on the intermediate *)
  assert (Rabs (rne g v) <= bp 257)%R as Lr.
  { apply rne_le; [discriminate|exact Lv]. }
  assert (SUBv : forall p q, is_float g p -> is_float g q -> is_finite g p -> is_finite g q -> (Rabs (value g p) <= bp 257)%R -> (Rabs (value g q) <= bp 257)%R ->
    is_float g (o_sub o p q) /\ is_finite g (o_sub o p q) /\ value g (o_sub o p q) = rne g (value g p - value g q)).
  { intros p q Fp Fq Ip Iq Lp Lq. destruct (ops_sub g o O p q Fp Fq) as [_ (_ & _ & _ & _ & R)]. specialize (R Ip Iq). destruct (rt_small _ _ _ R) as (A1 & A2 & A3 & _); [|tauto]. pose proof (Rabs_triang (value g p) (- value g q)) as K. rewrite Rabs_Ropp in K. unfold Rminus. lra. }
  assert (NUM : forall p q, is_float g p -> is_float g q -> is_finite g p -> is_finite g q -> (o_eq o p q = true <-> value g p = value g q)).
  { intros p q Fp Fq Ip Iq. rewrite (ops_eq g o O) by assumption. apply (finite_iff g Wg) in Ip as Np; [|assumption]. apply (finite_iff g Wg) in Iq as Nq; [|assumption]. unfold num_eq, ordered. tauto. }
  assert (NLT : forall p q, is_float g p -> is_float g q -> is_finite g p -> is_finite g q -> o_lt o p q = Rlt_bool (value g p) (value g q)).
  { intros p q Fp Fq Ip Iq. apply eq_true_iff_eq. rewrite (ops_lt g o O) by assumption. apply (finite_iff g Wg) in Ip as Np; [|assumption]. apply (finite_iff g Wg) in Iq as Nq; [|assumption]. unfold num_lt, ordered, neg_inf, pos_inf.
    destruct (Rlt_bool_spec (value g p) (value g q)) as [L|L]; split; intros K; try reflexivity; try discriminate; [tauto|]. destruct K as (_ & [(_ & _ & K)|[K|K]]); [lra|tauto|tauto]. }
  assert (L257 : (Rabs a <= bp 257)%R) by lra. assert (L257c : (Rabs c <= bp 257)%R) by lra.
  destruct (SUBv res xy Fr Fxy Ir Ixy ltac:(rewrite Vr; exact Lr) ltac:(rewrite Vxy; exact L257)) as (F1 & I1 & V1). rewrite Vr, Vxy in V1.
  destruct (SUBv res wz Fr WFz Ir WIz ltac:(rewrite Vr; exact Lr) ltac:(rewrite WVz'; exact L257c)) as (F2 & I2 & V2). rewrite Vr, WVz' in V2.
  set (exact_test := o_eq o (o_sub o res xy) wz && o_eq o (o_sub o res wz) xy).
  assert (RO : forall t, rne g (- t) = (- rne g t)%R) by (intros; apply rne_opp).
  assert (R0 : rne g 0 = 0%R) by apply rne_0.
  assert (TEST : exact_test = true <-> rne g v = v).
  { unfold exact_test. rewrite andb_true_iff, !NUM by assumption. rewrite V1, V2, Vxy, WVz'. split.
    - intros [T1 T2]. destruct (Rle_or_lt (Rabs c) (Rabs a)) as [L|L].
      + pose proof (fts a c Ra Rc L) as K. fold v in K. replace (a - rne g v)%R with (- (rne g v - a))%R in K by ring. rewrite RO, T1 in K. replace (c + - c)%R with 0%R in K by ring. rewrite R0 in K. lra.
      + pose proof (fts c a Rc Ra ltac:(lra)) as K. replace (c + a)%R with v in K by (unfold v; ring). replace (c - rne g v)%R with (- (rne g v - c))%R in K by ring. rewrite RO, T2 in K. replace (a + - a)%R with 0%R in K by ring. rewrite R0 in K. lra.
    - intros E. rewrite E. split; [replace (v - a)%R with c by (unfold v; ring); exact Rc|replace (v - c)%R with a by (unfold v; ring); exact Ra]. }
  (* finishing with a given pattern *)
  assert (FINISH : forall w, is_float g w -> is_finite g w -> rne f (value g w) = rne f v -> Rcompare (value g w) 0 = Rcompare v 0 -> (v = 0%R -> sign_of g w = xorb (sign_of f x) (sign_of f y) && sign_of f z) ->
    rounds_to f (xorb (sign_of f x) (sign_of f y) && sign_of f z) v (narrow w)).
  { intros w Fw Iw E1 E2 E3. destruct (NW w Fw) as (_ & _ & _ & K). specialize (K Iw). apply (rounds_ext f _ _ _ _ _ K E1 E2). intros E. rewrite <- (E3 E). reflexivity. }
  change (fs g - fs f) with 29. unfold csub at 1. change (fs g - fs f) with 29. rewrite chk_u by lia. cbn [bind]. unfold fI. rewrite (cshl_u_exact (fb g) 1 29) by (change (fb g) with 64; lia). cbn [bind].
  unfold csub at 1. rewrite chk_u by (change (fb g) with 64; lia). cbn [bind]. unfold csub at 1. rewrite chk_u by lia. cbn [bind]. change (29 - 1) with 28. rewrite (cshl_u_exact (fb g) 1 28) by (change (fb g) with 64; lia). cbn [bind]. rewrite !Z.mul_1_l.
  destruct (split_float g Wg res Fr) as (neg & N & EN & HN). assert (HNi : N < inf g) by (rewrite EN in Ir; apply is_finite_mk in Ir; [exact Ir|apply Wg|exact HN]).
  assert (VN : value g res = if neg then (- magg N)%R else magg N) by (rewrite EN; apply value_mk; [apply Wg|assumption]).
  assert (SN : sign_of g res = neg) by (rewrite EN; apply sign_of_mk; [apply Wg|assumption]).
  assert (EXr : (ex g res =? EXP_SAT g) = false). { rewrite EN, (ex_mk g Wg) by assumption. apply Z.eqb_neq. change (EXP_SAT g) with 2047. assert (N / 2 ^ fs g < 2047); [|lia]. apply Z.div_lt_upper_bound; [reflexivity|]. change (inf g) with (2 ^ 52 * 2047) in HNi. change (fs g) with 52. lia. }
  rewrite EXr. rewrite orb_false_r. fold exact_test.
  (* the zero result *)
  destruct (Req_dec v 0) as [v0|v0].
  { assert (exact_test = true) as TT by (apply TEST; rewrite v0; exact R0). rewrite TT, orb_true_r. eexists. split; [reflexivity|]. apply FINISH; try assumption.
    - rewrite Vr, v0, R0. reflexivity.
    - rewrite Vr, v0, R0. reflexivity.
    - intros _. rewrite Sr. rewrite v0. rewrite Rcompare_Eq by reflexivity. rewrite WSz. rewrite Sxy.
      destruct (Rcompare_spec a 0) as [A|A|A]; [| |].
      + assert (0 < c)%R by (unfold v in v0; lra). assert (sign_of f z = false) as Z1 by (rewrite Sz; fold c; rewrite Rcompare_Gt by lra; reflexivity). rewrite Z1, !andb_false_r. reflexivity.
      + reflexivity.
      + assert (c < 0)%R by (unfold v in v0; lra). assert (sign_of f z = true) as Z1 by (rewrite Sz; fold c; rewrite Rcompare_Lt by lra; reflexivity). rewrite Z1, !andb_true_r. symmetry.
        (* product positive, so the signs agree *)
        assert (value f x <> 0 /\ value f y <> 0)%R as [X0 Y0] by (split; intros K; unfold a in A; rewrite K in A; lra).
        rewrite Sx, Sy. unfold a in A. destruct (Rcompare_spec (value f x) 0) as [B1|B1|B1]; destruct (Rcompare_spec (value f y) 0) as [B2|B2|B2]; try contradiction; try reflexivity; exfalso.
        * assert (value f x * value f y < 0)%R by (rewrite Rmult_comm; apply Rmult_pos_neg || (apply Ropp_lt_cancel; rewrite Ropp_0, Ropp_mult_distr_r; apply Rmult_lt_0_compat; lra)). lra.
        * assert (value f x * value f y < 0)%R by (apply Ropp_lt_cancel; rewrite Ropp_0, Ropp_mult_distr_r; apply Rmult_lt_0_compat; lra). lra. }
  (* sign and magnitude *)
  set (X := Rabs v). assert (0 < X)%R as XP by (apply Rabs_pos_lt; assumption).
  assert (neg = Rlt_bool v 0) as EG. { rewrite <- SN, Sr. destruct (Rcompare_spec v 0); [rewrite Rlt_bool_true by lra|contradiction|rewrite Rlt_bool_false by lra]; reflexivity. }
  assert (v = if neg then - X else X)%R as VX. { unfold X. rewrite EG. destruct (Rlt_bool_spec v 0); [rewrite Rabs_left by lra|rewrite Rabs_pos_eq by lra]; lra. }
  assert (magg N = rne g X) as MN. { rewrite Vr in VN. rewrite VX, rne_signed in VN. destruct neg; lra. }
  destruct (mag radix2 X) as [n Hn]. specialize (Hn ltac:(lra)). rewrite (Rabs_pos_eq X) in Hn by lra.
  assert (-297 <= n <= 258) as Rn.
  { split.
    - apply Z.nlt_ge. intros L. assert (X < bp (-298))%R as LX by (apply Rlt_le_trans with (1 := proj2 Hn), bpow_le; lia).
      assert (exists K, v = IZR K * bp (-298))%R as [K EK].
      { exists (Mx * My * 2 ^ (ex' + ey + 298) + Mz * 2 ^ (ez + 298)). rewrite plus_IZR, !(mult_IZR _ (2 ^ _)), !IZR_pow by lia. rewrite Rmult_plus_distr_r, !(Rmult_assoc (IZR _)), <- !bpow_plus. unfold v. rewrite Ea. unfold c. rewrite Vz. f_equal; do 2 f_equal; lia. }
      unfold X in LX. rewrite EK, Rabs_mult, (Rabs_pos_eq (bp (-298))) in LX by apply bpow_ge_0. pose proof (bpow_gt_0 radix2 (-298)) as PP.
      assert (Rabs (IZR K) < 1)%R as LK by (apply Rmult_lt_reg_r with (bp (-298)); lra). rewrite <- abs_IZR in LK. apply lt_IZR in LK. assert (K = 0) by lia. subst K. apply v0. rewrite EK. ring.
    - apply Z.nlt_ge. intros L. assert (bp 258 <= X)%R as LX by (apply Rle_trans with (2 := proj1 Hn), bpow_le; lia). assert (bp 257 < bp 258)%R by (apply bpow_lt; lia). unfold X in LX. lra. }
  pose proof (g_X n X Hn ltac:(lia)) as GX. pose proof (q_range n X Hn) as QR. set (q := ZnearestE (X * bp (53 - n))) in *.
  rewrite GX in MN.
  (* the pattern *)
  assert (PAT : forall k, 2 ^ 52 <= k < 2 ^ 53 -> 0 <= enc g (n + 1022) k < inf g /\ magg (enc g (n + 1022) k) = (IZR k * bp (n - 53))%R /\ enc g (n + 1022) k = (n + 1021) * 2 ^ 52 + k).
  { intros k Hk. assert (enc g (n + 1022) k = (n + 1021) * 2 ^ 52 + k) as E by (unfold enc; change (fs g) with 52; lia). split; [rewrite E; change (inf g) with (2 ^ 52 * 2047); lia|]. split; [|exact E].
    rewrite (mag_enc g Wg); [|lia|change (fs g) with 52; lia|right; change (fs g) with 52; lia]. f_equal. f_equal. change (bias g) with 1023. change (fs g) with 52. lia. }
  assert (LOW : (N mod 2 ^ 29 = q mod 2 ^ 29) /\ (q < 2 ^ 53 -> N = (n + 1021) * 2 ^ 52 + q)).
  { destruct (Z.eq_dec q (2 ^ 53)) as [Eq|Eq].
    - split; [|lia]. assert (N = (n + 1022) * 2 ^ 52 + 2 ^ 52) as ->.
      { apply (mag_inj g Wg); [lia|change (inf g) with (2 ^ 52 * 2047); lia|]. rewrite MN, Eq. replace ((n + 1022) * 2 ^ 52 + 2 ^ 52) with (enc g (n + 1023) (2 ^ 52)) by (unfold enc; change (fs g) with 52; lia).
        rewrite (mag_enc g Wg); [|lia|change (fs g) with 52; lia|right; change (fs g) with 52; lia]. rewrite !IZR_pow by lia. rewrite <- !bpow_plus. f_equal. change (bias g) with 1023. change (fs g) with 52. lia. }
      rewrite Eq. replace ((n + 1022) * 2 ^ 52 + 2 ^ 52) with ((n + 1023) * 2 ^ 23 * 2 ^ 29) by lia. rewrite Z.mod_mul by lia. reflexivity.
    - destruct (PAT q ltac:(lia)) as (A1 & A2 & A3). assert (N = enc g (n + 1022) q) as EqN by (apply (mag_inj g Wg); [lia|lia|]; rewrite MN, A2; reflexivity). split; [|intros _; rewrite EqN; exact A3].
      rewrite EqN, A3. replace ((n + 1021) * 2 ^ 52 + q) with (q + (n + 1021) * 2 ^ 23 * 2 ^ 29) by lia. apply Z.mod_add. lia. }
  destruct LOW as [LOW Nq].
  assert (LAND : Z.land res (2 ^ 29 - 1) = q mod 2 ^ 29) by (rewrite EN, land_low by lia; exact LOW). rewrite LAND.
  assert (FINISH2 : forall m, 0 <= m < inf g -> rne f (magg m) = rne f X -> (0 < magg m)%R -> rounds_to f (xorb (sign_of f x) (sign_of f y) && sign_of f z) v (narrow (mk neg m))).
  { intros m Hm E P. pose proof (inf_pos g Wg) as IP. apply FINISH.
    - apply is_float_mk; [apply Wg|lia].
    - apply is_finite_mk; [apply Wg|lia|lia].
    - rewrite value_mk by (apply Wg || lia). rewrite VX, !rne_signed, E. reflexivity.
    - rewrite value_mk by (apply Wg || lia). rewrite VX. apply Rcmp_signed; assumption.
    - intros K. contradiction. }
  assert (QP : (0 < IZR q * bp (n - 53))%R) by (apply Rmult_lt_0_compat; [apply IZR_lt; lia|apply bpow_gt_0]).
  assert (EXA : (X * bp (53 - n))%R = IZR q <-> rne g v = v).
  { assert (rne g v = v <-> rne g X = X) as ->. { rewrite VX at 1 2. rewrite rne_signed. destruct neg; lra. }
    rewrite GX. pose proof (bpow_gt_0 radix2 (53 - n)) as Pb. assert (bp (n - 53) * bp (53 - n) = 1)%R as Pi by (rewrite <- bpow_plus; replace (n - 53 + (53 - n)) with 0 by lia; reflexivity). split; intros K.
    - apply Rmult_eq_reg_r with (bp (53 - n)); [|lra]. rewrite K, Rmult_assoc, Pi. ring.
    - rewrite <- K at 1. rewrite Rmult_assoc, Pi. ring. }
  destruct (negb (q mod 2 ^ 29 =? 2 ^ 28) || exact_test) eqn:COND.
  - (* narrowed directly *)
    eexists. split; [reflexivity|]. rewrite EN. apply FINISH2; [lia| |rewrite MN; exact QP]. rewrite MN.
    assert (NOTHALF : rne g v = v \/ q mod 2 ^ 29 <> 2 ^ 28). { apply orb_true_iff in COND as [C|C]; [right; apply negb_true_iff, Z.eqb_neq in C; exact C|left; apply TEST, C]. }
    destruct (Req_dec (rne g v) v) as [EXv|NEX]; [apply EXA in EXv; rewrite <- EXv, <- (XQ n X); reflexivity|].
    destruct NOTHALF as [K|NH]; [contradiction|].
    assert (DR : (X < bp (-126))%R -> (exists k, IZR q * bp (n - 53) = IZR (2 * k + 1) * bp (-150))%R -> False).
    { intros L [k K]. apply ND. unfold double_rounding. cbv zeta. fold a c v X. change (bias f) with 127. split; [exact L|]. split; [exact NEX|].
      exists (if neg then - k - 1 else k). rewrite VX, rne_signed, GX, K. change (emin f - 1) with (-150). destruct neg; [|reflexivity]. rewrite Ropp_mult_distr_l, <- opp_IZR. do 2 f_equal. lia. }
    assert (SUBN : n <= -126 -> (X < bp (-126))%R) by (intros L; apply Rlt_le_trans with (1 := proj2 Hn), bpow_le; lia).
    apply (two_step n X Hn); fold q.
    + intros MID. exfalso. set (h := fe n - n + 52) in *. destruct (Z.eq_dec h 28) as [h8|h8]; [rewrite h8 in MID; apply NH; exact MID|].
      assert (n <= -126 /\ h = -97 - n) as [N1 N2] by (unfold h in *; lia).
      apply DR; [apply SUBN; lia|]. exists (q / 2 ^ (h + 1)). pose proof (Z.div_mod q (2 ^ (h + 1)) ltac:(pose proof (pow2_pos (h + 1)); lia)) as DM. rewrite MID in DM.
      rewrite DM at 1. replace (2 ^ (h + 1) * (q / 2 ^ (h + 1)) + 2 ^ h) with ((2 * (q / 2 ^ (h + 1)) + 1) * 2 ^ h) by (rewrite (Z.pow_add_r 2 h 1) by lia; ring).
      rewrite (mult_IZR _ (2 ^ h)), (IZR_pow h), Rmult_assoc, <- bpow_plus by lia. do 2 f_equal. lia.
    + intros E1 E2. apply DR; [apply SUBN; lia|]. exists 0. rewrite E2, E1, IZR_pow by lia. cbn [Z.mul Z.add]. rewrite Rmult_1_l, <- bpow_plus. reflexivity.
  - (* adjusted by one unit *)
    apply orb_false_iff in COND as [C1 C2]. apply negb_false_iff, Z.eqb_eq in C1.
    assert (rne g v <> v) as NEX by (intros K; apply TEST in K; congruence).
    assert (QN : (X * bp (53 - n))%R <> IZR q) by (intros K; apply EXA in K; contradiction).
    rewrite cshr_ok by (rewrite bits_u; change (fb g) with 64; lia). cbn [bind].
    assert (negb (res / 2 ^ (fb g - 1) =? 0) = neg) as ->. { rewrite EN. change (fb g - 1) with 63 in *. rewrite Z.add_comm, Z.div_add by lia. rewrite Z.div_small by lia. destruct neg; reflexivity. }
    (* the error term *)
    set (err := if Bool.eqb neg (o_lt o xy wz) then o_add o (o_sub o xy res) wz else o_add o (o_sub o wz res) xy).
    assert (ERR : is_float g err /\ is_finite g err /\ (rne g v + value g err = v)%R).
    { assert (ADDv : forall p q', is_float g p -> is_float g q' -> is_finite g p -> is_finite g q' -> (Rabs (value g p) <= bp 257 * 2)%R -> (Rabs (value g q') <= bp 257 * 2)%R ->
        is_float g (o_add o p q') /\ is_finite g (o_add o p q') /\ value g (o_add o p q') = rne g (value g p + value g q')).
      { intros p q' Fp Fq Ip Iq Lp Lq. destruct (ops_add g o O p q' Fp Fq) as [_ (_ & _ & _ & _ & R)]. specialize (R Ip Iq). destruct (rt_small _ _ _ R) as (A1 & A2 & A3 & _); [|tauto]. pose proof (Rabs_triang (value g p) (value g q')) as K. lra. }
      assert (L2 : forall p q', (Rabs p <= bp 257)%R -> (Rabs q' <= bp 257)%R -> (Rabs (rne g (p - q')) <= bp 257 * 2)%R).
      { intros p q' A1 A2. replace (bp 257 * 2)%R with (bp 258) by (change 258 with (257 + 1); rewrite (bpow_plus radix2 257 1); reflexivity). apply rne_le; [discriminate|].
        change 258 with (257 + 1). rewrite (bpow_plus radix2 257 1). change (bp 1) with 2%R. pose proof (Rabs_triang p (- q')) as K. rewrite Rabs_Ropp in K. unfold Rminus. lra. }
      assert (BIG : if Bool.eqb neg (o_lt o xy wz) then (Rabs c <= Rabs a)%R else (Rabs a <= Rabs c)%R).
      { rewrite NLT by assumption. rewrite Vxy, WVz'. assert (neg = true /\ (a + c < 0)%R \/ neg = false /\ (0 < a + c)%R) as [[G1 G2]|[G1 G2]].
        { rewrite EG. fold v. destruct (Rlt_bool_spec v 0); [left|right]; split; try reflexivity; lra. }
        - rewrite G1. destruct (Rlt_bool_spec a c); cbn [Bool.eqb]; unfold Rabs; destruct (Rcase_abs a), (Rcase_abs c); lra.
        - rewrite G1. destruct (Rlt_bool_spec a c); cbn [Bool.eqb]; unfold Rabs; destruct (Rcase_abs a), (Rcase_abs c); lra. }
      unfold err. destruct (Bool.eqb neg (o_lt o xy wz)).
      - destruct (SUBv xy res Fxy Fr Ixy Ir ltac:(rewrite Vxy; exact L257) ltac:(rewrite Vr; exact Lr)) as (B1 & B2 & B3). rewrite Vxy, Vr in B3.
        destruct (ADDv _ wz B1 WFz B2 WIz) as (D1 & D2 & D3); [rewrite B3; apply L2; assumption|rewrite WVz'; lra|]. split; [exact D1|]. split; [exact D2|]. rewrite D3, B3, WVz', Rplus_comm.
        rewrite Rplus_comm, (Rplus_comm _ c). apply (fts a c Ra Rc BIG).
      - destruct (SUBv wz res WFz Fr WIz Ir ltac:(rewrite WVz'; exact L257c) ltac:(rewrite Vr; exact Lr)) as (B1 & B2 & B3). rewrite WVz', Vr in B3.
        destruct (ADDv _ xy B1 Fxy B2 Ixy) as (D1 & D2 & D3); [rewrite B3; apply L2; assumption|rewrite Vxy; lra|]. split; [exact D1|]. split; [exact D2|]. rewrite D3, B3, Vxy.
        rewrite (Rplus_comm _ a). pose proof (fts c a Rc Ra BIG) as K. replace (c + a)%R with v in K by (unfold v; ring). exact K. }
    destruct ERR as (FE & IE & VE).
    assert (is_float g 0 /\ is_finite g 0 /\ value g 0 = 0%R) as (FZ & IZ' & VZ).
    { pose proof (inf_pos g Wg). replace 0 with (mk false 0) by reflexivity. split; [apply is_float_mk; [apply Wg|lia]|]. split; [apply is_finite_mk; [apply Wg|lia|lia]|]. rewrite value_mk by (apply Wg || lia). rewrite (mag_0 g Wg). reflexivity. }
    rewrite (NLT err 0) by assumption. rewrite VZ.
    (* direction *)
    assert (DIR : Bool.eqb neg (Rlt_bool (value g err) 0) = Rlt_bool (IZR q) (X * bp (53 - n))).
    { assert (rne g X <> X) as NX. { intros K. apply NEX. rewrite VX, rne_signed, K. reflexivity. }
      assert (EV : value g err = if neg then (- (X - rne g X))%R else (X - rne g X)%R). { assert (rne g v = if neg then - rne g X else rne g X)%R as E1 by (rewrite VX at 1; apply rne_signed). rewrite E1 in VE. rewrite VX in VE at 1. destruct neg; lra. }
      assert (Rlt_bool (IZR q) (X * bp (53 - n)) = Rlt_bool (rne g X) X) as ->.
      { pose proof (bpow_gt_0 radix2 (53 - n)) as Pb. assert (IZR q = rne g X * bp (53 - n))%R as E3 by (rewrite GX, Rmult_assoc, <- bpow_plus; replace (n - 53 + (53 - n)) with 0 by lia; cbn [bpow]; ring). rewrite E3.
        destruct (Rlt_bool_spec (rne g X) X) as [L|L]; [apply Rlt_bool_true, Rmult_lt_compat_r; lra|apply Rlt_bool_false, Rmult_le_compat_r; lra]. }
      rewrite EV. destruct neg, (Rlt_bool_spec (rne g X) X) as [L|L].
      - rewrite Rlt_bool_true by lra. reflexivity.
      - rewrite Rlt_bool_false by lra. reflexivity.
      - rewrite Rlt_bool_false by lra. reflexivity.
      - rewrite Rlt_bool_true by lra. reflexivity. }
    rewrite DIR. set (k := if Rlt_bool (IZR q) (X * bp (53 - n)) then q + 1 else q - 1).
    destruct (adjusted n X Hn k C1 QN eq_refl) as [Hk Rk].
    destruct (PAT k Hk) as (A1 & A2 & A3).
    assert (q < 2 ^ 53) as q53. { destruct (Z.eq_dec q (2 ^ 53)) as [K|K]; [|lia]. exfalso. rewrite K in C1. vm_compute in C1. discriminate. }
    specialize (Nq q53). change (inf g) with (2 ^ 52 * 2047) in *. change (fb g) with 64 in *. change (64 - 1) with 63 in *.
    assert (0 <= b2z neg <= 1) by (destruct neg; cbn [b2z]; lia).
    assert ((if Rlt_bool (IZR q) (X * bp (53 - n)) then cadd (UI 64) res 1 else csub (UI 64) res 1) = Ok (b2z neg * 2 ^ 63 + enc g (n + 1022) k)) as ->.
    { rewrite A3, EN, Nq. unfold k. destruct (Rlt_bool (IZR q) (X * bp (53 - n))); unfold cadd, csub; rewrite chk_u by lia; f_equal; lia. }
    cbn [bind]. eexists. split; [reflexivity|]. apply FINISH2; [exact A1|rewrite A2; exact Rk|]. rewrite A2. apply Rmult_lt_0_compat; [apply IZR_lt; lia|apply bpow_gt_0].
Qed.

Lemma value_zero h a (Wh : wf h) : is_float h a -> is_finite h a -> (is_zero h a <-> value h a = 0%R).
Proof.
  intros Fa Fi. destruct (split_float h Wh a Fa) as (s & n & -> & Hn). apply is_finite_mk in Fi; [|assumption|assumption]. rewrite (is_zero_mk h Wh), value_mk by assumption.
  pose proof (mag_0 h Wh) as M0. split.
  - intros ->. rewrite M0. destruct s; lra.
  - intros E. pose proof (inf_pos h Wh). apply (mag_inj h Wh); [lia|lia|]. rewrite M0. destruct s; lra.
Qed.
Lemma zero_finite h a (Wh : wf h) : is_float h a -> is_zero h a -> is_finite h a.
Proof. intros Fa. destruct (split_float h Wh a Fa) as (s & n & -> & Hn). rewrite (is_zero_mk h Wh), (is_finite_mk h Wh) by assumption. pose proof (inf_pos h Wh). lia. Qed.
Lemma zero_widen a : is_float f a -> ~ is_nan f a -> (is_zero f a <-> is_zero g (widen a)).
Proof using WD.
  intros Fa Na. destruct (WD a Fa) as (Fw & _ & Iw & Vw). destruct (is_inf_dec f Wf a Fa) as [I|I].
  - destruct (Iw I) as [I' _]. split; intros K.
    + apply (zero_finite f a Wf) in K; [|assumption]. apply (finite_iff f Wf) in K; tauto.
    + apply (zero_finite g _ Wg) in K; [|assumption]. apply (finite_iff g Wg) in K; tauto.
  - assert (is_finite f a) as Fi by (apply (finite_iff f Wf); tauto). destruct (Vw Fi) as (Fi' & _ & E). rewrite (value_zero f a Wf), (value_zero g _ Wg), E by assumption. tauto.
Qed.

Lemma wide_special x y z r : r = o_add o (o_mul o (widen x) (widen y)) (widen z) -> is_float g r -> ~ is_finite g r -> fma_wide f g o widen narrow x y z = Ok (narrow r).
Proof using.
  intros -> Fr Ir. unfold fma_wide. set (res := o_add _ _ _) in *. unfold csub at 1. change (fs g - fs f) with 29. rewrite chk_u by lia. cbn [bind]. unfold fI. rewrite (cshl_u_exact (fb g) 1 29) by (change (fb g) with 64; lia). cbn [bind].
  unfold csub at 1. rewrite chk_u by (change (fb g) with 64; lia). cbn [bind]. unfold csub at 1. rewrite chk_u by lia. cbn [bind]. change (29 - 1) with 28. rewrite (cshl_u_exact (fb g) 1 28) by (change (fb g) with 64; lia). cbn [bind].
  destruct (split_float g Wg res Fr) as (neg & N & EN & HN). assert ((ex g res =? EXP_SAT g) = true) as ->.
  { rewrite EN in *. rewrite (is_finite_mk g Wg) in Ir by assumption. rewrite (ex_mk g Wg) by assumption. apply Z.eqb_eq. change (EXP_SAT g) with 2047. change (inf g) with (2047 * 2 ^ 52) in Ir. change (fs g) with 52. change (fb g - 1) with 63 in HN.
    symmetry. apply (Z.div_unique N (2 ^ 52) 2047 (N - 2047 * 2 ^ 52)); lia. }
  rewrite orb_true_r. reflexivity.
Qed.

Lemma cls a : is_float f a -> is_nan f a /\ ~ is_inf f a /\ ~ is_finite f a /\ ~ is_zero f a \/ is_inf f a /\ ~ is_nan f a /\ ~ is_finite f a /\ ~ is_zero f a \/ is_finite f a /\ ~ is_nan f a /\ ~ is_inf f a.
Proof. intros Fa. destruct (split_float f Wf a Fa) as (s & n & -> & Hn). rewrite (is_nan_mk f Wf), (is_inf_mk f Wf), (is_finite_mk f Wf), (is_zero_mk f Wf) by assumption. pose proof (inf_pos f Wf). lia. Qed.
Lemma zero_dec a : is_float f a -> is_zero f a \/ ~ is_zero f a.
Proof. intros Fa. destruct (split_float f Wf a Fa) as (s & n & -> & Hn). rewrite (is_zero_mk f Wf) by assumption. lia. Qed.
Ltac cl H := destruct H as [H|[H|H]].

Lemma fma_wide_ok x y z : is_float f x -> is_float f y -> is_float f z -> (is_finite f x -> is_finite f y -> is_finite f z -> ~ double_rounding f g x y z) ->
  exists r, fma_wide f g o widen narrow x y z = Ok r /\ ieee_fma f x y z r.
Proof using O WD NW.
  intros Fx Fy Fz ND.
  pose proof (cls x Fx) as Cx. pose proof (cls y Fy) as Cy. pose proof (cls z Fz) as Cz.
  assert (is_finite f x /\ is_finite f y /\ is_finite f z \/ ~ (is_finite f x /\ is_finite f y /\ is_finite f z)) as [(Ix & Iy & Iz)|NF] by (cl Cx; cl Cy; cl Cz; tauto).
  - destruct (wide_finite x y z Fx Fy Fz Ix Iy Iz (ND Ix Iy Iz)) as (r & E & R). exists r. split; [exact E|]. split; [apply R|]. cbv zeta. clear ND E. assert (R' := fun (_ : is_finite f x) (_ : is_finite f y) (_ : is_finite f z) => R). clear R. cl Cx; [tauto|tauto|]. cl Cy; [tauto|tauto|]. cl Cz; [tauto|tauto|]. pose proof (zero_finite f x Wf Fx). pose proof (zero_finite f y Wf Fy). split; [tauto|]. split; [tauto|]. split; [tauto|]. split; [tauto|]. exact R'.
  - clear ND. destruct (WD x Fx) as (WFx & WNx & WIx & WVx). destruct (WD y Fy) as (WFy & WNy & WIy & WVy). destruct (WD z Fz) as (WFz & WNz & WIz & WVz).
    assert (Zx' : ~ is_nan f x -> (is_zero f x <-> is_zero g (widen x))) by (apply zero_widen; exact Fx). assert (Zy' : ~ is_nan f y -> (is_zero f y <-> is_zero g (widen y))) by (apply zero_widen; exact Fy).
    destruct (ops_mul g o O _ _ WFx WFy) as [FM (M1 & M2 & M3 & M4)]. set (xy := o_mul o (widen x) (widen y)) in *.
    destruct (ops_add g o O _ _ FM WFz) as [FA (A1 & A2 & A3 & A4 & _)]. set (r := o_add o xy (widen z)) in *.
    assert (QN : forall c, is_qnan g c -> is_nan g c) by (intros c Q; apply Q).
    assert (IN : forall c, is_float g c -> is_nan g c -> ~ is_inf g c) by (intros a Fa; destruct (split_float g Wg a Fa) as (s & n & -> & Hn); rewrite (is_nan_mk g Wg), (is_inf_mk g Wg) by assumption; lia).
    pose proof (finite_iff g Wg _ FA) as Cr. pose proof (IN _ WFx) as ENx. pose proof (IN _ WFy) as ENy. clear IN.
    destruct (NW r FA) as (FN & NN & NI & _).
    (* the wide result in each case *)
    assert (R1 : is_nan f x \/ is_nan f y \/ is_nan f z -> is_nan g r). { intros K. apply QN, A1. destruct K as [K|[K|K]]; [left; apply QN, M1; left; apply WNx, K|left; apply QN, M1; right; apply WNy, K|right; apply WNz, K]. }
    assert (R2 : is_inf f x /\ is_zero f y \/ is_zero f x /\ is_inf f y -> is_nan g r).
    { intros K. apply QN, A1. left. apply QN, M2. destruct K as [[K1 K2]|[K1 K2]]; [left; split; [apply WIx, K1|apply Zy'; [clear - Cy K2; cl Cy; tauto|exact K2]]|right; split; [apply Zx'; [clear - Cx K1; cl Cx; tauto|exact K1]|apply WIy, K2]]. }
    assert (NNi : forall a, is_float f a -> ~ is_nan f a -> ~ is_nan g (widen a)).
    { intros a Fa Na K. destruct (WD a Fa) as (Fw & _ & Iw & Vw). destruct (is_inf_dec f Wf a Fa) as [I|I]; [destruct (Iw I) as [I' _]|assert (is_finite f a) as Fi by (apply (finite_iff f Wf); [exact Fa|split; assumption]); destruct (Vw Fi) as (I' & _); apply (finite_iff g Wg) in I'; [clear - I' K; tauto|exact Fw]].
      destruct (split_float g Wg _ Fw) as (s & n & E & Hn). rewrite E in *. rewrite (is_nan_mk g Wg) in K by assumption. rewrite (is_inf_mk g Wg) in I' by assumption. lia. }
    assert (S3 : is_inf f x /\ ~ is_zero f y /\ ~ is_nan f y \/ is_inf f y /\ ~ is_zero f x /\ ~ is_nan f x -> is_inf g xy /\ sign_of g xy = xorb (sign_of f x) (sign_of f y)).
    { intros K. assert (sign_of g (widen x) = sign_of f x /\ sign_of g (widen y) = sign_of f y) as [<- <-].
      { assert (is_inf f x \/ is_finite f x) as [D1|D1] by (clear - Cx Cy K; cl Cx; cl Cy; tauto); assert (is_inf f y \/ is_finite f y) as [D2|D2] by (clear - Cx Cy K; cl Cx; cl Cy; tauto); (split; [first [apply (WIx D1)|apply (WVx D1)]|first [apply (WIy D2)|apply (WVy D2)]]). }
      apply M3. pose proof (NNi x Fx). pose proof (NNi y Fy). destruct K as [(K1 & K2 & K3)|(K1 & K2 & K3)]; [left; split; [apply WIx, K1|]; split; [rewrite <- Zy' by exact K3; exact K2|auto]|right; split; [apply WIy, K1|]; split; [rewrite <- Zx' by exact K3; exact K2|auto]]. }
    assert (R4 : is_finite f x -> is_finite f y -> is_inf f z -> r = widen z).
    { intros K1 K2 K3. apply A4; [|apply WIz, K3]. destruct (WVx K1) as (I1 & S1 & V1). destruct (WVy K2) as (I2 & S2 & V2). destruct (dec32 x Fx K1) as (Mx & ex' & Vx & Bx & Ex' & _). destruct (dec32 y Fy K2) as (My & ey & Vy & By & Ey' & _).
      apply (rt_small _ _ _ (M4 I1 I2)). rewrite V1, V2, Vx, Vy.
      assert (forall M e, Z.abs M < 2 ^ 24 -> e <= 104 -> (Rabs (IZR M * bp e) <= bp 128)%R) as BD.
      { intros M e HM He. rewrite Rabs_mult, (Rabs_pos_eq (bp e)) by apply bpow_ge_0. change 128 with (24 + 104). rewrite bpow_plus. apply Rmult_le_compat; [apply Rabs_pos|apply bpow_ge_0| |apply bpow_le, He]. rewrite <- abs_IZR, <- (IZR_pow 24) by lia. apply IZR_le. lia. }
      rewrite Rabs_mult. apply Rle_trans with (bp 128 * bp 128)%R; [apply Rmult_le_compat; try apply Rabs_pos; apply BD; lia|]. rewrite <- bpow_plus. apply bpow_le. lia. }
    assert (NFr : ~ is_finite g r).
    { rewrite Cr. assert ((is_nan f x \/ is_nan f y \/ is_nan f z) \/ (is_inf f x /\ is_zero f y \/ is_zero f x /\ is_inf f y) \/ (~ is_nan f z /\ (is_inf f x /\ ~ is_zero f y /\ ~ is_nan f y \/ is_inf f y /\ ~ is_zero f x /\ ~ is_nan f x)) \/ (is_finite f x /\ is_finite f y /\ is_inf f z)) as [K|[K|[[Nz K]|(K1 & K2 & K3)]]].
      { pose proof (zero_dec x Fx) as Kx. pose proof (zero_dec y Fy) as Ky. clear - Cx Cy Cz NF Kx Ky. cl Cx; [tauto| |]; (cl Cy; [tauto| |]); (cl Cz; [tauto| |]); destruct Kx, Ky; tauto. }
      - apply R1 in K. clear - K. tauto.
      - apply R2 in K. clear - K. tauto.
      - destruct (S3 K) as [S4 S5]. assert (is_inf f z \/ is_finite f z) as [Jz|Jz] by (clear - Cz Nz; cl Cz; tauto).
        + destruct (WIz Jz) as [Z1 Z2]. specialize (A2 S4 Z1). destruct (Bool.eqb _ _); [rewrite A2; clear - S4; tauto|apply QN in A2; clear - A2; tauto].
        + rewrite (A3 S4); [clear - S4; tauto|]. apply WVz, Jz.
      - rewrite (R4 K1 K2 K3). destruct (WIz K3) as [Z1 _]. clear - Z1. tauto. }
    exists (narrow r). split; [apply wide_special; [reflexivity|assumption|assumption]|]. split; [exact FN|]. cbv zeta.
    split; [intros K; apply NN, R1, K|]. split; [intros K; apply NN, R2, K|].
    assert (ZZ : is_inf f z -> r = widen z -> narrow r = z).
    { intros K1 K2. destruct (WIz K1) as [Z1 Z2]. rewrite <- K2 in *. destruct (NI Z1) as [Z3 Z4]. apply (inf_unique f Wf); try assumption. congruence. }
    split; [|split].
    + intros K. destruct (S3 K) as [S4 S5]. split.
      * intros Kz. rewrite (A3 S4) by (apply WVz; exact Kz). destruct (NW xy FM) as (_ & _ & NI' & _). destruct (NI' S4) as [S6 S7]. split; [exact S6|]. congruence.
      * intros Kz. destruct (WIz Kz) as [Z1 Z2]. specialize (A2 S4 Z1). rewrite S5, Z2 in A2. replace (Bool.eqb (sign_of f z) (xorb (sign_of f x) (sign_of f y))) with (Bool.eqb (xorb (sign_of f x) (sign_of f y)) (sign_of f z)) by (destruct (sign_of f z), (xorb _ _); reflexivity).
        destruct (Bool.eqb (xorb (sign_of f x) (sign_of f y)) (sign_of f z)) eqn:EB; [|apply NN, QN, A2]. apply Bool.eqb_prop in EB. apply ZZ; [exact Kz|]. rewrite A2. apply (inf_unique g Wg); try assumption. congruence.
    + intros K1 K2 K3. apply ZZ; [exact K3|]. apply R4; assumption.
    + intros K1 K2 K3. exfalso. apply NF. split; [exact K1|split; [exact K2|exact K3]].
Qed.
End W.
