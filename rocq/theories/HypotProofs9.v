(** hypot: two subnormal operands. *)
From Coq Require Import ZArith Reals Bool Lia Lra Psatz.
From Flocq Require Import Core.
From Verif Require Import Base BaseLemmas FloatModel FloatSpec FloatConvSpec FloatProofs FloatProofs2 FloatLib LibmModel LibmSpec LibmProofs LibmProofs3 RemModel FmaModel FmaSpec FmaProofs FmaProofs2 FmaProofs6 FmaProps SqrtModel SqrtSpec SqrtProps F64Lib FloatErr ExpProofs3 ExpProofs4 ExpProofs8 TrigRed HypotModel HypotProofs HypotProofs2 HypotProofs3 HypotProofs4 HypotProofs5 HypotProofs6 HypotProofs7.
Open Scope Z_scope.

(** * The loop *)
Section Loop.
Context (S : Z).
Notation D m := (4 * S - 4 * (m * m)).
Lemma xor_pos a b : 0 <= a -> 0 <= b -> a <> b -> (Z.lxor a b <=? 0) = false.
Proof. intros A B N. apply Z.leb_gt. assert (0 <= Z.lxor a b) by (apply Z.lxor_nonneg; lia). assert (Z.lxor a b <> 0) by (intros E; apply Z.lxor_eq in E; lia). lia. Qed.
Lemma xor_neg a b : a < 0 -> b < 0 -> a <> b -> (Z.lxor a b <=? 0) = false.
Proof. intros A B N. apply Z.leb_gt. assert (0 <= Z.lxor a b) by (apply Z.lxor_nonneg; lia). assert (Z.lxor a b <> 0) by (intros E; apply Z.lxor_eq in E; lia). lia. Qed.
Lemma xor_mix a b : (0 <= a /\ b < 0) \/ (a < 0 /\ 0 <= b) -> (Z.lxor a b <=? 0) = true.
Proof. intros H. apply Z.leb_le. destruct (Z_lt_le_dec (Z.lxor a b) 0) as [L|L]; [lia|]. apply Z.lxor_nonneg in L. lia. Qed.
Lemma wsub a b : - 2 ^ 63 <= a - b < 2 ^ 63 -> wrapping_sub (SI 64) a b = a - b.
Proof. intros H. unfold wrapping_sub. apply norm_id; [reflexivity|apply fits_s; lia]. Qed.
Lemma wadd a b : - 2 ^ 63 <= a + b < 2 ^ 63 -> wrapping_add (SI 64) a b = a + b.
Proof. intros H. unfold wrapping_add. apply norm_id; [reflexivity|apply fits_s; lia]. Qed.

Lemma loop_up : forall fuel m, 1 <= m -> m + Z.of_nat fuel < 2 ^ 55 -> 0 <= D m < 2 ^ 60 -> D (m + Z.of_nat fuel) < 0 ->
  exists F, denorm_loop fuel 1 (m - 1) (D m) (8 * m + 4) = Ok (F, D (F + 1), D F) /\ 0 <= D F < 2 ^ 60 /\ D (F + 1) < 0 /\ m <= F < m + Z.of_nat fuel.
Proof using.
  induction fuel as [|fuel IH]; intros m Hm Hf Hd Hn. { rewrite Z.add_0_r in Hn. lia. }
  cbn [denorm_loop]. replace (wrapping_add (UI 64) (m - 1) (norm (UI 64) 1)) with m by (unfold wrapping_add; rewrite norm_add_r by reflexivity; rewrite norm_u, Z.mod_small by lia; lia).
  rewrite wsub by lia. replace (4 * S - 4 * (m * m) - (8 * m + 4)) with (D (m + 1)) by lia. rewrite wadd by lia. replace (8 * m + 4 + 8) with (8 * (m + 1) + 4) by lia.
  destruct (Z_lt_le_dec (D (m + 1)) 0) as [L|L].
  - rewrite xor_mix by lia. exists m. split; [reflexivity|]. lia.
  - rewrite xor_pos by lia. destruct (IH (m + 1)) as (F & E & F1 & F2 & F3); [lia|lia|lia|replace (m + 1 + Z.of_nat fuel) with (m + Z.of_nat (Datatypes.S fuel)) by lia; exact Hn|]. exists F. replace (m + 1 - 1) with m in E by lia. split; [exact E|]. lia.
Qed.
Lemma loop_down : forall fuel m, m < 2 ^ 55 -> - 2 ^ 60 < D m < 0 -> 0 <= m - Z.of_nat fuel -> 0 <= D (m - Z.of_nat fuel) ->
  exists F p, denorm_loop fuel (-1) m (D m) (- 8 * m + 4) = Ok (F, D F, p) /\ 0 <= D F < 2 ^ 60 /\ D (F + 1) < 0 /\ m - Z.of_nat fuel <= F < m.
Proof using.
  induction fuel as [|fuel IH]; intros m Hf Hd Hm Hn. { rewrite Z.sub_0_r in Hn. lia. }
  cbn [denorm_loop]. replace (wrapping_add (UI 64) m (norm (UI 64) (-1))) with (m - 1) by (unfold wrapping_add; rewrite norm_add_r by reflexivity; rewrite norm_u, Z.mod_small by lia; lia).
  rewrite wsub by lia. replace (4 * S - 4 * (m * m) - (-8 * m + 4)) with (D (m - 1)) by lia. rewrite wadd by lia. replace (-8 * m + 4 + 8) with (-8 * (m - 1) + 4) by lia.
  destruct (Z_lt_le_dec (D (m - 1)) 0) as [L|L].
  - rewrite xor_neg by lia. destruct (IH (m - 1)) as (F & p & E & F1 & F2 & F3); [lia|lia|lia|replace (m - 1 - Z.of_nat fuel) with (m - Z.of_nat (Datatypes.S fuel)) by lia; exact Hn|]. exists F, p. split; [exact E|]. lia.
  - rewrite xor_mix by lia. exists (m - 1), (D m). split; [reflexivity|]. replace (m - 1 + 1) with m by lia. lia.
Qed.
End Loop.

(** * Rounding among the subnormals *)
Lemma round_sub r y : 0 <= r < 2 ^ 53 -> (0 <= y < 9007199254740992)%R -> (IZR r - / 2 < y < IZR r + / 2)%R -> (0 < y)%R -> rounds_to F64 false (y * bpow radix2 (-1074)) r.
Proof.
  intros Hr Hy H P. assert (0 < y * bpow radix2 (-1074))%R as P' by (apply Rmult_lt_0_compat; [exact P|apply bpow_gt_0]).
  assert (rne F64 (y * bpow radix2 (-1074)) = IZR r * bpow radix2 (-1074))%R as E.
  { pose proof (rne_scaled F64 W64 1 y ltac:(lia) Hy (or_introl eq_refl)) as R. change (1 - 1 + emin F64) with (-1074) in R. rewrite R, (ZnearestE_int_near y r) by exact H. reflexivity. }
  assert (mag64 r = IZR r * bpow radix2 (-1074))%R as M.
  { unfold mag64. do 2 f_equal. unfold V. change (fs F64) with 52. pose proof (Z.div_mod r (2 ^ 52) ltac:(lia)). pose proof (Z.mod_pos_bound r (2 ^ 52) ltac:(lia)). destruct (Z.eqb_spec (r / 2 ^ 52) 0) as [E0|E0]; [lia|].
    assert (r / 2 ^ 52 = 1) as E1. { assert (r / 2 ^ 52 < 2) by (apply Z.div_lt_upper_bound; lia). assert (0 <= r / 2 ^ 52) by (apply Z.div_pos; lia). lia. } rewrite E1 in *. change (2 ^ (1 - 1)) with 1. lia. }
  assert (0 <= r < INF) as Hr' by lia. destruct (good_lit r Hr') as [F N]. unfold rounds_to. rewrite Rcompare_Gt by exact P'. rewrite E, <- M. split; [exact F|]. split; [change r with (mk64 false r); apply sign64; lia|].
  rewrite Rabs_pos_eq by (apply mag_nonneg64; lia). rewrite Rlt_bool_true; [split; [exact N|symmetry; apply mag_value; lia]|].
  rewrite M. change (emax F64) with (53 + 971). rewrite bpow_plus. change (bpow radix2 53) with (IZR (2 ^ 53)). apply Rmult_le_0_lt_compat; [apply IZR_le; lia|apply bpow_ge_0|apply IZR_lt; lia|apply bpow_lt; lia].
Qed.

Lemma loop_mono drm r : forall fuel fuel' rm d dd, (fuel <= fuel')%nat -> denorm_loop fuel drm rm d dd = Ok r -> denorm_loop fuel' drm rm d dd = Ok r.
Proof.
  induction fuel as [|fuel IH]; intros fuel' rm d dd L H; [discriminate|]. destruct fuel' as [|fuel']; [lia|]. cbn [denorm_loop] in *. destruct (_ <=? 0); [exact H|]. apply IH; [lia|exact H].
Qed.

(** The choice between the two neighbours. *)
Lemma tail_ok S F : 0 <= F < 2 ^ 54 -> 0 <= 4 * S - 4 * (F * F) < 2 ^ 60 -> 4 * S - 4 * ((F + 1) * (F + 1)) < 0 -> exists r,
  (if negb (4 * S - 4 * (F * F) =? 0) then
     let sum := wrapping_sub (SI 64) (wrapping_sub (SI 64) (4 * S - 4 * (F * F)) (norm (SI 64) (wrapping_mul (UI 64) 4 F))) 1 in
     if negb (sum =? 0) then let* s := cshr (SI 64) sum 63 in Ok (wrapping_add (UI 64) F (norm (UI 64) (wrapping_add (SI 64) s 1)))
     else cadd (UI 64) F (Z.land F 1)
   else Ok F) = Ok r /\ ((r = F /\ 4 * S < (2 * F + 1) * (2 * F + 1)) \/ (r = F + 1 /\ (2 * F + 1) * (2 * F + 1) < 4 * S)).
Proof.
  intros HF H0 H1. destruct (Z.eqb_spec (4 * S - 4 * (F * F)) 0) as [E|E]; cbn [negb]. { exists F. split; [reflexivity|]. lia. }
  replace (norm (SI 64) (wrapping_mul (UI 64) 4 F)) with (4 * F). 2: { unfold wrapping_mul. rewrite norm_u, Z.mod_small by lia. symmetry. apply norm_id; [reflexivity|apply fits_s; lia]. }
  cbv zeta. rewrite (wsub (4 * S - 4 * (F * F))) by lia. rewrite wsub by lia. set (sum := 4 * S - 4 * (F * F) - 4 * F - 1).
  assert (sum <> 0) as N by (unfold sum; lia). destruct (Z.eqb_spec sum 0) as [|_]; [lia|]. cbn [negb]. rewrite cshr_ok by (change (bits (SI 64)) with 64; lia). cbn [bind].
  destruct (Z_lt_le_dec sum 0) as [L|L].
  - exists F. split; [|left; split; [reflexivity|unfold sum in L; lia]]. replace (sum / 2 ^ 63) with (-1) by (apply Z.div_unique with (sum + 2 ^ 63); unfold sum in *; lia). change (wrapping_add (SI 64) (-1) 1) with 0. unfold wrapping_add. change (norm (UI 64) 0) with 0. rewrite Z.add_0_r, norm_u, Z.mod_small by lia. reflexivity.
  - exists (F + 1). split; [|right; split; [reflexivity|unfold sum in *; lia]]. rewrite Z.div_small by (unfold sum in *; lia). change (wrapping_add (SI 64) 0 1) with 1. unfold wrapping_add. change (norm (UI 64) 1) with 1. rewrite norm_u, Z.mod_small by lia. reflexivity.
Qed.

Section Denorm.
Context (o : fops) (Ho : ieee_ops F64 o) (conv : Z -> Z) (Hc : int_conv F64 conv) (tou : Z -> Z) (Ht : forall a, is_float F64 a -> fix_spec F64 (UI 64) a (tou a)).

Lemma big_ok v : (Rabs v <= IZR (2 ^ 110))%R -> (Rabs v <= bpow radix2 (emax F64 - 2))%R.
Proof. intros H. eapply Rle_trans; [exact H|]. change (IZR (2 ^ 110)) with (bpow radix2 110). apply bpow_le. change (emax F64) with 1024. lia. Qed.

(** The first guess. *)
Lemma guess_ok a b : 1 <= b <= a -> a < 2 ^ 52 ->
  let h := sqrt (IZR (a * a + b * b)) in
  exists t, hsqrt o (o_add o (o_mul o (conv a) (conv a)) (o_mul o (conv b) (conv b))) = Ok t /\ 1 <= tou t /\ (h - 4 < IZR (tou t) < h + 3)%R.
Proof using Ho Hc Ht.
  intros Hb Ha h. set (u := bpow radix2 (-53)). assert (0 < u < / 1000000)%R as Hu by (unfold u; cbn; lra).
  assert (forall n, 1 <= n < 2 ^ 52 -> good (conv n) /\ value F64 (conv n) = IZR n) as K.
  { intros n Hn. specialize (Hc n ltac:(change (fb F64) with 64; lia)). destruct (rounds_val F64 Hp64 He64 Hm64 _ _ _ Hc) as (F & N & V); [apply big_ok; rewrite Rabs_pos_eq by (apply IZR_le; lia); apply IZR_le; lia|].
    split; [split; assumption|]. rewrite V. replace (IZR n) with (IZR n * bpow radix2 0)%R by (cbn; ring). apply rne_exact64; lia. }
  destruct (K a ltac:(lia)) as [[Fa Na] Va]. destruct (K b ltac:(lia)) as [[Fb Nb] Vb].
  assert (forall n, 1 <= n < 2 ^ 52 -> (1 <= IZR n * IZR n <= IZR (2 ^ 104))%R) as SQ. { intros n Hn. rewrite <- mult_IZR. split; apply IZR_le; nia. }
  pose proof (SQ a ltac:(lia)) as SA. pose proof (SQ b ltac:(lia)) as SB. assert (2 * IZR (2 ^ 104) <= IZR (2 ^ 106))%R as P104 by (rewrite <- mult_IZR; apply IZR_le; lia). assert (IZR (2 ^ 106) * 4 <= IZR (2 ^ 110))%R as P106 by (rewrite <- mult_IZR; apply IZR_le; lia).
  assert (bpow radix2 (-1022) <= 1)%R as Bm by (apply (bpow_le radix2 (-1022) 0); lia).
  assert (forall v, 1 <= v -> v * (1 - u) <= rne F64 v <= v * (1 + u) /\ 1 <= rne F64 v)%R as RR.
  { intros v Hv. pose proof (rne_rel v) as R. rewrite (Rabs_pos_eq v) in R by lra. specialize (R ltac:(lra)). fold u in R. apply Rabs_le_inv in R. split; [lra|]. change 1%R with (bpow radix2 0). apply fl_ge; [lia|exact Hv]. }
  destruct (mul_val F64 o Ho Hp64 He64 Hm64 _ _ Fa Fa Na Na) as (FA & NA & VA). { apply big_ok. rewrite Va, Rabs_pos_eq by lra. lra. } rewrite Va in VA.
  destruct (mul_val F64 o Ho Hp64 He64 Hm64 _ _ Fb Fb Nb Nb) as (FB & NB & VB). { apply big_ok. rewrite Vb, Rabs_pos_eq by lra. lra. } rewrite Vb in VB.
  destruct (RR _ (proj1 SA)) as [RA RA1]. destruct (RR _ (proj1 SB)) as [RB RB1]. rewrite <- VA in RA, RA1. rewrite <- VB in RB, RB1.
  set (A := o_mul o (conv a) (conv a)) in *. set (B := o_mul o (conv b) (conv b)) in *.
  assert (value F64 A <= 2 * IZR (2 ^ 104))%R as A2 by (destruct RA; nra). assert (value F64 B <= 2 * IZR (2 ^ 104))%R as B2 by (destruct RB; nra).
  destruct (add_val F64 o Ho Hp64 He64 Hm64 _ _ FA FB NA NB) as (FC & NC & VC). { apply big_ok. rewrite Rabs_pos_eq by lra. lra. }
  destruct (RR (value F64 A + value F64 B)%R ltac:(lra)) as [RC RC1]. rewrite <- VC in RC, RC1. set (C := o_add o A B) in *.
  set (s := (IZR a * IZR a + IZR b * IZR b)%R) in *. assert (IZR (a * a + b * b) = s) as Es by (unfold s; rewrite plus_IZR, !mult_IZR; reflexivity).
  assert (0 < s)%R as sp by (unfold s; lra). assert (s * ((1 - u) * (1 - u)) <= value F64 C <= s * ((1 + u) * (1 + u)))%R as CS.
  { split.
    - apply Rle_trans with ((value F64 A + value F64 B) * (1 - u))%R; [|lra]. rewrite <- Rmult_assoc. apply Rmult_le_compat_r; [lra|]. unfold s. lra.
    - apply Rle_trans with ((value F64 A + value F64 B) * (1 + u))%R; [lra|]. rewrite <- Rmult_assoc. apply Rmult_le_compat_r; [lra|]. unfold s. lra. }
  assert (h * h = s)%R as hh by (unfold h; rewrite Es; apply sqrt_sqrt; lra). assert (0 <= h)%R as h0 by apply sqrt_pos.
  assert (h * (1 - u) <= sqrt (value F64 C) <= h * (1 + u))%R as SC.
  { split.
    - rewrite <- (sqrt_square (h * (1 - u))) by (apply Rmult_le_pos; lra). apply sqrt_le_1_alt. replace (h * (1 - u) * (h * (1 - u)))%R with (h * h * ((1 - u) * (1 - u)))%R by ring. rewrite hh. lra.
    - rewrite <- (sqrt_square (h * (1 + u))) by (apply Rmult_le_pos; lra). apply sqrt_le_1_alt. replace (h * (1 + u) * (h * (1 + u)))%R with (h * h * ((1 + u) * (1 + u)))%R by ring. rewrite hh. lra. }
  assert (1 <= sqrt (value F64 C))%R as SC1 by (rewrite <- sqrt_1 at 1; apply sqrt_le_1_alt; lra).
  assert (h <= IZR (2 ^ 53))%R as h53. { unfold h. rewrite <- (sqrt_square (IZR (2 ^ 53))) by (apply IZR_le; lia). rewrite <- mult_IZR. apply sqrt_le_1_alt, IZR_le. nia. }
  assert (u * IZR (2 ^ 53) = 1)%R as u53. { unfold u. change (IZR (2 ^ 53)) with (bpow radix2 53). rewrite <- bpow_plus. reflexivity. }
  assert (h * u <= 1)%R as hu by (rewrite <- u53, (Rmult_comm u); apply Rmult_le_compat_r; lra).
  destruct (C41_sqrt F64 o 64 C ltac:(unfold std; tauto) Ho ltac:(tauto) FC) as (t & E & Ft & _ & _ & _ & _ & R).
  destruct (good_pos C (conj FC NC) ltac:(lra)) as (SgC & ZC & _). specialize (R NC ZC SgC).
  assert (Rabs (sqrt (value F64 C)) <= IZR (2 ^ 110))%R as BC. { rewrite Rabs_pos_eq by lra. assert (2 * IZR (2 ^ 53) <= IZR (2 ^ 110))%R by (rewrite <- mult_IZR; apply IZR_le; lia). lra. }
  destruct (rounds_val F64 Hp64 He64 Hm64 _ _ _ R) as (F' & N' & V'); [apply big_ok; exact BC|].
  destruct (RR _ SC1) as [RT RT1]. rewrite <- V' in RT, RT1. exists t. split; [exact E|].
  assert (h - 3 < value F64 t < h + 3)%R as HT.
  { assert (h * u * u <= u)%R by (rewrite <- (Rmult_1_l u) at 3; apply Rmult_le_compat_r; lra). assert (h * (1 - u) * (1 - u) <= value F64 t)%R by (apply Rle_trans with (sqrt (value F64 C) * (1 - u))%R; [apply Rmult_le_compat_r; lra|lra]).
    assert (value F64 t <= h * (1 + u) * (1 + u))%R by (apply Rle_trans with (sqrt (value F64 C) * (1 + u))%R; [lra|apply Rmult_le_compat_r; lra]). assert (0 <= h * u * u)%R by (apply Rmult_le_pos; [apply Rmult_le_pos|]; lra). split; lra. }
  destruct (Ht t F') as (_ & _ & T). specialize (T N'). rewrite Ztrunc_floor in T by lra. pose proof (Zfloor_lb (value F64 t)) as L1. pose proof (Zfloor_ub (value F64 t)) as L2. assert (1 <= Zfloor (value F64 t)) as Z1 by (apply Zfloor_lub; exact RT1).
  assert (Zfloor (value F64 t) < 2 ^ 54) as Z2. { apply lt_IZR. assert (IZR (2 ^ 53) + 3 < IZR (2 ^ 54))%R by (rewrite <- plus_IZR; apply IZR_lt; lia). lra. }
  replace (tou t) with (Zfloor (value F64 t)). 2: { rewrite T. unfold clamp. change (imin (UI 64)) with 0. change (imax (UI 64)) with (2 ^ 64 - 1). lia. }
  split; [exact Z1|]. lra.
Qed.

Lemma denorm_ok fuel a b : (6 <= fuel)%nat -> 1 <= b <= a -> a < 2 ^ 52 ->
  exists r, hypot_denorm o conv tou fuel a b = Ok r /\ rounds_to F64 false (sqrt (IZR (a * a + b * b)) * bpow radix2 (-1074)) r.
Proof using Ho Hc Ht.
  intros Hf Hb Ha. destruct (guess_ok a b Hb Ha) as (t & E & T1 & T2). cbv zeta in T2. set (h := sqrt (IZR (a * a + b * b))) in *. set (S := a * a + b * b) in *.
  assert (0 < S) as Sp by (unfold S; nia). assert (S < 2 ^ 105) as Su by (unfold S; nia). assert (h * h = IZR S)%R as hh by (apply sqrt_sqrt, IZR_le; lia). assert (0 < h)%R as hp by (apply sqrt_lt_R0, IZR_lt; lia).
  assert (h < IZR (2 ^ 53))%R as h53. { unfold h. rewrite <- (sqrt_square (IZR (2 ^ 53))) by (apply IZR_le; lia). rewrite <- mult_IZR. apply sqrt_lt_1_alt. split; [apply IZR_le; lia|apply IZR_lt; lia]. }
  set (m := tou t) in *. assert (m < 2 ^ 54) as Hm. { apply lt_IZR. assert (IZR (2 ^ 53) + 3 < IZR (2 ^ 54))%R by (rewrite <- plus_IZR; apply IZR_lt; lia). lra. }
  unfold hypot_denorm. rewrite one_shift by exact Ho. rewrite !(norm_id (SI 64) eq_refl a), !(norm_id (SI 64) eq_refl b) by (apply fits_s; lia).
  rewrite !cshl_u_exact by lia. cbn [bind]. rewrite E. cbn [bind]. fold m. rewrite cshl_u_exact by lia. cbn [bind]. cbv zeta.
  assert (forall x, norm (SI 64) (norm (UI 64) x) = norm (SI 64) x) as NN.
  { intros x. apply norm_congr. exists (- (x / 2 ^ 64)). rewrite norm_u. change (bits (SI 64)) with 64. pose proof (Z.div_mod x (2 ^ 64) ltac:(lia)). lia. }
  assert (Rabs (h - IZR m) <= 4)%R as D4 by (apply Rabs_le; lra).
  assert (- 2 ^ 60 < 4 * S - 4 * (m * m) < 2 ^ 60) as DB.
  { assert (IZR (4 * S - 4 * (m * m)) = 4 * ((h - IZR m) * (h + IZR m)))%R as EQ by (rewrite minus_IZR, !mult_IZR, <- hh; ring). assert (0 < IZR m)%R by (apply IZR_lt; lia). assert (IZR m < IZR (2 ^ 54))%R by (apply IZR_lt; lia). 
    pose proof (mulb (h - IZR m) (h + IZR m) 4 (IZR (2 ^ 55))) as MB. assert (IZR (2 ^ 53) + IZR (2 ^ 54) <= IZR (2 ^ 55))%R by (rewrite <- plus_IZR; apply IZR_le; lia). specialize (MB ltac:(lra) ltac:(lra)). rewrite <- mult_IZR in MB.
    assert (4 * IZR (4 * 2 ^ 55) < IZR (2 ^ 60))%R by (rewrite <- mult_IZR; apply IZR_lt; lia). split; apply lt_IZR; rewrite ?opp_IZR; lra. }
  replace (wrapping_add (SI 64) _ _) with (4 * S - 4 * (m * m)).
  2: { unfold wrapping_mul, wrapping_add, wrapping_sub. rewrite !NN. rewrite norm_sub_l, norm_sub_r, norm_add_l, norm_add_r by reflexivity. rewrite norm_id by (reflexivity || (apply fits_s; change (2 ^ 1) with 2; unfold S in *; lia)). change (2 ^ 1) with 2. unfold S. lia. }
  rewrite cshr_ok by (change (bits (SI 64)) with 64; lia). cbn [bind]. rewrite (norm_id (SI 64) eq_refl m) by (apply fits_s; lia).
  assert (forall F r, 0 <= F -> (IZR m - 10 <= IZR F <= IZR m + 10)%R -> ((r = F /\ 4 * S < (2 * F + 1) * (2 * F + 1)) \/ (r = F + 1 /\ (2 * F + 1) * (2 * F + 1) < 4 * S)) -> 4 * S - 4 * ((F + 1) * (F + 1)) < 0 -> 0 <= 4 * S - 4 * (F * F) ->
    rounds_to F64 false (h * bpow radix2 (-1074)) r) as FIN.
  { intros F r HF0 HF HR H1 H0. assert (forall z, 0 <= z -> 4 * S < z * z -> (2 * h < IZR z)%R) as LT. { intros z Hz Hs. apply IZR_lt in Hs. rewrite !mult_IZR, <- hh in Hs. apply IZR_le in Hz. apply Rnot_le_lt. intros C. assert (IZR z * IZR z <= 2 * h * (2 * h))%R by (apply Rmult_le_compat; lra). lra. }
    assert (forall z, 0 <= z -> z * z < 4 * S -> (IZR z < 2 * h)%R) as GT. { intros z Hz Hs. apply IZR_lt in Hs. rewrite !mult_IZR, <- hh in Hs. apply IZR_le in Hz. apply Rnot_le_lt. intros C. assert (2 * h * (2 * h) <= IZR z * IZR z)%R by (apply Rmult_le_compat; lra). lra. }
    assert (forall z, 0 <= z -> z * z <= 4 * S -> (IZR z <= 2 * h)%R) as GE. { intros z Hz Hs. apply IZR_le in Hs. rewrite !mult_IZR, <- hh in Hs. apply IZR_le in Hz. apply Rnot_lt_le. intros C. assert (2 * h * (2 * h) < IZR z * IZR z)%R by (apply Rmult_le_0_lt_compat; lra). lra. }
    assert (IZR (2 * F) <= 2 * h)%R as G0 by (apply GE; lia). assert (2 * h < IZR (2 * F + 2))%R as G1 by (apply LT; lia). rewrite plus_IZR, mult_IZR in G1. rewrite mult_IZR in G0.
    assert (F < 2 ^ 53 - 1 \/ F = 2 ^ 53 - 1 \/ 2 ^ 53 <= F) as CF by lia. assert (S < (2 ^ 53 - 1) * (2 ^ 53 - 1)) as SS by lia. assert (F < 2 ^ 53 - 1) as HF3 by nia.
    apply round_sub; [lia|change 9007199254740992%R with (IZR (2 ^ 53)); lra| |lra].
    destruct HR as [[-> L]|[-> L]].
    - apply LT in L; [|lia]. rewrite plus_IZR, mult_IZR in L. lra.
    - apply GT in L; [|lia]. rewrite plus_IZR, mult_IZR in L. rewrite plus_IZR. lra. }
  destruct (Z_lt_le_dec (4 * S - 4 * (m * m)) 0) as [L|L].
  - replace ((4 * S - 4 * (m * m)) / 2 ^ 63) with (-1) by (apply Z.div_unique with (4 * S - 4 * (m * m) + 2 ^ 63); lia).
    rewrite Z.lxor_m1_r. replace (csub (SI 64) (Z.lnot m) (-1)) with (Ok (- m)) by (symmetry; replace (- m) with (Z.lnot m - -1) by (unfold Z.lnot; lia); apply chk_ok, fits_s; unfold Z.lnot; lia). cbn [bind].
    change (cadd (SI 64) (-1) 1) with (Ok 0). cbn [bind]. rewrite cshl_ok by (change (bits (SI 64)) with 64; lia). cbn [bind]. change (2 ^ 3) with 8. rewrite norm_id by (reflexivity || (apply fits_s; lia)).
    replace (cadd (SI 64) (- m * 8) 4) with (Ok (- 8 * m + 4)) by (symmetry; replace (- 8 * m + 4) with (- m * 8 + 4) by lia; apply chk_ok, fits_s; lia). cbn [bind]. change (norm (UI 64) 0) with 0. rewrite csub_u by lia. rewrite Z.sub_0_r. cbn [bind]. change (cadd (SI 64) 0 (-1)) with (Ok (-1)). cbn [bind].
    pose proof (Z.sqrt_spec S ltac:(lia)) as SQ. pose proof (Z.sqrt_nonneg S) as SQ0. set (q := Z.sqrt S) in *. cbv zeta in SQ. assert (q < m) as qm by nia.
    assert (m - 5 <= q) as qm2. { assert (m - 4 < q + 1); [|lia]. apply lt_IZR. rewrite minus_IZR. apply Rlt_trans with h; [lra|]. assert (S < (q + 1) * (q + 1)) as SQ2 by lia. apply IZR_lt in SQ2. rewrite mult_IZR, <- hh in SQ2. assert (0 <= IZR (q + 1))%R by (apply IZR_le; lia). apply Rnot_le_lt. intros C. assert (IZR (q + 1) * IZR (q + 1) <= h * h)%R by (apply Rmult_le_compat; lra). lra. }
    destruct (loop_down S (Z.to_nat (m - q)) m) as (F & p & EL & F1 & F2 & F3); [lia|lia|lia|replace (m - Z.of_nat (Z.to_nat (m - q))) with q by lia; lia|].
    rewrite (loop_mono (-1) _ (Z.to_nat (m - q)) fuel m _ _ ltac:(lia) EL). cbn [bind].
    change (inot (SI 64) (-1)) with 0. rewrite Z.land_0_l, Z.land_m1_l. replace (cadd (SI 64) (4 * S - 4 * (F * F)) 0) with (Ok (4 * S - 4 * (F * F))) by (symmetry; rewrite <- (Z.add_0_r (4 * S - 4 * (F * F))) at 2; apply chk_ok, fits_s; lia). cbn [bind].
    destruct (tail_ok S F ltac:(lia) F1 F2) as (r & ER & HR). cbv zeta in ER. rewrite ER. exists r. split; [reflexivity|]. apply (FIN F); [lia| |exact HR|exact F2|lia]. split; [rewrite <- minus_IZR; apply IZR_le; lia|rewrite <- plus_IZR; apply IZR_le; lia].
  - rewrite Z.div_small by lia. rewrite Z.lxor_0_r. replace (csub (SI 64) m 0) with (Ok m) by (symmetry; rewrite <- (Z.sub_0_r m) at 2; apply chk_ok, fits_s; lia). cbn [bind].
    change (cadd (SI 64) 0 1) with (Ok 1). cbn [bind]. rewrite cshl_ok by (change (bits (SI 64)) with 64; lia). cbn [bind]. change (2 ^ 3) with 8. rewrite norm_id by (reflexivity || (apply fits_s; lia)).
    replace (cadd (SI 64) (m * 8) 4) with (Ok (8 * m + 4)) by (symmetry; replace (8 * m + 4) with (m * 8 + 4) by lia; apply chk_ok, fits_s; lia). cbn [bind]. change (norm (UI 64) 1) with 1. rewrite csub_u by lia. cbn [bind]. change (cadd (SI 64) 1 0) with (Ok 1). cbn [bind].
    destruct (loop_up S 6 m) as (F & EL & F1 & F2 & F3); [lia|lia|lia| |].
    { assert (h < IZR (m + 6))%R as B by (rewrite plus_IZR; lra). assert (h * h < IZR (m + 6) * IZR (m + 6))%R as B2 by (apply Rmult_le_0_lt_compat; lra). rewrite hh, <- mult_IZR in B2. apply lt_IZR in B2. change (Z.of_nat 6) with 6. lia. }
    rewrite (loop_mono 1 _ 6 fuel _ _ _ Hf EL). cbn [bind].
    change (inot (SI 64) 0) with (-1). rewrite Z.land_0_l, Z.land_m1_l. replace (cadd (SI 64) 0 (4 * S - 4 * (F * F))) with (Ok (4 * S - 4 * (F * F))) by (symmetry; rewrite <- (Z.add_0_l (4 * S - 4 * (F * F))) at 2; apply chk_ok, fits_s; lia). cbn [bind].
    destruct (tail_ok S F ltac:(lia) F1 F2) as (r & ER & HR). cbv zeta in ER. rewrite ER. exists r. split; [reflexivity|]. apply (FIN F); [lia| |exact HR|exact F2|lia]. split; [rewrite <- minus_IZR; apply IZR_le; lia|rewrite <- plus_IZR; apply IZR_le; lia].
Qed.
End Denorm.
