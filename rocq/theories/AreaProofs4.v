(** acosh. *)
From Coq Require Import ZArith Reals Bool Lia Lra Psatz.
From Flocq Require Import Core.
From Verif Require Import Base BaseLemmas FloatModel FloatSpec FloatProofs FloatProofs5 FloatConvSpec LibmModel LibmSpec LibmProofs SqrtModel SqrtSpec SqrtProps Elem FloatErr ElemModel ElemSpec F64Lib
  ExpProofs3 ExpProofs4 ExpProofs5 ExpProofs6 ExpProofs7 ExpProofs8 LogProofs LogProofs2 LogProofs4 LogProps TrigModel HypotModel HypotProofs3 TrigRed TrigLg11 AsinProofs2 Atan2Proofs Log1pModel Log1pProofs Log1pProofs2 Log2Proofs2 AreaModel AreaProofs AreaProofs2 AreaProofs3.
Open Scope Z_scope.

(** The real function. *)
Definition arcosh (x : R) : R := ln (x + sqrt (x * x - 1)).
Lemma cosh_arcosh x : (1 <= x)%R -> cosh (arcosh x) = x /\ (0 <= arcosh x)%R.
Proof.
  intros H. unfold arcosh. pose proof (sqrt_sqrt (x * x - 1) ltac:(nra)) as SS. pose proof (sqrt_pos (x * x - 1)) as S0. set (s := sqrt (x * x - 1)) in *. split.
  - unfold cosh. rewrite exp_Ropp, exp_ln by lra. replace (/ (x + s))%R with (x - s)%R; [field|]. apply Rmult_eq_reg_r with (x + s)%R; [|lra]. rewrite Rinv_l by lra. lra.
  - rewrite <- ln_1. apply ln_le'; lra.
Qed.
Lemma arcosh_huge X : (bpow radix2 26 <= X -> Rabs (arcosh X - ln (2 * X)) <= u53)%R.
Proof.
  intros H. change (bpow radix2 26) with 67108864%R in H. change u53 with (/ 9007199254740992)%R. unfold arcosh. pose proof (sqrt_sqrt (X * X - 1) ltac:(nra)) as SS. pose proof (sqrt_pos (X * X - 1)) as S0.
  set (S := sqrt (X * X - 1)) in *. assert (S1 : (S <= X)%R) by nra. assert (S9 : (0.99 * X <= S)%R) by nra. assert (S2 : (X - S <= / 1.99 / X)%R).
  { apply Rmult_le_reg_r with X; [lra|]. replace (/ 1.99 / X * X)%R with (/ 1.99)%R by (field; lra). assert ((X - S) * (1.99 * X) <= 1)%R by nra. lra. }
  assert (IX : (0 < / X <= / 67108864)%R) by (split; [apply Rinv_0_lt_compat|apply Rinv_le_contravar]; lra).
  replace (X + S)%R with (2 * X * (1 + - ((X - S) / (2 * X))))%R by (field; lra). assert (Q : (0 <= (X - S) / (2 * X) <= / 1.99 * / 9007199254740992)%R).
  { replace ((X - S) / (2 * X))%R with ((X - S) * (/ 2 * / X))%R by (field; lra). unfold Rdiv in S2. set (i := (/ X)%R) in *. nra. }
  set (q := ((X - S) / (2 * X))%R) in *. rewrite ln_mult by lra. pose proof (ln_near (- q) ltac:(rewrite Rabs_Ropp, Rabs_pos_eq; lra)) as L. apply Rabs_le_inv in L. apply Rabs_le. nra.
Qed.

Section Acosh.
Context (o : fops) (Ho : ieee_ops F64 o) (c : icast) (Hc : icast_ok c).
Lemma rg_wide v : (/ 100000000000000000000000000000000 <= v <= 100000000000000000)%R -> rg v.
Proof using.
  clear. intros H. split; [apply Rle_trans with (bpow radix2 (-110)); [apply bpow_le; lia|change (bpow radix2 (-110)) with (/ 1298074214633706907132624082305024)%R; lra]|apply Rle_trans with (bpow radix2 60); [change (bpow radix2 60) with 1152921504606846976%R; lra|apply bpow_le; lia]].
Qed.
Lemma acosh_mid x (X := value F64 x) : good x -> (1 + bpow radix2 (-52) <= X < 2)%R -> let x1 := o_sub o x one in
  exists s l, hsqrt o (o_add o (o_mul o x1 x1) (o_mul o two x1)) = Ok s /\ libm_log1p o c (o_add o x1 s) = Ok l /\ within 6 l (arcosh X).
Proof using Ho Hc.
  intros G B x1. change (bpow radix2 (-52)) with (/ 4503599627370496)%R in B.
  destruct (sub64 o Ho x one G good_one) as [GS VS]; [rewrite value_one; fold X; apply Rle_trans with (bpow radix2 0); [change (bpow radix2 0) with 1%R; apply Rabs_le; lra|apply bpow_le; lia]|].
  rewrite value_one in VS. fold X in VS. rewrite (sterb X 1 X) in VS; [|apply format64; apply G|rewrite <- value_one; apply format64; apply good_one|ring|lra]. fold x1 in GS, VS. set (W := (X - 1)%R) in *.
  assert (A0 : apx x1 W 0). { rewrite <- VS. apply apx_refl; [exact GS|rewrite VS; unfold W; lra]. }
  assert (WB : (/ 4503599627370496 <= W < 1)%R) by (unfold W; lra). assert (WW : (/ 50000000000000000000000000000000 <= W * W <= W)%R) by nra.
  assert (A1 := apx_mul o Ho _ _ W W 0 0 A0 A0 ltac:(lra) ltac:(lra) (rg_wide (W * W) ltac:(lra)) ltac:(lra) ltac:(lra)).
  assert (A2 := apx_two o Ho _ _ _ A0 (rg_wide W ltac:(lra)) ltac:(lra)).
  assert (A3 := apx_add o Ho _ _ (W * W) (2 * W) _ _ 0.34 A1 A2 ltac:(lra) ltac:(lra) (rg_wide (W * W + 2 * W) ltac:(lra)) ltac:(lra) ltac:(lra)).
  pose proof (sqrt_sqrt (W * W + 2 * W) ltac:(lra)) as SS. pose proof (sqrt_pos (W * W + 2 * W)) as S0. assert (S1 : (W <= sqrt (W * W + 2 * W))%R) by nra. assert (S2 : (sqrt (W * W + 2 * W) <= 2)%R) by nra.
  destruct (apx_sqrt o Ho _ _ _ A3 (rg_wide (W * W + 2 * W) ltac:(lra)) (rg_wide (sqrt (W * W + 2 * W)) ltac:(lra)) ltac:(lra)) as (s & Es & A4). exists s. set (S := sqrt (W * W + 2 * W)) in *.
  assert (A5 := apx_add o Ho _ _ W S _ _ 1.69 A0 A4 ltac:(lra) ltac:(lra) (rg_wide (W + S) ltac:(lra)) ltac:(lra) ltac:(lra)).
  destruct (log1p_apx o Ho c Hc _ _ _ A5 (rg_wide (W + S) ltac:(lra)) ltac:(lra)) as (l & El & Gl & Wl). exists l. split; [exact Es|]. split; [exact El|].
  apply (within_le (3 + 1.001 * (1.69 + 1.01))); [|lra]. split; [apply Gl|]. split; [apply Gl|]. unfold arcosh. replace (X * X - 1)%R with (W * W + 2 * W)%R by (unfold W; ring). fold S. replace (X + S)%R with (1 + (W + S))%R by (unfold W; ring). exact Wl.
Qed.
Lemma acosh_big x (X := value F64 x) : good x -> (2 <= X < bpow radix2 26)%R ->
  exists s l, hsqrt o (o_sub o (o_mul o x x) one) = Ok s /\ libm_log o c (o_sub o (o_mul o two x) (o_div o one (o_add o x s))) = Ok l /\ within 6 l (arcosh X).
Proof using Ho Hc.
  intros G B. assert (B26 : bpow radix2 26 = 67108864%R) by reflexivity. rewrite B26 in B.
  assert (A0 : apx x X 0) by (apply apx_refl; [exact G|fold X; lra]). pose proof apx_one as A1.
  assert (XX : (4 <= X * X <= 5000000000000000)%R) by nra.
  assert (A2 := apx_mul o Ho _ _ X X 0 0 A0 A0 ltac:(lra) ltac:(lra) (rg_mid (X * X) ltac:(lra)) ltac:(lra) ltac:(lra)).
  assert (A3 := apx_sub o Ho _ _ (X * X) 1 _ _ 1.35 A2 A1 ltac:(lra) ltac:(lra) (rg_mid (X * X - 1) ltac:(lra)) ltac:(lra) ltac:(lra)).
  pose proof (sqrt_sqrt (X * X - 1) ltac:(lra)) as SS. pose proof (sqrt_pos (X * X - 1)) as S0.
  assert (S1 : (1.7 <= sqrt (X * X - 1))%R) by nra. assert (S2 : (sqrt (X * X - 1) <= X)%R) by nra.
  destruct (apx_sqrt o Ho _ _ _ A3 (rg_mid (X * X - 1) ltac:(lra)) (rg_mid (sqrt (X * X - 1)) ltac:(lra)) ltac:(lra)) as (s & Es & A4). exists s.
  set (S := sqrt (X * X - 1)) in *.
  assert (A5 := apx_add o Ho _ _ X S _ _ 2.2 A0 A4 ltac:(lra) ltac:(lra) (rg_mid (X + S) ltac:(lra)) ltac:(lra) ltac:(lra)).
  assert (Q : (/ 1000000000 <= 1 / (X + S) <= 0.28)%R) by (apply div_bnd; lra).
  assert (A6 := apx_div o Ho _ _ 1 (X + S) _ _ A1 A5 ltac:(lra) ltac:(lra) (rg_mid (1 / (X + S)) ltac:(lra)) ltac:(lra) ltac:(lra)).
  assert (A7 := apx_two o Ho _ _ _ A0 (rg_mid X ltac:(lra)) ltac:(lra)).
  assert (SE : (1 / (X + S) = X - S)%R). { replace 1%R with ((X - S) * (X + S))%R at 1 by lra. field. lra. }
  assert (A8 := apx_sub o Ho _ _ (2 * X) (1 / (X + S)) _ _ 0.35 A7 A6 ltac:(lra) ltac:(lra) (rg_mid (2 * X - 1 / (X + S)) ltac:(lra)) ltac:(lra) ltac:(lra)).
  rewrite SE in A8. replace (2 * X - (X - S))%R with (X + S)%R in A8 by ring. pose proof ln2_num as L2. assert (LA : (ln 2 <= ln (X + S))%R) by (apply ln_le'; lra).
  destruct (log_apx o Ho c Hc _ _ _ 2 A8 (rg_mid (X + S) ltac:(lra)) ltac:(lra) ltac:(lra) ltac:(lra)) as (l & El & Gl & Wl). exists l. split; [exact Es|]. split; [exact El|].
  apply (within_le (3 + 1.001 * 2)); [|lra]. split; [apply Gl|]. split; [apply Gl|]. exact Wl.
Qed.
(** Below 1 the root is not a number, or the sum is below -1. *)
Lemma rne_mono u v : (u <= v -> rne F64 u <= rne F64 v)%R.
Proof using. clear. intros H. assert (PG : Prec_gt_0 (prec F64)) by exact Hp64. apply round_le; auto with typeclass_instances. Qed.
Lemma rne_bpow e : -1074 <= e -> rne F64 (bpow radix2 e) = bpow radix2 e.
Proof using. clear. intros H. apply fmt_rne. apply generic_format_bpow. change (emin F64) with (-1074). change (prec F64) with 53. unfold FLT_exp. lia. Qed.
Lemma rne_abs v : (Rabs v < 8 -> Rabs (rne F64 v - v) <= / 1000000)%R.
Proof using.
  clear. intros H. eapply Rle_trans; [apply (rne_error F64 Hp64 3); exact H|]. change (Z.max (3 - prec F64) (emin F64)) with (-50). change (bpow radix2 (-50)) with (/ 1125899906842624)%R. lra.
Qed.
Lemma acosh_out x1 (W := (- value F64 x1)%R) : good x1 -> (bpow radix2 (-53) <= W <= 3)%R ->
  exists s l, hsqrt o (o_add o (o_mul o x1 x1) (o_mul o two x1)) = Ok s /\ libm_log1p o c (o_add o x1 s) = Ok l /\ is_float F64 l /\ is_nan F64 l.
Proof using Ho Hc.
  intros G B. pose proof (bpow_gt_0 radix2 (-53)) as P53. assert (U53 : bpow radix2 (-53) = (/ 9007199254740992)%R) by reflexivity. rewrite U53 in B.
  assert (V1 : value F64 x1 = (- W)%R) by (unfold W; ring). assert (WW : (/ 100000000000000000000000000000000 <= W * W <= 9)%R) by nra.
  destruct (mul64 o Ho x1 x1 G G) as [Gm Vm]; [rewrite V1; apply Rle_trans with (bpow radix2 4); [change (bpow radix2 4) with 16%R; apply Rabs_le; nra|apply bpow_le; lia]|]. rewrite V1 in Vm. replace (- W * - W)%R with (W * W)%R in Vm by ring.
  destruct (two_exact o Ho x1 G) as [Gt Vt]; [rewrite V1; apply Rle_trans with (bpow radix2 4); [change (bpow radix2 4) with 16%R; apply Rabs_le; lra|apply bpow_le; lia]|]. rewrite V1 in Vt.
  pose proof (rne_rel (W * W)) as RR. rewrite U53, (Rabs_pos_eq (W * W)) in RR by lra. assert (MM := RR). specialize (RR ltac:(apply Rle_trans with (bpow radix2 (-110)); [apply bpow_le; lia|change (bpow radix2 (-110)) with (/ 1298074214633706907132624082305024)%R; lra])). clear MM.
  set (m := rne F64 (W * W)) in *. assert (RR' := Rabs_le_inv _ _ RR).
  destruct (add64 o Ho _ _ Gm Gt) as [Ga Va]; [rewrite Vm, Vt; apply Rle_trans with (bpow radix2 5); [change (bpow radix2 5) with 32%R; apply Rabs_le; lra|apply bpow_le; lia]|]. rewrite Vm, Vt in Va. set (a := o_add o (o_mul o x1 x1) (o_mul o two x1)) in *.
  destruct (C41_sqrt F64 o 64 a ltac:(unfold std; tauto) Ho ltac:(tauto) (proj1 Ga)) as (s & Es & Fs & _ & SN & SZ & _ & _). change (sqrt_round F64 64 o a) with (hsqrt o a) in Es. exists s. destruct (ops_add F64 o Ho x1 s (proj1 G) Fs) as (Fr & AN & _).
  destruct (Rlt_le_dec (value F64 a) 0) as [NEG|POS].
  { assert (sign_of F64 a = true /\ ~ is_zero F64 a) as [S1 S2].
    { destruct (good_split a Ga) as (t & k & Ek & Hk). rewrite Ek in NEG |- *. rewrite value64 in NEG by lia. rewrite sign64, zero64 by lia. pose proof (mag_nonneg64 k ltac:(lia)). destruct t; [|lra]. split; [reflexivity|]. intros ->. rewrite mag0_64 in NEG. lra. }
    destruct (log1p_nan o Ho c Hc (o_add o x1 s) Fr) as (l & El & Fl & Nl); [apply AN; right; apply (SN S1 S2)|]. exists l. tauto. }
  (* the root is small and the argument near or below -2 *)
  assert (W2 : (1.99 <= W)%R).
  { destruct (Rle_lt_dec 1.99 W) as [l|l]; [exact l|]. exfalso. assert (NE : (m + 2 * - W <= - bpow radix2 (-60))%R) by (change (bpow radix2 (-60)) with (/ 1152921504606846976)%R; nra).
    apply rne_mono in NE. rewrite <- Va, rne_opp, rne_bpow in NE by lia. pose proof (bpow_gt_0 radix2 (-60)). lra. }
  assert (VU : (value F64 a <= (W - 1.2) * (W - 1.2))%R).
  { pose proof (rne_abs (m + 2 * - W) ltac:(apply Rabs_lt; nra)) as E. rewrite <- Va in E. apply Rabs_le_inv in E. nra. }
  assert (SB : good s /\ (0 <= value F64 s <= W - 1.199)%R).
  { destruct (Req_dec (value F64 a) 0) as [Z|Z].
    - assert (ZA : is_zero F64 a). { destruct (good_split a Ga) as (t & k & Ek & Hk). rewrite Ek in Z |- *. rewrite value64 in Z by lia. rewrite zero64 by lia. destruct (Z.eq_dec k 0) as [|N]; [assumption|]. pose proof (mag_lt64 0 k ltac:(lia)) as Q. rewrite mag0_64 in Q. destruct t; lra. }
      rewrite (SZ ZA). split; [exact Ga|]. rewrite Z. lra.
    - destruct (hsqrt_gen o Ho a Ga) as (s' & Es' & Gs & Vs); [split; [lra|]; apply Rle_trans with (bpow radix2 4); [change (bpow radix2 4) with 16%R; nra|apply bpow_le; lia]|]. rewrite Es in Es'. injection Es' as <-. split; [exact Gs|]. rewrite Vs.
      assert (Q : (sqrt (value F64 a) <= W - 1.2)%R). { rewrite <- (sqrt_square (W - 1.2)) by lra. apply sqrt_le_1_alt. exact VU. } pose proof (sqrt_pos (value F64 a)) as Q0.
      pose proof (rne_abs (sqrt (value F64 a)) ltac:(apply Rabs_lt; lra)) as E. apply Rabs_le_inv in E. split; [|lra]. replace 0%R with (rne F64 0) by apply (rne_0 F64). apply rne_mono. exact Q0. }
  destruct SB as [Gs SB]. destruct (add64 o Ho x1 s G Gs) as [Gr Vr]; [rewrite V1; apply Rle_trans with (bpow radix2 4); [change (bpow radix2 4) with 16%R; apply Rabs_le; lra|apply bpow_le; lia]|]. rewrite V1 in Vr.
  pose proof (rne_abs (- W + value F64 s) ltac:(apply Rabs_lt; lra)) as E. rewrite <- Vr in E. apply Rabs_le_inv in E.
  destruct (log1p_all o Ho c Hc _ Fr) as (l & El & Fl & _ & _ & _ & A & _). exists l. split; [exact Es|]. split; [exact El|]. split; [exact Fl|]. apply A; [apply Gr|lra].
Qed.

Lemma acosh_below x (x1 := o_sub o x one) : good x -> (-2 < value F64 x <= 1 - bpow radix2 (-53))%R ->
  exists s l, hsqrt o (o_add o (o_mul o x1 x1) (o_mul o two x1)) = Ok s /\ libm_log1p o c (o_add o x1 s) = Ok l /\ is_float F64 l /\ is_nan F64 l.
Proof using Ho Hc.
  intros G B. pose proof (bpow_gt_0 radix2 (-53)) as P53. destruct (sub64 o Ho x one G good_one) as [Gs Vs]; [rewrite value_one; apply Rle_trans with (bpow radix2 4); [change (bpow radix2 4) with 16%R; apply Rabs_le; lra|apply bpow_le; lia]|].
  apply acosh_out; [exact Gs|]. rewrite value_one in Vs. unfold x1. rewrite Vs.
  assert (H53 : (value F64 x - 1 <= - bpow radix2 (-53))%R) by lra. apply rne_mono in H53. rewrite rne_opp, rne_bpow in H53 by lia.
  assert (H3 : (rne F64 (- (3)) <= rne F64 (value F64 x - 1))%R) by (apply rne_mono; lra).
  assert (F3 : rne F64 3 = 3%R) by (replace 3%R with (IZR 3 * bpow radix2 0)%R by (cbn; lra); apply (rne_exact F64); first [reflexivity|vm_compute; discriminate]).
  rewrite rne_opp, F3 in H3. lra.
Qed.
Lemma acosh_one : libm_acosh o c one = Ok 0.
Proof using Ho Hc.
  unfold libm_acosh. change (Z.land one (Z.lxor (2 ^ 63) (2 ^ 64 - 1)) <? two) with true. cbv zeta. cbn iota.
  destruct (sub_self o Ho one (proj1 good_one)) as [[_ Q]|[Q _]]; [destruct Q; apply good_one|]. rewrite Q.
  assert (Z0 : is_zero F64 0) by (change 0 with (mk64 false 0); apply zero64; lia). assert (G0 := good_zero). assert (V0 : value F64 0 = 0%R) by (change 0 with (mk64 false 0); rewrite value64, mag0_64 by lia; reflexivity).
  assert (ZB : forall r, rounds_to F64 false 0 r -> r = 0).
  { intros r (Fr & Sr & R). rewrite Rcompare_Eq in Sr by reflexivity. rewrite (rne_0 F64), Rabs_R0, Rlt_bool_true in R by apply bpow_gt_0. destruct R as [Nr Vr].
    destruct (good_split r (conj Fr Nr)) as (t & k & -> & Hk). rewrite sign64 in Sr by lia. subst t. rewrite value64 in Vr by lia. destruct (Z.eq_dec k 0) as [->|N]; [reflexivity|]. pose proof (mag_lt64 0 k ltac:(lia)) as Q'. rewrite mag0_64 in Q'. lra. }
  assert (M0 : forall t, good t -> sign_of F64 t = false -> o_mul o t 0 = 0).
  { intros t Gt St. destruct (ops_mul F64 o Ho t 0 (proj1 Gt) (proj1 G0)) as (_ & _ & _ & _ & R). specialize (R (proj2 Gt) (proj2 G0)). rewrite St, V0, Rmult_0_r in R. apply ZB, R. }
  assert (GT : good two) by const_good. rewrite (M0 0 G0 eq_refl), (M0 two GT eq_refl).
  assert (A0 : o_add o 0 0 = 0). { destruct (ops_add F64 o Ho 0 0 (proj1 G0) (proj1 G0)) as (_ & _ & _ & _ & _ & R). specialize (R (proj2 G0) (proj2 G0)). rewrite V0, Rplus_0_l in R. apply ZB, R. }
  rewrite A0. destruct (C41_sqrt F64 o 64 0 ltac:(unfold std; tauto) Ho ltac:(tauto) (proj1 G0)) as (s & Es & _ & _ & _ & SZ & _). change (sqrt_round F64 64 o 0) with (hsqrt o 0) in Es. rewrite Es, (SZ Z0). cbn [bind]. rewrite A0.
  destruct (log1p_all o Ho c Hc 0 (proj1 G0)) as (l & El & _ & _ & LZ & _). rewrite El, (LZ Z0). reflexivity.
Qed.

Lemma acosh_all x : is_float F64 x -> exists r, libm_acosh o c x = Ok r /\ is_float F64 r /\
  (is_nan F64 x -> is_nan F64 r) /\ (is_inf F64 x -> if sign_of F64 x then is_nan F64 r else r = x) /\
  (is_finite F64 x -> (value F64 x < 1)%R -> is_nan F64 r) /\ (is_finite F64 x -> value F64 x = 1%R -> r = 0) /\
  (is_finite F64 x -> (1 <= value F64 x)%R -> exists y, (0 <= y)%R /\ cosh y = value F64 x /\ within 6 r y).
Proof using Ho Hc.
  intros F. destruct (split64 x F) as (s & n & Ex & Hn). assert (EL : Z.land x (Z.lxor (2 ^ 63) (2 ^ 64 - 1)) = n) by (rewrite Ex; apply area_fields; exact Hn).
  assert (V1 : mag64 one = 1%R) by (rewrite mag_value by (change one with 0x3ff0000000000000; lia); apply value_one).
  assert (GX : n < INF -> good x) by (intros L; split; [exact F|rewrite Ex; apply finite64; lia]). pose proof (mag_nonneg64 n ltac:(lia)) as M0.
  assert (VX : value F64 x = (if s then - mag64 n else mag64 n)%R) by (rewrite Ex; apply value64; lia).
  assert (XN : is_nan F64 x <-> INF < n) by (rewrite Ex; apply nan64; lia). assert (XI : is_inf F64 x <-> n = INF) by (rewrite Ex; apply isinf64; lia). assert (XF : is_finite F64 x <-> n < INF) by (rewrite Ex; apply finite64; lia).
  assert (XS : sign_of F64 x = s) by (rewrite Ex; apply sign64; lia). assert (T2 : two = 0x4000000000000000) by reflexivity. assert (T1 : one = 0x3ff0000000000000) by reflexivity.
  destruct (Z_lt_ge_dec n two) as [L2|L2].
  - assert (UN : libm_acosh o c x = let x1 := o_sub o x one in let* s := hsqrt o (o_add o (o_mul o x1 x1) (o_mul o two x1)) in libm_log1p o c (o_add o x1 s)).
    { unfold libm_acosh. rewrite EL. replace (n <? two) with true by (symmetry; apply Z.ltb_lt; exact L2). reflexivity. }
    assert (G := GX ltac:(lia)). pose proof (mag_lt64 n two ltac:(lia)) as B2. replace (mag64 two) with 2%R in B2 by (rewrite mag_value by lia; symmetry; apply LogProofs2.value_two).
    assert (LOW : (-2 < value F64 x <= 1 - bpow radix2 (-53))%R -> exists r, libm_acosh o c x = Ok r /\ is_float F64 r /\
  (is_nan F64 x -> is_nan F64 r) /\ (is_inf F64 x -> if sign_of F64 x then is_nan F64 r else r = x) /\
  (is_finite F64 x -> (value F64 x < 1)%R -> is_nan F64 r) /\ (is_finite F64 x -> value F64 x = 1%R -> r = 0) /\
  (is_finite F64 x -> (1 <= value F64 x)%R -> exists y, (0 <= y)%R /\ cosh y = value F64 x /\ within 6 r y)).
    { intros NG. pose proof (bpow_gt_0 radix2 (-53)) as P53. destruct (acosh_below x G NG) as (q & l & Eq & El & Fl & Nl). rewrite UN. cbv zeta. rewrite Eq. cbn [bind]. exists l. split; [exact El|]. split; [exact Fl|]. rewrite XN, XI.
      split; [lia|]. split; [lia|]. split; [intros; exact Nl|]. split; intros; lra. }
    assert (U53 : bpow radix2 (-53) = (/ 9007199254740992)%R) by reflexivity. rewrite U53 in LOW. clear U53.
    destruct (Z_lt_ge_dec n one) as [L1|L1]; [|destruct s; [|destruct (Z.eq_dec n one) as [E1|N1]]].
    + apply LOW. rewrite VX. pose proof (mag_le64 n 0x3fefffffffffffff ltac:(lia)) as B3. rewrite (mag_value 0x3fefffffffffffff), (kb_val 53 0x3fefffffffffffff 0x1fffffffffffff) in B3 by (try lia; vm_compute; reflexivity). unfold fx in B3. change (bpow radix2 (- (53))) with (/ 9007199254740992)%R in B3. destruct s; lra.
    + apply LOW. rewrite VX. lra.
    + assert (x = one) as E by (rewrite Ex, E1; reflexivity). rewrite E. exists 0. split; [apply acosh_one|]. split; [apply good_zero|]. rewrite <- E, XN, XI, VX, E1, V1. split; [lia|]. split; [lia|]. split; [intros; lra|]. split; [reflexivity|].
      intros _ _. exists 0%R. split; [lra|]. split; [apply cosh_0|]. split; [apply good_zero|]. split; [apply good_zero|]. replace (value F64 0) with 0%R by (change 0 with (mk64 false 0); rewrite value64, mag0_64 by lia; reflexivity). rewrite Rminus_0_r, Rabs_R0. apply Rmult_le_pos; [lra|apply ulp_ge_0]. 
    + pose proof (mag_ge 0x3ff0000000000001 0x10000000000001 52 n ltac:(vm_compute; reflexivity) ltac:(lia) ltac:(lia)) as X1. unfold fx in X1. change (bpow radix2 (- (52))) with (/ 4503599627370496)%R in X1.
      destruct (acosh_mid x G) as (q & l & Eq & El & W); [rewrite VX; change (bpow radix2 (-52)) with (/ 4503599627370496)%R; lra|]. rewrite UN. cbv zeta. rewrite Eq. cbn [bind]. exists l. split; [exact El|]. split; [apply W|]. rewrite XN, XI.
      split; [lia|]. split; [lia|]. rewrite VX in *. split; [intros; lra|]. split; [intros; lra|]. intros _ _. exists (arcosh (mag64 n)). destruct (cosh_arcosh (mag64 n) ltac:(lra)) as [C1 C2]. tauto. 
  - assert (UN : libm_acosh o c x = if x <? p26 then let* s := hsqrt o (o_sub o (o_mul o x x) one) in libm_log o c (o_sub o (o_mul o two x) (o_div o one (o_add o x s))) else let* l := libm_log o c x in Ok (o_add o l LN2_64)).
    { unfold libm_acosh. rewrite EL. replace (n <? two) with false by (symmetry; apply Z.ltb_ge; lia). reflexivity. }
    pose proof (mag_le64 two n ltac:(lia)) as B2. replace (mag64 two) with 2%R in B2 by (rewrite mag_value by lia; symmetry; apply LogProofs2.value_two). assert (P26 : p26 = 0x4190000000000000) by reflexivity.
    destruct s.
    + assert (x <? p26 = false) as E by (apply Z.ltb_ge; rewrite Ex; unfold mk64; cbn [b2z]; lia). rewrite E in UN.
      destruct (C54_log o c x Ho Hc F) as (l & El & Fl & _ & _ & NL & _). rewrite El in UN. cbn [bind] in UN. exists (o_add o l LN2_64). split; [exact UN|]. destruct (ops_add F64 o Ho l LN2_64 Fl (proj1 good_LN2)) as (Fr & AN & _). split; [exact Fr|].
      assert (NN : is_nan F64 (o_add o l LN2_64)). { apply AN. left. apply NL; [rewrite Ex, zero64; lia|exact XS]. }
      rewrite XS. split; [intros; exact NN|]. split; [intros; exact NN|]. split; [intros; exact NN|]. rewrite VX. split; intros; lra.
    + assert (x = n) as E by (rewrite Ex; unfold mk64; cbn [b2z]; lia). rewrite <- E in *. clear E n. destruct (Z.ltb_spec x p26) as [L|L].
      * assert (G := GX ltac:(lia)). pose proof (mag_lt 0x4190000000000000 67108864 0 x ltac:(vm_compute; reflexivity) ltac:(lia) ltac:(lia)) as B1. unfold fx in B1. change (bpow radix2 (- (0))) with 1%R in B1.
        destruct (acosh_big x G) as (q & l & Eq & El & W); [rewrite VX; change (bpow radix2 26) with 67108864%R; lra|]. rewrite UN, Eq. cbn [bind]. exists l. split; [exact El|]. split; [apply W|]. rewrite XN, XI. split; [lia|]. split; [lia|]. rewrite VX in *. split; [intros; lra|]. split; [intros; lra|].
        intros _ _. exists (arcosh (mag64 x)). destruct (cosh_arcosh (mag64 x) ltac:(lra)) as [C1 C2]. tauto.
      * pose proof (mag_ge 0x4190000000000000 67108864 0 x ltac:(vm_compute; reflexivity) ltac:(lia) ltac:(lia)) as B1. unfold fx in B1. change (bpow radix2 (- (0))) with 1%R in B1.
        destruct (Z_lt_ge_dec x INF) as [LI|LI].
        -- destruct (log_huge o Ho c Hc x (arcosh (value F64 x)) (GX LI)) as (l & El & W); [rewrite VX; change (bpow radix2 26) with 67108864%R; lra|apply arcosh_huge; rewrite VX; change (bpow radix2 26) with 67108864%R; lra|].
           rewrite UN, El. cbn [bind]. eexists. split; [reflexivity|]. split; [apply W|]. rewrite XN, XI. split; [lia|]. split; [lia|]. rewrite VX in *. split; [intros; lra|]. split; [intros; lra|].
           intros _ _. exists (arcosh (mag64 x)). destruct (cosh_arcosh (mag64 x) ltac:(lra)) as [C1 C2]. tauto.
        -- destruct (huge_special o Ho c Hc x Hn ltac:(lia)) as (l & El & Fl & I1 & N1). rewrite UN, El. cbn [bind]. eexists. split; [reflexivity|]. split; [exact Fl|]. rewrite XN, XI, XF, XS. split; [exact N1|]. split; [intros E; rewrite (I1 E); symmetry; exact E|]. split; [lia|]. split; lia.
Qed.
End Acosh.
