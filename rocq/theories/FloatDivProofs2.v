(** The last, full-width iteration and the bounds on the reciprocal (no modelling here). *)
From Coq Require Import ZArith Bool Lia Psatz.
From Verif Require Import Base BaseLemmas IntProofs IntProofs3 BigModel BigProofs FloatModel FloatDivModel FloatProofs FloatProofs2 FloatProofs3 FloatDivProofs.
Open Scope Z_scope.

Section HalfFull.
Context (H bh bl K h : Z) (HH : 16 <= H) (Hev : H = 2 * h) (Hbh : H <= 2 * bh) (Hbh2 : bh < H) (Hbl : 0 <= bl < H) (HK : 0 <= K) (HK2 : K + 8 <= H).
Notation N := (H * H).
Notation b := (bh * H + bl).
Context (Hk : 2 * b = N \/ N + 4 <= 2 * b) (HKs : (K + 2) * (K + 2) + 8 <= N).

Lemma half_full_eq x p rho y sg : x * b = p * H + rho -> 2 * x * (N + 1 - p) = y * H + sg ->
  N * N * (2 * b * y - N * N) = - ((2 * b * (x * H) - N * N) * (2 * b * (x * H) - N * N)) + N * (4 * b * (x * H) + 4 * b * x * rho - 2 * b * sg * H).
Proof using.
  set (B := b). clearbody B. intros E1 E2. assert (H * y = 2 * x * (N + 1 - p) - sg) as A by lia. assert (H * p = x * B - rho) as A2 by lia.
  replace (N * N * (2 * B * y - N * N)) with (2 * B * H * H * H * (H * y) - N * N * N * N) by ring. rewrite A.
  replace (2 * B * H * H * H * (2 * x * (N + 1 - p) - sg)) with (4 * B * H * H * H * x * (N + 1) - 4 * B * H * H * x * (H * p) - 2 * B * H * H * H * sg) by ring. rewrite A2. ring.
Qed.

Lemma half_full_math X : 0 < X <= H -> - K * bh <= 2 * bh * X - H * H <= K * bh ->
  exists p rho y sg, (X - 1) * b = p * H + rho /\ 0 <= rho < H /\ 2 <= p < N /\ 2 * (X - 1) * (N + 1 - p) = y * H + sg /\ 0 <= sg < H /\
    3 < y <= N + 1 /\ 2 * b * y - N * N <= 8 * b /\ - ((K + 2) * (K + 2) + 2) * b <= 2 * b * y - N * N.
Proof using HH Hev Hbh Hbh2 Hbl HK HK2 Hk HKs.
  intros HX HE. set (x := X - 1).
  set (B := b) in *. assert (B = bh * H + bl) as EB by reflexivity. clearbody B.
  assert (N <= 2 * B) as HB by (clear - Hk; lia). assert (B < N) as HB2 by (clear - EB Hbh2 Hbl; nia).
  set (p := x * B / H). set (rho := x * B mod H). set (y := 2 * x * (N + 1 - p) / H). set (sg := 2 * x * (N + 1 - p) mod H).
  assert (x * B = p * H + rho) as E1 by (unfold p, rho; pose proof (Z.div_mod (x * B) H); lia).
  assert (0 <= rho < H) as R1 by (apply Z.mod_pos_bound; lia).
  assert (2 * x * (N + 1 - p) = y * H + sg) as E2 by (unfold y, sg; pose proof (Z.div_mod (2 * x * (N + 1 - p)) H); lia).
  assert (0 <= sg < H) as R2 by (apply Z.mod_pos_bound; lia).
  clearbody p rho y sg.
  assert (2 * X + K > H) as XL.
  { destruct (Z_le_gt_dec (2 * X + K) H) as [C|C]; [exfalso|assumption]. assert (bh * (2 * X + K) <= bh * H) by (apply Z.mul_le_mono_nonneg_l; lia). assert (bh * H < H * H) by (apply Z.mul_lt_mono_pos_r; lia). clear - H0 H1 HE. lia. }
  assert (2 < x < H) as Hx by (unfold x; lia).
  assert (2 <= p < N) as HP.
  { assert (x * N <= 2 * (x * B)) as A1 by (clear - HB Hx; nia). assert (x * B < H * N) as A2 by (clear - HB2 HB Hx HH; nia).
    assert (3 * N <= x * N) as A3 by (clear - Hx HH; nia). 
    clear - E1 R1 A1 A2 A3 HH. nia. }
  pose proof (half_full_eq x p rho y sg) as Q. rewrite <- EB in Q. specialize (Q E1 E2).
  set (E := 2 * B * (x * H) - N * N) in *.
  pose proof (Z.square_nonneg E) as SQ.
  assert (0 < N) as N0 by (clear - HH; nia).
  assert (0 < N * N) as NN by (clear - N0; nia).
  assert (x * H <= N - H) as xH by (clear - Hx HH; nia).
  assert (0 <= x * H) as xH0 by (clear - Hx HH; nia).
  assert (0 <= x * rho <= (H - 1) * (H - 1)) as xr by (clear - Hx R1; nia).
  assert (0 <= sg * H <= N) as sH by (clear - R2 HH; nia).
  assert (0 <= 4 * B * (x * H) <= 4 * B * (N - H)) as U1 by (split; [apply Z.mul_nonneg_nonneg; clear - xH0 HB N0; lia|apply Z.mul_le_mono_nonneg_l; clear - xH HB N0; lia]).
  assert (0 <= 4 * B * x * rho <= 4 * B * ((H - 1) * (H - 1))) as U2.
  { replace (4 * B * x * rho) with (4 * B * (x * rho)) by ring. split; [apply Z.mul_nonneg_nonneg; clear - xr HB N0; lia|apply Z.mul_le_mono_nonneg_l; clear - xr HB N0; lia]. }
  assert (0 <= 2 * B * sg * H <= 2 * B * N) as U3.
  { replace (2 * B * sg * H) with (2 * B * (sg * H)) by ring. split; [apply Z.mul_nonneg_nonneg; clear - sH HB N0; lia|apply Z.mul_le_mono_nonneg_l; clear - sH HB N0; lia]. }
  assert (4 * B * (N - H) + 4 * B * ((H - 1) * (H - 1)) <= 8 * B * N) as U4 by (clear - HB N0 HH; nia).
  assert (N * (4 * B * (x * H) + 4 * B * x * rho - 2 * B * sg * H) <= N * (8 * B * N)) as U5 by (apply Z.mul_le_mono_nonneg_l; clear - U1 U2 U3 U4 N0; lia).
  assert (2 * B * y - N * N <= 8 * B) as U.
  { apply Z.mul_le_mono_pos_l with (p := N * N); [assumption|]. rewrite Q. replace (N * N * (8 * B)) with (N * (8 * B * N)) by ring. clear - U5 SQ. lia. }
  assert (- ((K + 2) * (K + 2) + 2) * B <= 2 * B * y - N * N) as L.
  { apply Z.mul_le_mono_pos_l with (p := N * N); [assumption|]. rewrite Q.
    assert (- ((K + 2) * H * B) <= E <= (K + 2) * H * B) as EE.
    { assert (E = N * (2 * bh * X - N - 2 * bh) + 2 * bl * x * H) as -> by (unfold E, x; rewrite EB; ring).
      assert (0 <= bl * x) as A0 by (clear - Hbl Hx; nia). assert (0 <= 2 * bl * x * H) as A1 by (clear - A0 HH; nia).
      assert (N * bh <= H * B) as A2 by (rewrite EB; clear - Hbl HH; nia).
      assert (N * (- K * bh - 2 * bh) <= N * (2 * bh * X - N - 2 * bh)) as A3 by (apply Z.mul_le_mono_nonneg_l; clear - HE N0; lia).
      assert (N * (2 * bh * X - N - 2 * bh) <= N * (K * bh - 2 * bh)) as A4 by (apply Z.mul_le_mono_nonneg_l; clear - HE N0; lia).
      assert ((K + 2) * (N * bh) <= (K + 2) * (H * B)) as A5 by (apply Z.mul_le_mono_nonneg_l; [clear - HK; lia|assumption]).
      split; [clear - A1 A3 A5; lia|].
      assert (K * (N * bh) <= K * (H * B)) as A6 by (apply Z.mul_le_mono_nonneg_l; assumption).
      assert (bl * x <= H * x) as A7 by (apply Z.mul_le_mono_nonneg_r; clear - Hbl Hx; lia).
      assert (2 * bl * X * H <= 2 * bl * N) as A8. { replace (2 * bl * X * H) with (2 * bl * (X * H)) by ring. apply Z.mul_le_mono_nonneg_l; [clear - Hbl; lia|clear - HX HH; nia]. }
      assert (2 * bl * N <= 2 * H * N) as A9 by (apply Z.mul_le_mono_nonneg_r; clear - Hbl N0; lia).
      assert (H * N <= 2 * (H * B)) as A10 by (clear - HB HH; nia).
      assert (N * (- 2 * bh) + 2 * bl * x * H = - 2 * (H * B) + 2 * bl * X * H) as A11 by (rewrite EB; unfold x; ring).
      clear - A4 A6 A8 A9 A10 A11. lia. }
    assert (E * E <= ((K + 2) * H * B) * ((K + 2) * H * B)) as E2'.
    { clear - EE. set (M := (K + 2) * H * B) in *. clearbody M E. nia. }
    assert (B * B <= B * N) as BB by (clear - HB HB2 N0; nia).
    assert (0 <= (K + 2) * (K + 2) * N) as KN by (apply Z.mul_nonneg_nonneg; [apply Z.square_nonneg|clear - N0; lia]).
    assert ((K + 2) * (K + 2) * N * (B * B) <= (K + 2) * (K + 2) * N * (B * N)) as BB2 by (apply Z.mul_le_mono_nonneg_l; assumption).
    assert (N * (- (2 * B * N)) <= N * (4 * B * (x * H) + 4 * B * x * rho - 2 * B * sg * H)) as LL by (apply Z.mul_le_mono_nonneg_l; clear - U1 U2 U3 N0; lia).
    replace (N * N * (- ((K + 2) * (K + 2) + 2) * B)) with (- ((K + 2) * (K + 2) * N * (B * N)) + N * (- (2 * B * N))) by ring.
    replace ((K + 2) * H * B * ((K + 2) * H * B)) with ((K + 2) * (K + 2) * N * (B * B)) in E2' by ring.
    clear - E2' BB2 LL. lia. }
  exists p, rho, y, sg. repeat (split; [assumption|]). split; [|split; assumption].
  split.
  - (* y is large *) assert ((N - ((K + 2) * (K + 2) + 2)) * B < 2 * B * y) as A.
    { assert (N * B < N * N) as A1 by (apply Z.mul_lt_mono_pos_l; assumption). clear - L A1. lia. }
    set (M := (K + 2) * (K + 2)) in *. assert (0 < B) as B0 by (clear - HB N0; lia).
    assert (N - (M + 2) < 2 * y) as A2 by (clear - A B0; nia). clear - A2 HKs. lia.
  - destruct Hk as [e|ge].
    + assert (rho = 0) as r0.
      { assert (B = h * H) as -> by (clear - e Hev HH; nia). assert (x * h * H = p * H + rho) as A by (clear - E1; lia).
        assert ((x * h - p) * H = rho) as A' by (clear - A; lia). clear - A' R1 HH. assert (x * h - p = 0) as Z0 by nia. rewrite Z0 in A'. lia. }
      rewrite r0, Z.mul_0_r in Q. assert (N * (4 * B * (x * H) + 0 - 2 * B * sg * H) <= N * (4 * B * (N - H))) as A1 by (apply Z.mul_le_mono_nonneg_l; clear - U1 U3 N0; lia).
      assert (N * N * (2 * B * y - N * N) <= N * N * (4 * B) - N * (4 * B * H)) as A2 by (rewrite Q; clear - A1 SQ; lia).
      assert (0 < N * (4 * B * H)) as A3 by (apply Z.mul_pos_pos; [assumption|]; apply Z.mul_pos_pos; clear - HB N0 HH; lia).
      assert (2 * B * y - N * N < 4 * B) as A4 by (apply Z.mul_lt_mono_pos_l with (p := N * N); [assumption|]; clear - A2 A3; lia).
      rewrite e in A4. assert (N * y < N * (N + 2)) as A5 by (clear - A4 e; lia). apply Z.mul_lt_mono_pos_l in A5; [clear - A5; lia|assumption].
    + destruct (Z_le_gt_dec y (N + 1)) as [|G]; [assumption|exfalso].
      assert (2 * B * (N + 2) <= 2 * B * y) as A1 by (apply Z.mul_le_mono_nonneg_l; clear - G HB N0; lia).
      assert (N * (N + 4) <= N * (2 * B)) as A2 by (apply Z.mul_le_mono_nonneg_l; clear - ge N0; lia).
      clear - A1 A2 U HB2 N0. lia.
Qed.
End HalfFull.

Lemma land_top_pos n x : 0 < n -> 2 ^ n <= 2 * x -> x < 2 ^ n -> (0 <? Z.land x (2 ^ (n - 1))) = true.
Proof.
  intros Hn H1 H2. rewrite (pow2_S n) in * by lia. apply Z.ltb_lt.
  assert (Z.testbit x (n - 1) = true) as T by (apply Z.testbit_true; [lia|]; replace (x / 2 ^ (n - 1)) with 1; [reflexivity|]; apply Z.div_unique with (x - 2 ^ (n - 1)); lia).
  assert (0 <= Z.land x (2 ^ (n - 1))) as P by (apply Z.land_nonneg; pose proof (pow2_pos (n - 1)); lia).
  enough (Z.land x (2 ^ (n - 1)) <> 0) by lia. intros E.
  assert (Z.testbit (Z.land x (2 ^ (n - 1))) (n - 1) = true) as T2 by (rewrite Z.land_spec, T, Z.pow2_bits_true by lia; reflexivity).
  rewrite E, Z.bits_0 in T2. discriminate.
Qed.

Section Fmt.
Context (f : fmt) (hw : Z) (Hhw : 16 <= hw) (Hfb : fb f = 2 * hw).
Notation H := (2 ^ hw).
Notation N := (2 ^ fb f).

Lemma recip_half_ok k C b : c_hw hw = Ok C -> 0 <= C -> 2 * C < H -> (H + 4 * C) * (H + 4 * C) <= 8 * (H * H) ->
  H - 2 * C + 8 <= H -> 0 <= k ->
  let K := kbound hw (Z.to_nat k) (H - 2 * C) in
  0 <= K -> K + 8 <= H -> (K + 2) * (K + 2) + 8 <= N ->
  (2 * b = N \/ N + 4 <= 2 * b) -> b < N ->
  exists y, recip_half f k b = Ok (y - 3) /\ 3 < y <= N + 1 /\ 2 * b * y - N * N <= 8 * b /\ - ((K + 2) * (K + 2) + 2) * b <= 2 * b * y - N * N.
Proof using Hhw Hfb.
  intros HC C0 C1 C2 C3 Hk K HK0 HK1 HK2 Hb Hb2.
  assert (N = H * H) as EN by (rewrite Hfb; apply pow2_dbl; lia).
  assert (65536 <= H) as HB by (change 65536 with (2 ^ 16); apply pow2_le; lia).
  assert (H = 2 * 2 ^ (hw - 1)) as EH by (apply pow2_S; lia).
  assert (fb f / 2 = hw) as Ehw by (rewrite Hfb, Z.mul_comm; apply Z.div_mul; lia).
  assert (N <= 2 * b) as Hb1 by lia.
  pose proof (Z.div_mod b H ltac:(lia)) as D. pose proof (Z.mod_pos_bound b H ltac:(lia)) as R.
  set (bh := b / H) in *. set (bl := b mod H) in *.
  assert (H <= 2 * bh) as bh1.
  { rewrite EN in Hb1. destruct (Z_le_gt_dec H (2 * bh)) as [|G]; [assumption|exfalso].
    assert (H * bh <= H * (2 ^ (hw - 1) - 1)) as A by (apply Z.mul_le_mono_nonneg_l; lia).
    assert (H * H = 2 * (H * 2 ^ (hw - 1))) as A2 by (rewrite EH at 2; ring). clear - Hb1 D R A A2. lia. }
  assert (bh < H) as bh2 by (rewrite EN in Hb2; clear - Hb2 D R HB; nia).
  unfold recip_half. rewrite Ehw. unfold fI. unfold imax. cbn [signed UI bits].
  rewrite cshr_ok by (cbn [bits UI]; lia). cbn [bind].
  replace ((2 ^ fb f - 1) / 2 ^ hw) with (H - 1).
  2:{ rewrite EN. apply Z.div_unique with (H - 1); lia. }
  assert (hi (UI (fb f)) b = bh) as ->. { rewrite Hfb. apply hi_u; [lia|]. rewrite <- Hfb. lia. }
  rewrite HC. cbn [bind]. rewrite cshl_u_exact by (rewrite ?Z.mul_1_l; lia). cbn [bind]. rewrite Z.mul_1_l.
  rewrite land_top_pos by lia. cbn [assert bind].
  unfold wrapping_sub at 1. rewrite norm_u.
  pose proof (init_good H bh C ltac:(lia) bh1 bh2 C0 C1 C2) as G.
  destruct (iterate_good hw bh ltac:(lia) bh1 bh2 (Z.to_nat k) (H - 2 * C) _ ltac:(lia) ltac:(lia) G) as (x0 & -> & G'). clear G. cbn [bind]. fold K in G'.
  destruct G' as (X & Ex & HX & _ & HE).
  assert (wrapping_sub (UI hw) x0 1 = X - 1) as ->.
  { unfold wrapping_sub. rewrite norm_u, Ex. destruct (Z.eq_dec X H) as [->|].
    - rewrite Z_mod_same_full. symmetry. apply Z.mod_unique with (-1); lia.
    - rewrite (Z.mod_small X) by lia. apply Z.mod_small. lia. }
  rewrite EN in Hb, Hb2, HK2 |- *.
  assert (b = bh * H + bl) as Eb by lia. rewrite Eb in Hb, Hb2 |- *.
  destruct (half_full_math H bh bl K (2 ^ (hw - 1)) ltac:(lia) EH bh1 bh2 R HK0 HK1 Hb HK2 X HX HE) as (p & rho & y & sg & E1 & R1 & Hp & E2 & R2 & Hy & U & L).
  exists y. split; [|split; [assumption|split; assumption]]. clear U L HE HK2 HK1 HK0.
  set (x := X - 1) in *. assert (0 <= x < H) as Hx by (unfold x; lia). clearbody x.
  replace (bh * H + bl) with b by lia. rewrite land_ones_mod by lia. fold bl.
  assert (0 <= x * bh < H * H) as M1 by (clear - Hx bh1 bh2 HB; nia).
  assert (0 <= x * bl < H * H) as M2 by (clear - Hx R HB; nia).
  rewrite !cmul_u by (rewrite EN; assumption). cbn [bind]. rewrite cshr_ok by (cbn [bits UI]; lia). cbn [bind].
  assert (x * bh + x * bl / H = p) as EP.
  { rewrite <- (Z.div_add_l (x * bh)) by lia. symmetry. apply Z.div_unique with rho; [lia|]. lia. }
  rewrite cadd_u by (rewrite EP, EN; lia). rewrite EP. cbn [bind].
  assert (wrapping_neg (UI (fb f)) (wrapping_sub (UI (fb f)) p 1) = N + 1 - p) as ->.
  { unfold wrapping_neg, wrapping_sub. rewrite !norm_u. rewrite (Z.mod_small (p - 1)) by lia. symmetry. apply Z.mod_unique with (-1); lia. }
  set (c := N + 1 - p) in *. assert (0 <= c < N) as Hc by (unfold c; lia). 
  replace (H * H + 1 - p) with c in E2 by (unfold c; lia). clearbody c.
  rewrite land_ones_mod by lia. rewrite cshr_ok by (cbn [bits UI]; lia). cbn [bind].
  pose proof (Z.div_mod c H ltac:(lia)) as Dc. pose proof (Z.mod_pos_bound c H ltac:(lia)) as Rc.
  set (ch := c / H) in *. set (cl := c mod H) in *. clearbody ch cl.
  assert (0 <= ch < H) as Hch by (rewrite EN in Hc; clear - Hc Dc Rc HB; nia).
  assert (0 <= x * ch < H * H) as M3 by (clear - Hx Hch HB; nia).
  assert (0 <= x * cl < H * H) as M4 by (clear - Hx Rc HB; nia).
  rewrite !cmul_u by (rewrite EN; assumption). cbn [bind]. rewrite cshl_ok by (cbn [bits UI]; lia). cbn [bind].
  
  rewrite cshr_ok by (cbn [bits UI]; lia). cbn [bind].
  assert (2 * (x * ch) + x * cl / 2 ^ (hw - 1) = y) as EY.
  { replace (x * cl / 2 ^ (hw - 1)) with (2 * (x * cl) / H) by (rewrite EH; apply Z.div_mul_cancel_l; pose proof (pow2_pos (hw - 1)); lia).
    rewrite <- Z.div_add_l by lia. symmetry. apply Z.div_unique with sg; [lia|]. rewrite Dc in E2. lia. }
  assert (wrapping_sub (UI (fb f)) (wrapping_add (UI (fb f)) (norm (UI (fb f)) (x * ch * 2 ^ 1)) (x * cl / 2 ^ (hw - 1))) 2 = y - 2) as ->.
  { unfold wrapping_sub, wrapping_add. rewrite !norm_u, Zplus_mod_idemp_l, Zminus_mod_idemp_l.
    replace (x * ch * 2 ^ 1 + x * cl / 2 ^ (hw - 1) - 2) with (y - 2) by lia. apply Z.mod_small. lia. }
  rewrite csub_u by lia. f_equal. lia.
Qed.
End Fmt.

(** What the quotient computation needs of the reciprocal: a lower estimate of N^2/(2*b)
    that is short by less than [D]/2. *)
Definition recip_post (N D b x : Z) : Prop := 0 <= x < N /\ 2 * b * x < N * N /\ N * N - D * b <= 2 * b * x.

Lemma recip_half_post f hw half full P C D b : 16 <= hw -> fb f = 2 * hw -> c_hw hw = Ok C -> 0 < half ->
  (let H := 2 ^ hw in
   let K := kbound hw (Z.to_nat half) (H - 2 * C) in
   (0 <=? C) && (2 * C <? H) && ((H + 4 * C) * (H + 4 * C) <=? 8 * (H * H)) && (H - 2 * C + 8 <=? H) &&
   (0 <=? K) && (K + 8 <=? H) && ((K + 2) * (K + 2) + 8 <=? 2 ^ fb f) && (0 <=? P) &&
   ((K + 2) * (K + 2) + 12 + 2 * P <=? D) && (2 * D + 2 * P + 20 <=? 2 ^ fb f)) = true ->
  2 * b = 2 ^ fb f \/ 2 ^ fb f + 4 <= 2 * b -> b < 2 ^ fb f ->
  exists x, recip f half full P b = Ok x /\ recip_post (2 ^ fb f) D b x.
Proof.
  intros Hhw Hfb HC Hh T Hb Hb2. cbv zeta in T. set (K := kbound hw (Z.to_nat half) (2 ^ hw - 2 * C)) in *.
  rewrite !andb_true_iff, !Z.leb_le, Z.ltb_lt in T. destruct T as (((((((((T1 & T2) & T3) & T4) & T5) & T6) & T7) & T8) & T9) & T10).
  destruct (recip_half_ok f hw Hhw Hfb half C b HC T1 T2 T3 T4 ltac:(lia) T5 T6 T7 Hb Hb2) as (y & E & Hy & U & L).
  fold K in L. unfold recip. replace (0 <? half) with true by (symmetry; apply Z.ltb_lt; lia). rewrite E. cbn [bind].
  assert (0 < b) as b0 by lia. set (N := 2 ^ fb f) in *. set (M := (K + 2) * (K + 2)) in *.
  assert (N - (M + 2) < 2 * y) as Y.
  { assert (N * b < N * N) as A1 by (apply Z.mul_lt_mono_pos_l; lia). clear - L A1 b0. assert (b * (N - (M + 2)) < b * (2 * y)) as A by lia. apply Z.mul_lt_mono_pos_l in A; assumption. }
  unfold wrapping_sub, fI. rewrite norm_u_id by (fold N; lia). rewrite csub_u by (fold N; lia).
  eexists. split; [reflexivity|]. split; [lia|].
  replace (2 * b * (y - 3 - 2 - P)) with (2 * b * y - b * (10 + 2 * P)) by ring.
  assert (b * (M + 12 + 2 * P) <= b * D) as A by (apply Z.mul_le_mono_nonneg_l; lia).
  assert (0 <= b * P) by (apply Z.mul_nonneg_nonneg; lia).
  split; lia.
Qed.

Lemma recip_full_post f full P D b : 16 <= fb f -> (fb f <? 32) = false ->
  (let N := 2 ^ fb f in let C := 0x7504F333 * 2 ^ (fb f - 32) in
   let K := kbound (fb f) (Z.to_nat full) (N - 2 * C) in
   (2 * C <? N) && ((N + 4 * C) * (N + 4 * C) <=? 8 * (N * N)) && (N - 2 * C + 8 <=? N) &&
   (0 <=? K) && (K <? 4 + 2 * P) && (0 <=? P) && (K + 4 + 2 * P <=? D) && (2 * D + 2 * P + 20 <=? N)) = true ->
  2 ^ fb f <= 2 * b -> b < 2 ^ fb f ->
  exists x, recip f 0 full P b = Ok x /\ recip_post (2 ^ fb f) D b x.
Proof.
  intros Hn Hn2 T Hb Hb2. apply Z.ltb_ge in Hn2. cbv zeta in T. set (C := 0x7504F333 * 2 ^ (fb f - 32)) in *. set (K := kbound _ _ _) in *.
  rewrite !andb_true_iff, !Z.leb_le, !Z.ltb_lt in T. destruct T as (((((((T1 & T2) & T3) & T5) & T6) & T8) & T9) & T10).
  assert (0 <= C) as C0 by (unfold C; apply Z.mul_nonneg_nonneg; [discriminate|]; apply Z.pow_nonneg; discriminate).
  unfold recip, recip_full, fI. change (0 <? 0) with false. cbv iota. rewrite cshl_u_exact by (fold C; lia). cbn [bind]. fold C.
  pose proof (init_good (2 ^ fb f) b C ltac:(lia) Hb Hb2 C0 T1 T2) as G. unfold wrapping_sub at 1. rewrite norm_u.
  destruct (iterate_good (fb f) b ltac:(lia) Hb Hb2 (Z.to_nat full) (2 ^ fb f - 2 * C) _ ltac:(lia) ltac:(lia) G) as (x0 & -> & X & Ex & HX & _ & HE). cbn [bind]. fold K in HE.
  set (N := 2 ^ fb f) in *. assert (0 < b) as b0 by lia.
  assert (N - K < 2 * X) as Y.
  { assert (N * b < N * N) as A1 by (apply Z.mul_lt_mono_pos_l; lia). clear - HE A1 b0. assert (b * (N - K) < b * (2 * X)) as A by lia. apply Z.mul_lt_mono_pos_l in A; assumption. }
  assert (wrapping_sub (UI (fb f)) x0 2 = X - 2) as ->.
  { unfold wrapping_sub. rewrite norm_u, Ex. fold N. destruct (Z.eq_dec X N) as [->|].
    - rewrite Z_mod_same_full. symmetry. apply Z.mod_unique with (-1); lia.
    - rewrite (Z.mod_small X) by lia. apply Z.mod_small. lia. }
  rewrite csub_u by (fold N; lia). eexists. split; [reflexivity|]. split; [lia|].
  replace (2 * b * (X - 2 - P)) with (2 * b * X - b * (4 + 2 * P)) by ring.
  assert (b * (K + 4 + 2 * P) <= b * D) as A by (apply Z.mul_le_mono_nonneg_l; lia).
  assert (b * K < b * (4 + 2 * P)) as A2 by (apply Z.mul_lt_mono_pos_l; lia).
  split; lia.
Qed.

Lemma recip32h b : 2 * b = 2 ^ 32 \/ 2 ^ 32 + 4 <= 2 * b -> b < 2 ^ 32 -> exists x, recip F32 2 1 74 b = Ok x /\ recip_post (2 ^ 32) 255 b x.
Proof. exact (recip_half_post F32 16 2 1 74 0x7504 255 b ltac:(lia) eq_refl eq_refl ltac:(lia) eq_refl). Qed.
Lemma recip32f b : 2 ^ 32 <= 2 * b -> b < 2 ^ 32 -> exists x, recip F32 0 3 10 b = Ok x /\ recip_post (2 ^ 32) 127 b x.
Proof. exact (recip_full_post F32 3 10 127 b ltac:(cbn; lia) eq_refl eq_refl). Qed.
Lemma recip64 b : 2 * b = 2 ^ 64 \/ 2 ^ 64 + 4 <= 2 * b -> b < 2 ^ 64 -> exists x, recip F64 3 1 220 b = Ok x /\ recip_post (2 ^ 64) 1023 b x.
Proof. exact (recip_half_post F64 32 3 1 220 0x7504f333 1023 b ltac:(lia) eq_refl eq_refl ltac:(lia) eq_refl). Qed.
Lemma recip128 b : 2 * b = 2 ^ 128 \/ 2 ^ 128 + 4 <= 2 * b -> b < 2 ^ 128 -> exists x, recip F128 5 1 13922 b = Ok x /\ recip_post (2 ^ 128) 32767 b x.
Proof. exact (recip_half_post F128 64 5 1 13922 0x7504f333f9de6108 32767 b ltac:(lia) eq_refl eq_refl ltac:(lia) eq_refl). Qed.
