(** The Newton-Raphson reciprocal of the division (no modelling here). *)
From Coq Require Import ZArith Bool Lia Psatz.
From Verif Require Import Base BaseLemmas IntProofs IntProofs3 BigModel BigProofs FloatModel FloatDivModel FloatProofs FloatProofs2.
Open Scope Z_scope.

(** An estimate [x] of 2^(2n)/(2*b) with error at most [K]/2 units; [X] is the unwrapped
    estimate, which can reach 2^n only for the divisor 2^(n-1). *)
Definition good (N b K x : Z) : Prop :=
  exists X, x = X mod N /\ 0 < X <= N /\ (X = N -> 2 * b = N) /\ - K * b <= 2 * b * X - N * N <= K * b.

Section Step.
Context (N b K h : Z) (Hh : N = 2 * h) (HN : 16 <= N) (Hb : N <= 2 * b) (Hb2 : b < N) (HK : 0 <= K) (HK2 : K + 8 <= N).

(** The exact recurrence. *)
Lemma step_eq x p rho y sg : x * b = p * N + rho -> 2 * x * (N - p) = y * N + sg ->
  N * N * (2 * b * y - N * N) = - ((2 * b * x - N * N) * (2 * b * x - N * N)) + 4 * x * b * rho - 2 * b * N * sg.
Proof using.
  intros E1 E2. assert (N * y = 2 * x * (N - p) - sg) as A by lia. assert (N * p = x * b - rho) as A2 by lia.
  replace (N * N * (2 * b * y - N * N)) with (2 * b * N * (N * y) - N * N * N * N) by ring. rewrite A.
  replace (2 * b * N * (2 * x * (N - p) - sg)) with (4 * x * b * N * N - 4 * x * b * (N * p) - 2 * b * N * sg) by ring. rewrite A2. ring.
Qed.

Lemma step_math X : 0 < X < N -> - K * b <= 2 * b * X - N * N <= K * b ->
  exists p rho y sg, X * b = p * N + rho /\ 0 <= rho < N /\ 0 < p < N /\ 2 * X * (N - p) = y * N + sg /\ 0 <= sg < N /\
    0 < y <= N /\ (y = N -> 2 * b = N) /\ - (K * K / N + 3) * b <= 2 * b * y - N * N <= 4 * b.
Proof using Hh HN Hb Hb2 HK HK2.
  intros HX HE. set (p := X * b / N). set (rho := X * b mod N). set (y := 2 * X * (N - p) / N). set (sg := 2 * X * (N - p) mod N).
  assert (X * b = p * N + rho) as E1 by (unfold p, rho; pose proof (Z.div_mod (X * b) N); lia).
  assert (0 <= rho < N) as R1 by (apply Z.mod_pos_bound; lia).
  assert (2 * X * (N - p) = y * N + sg) as E2 by (unfold y, sg; pose proof (Z.div_mod (2 * X * (N - p)) N); lia).
  assert (0 <= sg < N) as R2 by (apply Z.mod_pos_bound; lia).
  clearbody p rho y sg.
  assert (2 * X + K > N) as XL.
  { destruct (Z_le_gt_dec (2 * X + K) N) as [C|C]; [exfalso|assumption]. assert (b * (2 * X + K) <= b * N) by (apply Z.mul_le_mono_nonneg_l; lia). assert (b * N < N * N) by (apply Z.mul_lt_mono_pos_r; lia). clear - H H0 HE. lia. }
  assert (0 < p < N) as HP.
  { assert (2 * N <= X * b) by (clear - XL HK2 HK Hb HN; nia). assert (X * b < N * N) by (clear - HX Hb Hb2; nia).
    clear - E1 R1 H H0 HN. nia. }
  pose proof (step_eq X p rho y sg E1 E2) as Q. set (E := 2 * b * X - N * N) in *.
  pose proof (Z.square_nonneg E) as SQ.
  assert (0 <= X * rho <= N * N) as U0 by (clear - HX R1; nia).
  assert (0 <= 4 * X * b * rho <= 4 * b * (N * N)) as U1.
  { replace (4 * X * b * rho) with (4 * b * (X * rho)) by ring. clear - U0 Hb HN. set (z := X * rho) in *. clearbody z. nia. }
  assert (0 <= 2 * b * N * sg <= 2 * b * (N * N)) as U2.
  { replace (2 * b * N * sg) with (2 * b * (N * sg)) by ring. assert (0 <= N * sg <= N * N) as A by (clear - R2 HN; nia). clear - A Hb HN. nia. }
  assert (0 < N * N) as NN by (clear - HN; nia).
  assert (2 * b * y - N * N <= 4 * b) as U by (apply Z.mul_le_mono_pos_l with (p := N * N); lia).
  assert (- (K * K / N + 3) * b <= 2 * b * y - N * N) as L.
  { pose proof (Z.div_mod (K * K) N ltac:(lia)) as DK. pose proof (Z.mod_pos_bound (K * K) N ltac:(lia)) as MK.
    assert (0 <= K * K / N) as Q0 by (apply Z.div_pos; [apply Z.square_nonneg|lia]).
    set (q := K * K / N) in *. clearbody q.
    apply Z.mul_le_mono_pos_l with (p := N * N); [assumption|]. rewrite Q.
    assert (E * E <= (K * b) * (K * b)) as A1 by (clear - HE; nia).
    assert (K * K <= N * (q + 1)) as A2 by lia.
    assert (0 <= b * b <= b * N) as A3 by (clear - Hb Hb2 HN; nia).
    assert ((K * K) * (b * b) <= (N * (q + 1)) * (b * b)) as A4 by (apply Z.mul_le_mono_nonneg_r; lia).
    assert (0 <= N * (q + 1)) as A6 by (clear - HN Q0; nia).
    assert (N * (q + 1) * (b * b) <= N * (q + 1) * (b * N)) as A5 by (apply Z.mul_le_mono_nonneg_l; lia).
    replace (N * N * (- (q + 3) * b)) with (- (N * (q + 1) * (b * N)) - 2 * b * (N * N)) by ring.
    replace (K * b * (K * b)) with (K * K * (b * b)) in A1 by ring. lia. }
  assert (K * K / N + 3 < N) as LN.
  { assert (K * K / N < N - 3); [apply Z.div_lt_upper_bound; clear - HK HK2 HN; nia|lia]. }
  assert (0 < y) as Y0.
  { assert (0 <= K * K / N) by (apply Z.div_pos; [apply Z.square_nonneg|lia]). set (q := K * K / N) in *. clearbody q. clear - L LN Hb Hb2 HN H. 
    assert (- N * b < 2 * b * y - N * N) by nia. nia. }
  exists p, rho, y, sg. repeat (split; [assumption|]).
  enough (y <= N /\ (y = N -> 2 * b = N)) as [A1 A2] by (repeat split; assumption || lia).
  destruct (Z.eq_dec (2 * b) N) as [e|ne].
  - split; [|auto]. assert (rho = 0 \/ 2 * rho = N) as HR.
    { assert (X * N = 2 * p * N + 2 * rho) as A by (clear - E1 e; nia). clear - A R1 HN.
      assert (X = 2 * p \/ X = 2 * p + 1) as [?|?] by nia; subst X; nia. }
    assert (4 * X * b * rho <= X * (N * N)) by (replace (4 * X * b * rho) with (X * ((2 * b) * (2 * rho))) by ring; rewrite e; apply Z.mul_le_mono_nonneg_l; [lia|clear - HR HN; nia]).
    assert (2 * b * y - N * N <= X) as A by (apply Z.mul_le_mono_pos_l with (p := N * N); [assumption|]; clear - Q H SQ U2; lia). clear - A e HX HN. nia.
  - assert (N + 2 <= 2 * b) by lia.
    enough (y < N) by lia. destruct (Z_lt_le_dec y N) as [|G]; [assumption|exfalso].
    assert (- (E * E) + 4 * X * b * rho <= 2 * (N * N) * rho + rho * rho) as M.
    { replace (4 * X * b * rho) with (2 * (E + N * N) * rho) by (unfold E; ring). clearbody E.
      pose proof (Z.square_nonneg (E - rho)) as A. clear - A. lia. }
    assert (2 * (N * N) * rho + rho * rho <= 2 * (N * N) * (N - 1) + (N - 1) * (N - 1)) as M2.
    { assert (2 * (N * N) * rho <= 2 * (N * N) * (N - 1)) by (apply Z.mul_le_mono_nonneg_l; lia). clear - H0 R1. nia. }
    assert (N * N * (2 * b * y - N * N) <= 2 * (N * N) * (N - 1) + (N - 1) * (N - 1)) as M3 by lia.
    assert (2 * N <= 2 * b * y - N * N) as M4 by (clear - H G HN; nia).
    assert (N * N * (2 * N) <= N * N * (2 * b * y - N * N)) as M5 by (apply Z.mul_le_mono_nonneg_l; lia).
    clear - M5 M3 HN. nia.
Qed.

Lemma good_step x : good N b K x ->
  let p := x * b / N in
  let y := (x * ((- p) mod N)) * 2 / N in
  0 <= x < N /\ 0 <= p < N /\ good N b (Z.max 4 (K * K / N + 3)) (y mod N).
Proof using Hh HN Hb Hb2 HK HK2.
  intros (X & -> & HX & HN1 & HE). cbv zeta.
  destruct (Z.eq_dec X N) as [->|ne].
  - rewrite Z_mod_same_full. rewrite !Z.mul_0_l, !Z.div_0_l by lia. split; [lia|split; [lia|]].
    exists N. rewrite Z.mod_0_l, Z_mod_same_full by lia. split; [reflexivity|]. split; [lia|]. split; [assumption|].
    specialize (HN1 eq_refl). assert (0 <= K * K / N) by (apply Z.div_pos; [apply Z.square_nonneg|lia]). clear HE. set (q := Z.max _ _). assert (0 <= q) by lia. clearbody q.
    replace (2 * b * N - N * N) with 0 by nia. nia.
  - destruct (step_math X ltac:(lia) HE) as (p & rho & y & sg & E1 & R1 & Hp & E2 & R2 & Hy & Hy2 & HE').
    rewrite (Z.mod_small X) by lia.
    destruct (div_mod_unique (X * b) N p rho ltac:(lia) ltac:(lia)) as [-> _].
    split; [lia|]. split; [lia|].
    replace ((- p) mod N) with (N - p) by (replace (- p) with (N - p + (-1) * N) by ring; rewrite Z_mod_plus_full, Z.mod_small; lia).
    destruct (div_mod_unique (X * (N - p) * 2) N y sg ltac:(lia) ltac:(lia)) as [-> _].
    exists y. split; [reflexivity|]. split; [lia|]. split; [assumption|].
    assert (0 <= K * K / N) by (apply Z.div_pos; [apply Z.square_nonneg|lia]). set (q := K * K / N) in *. clearbody q.
    clear - HE' Hb HN H. nia.
Qed.
End Step.

Lemma next_guess_good n b K x : 4 <= n -> 2 ^ n <= 2 * b -> b < 2 ^ n -> 0 <= K -> K + 8 <= 2 ^ n -> good (2 ^ n) b K x ->
  exists y, next_guess n x b = Ok y /\ good (2 ^ n) b (Z.max 4 (K * K / 2 ^ n + 3)) y.
Proof.
  intros Hn Hb Hb2 HK HK2 G.
  assert (16 <= 2 ^ n) as HN by (change 16 with (2 ^ 4); apply pow2_le; lia).
  assert (2 ^ n = 2 * 2 ^ (n - 1)) as Hh by (apply pow2_S; lia).
  destruct (good_step (2 ^ n) b K (2 ^ (n - 1)) Hh HN Hb Hb2 HK HK2 x G) as (Hx & Hp & G'). clear G.
  unfold next_guess. rewrite (widen_mul_u n x b) by lia.
  assert (0 <= x * b < 2 ^ (2 * n)) as M by (rewrite pow2_dbl by lia; nia).
  rewrite hi_u by lia. set (p := x * b / 2 ^ n) in *. unfold wrapping_sub. rewrite norm_u.
  replace (0 - p) with (- p) by ring. set (c := (- p) mod 2 ^ n) in *.
  assert (0 <= c < 2 ^ n) by (apply Z.mod_pos_bound; lia). rewrite widen_mul_u by lia.
  rewrite cshr_ok by (cbn [bits UI]; lia). cbn [bind]. rewrite lo_u by lia. eexists. split; [reflexivity|].
  replace (x * c / 2 ^ (n - 1)) with (x * c * 2 / 2 ^ n); [exact G'|].
  rewrite Hh. rewrite (Z.mul_comm (x * c) 2). apply Z.div_mul_cancel_l; [pose proof (pow2_pos (n - 1)); lia|lia].
Qed.

(** The error after [k] iterations. *)
Fixpoint kbound (n : Z) (k : nat) (K : Z) : Z :=
  match k with O => K | S k => kbound n k (Z.max 4 (K * K / 2 ^ n + 3)) end.

Lemma iterate_good n b : 4 <= n -> 2 ^ n <= 2 * b -> b < 2 ^ n -> forall k K x, 0 <= K -> K + 8 <= 2 ^ n -> good (2 ^ n) b K x ->
  exists y, iterate_guess n k x b = Ok y /\ good (2 ^ n) b (kbound n k K) y.
Proof.
  intros Hn Hb Hb2. assert (16 <= 2 ^ n) as HN by (change 16 with (2 ^ 4); apply pow2_le; lia).
  induction k as [|k IH]; intros K x HK HK2 G.
  - exists x. split; [reflexivity|assumption].
  - cbn [iterate_guess kbound]. destruct (next_guess_good n b K x Hn Hb Hb2 HK HK2 G) as (y & -> & G'). cbn [bind].
    apply IH; [lia| |exact G'].
    assert (K * K / 2 ^ n + 3 + 8 <= 2 ^ n); [|lia].
    assert (K * K / 2 ^ n < 2 ^ n - 10); [apply Z.div_lt_upper_bound; nia|lia].
Qed.

(** The linear first estimate. *)
Lemma init_good N b C : 0 < N -> N <= 2 * b -> b < N -> 0 <= C -> 2 * C < N -> (N + 4 * C) * (N + 4 * C) <= 8 * (N * N) ->
  good N b (N - 2 * C) ((C - b) mod N).
Proof.
  intros HN Hb Hb2 HC HC2 HD. exists (N + C - b). split; [rewrite <- (Z_mod_plus_full (C - b) 1 N); f_equal; ring|].
  split; [lia|]. split; [lia|]. split.
  - assert (0 <= (2 * b - N) * (N - b)) by (apply Z.mul_nonneg_nonneg; lia). lia.
  - pose proof (Z.square_nonneg (4 * b - (N + 4 * C))) as A. lia.
Qed.
