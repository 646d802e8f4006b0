(** Integer powers (no modelling here). *)
From Coq Require Import ZArith Reals Bool Lia Lra Psatz.
From Flocq Require Import Core.
From Verif Require Import Base BaseLemmas FloatModel FloatSpec FloatPowSpec FloatDivModel FloatProofs FloatProofs2 FloatLib FloatDivProofs4.
Open Scope Z_scope.

Section Pow.
Context (f : fmt) (W : wf f) (mulf divf : Z -> Z -> res Z).
Context (Hmul : forall a b, is_float f a -> is_float f b -> exists r, mulf a b = Ok r /\ is_float f r /\ ieee_mul f a b r).
Context (Hdiv : forall a b, is_float f a -> is_float f b -> exists r, divf a b = Ok r /\ is_float f r /\ ieee_div f a b r).

(** The loop from any state: [n0] is the remaining exponent. *)
Lemma powi_loop_ok k : forall a pow mul, 0 < pow < 2 ^ Z.of_nat k -> is_float f a -> is_float f mul ->
  exists r sq pr, powi_loop k mulf a pow mul = Ok r /\ is_float f r /\
    sq O = a /\ pr O = mul /\ r = pr (S (Z.to_nat (Z.log2 pow))) /\
    (forall i, Z.of_nat i < Z.log2 pow -> is_float f (sq (S i)) /\ ieee_mul f (sq i) (sq i) (sq (S i))) /\
    (forall i, Z.of_nat i <= Z.log2 pow ->
      if Z.testbit pow (Z.of_nat i) then is_float f (pr (S i)) /\ ieee_mul f (pr i) (sq i) (pr (S i)) else pr (S i) = pr i).
Proof using Hmul.
  induction k as [|k IH]; intros a pow mul Hp Ha Hm.
  - change (2 ^ Z.of_nat 0) with 1 in Hp. lia.
  - cbn [powi_loop].
    assert (Z.land pow 1 = b2z (Z.testbit pow 0)) as ->.
    { change 1 with (2 ^ 1 - 1) at 1. rewrite land_ones_mod by lia. rewrite Z.bit0_mod || rewrite <- Z.bit0_mod. unfold b2z. destruct (Z.testbit pow 0); reflexivity. }
    assert (exists m1, (if negb (b2z (Z.testbit pow 0) =? 0) then mulf mul a else Ok mul) = Ok m1 /\ is_float f m1 /\
       (if Z.testbit pow 0 then is_float f m1 /\ ieee_mul f mul a m1 else m1 = mul)) as (m1 & -> & Fm1 & Hm1).
    { destruct (Z.testbit pow 0); cbn [b2z].
      - destruct (Hmul mul a Hm Ha) as (r & E & Fr & Ir). exists r. auto.
      - exists mul. auto. }
    cbn [bind]. rewrite Z.shiftr_div_pow2 by lia. change (2 ^ 1) with 2.
    destruct (Z.eqb_spec (pow / 2) 0) as [e|ne].
    + assert (pow = 1) by (pose proof (Z.div_mod pow 2); pose proof (Z.mod_pos_bound pow 2); lia). subst pow.
      exists m1, (fun _ => a), (fun i => match i with O => mul | _ => m1 end). change (Z.log2 1) with 0.
      split; [reflexivity|]. repeat (split; [assumption || reflexivity|]). split; [lia|].
      intros i Hi. assert (i = O) as -> by lia. exact Hm1.
    + destruct (Hmul a a Ha Ha) as (a2 & -> & Fa2 & Ia2). cbn [bind].
      assert (0 < pow / 2 < 2 ^ Z.of_nat k) as Hp2.
      { assert (0 <= pow / 2) by (apply Z.div_pos; lia). split; [lia|]. apply Z.div_lt_upper_bound; [lia|]. rewrite Nat2Z.inj_succ, Z.pow_succ_r in Hp by lia. lia. }
      destruct (IH a2 (pow / 2) m1 Hp2 Fa2 Fm1) as (r & sq & pr & E & Fr & S0 & P0 & Er & HS & HP).
      assert (Z.log2 pow = Z.log2 (pow / 2) + 1) as EL.
      { apply Z.log2_unique; [pose proof (Z.log2_nonneg (pow / 2)); lia|]. pose proof (Z.log2_spec (pow / 2) ltac:(lia)) as L.
        pose proof (Z.log2_nonneg (pow / 2)). rewrite (Z.add_1_r (Z.log2 (pow / 2))). rewrite !Z.pow_succ_r in * by lia.
        pose proof (Z.div_mod pow 2 ltac:(lia)). pose proof (Z.mod_pos_bound pow 2 ltac:(lia)). lia. }
      exists r, (fun i => match i with O => a | S i => sq i end), (fun i => match i with O => mul | S i => pr i end).
      split; [exact E|]. split; [exact Fr|]. split; [reflexivity|]. split; [reflexivity|].
      split; [rewrite EL, Er; pose proof (Z.log2_nonneg (pow / 2)); f_equal; f_equal; rewrite Z2Nat.inj_add by lia; change (Z.to_nat 1) with 1%nat; lia|].
      rewrite EL. split.
      * intros [|i] Hi; [rewrite S0; auto|]. apply HS. lia.
      * intros [|i] Hi; [rewrite P0; exact Hm1|]. specialize (HP i ltac:(lia)).
        replace (Z.testbit pow (Z.of_nat (S i))) with (Z.testbit (pow / 2) (Z.of_nat i)); [exact HP|].
        change (pow / 2) with (pow / 2 ^ 1); rewrite <- (Z.shiftr_div_pow2 pow 1) by lia. rewrite Z.shiftr_spec by lia. f_equal. lia.
Qed.

Context (one : Z) (Hone : is_float f one /\ is_finite f one /\ sign_of f one = false /\ value f one = 1%R).

Theorem powi_zero x : is_float f x -> powi_with mulf divf one x 0 = Ok one.
Proof using. reflexivity. Qed.

Theorem powi_ok x n : is_float f x -> - 2 ^ 31 <= n < 2 ^ 31 -> n <> 0 -> exists r sq pr,
  powi_with mulf divf one x n = Ok r /\ is_float f r /\ binary_power f x (Z.abs n) sq pr /\
  (0 < n -> r = pr (S (Z.to_nat (Z.log2 n)))) /\
  (n < 0 -> is_float f (pr (S (Z.to_nat (Z.log2 (- n))))) /\ ieee_div f one (pr (S (Z.to_nat (Z.log2 (- n))))) r).
Proof using Hmul Hdiv Hone.
  intros Hx Hn Hn0. change (2 ^ 31) with 2147483648 in *. unfold powi_with.
  destruct (powi_loop_ok 32 x (Z.abs n) one ltac:(change (2 ^ Z.of_nat 32) with 4294967296; lia) Hx (proj1 Hone)) as (m & sq & pr & -> & Fm & S0 & P0 & Er & HS & HP).
  cbn [bind].
  assert (binary_power f x (Z.abs n) sq pr) as BP by (constructor; [exact S0|rewrite P0; exact Hone|exact HS|exact HP]).
  destruct (Z.ltb_spec n 0) as [L|G].
  - destruct (Hdiv one m (proj1 Hone) Fm) as (r & -> & Fr & Ir). exists r, sq, pr. split; [reflexivity|]. split; [exact Fr|]. split; [exact BP|]. split; [lia|].
    intros _. replace (- n) with (Z.abs n) by lia. rewrite <- Er. auto.
  - exists m, sq, pr. split; [reflexivity|]. split; [exact Fm|]. split; [exact BP|]. split; [|lia].
    intros _. rewrite Er. rewrite Z.abs_eq by lia. reflexivity.
Qed.
End Pow.

(** Exactness: when the powers that occur are representable, nothing is rounded. *)
Lemma rounds_repr f zs v r : wf f -> representable f v -> rounds_to f zs v r -> is_finite f r /\ value f r = v.
Proof.
  intros W (y & Fy & Ny & <-) (H1 & H2 & H3).
  pose proof (rounds_exact f W y Fy Ny) as (_ & _ & E).
  destruct (Rlt_bool _ _).
  - destruct E as [_ E]. rewrite E. exact H3.
  - destruct E as [E _]. contradiction.
Qed.

Lemma binary_power_exact f x n sq pr : wf f -> is_float f x -> is_finite f x -> 0 < n -> binary_power f x n sq pr ->
  (forall k, (2 ^ Z.of_nat k <= n) -> representable f (powerRZ (value f x) (2 ^ Z.of_nat k))) ->
  (forall k, representable f (powerRZ (value f x) (n mod 2 ^ Z.of_nat k))) ->
  let r := pr (S (Z.to_nat (Z.log2 n))) in is_finite f r /\ value f r = powerRZ (value f x) n.
Proof.
  intros W Fx Nx Hn [S0 (F1 & N1 & _ & V1) HS HP] R1 R2. set (v := value f x) in *.
  assert (forall a b, 0 <= a -> 0 <= b -> powerRZ v (a + b) = (powerRZ v a * powerRZ v b)%R) as PA.
  { intros a b Ha Hb. destruct (Req_dec v 0) as [E|E]; [|apply powerRZ_add; exact E].
    rewrite E. destruct (Z.eq_dec a 0) as [->|]; [rewrite powerRZ_O, Rmult_1_l; reflexivity|].
    assert (forall c, 0 < c -> powerRZ 0 c = 0%R) as Z0.
    { intros c Hc. destruct c as [|p|p]; [lia| |lia]. cbn. apply pow_i. lia. }
    rewrite (Z0 (a + b)), (Z0 a) by lia. ring. }
  assert (forall k, Z.of_nat k <= Z.log2 n -> is_finite f (sq k) /\ value f (sq k) = powerRZ v (2 ^ Z.of_nat k)) as SQ.
  { induction k as [|k IH]; intros Hk.
    - rewrite S0. split; [exact Nx|]. change (2 ^ Z.of_nat 0) with 1. rewrite powerRZ_1. reflexivity.
    - destruct (IH ltac:(lia)) as [Fk Vk]. destruct (HS k ltac:(lia)) as [_ (_ & _ & _ & M)]. specialize (M Fk Fk).
      rewrite !Vk, <- PA in M by (apply Z.pow_nonneg; lia).
      replace (2 ^ Z.of_nat k + 2 ^ Z.of_nat k) with (2 ^ Z.of_nat (S k)) in M by (rewrite Nat2Z.inj_succ, Z.pow_succ_r by lia; ring).
      apply (rounds_repr f _ _ _ W) in M; [exact M|]. apply R1. apply Z.log2_le_pow2; lia. }
  assert (forall k, Z.of_nat k <= Z.log2 n + 1 -> is_finite f (pr k) /\ value f (pr k) = powerRZ v (n mod 2 ^ Z.of_nat k)) as PR.
  { induction k as [|k IH]; intros Hk.
    - change (2 ^ Z.of_nat 0) with 1. rewrite Z.mod_1_r, powerRZ_O. auto.
    - destruct (IH ltac:(lia)) as [Fk Vk]. specialize (HP k ltac:(lia)).
      assert (n mod 2 ^ Z.of_nat (S k) = n mod 2 ^ Z.of_nat k + b2z (Z.testbit n (Z.of_nat k)) * 2 ^ Z.of_nat k) as EM.
      { rewrite Nat2Z.inj_succ, Z.pow_succ_r by lia. rewrite (Z.mul_comm 2). rewrite Z.rem_mul_r by (try apply Z.pow_nonzero; lia).
        replace ((n / 2 ^ Z.of_nat k) mod 2) with (b2z (Z.testbit n (Z.of_nat k))); [ring|].
        rewrite <- Z.testbit_spec' by lia. destruct (Z.testbit n (Z.of_nat k)); reflexivity. }
      destruct (Z.testbit n (Z.of_nat k)); cbn [b2z] in EM.
      + destruct HP as [_ (_ & _ & _ & M)]. destruct (SQ k ltac:(lia)) as [Gk Uk]. specialize (M Fk Gk).
        rewrite Vk, Uk, <- PA in M by (try apply Z.pow_nonneg; try lia; apply Z.mod_pos_bound, Z.pow_pos_nonneg; lia).
        rewrite Z.mul_1_l in EM. rewrite <- EM in M. apply (rounds_repr f _ _ _ W) in M; [exact M|]. apply R2.
      + rewrite HP. split; [exact Fk|]. rewrite Vk, EM. f_equal. lia. }
  cbv zeta. pose proof (Z.log2_nonneg n). destruct (PR (S (Z.to_nat (Z.log2 n)))) as [A B]; [lia|]. split; [exact A|]. rewrite B. f_equal.
  apply Z.mod_small. split; [lia|]. rewrite Nat2Z.inj_succ, Z2Nat.id by lia. apply Z.log2_spec. lia.
Qed.

Lemma value_zero f : wf f -> forall x, is_float f x -> is_finite f x -> (is_zero f x <-> value f x = 0%R).
Proof.
  intros W x Fx Nx. destruct (split_float f W x Fx) as (s & n & -> & Hn). apply is_finite_mk in Nx; [|assumption|assumption].
  rewrite is_zero_mk, value_mk by assumption. split.
  - intros ->. rewrite (V_0 f W). destruct s; ring.
  - intros E. destruct (Z.eq_dec n 0) as [|N0]; [assumption|]. exfalso.
    assert (0 < V f n) as VP by (apply V_pos; [assumption|lia]).
    pose proof (bpow_gt_0 radix2 (emin f)) as BP.
    assert (0 < IZR (V f n))%R as VR by (apply (IZR_lt 0); exact VP).
    pose proof (Rmult_lt_0_compat _ _ VR BP). destruct s; Lra.lra.
Qed.
