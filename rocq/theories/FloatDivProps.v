(** C22 (division) and C28 (integer powers). *)
From Coq Require Import ZArith Reals Bool Lia.
From Flocq Require Import Core.
From Verif Require Import Base BaseLemmas FloatModel FloatSpec FloatPowSpec FloatDivModel FloatProofs FloatProofs2 FloatLib FloatProps FloatDivProofs2 FloatDivProofs4 FloatPowProofs.
Open Scope Z_scope.

(** The formats with a division routine: __divsf3, __divdf3, __divtf3. *)
Definition div_fmt (f : fmt) : Prop := f = F32 \/ f = F64 \/ f = F128.
Lemma div_fmt_wf f : div_fmt f -> wf f.
Proof. intros [->|[->| ->]]; apply std_wf; unfold std; tauto. Qed.

(** The reciprocal of every configuration is close enough. *)
Lemma shape f b : wf f -> 2 ^ fs f <= b < 2 * 2 ^ fs f ->
  (2 * (b * 2 ^ eb f) = 2 ^ fb f \/ 2 ^ fb f + 4 <= 2 * (b * 2 ^ eb f)) /\ b * 2 ^ eb f < 2 ^ fb f.
Proof.
  intros W Hb. rewrite (fb_eq f W), (B_eq f W). pose proof (EB_big f W). split.
  - destruct (Z.eq_dec b (2 ^ fs f)) as [->|]; [left; ring|right]. pose proof (Z.mul_le_mono_nonneg_r (2 ^ fs f + 1) b (2 ^ eb f)). lia.
  - pose proof (Z.mul_lt_mono_pos_r (2 ^ eb f) b (2 * 2 ^ fs f)). lia.
Qed.
Lemma configs f p : div_fmt f -> 1 <= p <= 8 -> exists half full P, config f p half full P /\ recip_ok f half full P.
Proof.
  intros Hf Hp. pose proof (div_fmt_wf f Hf) as W. destruct Hf as [->|[->| ->]].
  - destruct (Z.eq_dec p 8) as [->|].
    + exists 0, 3, 10. split; [exists 0; repeat split; reflexivity|]. exists 127. split; [lia|]. split; [split; [reflexivity|intros _; reflexivity]|].
      intros b Hb. destruct (shape F32 b W Hb) as [H1 H2]. apply recip32f; [change (2 ^ 32) with (2 ^ fb F32); lia|exact H2].
    + exists 2, 1, 74. split; [exists 2; unfold get_iterations, reciprocal_precision, get_iterations; cbn [fb F32]; replace (2 * (32 / 8) <=? p) with false by (symmetry; apply Z.leb_gt; change (2 * (32 / 8)) with 8; lia); repeat split; reflexivity|].
      exists 255. split; [lia|]. split; [split; [reflexivity|intros A; discriminate A]|].
      intros b Hb. destruct (shape F32 b W Hb) as [H1 H2]. apply recip32h; [exact H1|exact H2].
  - exists 3, 1, 220. split; [exists 3; unfold get_iterations, reciprocal_precision, get_iterations; cbn [fb F64]; replace (2 * (64 / 8) <=? p) with false by (symmetry; apply Z.leb_gt; change (2 * (64 / 8)) with 16; lia); repeat split; reflexivity|].
    exists 1023. split; [lia|]. split; [split; [reflexivity|intros _; reflexivity]|].
    intros b Hb. destruct (shape F64 b W Hb) as [H1 H2]. apply recip64; [exact H1|exact H2].
  - exists 5, 1, 13922. split; [exists 4; unfold get_iterations, reciprocal_precision, get_iterations; cbn [fb F128]; replace (2 * (128 / 8) <=? p) with false by (symmetry; apply Z.leb_gt; change (2 * (128 / 8)) with 32; lia); repeat split; reflexivity|].
    exists 32767. split; [lia|]. split; [split; [reflexivity|intros A; discriminate A]|].
    intros b Hb. destruct (shape F128 b W Hb) as [H1 H2]. apply recip128; [exact H1|exact H2].
Qed.

(** ** C22. On a target with pointers of [p] bytes (at most 64 bits), for all operands the
    routine returns (no panic, no overflow in any checked operation) the IEEE 754 quotient
    [ieee_div] of FloatSpec.v. *)
Theorem C22_div : forall f p a b, div_fmt f -> 1 <= p <= 8 -> is_float f a -> is_float f b ->
  exists r, div f p a b = Ok r /\ is_float f r /\ ieee_div f a b r.
Proof.
  intros f p a b Hf Hp. destruct (configs f p Hf Hp) as (half & full & P & C & R).
  exact (div_correct f (div_fmt_wf f Hf) p half full P a b C R).
Qed.

(** 1/3, 1/3 with half-width iterations, a quotient rounded to even in the subnormal range,
    overflow, x/x near the end of a binade, 1/0, 0/0, inf/inf, finite/inf. *)
Example C22_cases :
  div F32 8 0x3f800000 0x40400000 = Ok 0x3eaaaaab /\ div F32 4 0x3f800000 0x40400000 = Ok 0x3eaaaaab /\
  div F64 8 0x3ff0000000000000 0x4008000000000000 = Ok 0x3fd5555555555555 /\
  div F32 4 0x00800001 0x40000000 = Ok 0x00400000 /\ div F32 4 0x00800003 0x40000000 = Ok 0x00400002 /\
  div F64 4 0x7fefffffffffffff 0x3fe0000000000000 = Ok 0x7ff0000000000000 /\
  div F128 8 (2 ^ 112 * 0x4000 - 1) (2 ^ 112 * 0x4000 - 1) = Ok (2 ^ 112 * 0x3fff) /\
  div F32 8 0xbf800000 0 = Ok 0xff800000 /\ div F32 8 0 0x80000000 = Ok 0x7fc00000 /\
  div F64 8 0x7ff0000000000000 0x7ff0000000000000 = Ok 0x7ff8000000000000 /\
  div F64 8 0x3ff0000000000000 0xfff0000000000000 = Ok 0x8000000000000000.
Proof. repeat match goal with |- _ /\ _ => split end; vm_compute; reflexivity. Qed.

(** ** C28. The pattern of 1.0. *)
Definition one_of (f : fmt) : Z := bias f * 2 ^ fs f.
Lemma one_of_eq f : div_fmt f -> one_of f = Z.shiftl (EXP_BIAS f) (fs f) /\
  is_float f (one_of f) /\ is_finite f (one_of f) /\ sign_of f (one_of f) = false /\ value f (one_of f) = 1%R.
Proof.
  intros Hf. split; [destruct Hf as [->|[->| ->]]; reflexivity|].
  split; [destruct Hf as [->|[->| ->]]; unfold is_float; vm_compute; split; congruence|].
  split; [destruct Hf as [->|[->| ->]]; unfold is_finite; vm_compute; congruence|].
  split; [destruct Hf as [->|[->| ->]]; vm_compute; reflexivity|].
  assert (forall e, exp_field f (one_of f) = e -> frac_field f (one_of f) = 0 -> sign_of f (one_of f) = false -> e = bias f -> e <> 0 -> 0 < fs f ->
    value f (one_of f) = 1%R) as L.
  { intros e A B C D E F. unfold value. rewrite A, B, C. destruct (Z.eqb_spec e 0); [lia|]. rewrite Z.add_0_r, D.
    replace (bias f - bias f - fs f) with (- fs f) by lia. rewrite (IZR_Zpower radix2) by lia. rewrite <- bpow_plus.
    replace (fs f + - fs f) with 0 by lia. reflexivity. }
  destruct Hf as [->|[->| ->]]; (eapply L; [vm_compute; reflexivity|vm_compute; reflexivity|vm_compute; reflexivity|reflexivity|discriminate|reflexivity]).
Qed.

(** Any multiplication and division that meet IEEE 754: the target's hardware operators or
    the crate's own routines. *)
Definition meets_mul (f : fmt) (mulf : Z -> Z -> res Z) : Prop :=
  forall a b, is_float f a -> is_float f b -> exists r, mulf a b = Ok r /\ is_float f r /\ ieee_mul f a b r.
Definition meets_div (f : fmt) (divf : Z -> Z -> res Z) : Prop :=
  forall a b, is_float f a -> is_float f b -> exists r, divf a b = Ok r /\ is_float f r /\ ieee_div f a b r.

(** The crate's own operators are an instance, and they are what [powi] uses. *)
Theorem C28_soft_ops : forall f p, div_fmt f -> 1 <= p <= 8 ->
  meets_mul f (mul f) /\ meets_div f (div f p) /\ forall x n, powi f p x n = powi_with (mul f) (div f p) (one_of f) x n.
Proof.
  intros f p Hf Hp. split; [|split].
  - intros a b Ha Hb. apply C21_mul; [destruct Hf as [->|[->| ->]]; unfold std; tauto|exact Ha|exact Hb].
  - intros a b Ha Hb. exact (C22_div f p a b Hf Hp Ha Hb).
  - intros x n. unfold powi. rewrite <- (proj1 (one_of_eq f Hf)). reflexivity.
Qed.

(** powi(x, 0) = 1 for every x, NaN included. *)
Theorem C28_powi_zero : forall f p x, div_fmt f -> is_float f x ->
  exists r, powi f p x 0 = Ok r /\ is_finite f r /\ value f r = 1%R.
Proof.
  intros f p x Hf Hx. destruct (one_of_eq f Hf) as (E & _ & N & _ & V).
  exists (one_of f). split; [unfold powi; rewrite <- E; reflexivity|]. split; [exact N|exact V].
Qed.

(** For every x and every i32 n other than 0 the result is the left-to-right product of
    the repeated squares of x selected by the bits of |n|, every product correctly
    rounded, followed for negative n (i32::MIN included) by one correctly rounded
    division 1/that. [binary_power] is in FloatPowSpec.v. *)
Theorem C28_powi : forall f mulf divf x n, div_fmt f -> meets_mul f mulf -> meets_div f divf ->
  is_float f x -> - 2 ^ 31 <= n < 2 ^ 31 -> n <> 0 ->
  exists r sq pr, powi_with mulf divf (one_of f) x n = Ok r /\ is_float f r /\
    binary_power f x (Z.abs n) sq pr /\
    let m := pr (S (Z.to_nat (Z.log2 (Z.abs n)))) in
    (0 < n -> r = m) /\ (n < 0 -> is_float f m /\ ieee_div f (one_of f) m r).
Proof.
  intros f mulf divf x n Hf Hm Hd Hx Hn Hn0. destruct (one_of_eq f Hf) as (_ & O).
  destruct (powi_ok f mulf divf Hm Hd (one_of f) O x n Hx Hn Hn0) as (r & sq & pr & E & Fr & Bp & P1 & P2).
  exists r, sq, pr. split; [exact E|]. split; [exact Fr|]. split; [exact Bp|]. cbv zeta. split.
  - intros A. rewrite Z.abs_eq by lia. exact (P1 A).
  - intros A. rewrite Z.abs_neq by lia. exact (P2 A).
Qed.

(** When the powers of x that occur are floats the result is exact (n > 0), or the
    correctly rounded reciprocal of the exact power (n < 0). *)
Theorem C28_powi_exact : forall f mulf divf x n, div_fmt f -> meets_mul f mulf -> meets_div f divf ->
  is_float f x -> is_finite f x -> - 2 ^ 31 <= n < 2 ^ 31 -> n <> 0 ->
  (forall k, 2 ^ Z.of_nat k <= Z.abs n -> representable f (powerRZ (value f x) (2 ^ Z.of_nat k))) ->
  (forall k, representable f (powerRZ (value f x) (Z.abs n mod 2 ^ Z.of_nat k))) ->
  exists r, powi_with mulf divf (one_of f) x n = Ok r /\ is_float f r /\
    (0 < n -> is_finite f r /\ value f r = powerRZ (value f x) n) /\
    (n < 0 -> ~ is_zero f x -> exists zs, rounds_to f zs (1 / powerRZ (value f x) (- n)) r).
Proof.
  intros f mulf divf x n Hf Hm Hd Hx Nx Hn Hn0 R1 R2.
  destruct (C28_powi f mulf divf x n Hf Hm Hd Hx Hn Hn0) as (r & sq & pr & E & Fr & Bp & P). cbv zeta in P. destruct P as [P1 P2].
  pose proof (div_fmt_wf f Hf) as W.
  destruct (binary_power_exact f x (Z.abs n) sq pr W Hx Nx ltac:(lia) Bp R1 R2) as [NM VM].
  exists r. split; [exact E|]. split; [exact Fr|]. split.
  - intros A. rewrite (P1 A). split; [exact NM|]. rewrite VM, Z.abs_eq by lia. reflexivity.
  - intros A Zx. destruct (P2 A) as [Fm (_ & _ & _ & _ & D)].
    destruct (one_of_eq f Hf) as (_ & _ & N1 & _ & V1).
    set (m := pr (S (Z.to_nat (Z.log2 (Z.abs n))))) in *.
    specialize (D N1 NM). rewrite V1, VM, (Z.abs_neq n) in D by lia.
    eexists. apply D. clear D. intros Zm.
    apply (value_zero f W m Fm NM) in Zm. rewrite VM in Zm.
    apply Zx. apply (value_zero f W x Hx Nx).
    destruct (Req_dec (value f x) 0) as [|E0]; [assumption|].
    exfalso. apply (powerRZ_NOR (value f x) (Z.abs n) E0). exact Zm.
Qed.

(** 3^3, 2^10, 10^-2 (rounded), 1^i32::MIN, (-2)^-3, 0^-1, NaN^0, 2^-1074 by way of an
    overflow-free square chain, and 2^-200 in f32, whose positive power overflows. *)
Example C28_cases :
  powi F32 8 0x40400000 3 = Ok 0x41d80000 /\ powi F64 4 0x4000000000000000 10 = Ok 0x4090000000000000 /\
  powi F64 8 0x4024000000000000 (-2) = Ok 0x3f847ae147ae147b /\
  powi F64 8 0x3ff0000000000000 (- 2 ^ 31) = Ok 0x3ff0000000000000 /\
  powi F32 8 0xc0000000 (-3) = Ok 0xbe000000 /\ powi F32 8 0 (-1) = Ok 0x7f800000 /\
  powi F32 8 0x7fc00000 0 = Ok 0x3f800000 /\ powi F64 8 0x3fe0000000000000 1074 = Ok 1 /\
  powi F32 8 0x40000000 (-200) = Ok 0.
Proof. repeat match goal with |- _ /\ _ => split end; vm_compute; reflexivity. Qed.

(** The hypotheses of [C28_powi_exact] hold for 3^3 in f32. *)
Example C28_exact_case :
  (forall k, 2 ^ Z.of_nat k <= Z.abs 3 -> representable F32 (powerRZ (value F32 0x40400000) (2 ^ Z.of_nat k))) /\
  (forall k, representable F32 (powerRZ (value F32 0x40400000) (Z.abs 3 mod 2 ^ Z.of_nat k))).
Proof.
  assert (forall y e m, is_float F32 y -> exp_field F32 y = e -> frac_field F32 y = m -> sign_of F32 y = false -> 0 < e < 255 ->
    is_finite F32 y /\ value F32 y = (IZR (2 ^ 23 + m) * bpow radix2 (e - 150))%R) as L.
  { intros y e m Fy A B C D. unfold is_finite, value. rewrite A, B, C. split; [unfold exp_all_ones; cbn; lia|].
    destruct (Z.eqb_spec e 0); [lia|]. change (bias F32) with 127. change (fs F32) with 23. replace (e - 127 - 23) with (e - 150) by lia. reflexivity. }
  assert (value F32 0x40400000 = 3%R) as V3.
  { rewrite (proj2 (L 0x40400000 128 4194304 ltac:(unfold is_float; cbn; lia) ltac:(reflexivity) ltac:(reflexivity) ltac:(reflexivity) ltac:(lia))). cbn. Lra.lra. }
  rewrite V3.
  assert (representable F32 1) as R1.
  { exists 0x3f800000. split; [unfold is_float; cbn; lia|]. destruct (L 0x3f800000 127 0 ltac:(unfold is_float; cbn; lia) ltac:(reflexivity) ltac:(reflexivity) ltac:(reflexivity) ltac:(lia)) as [N ->]. split; [exact N|cbn; Lra.lra]. }
  assert (representable F32 3) as R3.
  { exists 0x40400000. split; [unfold is_float; cbn; lia|]. destruct (L 0x40400000 128 4194304 ltac:(unfold is_float; cbn; lia) ltac:(reflexivity) ltac:(reflexivity) ltac:(reflexivity) ltac:(lia)) as [N ->]. split; [exact N|cbn; Lra.lra]. }
  assert (representable F32 9) as R9.
  { exists 0x41100000. split; [unfold is_float; cbn; lia|]. destruct (L 0x41100000 130 1048576 ltac:(unfold is_float; cbn; lia) ltac:(reflexivity) ltac:(reflexivity) ltac:(reflexivity) ltac:(lia)) as [N ->]. split; [exact N|cbn; Lra.lra]. }
  assert (representable F32 27) as R27.
  { exists 0x41d80000. split; [unfold is_float; cbn; lia|]. destruct (L 0x41d80000 131 5767168 ltac:(unfold is_float; cbn; lia) ltac:(reflexivity) ltac:(reflexivity) ltac:(reflexivity) ltac:(lia)) as [N ->]. split; [exact N|cbn; Lra.lra]. }
  split.
  - intros k Hk. destruct k as [|[|k]].
    + change (2 ^ Z.of_nat 0) with 1; replace (powerRZ 3 1) with 3%R by (cbv [powerRZ pow Pos.to_nat Pos.iter_op Nat.add]; ring). exact R3.
    + change (2 ^ Z.of_nat 1) with 2; replace (powerRZ 3 2) with 9%R by (cbv [powerRZ pow Pos.to_nat Pos.iter_op Nat.add]; ring). exact R9.
    + pose proof (pow2_le 2 (Z.of_nat (S (S k))) ltac:(lia)). change (2 ^ 2) with 4 in *. cbn [Z.abs] in Hk. lia.
  - intros k. destruct k as [|[|k]].
    + change (Z.abs 3 mod 2 ^ Z.of_nat 0) with 0; replace (powerRZ 3 0) with 1%R by (cbv [powerRZ pow Pos.to_nat Pos.iter_op Nat.add]; ring). exact R1.
    + change (Z.abs 3 mod 2 ^ Z.of_nat 1) with 1; replace (powerRZ 3 1) with 3%R by (cbv [powerRZ pow Pos.to_nat Pos.iter_op Nat.add]; ring). exact R3.
    + pose proof (pow2_le 2 (Z.of_nat (S (S k))) ltac:(lia)). change (2 ^ 2) with 4 in *. cbn [Z.abs]. rewrite Z.mod_small by lia.
      replace (powerRZ 3 3) with 27%R by (cbv [powerRZ pow Pos.to_nat Pos.iter_op Nat.add]; ring). exact R27.
Qed.

Definition division_theorems := (C22_div, C28_soft_ops, C28_powi_zero, C28_powi, C28_powi_exact).
Print Assumptions division_theorems.
