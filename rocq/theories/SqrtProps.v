(** C41: the square root. *)
From Coq Require Import ZArith Reals Bool Lia Lra.
From Flocq Require Import Core.
From Verif Require Import Base BaseLemmas FloatModel FloatSpec FloatProofs FloatLib LibmModel LibmSpec LibmProps FmaProps SqrtModel SqrtSpec SqrtProofs4.
Open Scope Z_scope.

(** sqrtf16, sqrtf, sqrt and sqrtf128: for every argument the function returns, and the
    result is the one IEEE 754 asks for, correctly rounded. The float multiplication and
    addition that the code uses are those of the target; they only have to be IEEE
    operations. With a 16-bit usize this is proved for f16 and f32 only: see
    [C41_usize16_refuted]. *)
Theorem C41_sqrt : forall f o usz x, std f -> ieee_ops f o -> usz = 32 \/ usz = 64 \/ usz = 16 /\ fb f <= 32 -> is_float f x ->
  exists r, sqrt_round f usz o x = Ok r /\ is_float f r /\ ieee_sqrt f x r.
Proof.
  intros f o usz x St O Hu Fx. destruct (std_ws f St) as (W1 & W2 & W3 & W4). apply sqrt_ok; try assumption; [apply std_wf; exact St|].
  destruct St as [->|[->|[->| ->]]]; cbn in *; lia.
Qed.

(** With the soft-float operations of this crate. *)
Theorem C41_sqrt_soft : forall f p usz x, f = F32 \/ f = F64 \/ f = F128 -> 1 <= p <= 8 -> usz = 32 \/ usz = 64 -> is_float f x ->
  exists r, sqrt_round f usz (soft_ops f p) x = Ok r /\ is_float f r /\ ieee_sqrt f x r.
Proof. intros f p usz x Hf Hp Hu Fx. apply C41_sqrt; [unfold std; tauto|apply soft_ops_ieee; assumption|tauto|exact Fx]. Qed.

(** The square of a float that is itself a float has exactly that float as its root. *)
Theorem C41_sqrt_exact : forall f o usz x y, std f -> ieee_ops f o -> usz = 32 \/ usz = 64 \/ usz = 16 /\ fb f <= 32 -> is_float f x -> is_float f y ->
  is_finite f x -> is_finite f y -> sign_of f x = false -> sign_of f y = false -> ~ is_zero f x -> value f x = (value f y * value f y)%R -> sqrt_round f usz o x = Ok y.
Proof.
  intros f o usz x y St O Hu Fx Fy Nx Ny Sx Sy Zx E. destruct (C41_sqrt f o usz x St O Hu Fx) as (r & -> & Fr & _ & _ & _ & _ & R). f_equal. pose proof (std_wf f St) as W.
  assert (0 <= value f y)%R as Vy. { unfold value. rewrite Sy. destruct (_ =? _); apply Rmult_le_pos; try apply bpow_ge_0; apply IZR_le; unfold frac_field; pose proof (Z.mod_pos_bound y (2 ^ fs f)); pose proof (pow2_pos (fs f)); destruct W; lia. }
  apply (rounds_to_unique f W) with (1 := R Nx Zx Sx). rewrite E, sqrt_square by exact Vy. rewrite <- Sy. apply (rounds_exact f W); assumption.
Qed.

(** With a 16-bit usize and overflow checks the table lookup of the f64 and f128 versions
    panics on ordinary arguments: the index is converted before it is masked. *)
Theorem C41_usize16_refuted : forall o, sqrt_round F64 16 o 0x4010000000000000 = Err Panic /\ sqrt_round F128 16 o 0x40010000000000000000000000000000 = Err Panic.
Proof. intros o. split; reflexivity. Qed.

(** Concrete cases. *)
Example ex_sqrt_hyp : ieee_ops F64 (soft_ops F64 8) /\ is_float F64 0x4000000000000000 /\ sqrt_round F64 64 (soft_ops F64 8) 0x4000000000000000 = Ok 0x3ff6a09e667f3bcd.
Proof. split; [apply soft_ops_ieee; [tauto|lia]|]. split; [cbv; intuition congruence|]. vm_compute. reflexivity. Qed.
Example ex_sqrt_sub : sqrt_round F64 64 (soft_ops F64 8) 1 = Ok 0x1e60000000000000 /\ sqrt_round F32 32 (soft_ops F32 8) 3 = Ok 0x1a9cc471.
Proof. split; vm_compute; reflexivity. Qed.
Example ex_sqrt_special : sqrt_round F32 32 (soft_ops F32 8) 0x80000000 = Ok 0x80000000 /\ sqrt_round F32 32 (soft_ops F32 8) 0xbf800000 = Ok 0x7fc00000 /\ sqrt_round F32 32 (soft_ops F32 8) 0x7f800000 = Ok 0x7f800000.
Proof. repeat split; vm_compute; reflexivity. Qed.
Example ex_sqrt_exact : value F32 0x41100000 = (value F32 0x40400000 * value F32 0x40400000)%R /\ sqrt_round F32 32 (soft_ops F32 8) 0x41100000 = Ok 0x40400000.
Proof.
  split; [|vm_compute; reflexivity]. unfold value. change (sign_of F32 0x41100000) with false. change (sign_of F32 0x40400000) with false. change (exp_field F32 0x41100000) with 130. change (exp_field F32 0x40400000) with 128. cbv iota. change (130 =? 0) with false. change (128 =? 0) with false. cbv iota.
  change (frac_field F32 0x41100000) with 0x100000. change (frac_field F32 0x40400000) with 0x400000. change (2 ^ fs F32) with 0x800000. change (bias F32) with 127. change (fs F32) with 23. change (130 - 127 - 23) with (-20). change (128 - 127 - 23) with (-22). cbn. lra.
Qed.
Example ex_sqrt_128 : sqrt_round F128 64 (soft_ops F128 8) 0x40000000000000000000000000000000 = Ok 0x3fff6a09e667f3bcc908b2fb1366ea95.
Proof. vm_compute. reflexivity. Qed.

Definition SqrtProps_all := (C41_sqrt, C41_sqrt_soft, C41_sqrt_exact, C41_usize16_refuted).
Print Assumptions SqrtProps_all.
