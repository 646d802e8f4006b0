(** Accuracy of the primary range of exp. *)
From Coq Require Import ZArith Reals Bool List Lia Lra Psatz.
From Flocq Require Import Core.
From Verif Require Import Base FloatModel FloatSpec FloatConvSpec LibmModel LibmSpec Elem FloatErr PolyBound ElemModel ElemSpec F64Lib.
Import ListNotations.
Open Scope Z_scope.

(** * Approximation error *)
Definition pz : pe := PMul PX PX.
Definition pc : pe :=
  PSub PX (PMul pz (PAdd (PK exp_P1) (PMul pz (PAdd (PK exp_P2) (PMul pz (PAdd (PK exp_P3) (PMul pz (PAdd (PK exp_P4) (PMul pz (PK exp_P5)))))))))).
Definition pE : pe := PAdd (PMul (PSub (PQ 2 1) pc) (PSub (PAdd (PQ 1 1) PX) (pexpt PX 15))) (PMul PX pc).
(** The bound 0.34664 of the reduced argument. *)
Definition DX : R := 34664 / 100000.
Lemma pE_ok x : (Rabs x <= DX)%R -> (Rabs (pev F64 x pE) <= 2000 * bpow radix2 (-70))%R.
Proof.
  intros H. apply Rabs_le_inv in H. unfold DX in H. apply Rabs_le.
  rewrite <- (fx_scale 100 (-70) 2000) by lia. rewrite <- fx_opp.
  apply (pcheck_ok 100 ltac:(lia) F64 pE ((- 11359) * 2 ^ (100 + -15)) (11359 * 2 ^ 79) 64); [vm_compute; reflexivity|lia| |discriminate].
  replace (- 11359 * 2 ^ (100 + -15) + 2 * (11359 * 2 ^ 79) * Z.of_nat 64) with (11359 * 2 ^ (100 + -15)) by reflexivity. rewrite !fx_scale by lia.
  change (bpow radix2 (-15)) with (/ 32768)%R. lra.
Qed.
Lemma pc_ok x : (Rabs x <= DX)%R -> (- (2 / 5) <= pev F64 x pc <= 2 / 5)%R.
Proof.
  intros H. apply Rabs_le_inv in H. unfold DX in H.
  assert (X : (fx 100 ((- 400) * 2 ^ (100 + -10)) <= pev F64 x pc <= fx 100 (400 * 2 ^ (100 + -10)))%R).
  { apply (pcheck_ok 100 ltac:(lia) F64 pc ((- 11359) * 2 ^ (100 + -15)) (11359 * 2 ^ 81) 16); [vm_compute; reflexivity|lia| |discriminate].
    replace (- 11359 * 2 ^ (100 + -15) + 2 * (11359 * 2 ^ 81) * Z.of_nat 16) with (11359 * 2 ^ (100 + -15)) by reflexivity. rewrite !fx_scale by lia.
    change (bpow radix2 (-15)) with (/ 32768)%R. lra. }
  rewrite !fx_scale in X by lia. change (bpow radix2 (-10)) with (/ 1024)%R in X. lra.
Qed.
