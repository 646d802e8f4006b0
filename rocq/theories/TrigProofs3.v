(** The accuracy of k_sin and k_cos: rounding errors. *)
From Coq Require Import ZArith Reals Bool List Lia Lra Psatz.
From Flocq Require Import Core.
From Verif Require Import Base FloatModel FloatSpec LibmModel LibmSpec Elem FloatErr PolyBound ElemModel ElemSpec TrigModel F64Lib ExpProofs3 ExpProofs4 ExpProofs5 ExpProofs6 ExpProofs7 ExpProofs8 LogProofs TrigProofs TrigProofs2.
Import ListNotations.
Open Scope Z_scope.

(** Vr 0 = x, Vr 1 = y *)
Definition sin_prog : list ex := [
  Mul (Vr 0) (Vr 0) (* 2: z *);
  Mul (Vr 2) (Vr 2) (* 3: w *);
  Add (Add (K S2) (Mul (Vr 2) (Add (K S3) (Mul (Vr 2) (K S4))))) (Mul (Mul (Vr 2) (Vr 3)) (Add (K S5) (Mul (Vr 2) (K S6)))) (* 4: r *);
  Mul (Vr 2) (Vr 0) (* 5: v *);
  Sub (Sub (Mul (Vr 2) (Sub (Mul (K half) (Vr 1)) (Mul (Vr 5) (Vr 4)))) (Vr 1)) (Mul (Vr 5) (K S1)) (* 6 *);
  Mul (Vr 5) (Add (K S1) (Mul (Vr 2) (Vr 4))) (* 7 *)].
(** Vr 2 = (1 - w) - hz *)
Definition cos_prog : list ex := [
  Mul (Vr 0) (Vr 0) (* 3: z *);
  Mul (Vr 3) (Vr 3) (* 4: w *);
  Add (Mul (Vr 3) (Add (K C1) (Mul (Vr 3) (Add (K C2) (Mul (Vr 3) (K C3)))))) (Mul (Mul (Vr 4) (Vr 4)) (Add (K C4) (Mul (Vr 3) (Add (K C5) (Mul (Vr 3) (K C6)))))) (* 5: r *);
  Add (Vr 2) (Sub (Mul (Vr 3) (Vr 5)) (Mul (Vr 0) (Vr 1))) (* 6 *)].
Definition prog_er (p : list ex) (i : nat) (env : list ab) : option Z :=
  match aprog LP env p with
  | Some r => match nth_error r i with Some a => Some (er a) | None => None end
  | None => None
  end.
Lemma prog_er_ok o p i aenv env renv z : ieee_ops F64 o -> rel LP aenv env renv -> prog_er p i aenv = Some z ->
  good (nth i (fprog o env p) 0) /\ (Rabs (value F64 (nth i (fprog o env p) 0%Z) - nth i (rprog renv p) 0%R) <= fx LP z)%R.
Proof.
  intros Ho R0. unfold prog_er. destruct (aprog _ _ _) as [out|] eqn:E; [|discriminate].
  destruct (nth_error out i) as [q|] eqn:N; [|discriminate]. intros Q. apply Some_inj in Q. subst z.
  pose proof (aprog_sound LP o ltac:(unfold LP; lia) Ho p _ _ _ _ R0 E) as R.
  destruct (rel_nth _ _ _ _ _ _ R N) as (F1 & F2 & _ & F3). split; [split; assumption|exact F3].
Qed.
Definition chkS (i : nat) (j d a b : Z) : bool :=
  match prog_er sin_prog i [Ab a b 0; Ab (- 2 ^ (LP + (-51 - j))) (2 ^ (LP + (-51 - j))) 0] with
  | Some e => e + 11 * 2 ^ (LP + (-59 - j)) <=? 2 ^ (LP + (-54 - d))
  | None => false
  end.
(** Both results at once *)
Definition chkB (j d a b : Z) : bool :=
  match aprog LP [Ab a b 0; Ab (- 2 ^ (LP + (-51 - j))) (2 ^ (LP + (-51 - j))) 0] sin_prog with
  | Some r => match nth_error r 6, nth_error r 7 with
              | Some p, Some q => if er p + 11 * 2 ^ (LP + (-59 - j)) <=? 2 ^ (LP + (-54 - d)) then er q + 11 * 2 ^ (LP + (-59 - j)) <=? 2 ^ (LP + (-54 - d)) else false
              | _, _ => false
              end
  | None => false
  end.
Lemma chkB_S i j d a b : i = 6%nat \/ i = 7%nat -> chkB j d a b = true -> chkS i j d a b = true.
Proof.
  intros Hi. unfold chkB, chkS, prog_er. destruct (aprog _ _ _) as [r|]; [|discriminate]. destruct (nth_error r 6) as [p|] eqn:E6; [|discriminate]. destruct (nth_error r 7) as [q|] eqn:E7; [|discriminate].
  destruct (er p + _ <=? _) eqn:L; [|discriminate]. intros H. destruct Hi as [-> | ->]; [rewrite E6; exact L|rewrite E7; exact H].
Qed.
Definition chkS_binade (j : Z) : bool :=
  scan (chkB j j) (1 * 2 ^ (LP + - j)) (2 ^ (LP + - j)) 1 && scan (chkB j j) ((-2) * 2 ^ (LP + - j)) (2 ^ (LP + - j)) 1.
Definition chkS_top : bool :=
  (scan (chkB 1 1) (32 * 2 ^ (LP + -6)) (2 ^ (LP + -6)) 2 && scan (chkB 1 1) ((-34) * 2 ^ (LP + -6)) (2 ^ (LP + -6)) 2) &&
  (scan (chkB 1 0) (34 * 2 ^ (LP + -6)) (2 ^ (LP + -4)) 5 && scan (chkB 1 0) ((-54) * 2 ^ (LP + -6)) (2 ^ (LP + -4)) 5).
Definition chkS_all : bool := chkS_top && forallb (fun n => chkS_binade (Z.of_nat n)) (seq 2 69).
Lemma scanS : chkS_all = true.
Proof. vm_compute. reflexivity. Qed.
Definition chkC (a b : Z) : bool :=
  match prog_er cos_prog 6 [Ab a b 0; Ab (- 2 ^ (LP + -52)) (2 ^ (LP + -52)) 0; Ab (- 2 ^ (LP + -54)) (2 ^ (LP + -54)) (2 ^ (LP + -100))] with
  | Some e => e + 17 * 2 ^ (LP + -60) + 2 ^ (LP + -100) <=? 2 ^ (LP + -55)
  | None => false
  end.
Lemma scanC : scan chkC ((-52) * 2 ^ (LP + -6)) (2 ^ (LP + -4)) 26 = true.
Proof. vm_compute. reflexivity. Qed.

