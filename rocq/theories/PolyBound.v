(** Bounding a polynomial with rational and floating-point coefficients on an interval, by
    expanding it around the centre of each of many small pieces with interval coefficients
    in fixed point. This file is proof machinery; it models no code. *)
From Coq Require Import ZArith Reals Bool List Lia Lra Psatz.
From Flocq Require Import Core.
From Verif Require Import FloatModel FloatSpec FloatConvSpec LibmModel LibmSpec Elem FloatErr.
Import ListNotations.
Open Scope Z_scope.

(** Polynomials in one variable; [PK] is the value of a float, [PQ n d] the rational n/d. *)
Inductive pe := PX | PK (c : Z) | PQ (n d : Z) | PAdd (a b : pe) | PSub (a b : pe) | PMul (a b : pe).

Section Fmt.
Context (P : Z) (HP : 0 <= P) (f : fmt).
Notation fx := (fx P).
Notation imul := (imul P).
Notation cl := (cl P).
Notation kbits := (kbits P).
Notation cl_mul := (cl_mul P HP).
Fixpoint pev (x : R) (e : pe) : R :=
  match e with
  | PX => x
  | PK c => value f c
  | PQ n d => (IZR n / IZR d)%R
  | PAdd a b => (pev x a + pev x b)%R
  | PSub a b => (pev x a - pev x b)%R
  | PMul a b => (pev x a * pev x b)%R
  end.

Definition ip := list (Z * Z).
Definition inI (i : Z * Z) (c : R) : Prop := (fx (fst i) <= c <= fx (snd i))%R.
Fixpoint enc (p : ip) (h v : R) : Prop :=
  match p with
  | [] => v = 0%R
  | i :: q => exists c w, inI i c /\ enc q h w /\ v = (c + h * w)%R
  end.

Fixpoint padd (p q : ip) : ip :=
  match p, q with
  | [], _ => q
  | _, [] => p
  | (l, h) :: p', (l', h') :: q' => (l + l', h + h') :: padd p' q'
  end.
Definition pneg (p : ip) : ip := map (fun i => (- snd i, - fst i)) p.
Definition pscale (i : Z * Z) (p : ip) : ip := map (fun j => imul (fst i) (snd i) (fst j) (snd j)) p.
Fixpoint pmul (p q : ip) : ip :=
  match p with
  | [] => []
  | i :: p' => padd (pscale i q) ((0, 0) :: pmul p' q)
  end.
Definition kint (c : Z) : option (Z * Z) := match kbits f c with Some a => Some (lo a, hi a) | None => None end.
Fixpoint pexp (c : Z) (e : pe) : option ip :=
  match e with
  | PX => Some [(c, c); (2 ^ P, 2 ^ P)]
  | PK k => match kint k with Some i => Some [i] | None => None end
  | PQ n d => if 0 <? d then Some [(n * 2 ^ P / d, - (- (n * 2 ^ P) / d))] else None
  | PAdd a b => match pexp c a, pexp c b with Some p, Some q => Some (padd p q) | _, _ => None end
  | PSub a b => match pexp c a, pexp c b with Some p, Some q => Some (padd p (pneg q)) | _, _ => None end
  | PMul a b => match pexp c a, pexp c b with Some p, Some q => Some (pmul p q) | _, _ => None end
  end.
(** Bounds for |h| <= fx d. *)
Fixpoint pabs (d : Z) (p : ip) : Z :=
  match p with [] => 0 | i :: q => mx (fst i) (snd i) + cl (d * pabs d q) end.
Definition pint (d : Z) (p : ip) : Z * Z :=
  match p with [] => (0, 0) | i :: q => let u := cl (d * pabs d q) in (fst i - u, snd i + u) end.

(** Every piece [l + 2 i d, l + 2 (i + 1) d], i < n, has its values in [B, C]. *)
Fixpoint pcheck (e : pe) (l d : Z) (n : nat) (B C : Z) : bool :=
  match n with
  | O => true
  | S n' =>
    match pexp (l + d) e with
    | Some p => let i := pint d p in (B <=? fst i) && (snd i <=? C) && pcheck e (l + 2 * d) d n' B C
    | None => false
    end
  end.

Lemma enc_add p q h v w : enc p h v -> enc q h w -> enc (padd p q) h (v + w)%R.
Proof.
  revert q v w. induction p as [|[l1 h1] p IH]; intros [|[l2 h2] q] v w; cbn [padd enc].
  - intros -> ->. ring.
  - intros -> (c & u & A & B & ->). exists c, u. repeat split; try assumption; try apply A. ring.
  - intros (c & u & A & B & ->) ->. exists c, u. repeat split; try assumption; try apply A. ring.
  - intros (c & u & A & B & ->) (c' & u' & A' & B' & ->). exists (c + c')%R, (u + u')%R.
    split; [|split; [apply IH; assumption|ring]]. unfold inI in *. cbn [fst snd] in *. rewrite !fx_add. lra.
Qed.
Lemma enc_neg p h v : enc p h v -> enc (pneg p) h (- v)%R.
Proof.
  revert v. induction p as [|i p IH]; intros v; cbn [pneg map enc].
  - intros ->. ring.
  - intros (c & u & A & B & ->). exists (- c)%R, (- u)%R. split; [|split; [apply IH, B|ring]].
    unfold inI in *. cbn [fst snd]. rewrite !fx_opp. lra.
Qed.
Lemma enc_scale i p h k v : inI i k -> enc p h v -> enc (pscale i p) h (k * v)%R.
Proof.
  intros Hi. revert v. induction p as [|j p IH]; intros v; cbn [pscale map enc].
  - intros ->. ring.
  - intros (c & u & A & B & ->). exists (k * c)%R, (k * u)%R. split; [|split; [apply IH, B|ring]].
    unfold inI in *. apply imul_ok; assumption.
Qed.
Lemma enc_mul p q h v w : enc p h v -> enc q h w -> enc (pmul p q) h (v * w)%R.
Proof.
  revert v. induction p as [|i p IH]; intros v; cbn [pmul enc].
  - intros -> _. ring.
  - intros (c & u & A & B & ->) Q. replace ((c + h * u) * w)%R with (c * w + (0 + h * (u * w)))%R by ring.
    apply enc_add; [apply enc_scale; assumption|]. cbn [enc]. exists 0%R, (u * w)%R.
    split; [unfold inI; cbn [fst snd]; rewrite fx_0; lra|]. split; [apply IH; assumption|reflexivity].
Qed.
Lemma kint_ok c i : kint c = Some i -> inI i (value f c).
Proof.
  unfold kint. destruct (kbits f c) as [a|] eqn:E; [|discriminate]. intros q. injection q as <-.
  destruct (kbits_ok P f c a E) as (_ & _ & B & _). exact B.
Qed.
Lemma quot_ok n d : 0 < d -> inI (n * 2 ^ P / d, - (- (n * 2 ^ P) / d)) (IZR n / IZR d).
Proof.
  intros Hd. assert (p : (0 < IZR d)%R) by (apply IZR_lt, Hd).
  assert (X : forall m, (fx (m * 2 ^ P / d) <= IZR m / IZR d)%R).
  { intros m. apply Rmult_le_reg_r with (IZR d); [exact p|]. unfold Rdiv. rewrite Rmult_assoc, Rinv_l, Rmult_1_r by lra.
    rewrite <- (fx_P P HP m). unfold FloatErr.fx. rewrite Rmult_assoc, (Rmult_comm _ (IZR d)), <- Rmult_assoc, <- mult_IZR.
    apply Rmult_le_compat_r; [apply bpow_ge_0|]. apply IZR_le. rewrite Z.mul_comm. apply Z.mul_div_le, Hd. }
  unfold inI. cbn [fst snd]. split; [apply X|]. pose proof (X (- n)) as Y. rewrite (fx_opp P). rewrite opp_IZR in Y.
  replace (- n * 2 ^ P) with (- (n * 2 ^ P)) in Y by ring. unfold Rdiv in *. rewrite Ropp_mult_distr_l_reverse in Y. lra.
Qed.
Lemma pexp_ok c e p h : pexp c e = Some p -> enc p h (pev (fx c + h) e).
Proof.
  revert p. induction e as [|k|n d|a IHa b IHb|a IHa b IHb|a IHa b IHb]; intros p; cbn [pexp pev].
  - intros q. assert (p = [(c, c); (2 ^ P, 2 ^ P)]) as -> by congruence. cbn [enc]. exists (fx c), 1%R. split; [unfold inI; cbn [fst snd]; lra|]. split; [|ring].
    exists 1%R, 0%R. split; [|split; [reflexivity|ring]]. unfold inI. cbn [fst snd].
    pose proof (fx_P P HP 1) as F1. rewrite Z.mul_1_l in F1. rewrite F1. lra.
  - destruct (kint k) as [i|] eqn:E; [|discriminate]. intros q. injection q as <-. cbn [enc].
    exists (value f k), 0%R. split; [apply kint_ok, E|]. split; [reflexivity|ring].
  - destruct (Z.ltb_spec 0 d); [|discriminate]. intros q. injection q as <-. cbn [enc].
    exists (IZR n / IZR d)%R, 0%R. split; [apply quot_ok; assumption|]. split; [reflexivity|ring].
  - destruct (pexp c a) as [pa|]; [|discriminate]. destruct (pexp c b) as [pb|]; [|discriminate].
    intros q. injection q as <-. apply enc_add; auto.
  - destruct (pexp c a) as [pa|]; [|discriminate]. destruct (pexp c b) as [pb|]; [|discriminate].
    intros q. injection q as <-. apply enc_add; [|apply enc_neg]; auto.
  - destruct (pexp c a) as [pa|]; [|discriminate]. destruct (pexp c b) as [pb|]; [|discriminate].
    intros q. injection q as <-. apply enc_mul; auto.
Qed.
Lemma pabs_ok d p h v : (Rabs h <= fx d)%R -> enc p h v -> (Rabs v <= fx (pabs d p))%R.
Proof.
  intros H. revert v. induction p as [|i p IH]; intros v; cbn [enc pabs].
  - intros ->. rewrite Rabs_R0, fx_0. lra.
  - intros (c & w & A & B & ->). rewrite fx_add. eapply Rle_trans; [apply Rabs_triang|].
    apply Rplus_le_compat; [apply mx_ok, A|]. rewrite Rabs_mult. eapply Rle_trans; [|apply cl_mul].
    apply Rmult_le_compat; try apply Rabs_pos; [exact H|apply IH, B].
Qed.
Lemma pint_ok d p h v : (Rabs h <= fx d)%R -> enc p h v -> inI (pint d p) v.
Proof.
  intros H. destruct p as [|i p]; cbn [enc pint].
  - intros ->. unfold inI. cbn [fst snd]. rewrite fx_0. lra.
  - intros (c & w & A & B & ->). cbv zeta. set (u := cl _). assert (Rabs (h * w) <= fx u)%R as U.
    { rewrite Rabs_mult. eapply Rle_trans; [|apply cl_mul]. apply Rmult_le_compat; try apply Rabs_pos; [exact H|apply pabs_ok with h; assumption]. }
    apply Rabs_le_inv in U. unfold inI in *. cbn [fst snd]. rewrite fx_sub, fx_add. lra.
Qed.
Theorem pcheck_ok e l d n B C : pcheck e l d n B C = true -> 0 <= d ->
  forall x : R, (fx l <= x <= fx (l + 2 * d * Z.of_nat n))%R -> (n <> O) -> (fx B <= pev x e <= fx C)%R.
Proof.
  intros H Hd. revert l H. induction n as [|n IH]; intros l H x Hx Nn; [contradiction|].
  cbn [pcheck] in H. destruct (pexp (l + d) e) as [p|] eqn:E; [|discriminate].
  cbv zeta in H. apply andb_prop in H. destruct H as [H H3]. apply andb_prop in H. destruct H as [H1 H2].
  apply Z.leb_le in H1, H2.
  destruct (Rle_lt_dec x (fx (l + 2 * d))) as [c|c].
  - pose proof (pexp_ok _ _ _ (x - fx (l + d)) E) as X. replace (fx (l + d) + (x - fx (l + d)))%R with x in X by ring.
    apply pint_ok with (d := d) in X.
    2:{ rewrite !fx_add in *. replace (fx (2 * d)) with (fx d + fx d)%R in c by (rewrite <- fx_add; f_equal; ring). apply Rabs_le. lra. }
    destruct X as [X1 X2]. apply (fx_le P) in H1, H2. lra.
  - destruct n as [|n].
    + exfalso. replace (l + 2 * d * Z.of_nat 1) with (l + 2 * d) in Hx by lia. lra.
    + apply IH with (l := l + 2 * d); [exact H3| |discriminate]. split; [lra|].
      replace (l + 2 * d + 2 * d * Z.of_nat (S n)) with (l + 2 * d * Z.of_nat (S (S n))) by lia. apply Hx.
Qed.
End Fmt.

(** Horner evaluation of a sequence of rational coefficients, and the Taylor polynomials of [Elem]. *)
Fixpoint phorn (a : nat -> Z * Z) (e : pe) (k m : nat) : pe :=
  match m with
  | O => PQ (fst (a k)) (snd (a k))
  | S m' => PAdd (PQ (fst (a k)) (snd (a k))) (PMul e (phorn a e (S k) m'))
  end.
Lemma pev_horn f a x e k m : pev f x (phorn a e k m) = sum_f_R0 (fun i => (IZR (fst (a (k + i)%nat)) / IZR (snd (a (k + i)%nat)) * pev f x e ^ i)%R) m.
Proof.
  revert k. induction m as [|m IH]; intros k.
  - cbn [phorn pev sum_f_R0 pow]. rewrite Nat.add_0_r. ring.
  - cbn [phorn pev]. rewrite IH, (decomp_sum _ (S m)) by lia. cbn [pred]. rewrite Nat.add_0_r. cbn [pow]. rewrite Rmult_1_r. f_equal.
    rewrite scal_sum. apply sum_eq. intros i _. rewrite Nat.add_succ_r. cbn [Nat.add pow]. ring.
Qed.
Fixpoint Zfact (n : nat) : Z := match n with O => 1 | S m => Z.of_nat n * Zfact m end.
Lemma Zfact_ok n : Zfact n = Z.of_nat (fact n).
Proof. induction n as [|n IH]; [reflexivity|]. change (fact (S n)) with (S n * fact n)%nat. rewrite Nat2Z.inj_mul, <- IH. reflexivity. Qed.
Definition pexpt (e : pe) (n : nat) : pe := phorn (fun i => (1, Zfact i)) e 0 n.
Lemma pev_expt f x e n : pev f x (pexpt e n) = exp_taylor n (pev f x e).
Proof.
  unfold pexpt. rewrite pev_horn. unfold exp_taylor. apply sum_eq. intros i _. cbn [fst snd Nat.add]. rewrite Zfact_ok, <- INR_IZR_INZ. unfold Rdiv. ring.
Qed.
Definition patanh (e : pe) (n : nat) : pe := PMul e (phorn (fun i => (2, Z.of_nat (2 * i + 1))) (PMul e e) 0 n).
Lemma pev_atanh f x e n : pev f x (patanh e n) = atanh_taylor (S n) (pev f x e).
Proof.
  unfold patanh. cbn [pev]. rewrite pev_horn. cbn [pev]. set (s := pev f x e). induction n as [|n IH].
  - cbn. field.
  - change (atanh_taylor (S (S n)) s) with (atanh_taylor (S n) s + 2 * s ^ (2 * S n + 1) / INR (2 * S n + 1))%R.
    rewrite <- IH. cbn [sum_f_R0]. rewrite Rmult_plus_distr_l. f_equal. cbn [fst snd]. rewrite Nat.add_0_l, <- INR_IZR_INZ.
    rewrite pow_add, pow_mult, pow_1. replace (s ^ 2)%R with (s * s)%R by ring. unfold Rdiv. ring.
Qed.

Fixpoint ppow (e : pe) (n : nat) : pe := match n with O => PQ 1 1 | S m => PMul e (ppow e m) end.
Lemma pev_pow f x e n : pev f x (ppow e n) = (pev f x e ^ n)%R.
Proof. induction n as [|n IH]; cbn [ppow pev pow]; [field|rewrite IH; reflexivity]. Qed.

(** Bounds of a closed expression. *)
Lemma pconst P f e B C : 0 <= P -> pcheck P f e 0 0 1 B C = true -> (fx P B <= pev f 0 e <= fx P C)%R.
Proof. intros HP H. apply (pcheck_ok P HP f e 0 0 1 B C H); [lia| |discriminate]. cbn. rewrite fx_0. lra. Qed.

(** Scaling. *)
Lemma fx_scale P e n : 0 <= P + e -> fx P (n * 2 ^ (P + e)) = (IZR n * bpow radix2 e)%R.
Proof.
  intros H. unfold fx. rewrite mult_IZR, Rmult_assoc. f_equal. change (2 ^ (P + e)) with (Zpower radix2 (P + e)).
  rewrite IZR_Zpower by lia. rewrite <- bpow_plus. f_equal. ring.
Qed.

(** ln 2 *)
Definition ln2n : Z := 1013035739299659071135698605846798551586536899366.
Lemma ln2_bounds : (fx 160 (ln2n - 2 ^ 20) <= ln 2 <= fx 160 (ln2n + 2 ^ 20))%R.
Proof.
  assert (A : ln 2 = ln ((1 + / 3) / (1 - / 3))) by (f_equal; field).
  pose proof (atanh_taylor_ok 47 (/ 3) (/ 3) ltac:(rewrite Rabs_pos_eq; lra) ltac:(lra)) as T. rewrite <- A in T. rewrite (Rabs_pos_eq (/ 3)) in T by lra.
  assert (H1 : (fx 160 (ln2n - 2 ^ 19) <= atanh_taylor 47 (/ 3) <= fx 160 (ln2n + 2 ^ 19))%R).
  { replace (/ 3)%R with (pev F64 0 (PQ 1 3)) by (cbn; field). rewrite <- (pev_atanh F64 0 (PQ 1 3) 46). apply pconst; [lia|]. vm_compute. reflexivity. }
  assert (H2 : (2 * (/ 3) ^ (2 * 47 + 1) / INR (2 * 47 + 1) / (1 - / 3 * / 3) <= fx 160 (2 ^ 19))%R).
  { replace (2 * (/ 3) ^ (2 * 47 + 1) / INR (2 * 47 + 1) / (1 - / 3 * / 3))%R with (pev F64 0 (PMul (PQ 18 (8 * 95)) (ppow (PQ 1 3) 95))).
    - assert (C : (fx 160 0 <= pev F64 0 (PMul (PQ 18 (8 * 95)) (ppow (PQ 1 3) 95)) <= fx 160 (2 ^ 19))%R) by (apply pconst; [lia|]; vm_compute; reflexivity). apply C.
    - cbn [pev]. rewrite pev_pow. cbn [pev]. rewrite INR_IZR_INZ. change (2 * 47 + 1)%nat with 95%nat. change (Z.of_nat 95) with 95.
      replace (1 / 3)%R with (/ 3)%R by field. change (8 * 95) with 760. field. }
  rewrite fx_add, fx_sub in *. replace (fx 160 (2 ^ 20)) with (fx 160 (2 ^ 19) + fx 160 (2 ^ 19))%R by (rewrite <- fx_add; reflexivity).
  apply Rabs_le_inv in T. lra.
Qed.
