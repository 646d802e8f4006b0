(** Proofs about the fused multiply-add: reals that compare alike with all multiples of
    a power of two, and rounding. *)
From Coq Require Import ZArith Reals Bool Lia Lra Psatz.
From Flocq Require Import Core.
From Verif Require Import Base BaseLemmas FloatModel FloatSpec FloatProofs FloatProofs2 FloatLib LibmProofs3.
Open Scope Z_scope.

Notation bp := (bpow radix2).

(** * Cells *)
Definition cell (h : Z) (X Y : R) : Prop := forall k, Rcompare X (IZR k * bp h) = Rcompare Y (IZR k * bp h).

Lemma cell_refl h X : cell h X X. Proof. intros k. reflexivity. Qed.
Lemma cell_sym h X Y : cell h X Y -> cell h Y X. Proof. intros H k. symmetry. apply H. Qed.
Lemma cell_trans h X Y Z : cell h X Y -> cell h Y Z -> cell h X Z. Proof. intros H1 H2 k. rewrite H1. apply H2. Qed.
Lemma bp_split h h' : h <= h' -> bp h' = (IZR (2 ^ (h' - h)) * bp h)%R.
Proof. intros H. change 2 with (radix2 : Z). rewrite IZR_Zpower by lia. rewrite <- bpow_plus. f_equal. lia. Qed.
Lemma cell_weaken h h' X Y : h <= h' -> cell h X Y -> cell h' X Y.
Proof. intros L H k. rewrite (bp_split h h' L). rewrite <- Rmult_assoc, <- mult_IZR. apply H. Qed.
Lemma cell_add h X Y j : cell h X Y -> cell h (X + IZR j * bp h) (Y + IZR j * bp h).
Proof.
  intros H k. replace (IZR k * bp h)%R with (IZR (k - j) * bp h + IZR j * bp h)%R by (rewrite minus_IZR; ring).
  rewrite !Rcompare_plus_r. apply H.
Qed.
Lemma cell_opp h X Y : cell h X Y -> cell h (- X) (- Y).
Proof.
  intros H k. replace (IZR k * bp h)%R with (- (IZR (- k) * bp h))%R by (rewrite opp_IZR; ring).
  rewrite !Rcompare_opp, (Rcompare_sym _ X), (Rcompare_sym _ Y), H. reflexivity.
Qed.
Lemma cell_scale h s X Y : cell h X Y -> cell (h + s) (X * bp s) (Y * bp s).
Proof.
  intros H k. rewrite bpow_plus, <- Rmult_assoc. rewrite !Rcompare_mult_r by apply bpow_gt_0. apply H.
Qed.
Lemma cell_le h X Y k : cell h X Y -> (IZR k * bp h <= X <-> IZR k * bp h <= Y)%R.
Proof.
  intros H. specialize (H k). split; intros L.
  - apply Rnot_lt_le. intros C. apply Rcompare_Lt in C. rewrite C in H. apply Rcompare_Lt_inv in H. lra.
  - apply Rnot_lt_le. intros C. apply Rcompare_Lt in C. rewrite C in H. symmetry in H. apply Rcompare_Lt_inv in H. lra.
Qed.
Lemma cell_lt h X Y k : cell h X Y -> (X < IZR k * bp h <-> Y < IZR k * bp h)%R.
Proof. intros H. pose proof (cell_le h X Y k H). split; intros; apply Rnot_le_lt; intros C; apply H0 in C; lra. Qed.
Lemma cell_eq h X k : cell h X (IZR k * bp h) -> X = (IZR k * bp h)%R.
Proof. intros H. specialize (H k). rewrite (Rcompare_Eq (IZR k * bp h)) in H by reflexivity. apply Rcompare_Eq_inv, H. Qed.
Lemma cell_between h X Y k : (IZR k * bp h < X < IZR (k + 1) * bp h)%R -> (IZR k * bp h < Y < IZR (k + 1) * bp h)%R -> cell h X Y.
Proof.
  intros HX HY j. pose proof (bpow_gt_0 radix2 h) as P. destruct (Z_lt_ge_dec k j) as [L|L].
  - assert (IZR (k + 1) * bp h <= IZR j * bp h)%R by (apply Rmult_le_compat_r; [lra|apply IZR_le; lia]). rewrite !Rcompare_Lt by lra. reflexivity.
  - assert (IZR j * bp h <= IZR k * bp h)%R by (apply Rmult_le_compat_r; [lra|apply IZR_le; lia]). rewrite !Rcompare_Gt by lra. reflexivity.
Qed.
Lemma cell_floor X Y : cell 0 X Y -> Zfloor X = Zfloor Y.
Proof.
  intros H. assert (forall k X Y, cell 0 X Y -> (IZR k <= X)%R -> (IZR k <= Y)%R) as K.
  { intros k X' Y' C L. pose proof (cell_le 0 X' Y' k C) as E. cbn [bpow] in E. rewrite Rmult_1_r in E. apply E, L. }
  apply Z.le_antisymm; apply Zfloor_lub; [apply K with X; [exact H|apply Zfloor_lb]|apply K with Y; [apply cell_sym, H|apply Zfloor_lb]].
Qed.
(** Rounding to an integer only looks at comparisons with half integers. *)
Lemma cell_near0 X Y : cell (-1) X Y -> ZnearestE X = ZnearestE Y.
Proof.
  intros H. assert (Zfloor X = Zfloor Y) as F by (apply cell_floor, cell_weaken with (-1); [lia|exact H]).
  assert (Zceil X = Zceil Y) as C. { unfold Zceil. f_equal. apply cell_floor, cell_opp, cell_weaken with (-1); [lia|exact H]. }
  unfold Znearest. rewrite F, C. replace (Rcompare (X - IZR (Zfloor Y)) (/ 2)) with (Rcompare (Y - IZR (Zfloor Y)) (/ 2)); [reflexivity|].
  specialize (H (2 * Zfloor Y + 1)). change (bp (-1)) with (/ 2)%R in H.
  replace (IZR (2 * Zfloor Y + 1) * / 2)%R with (/ 2 + IZR (Zfloor Y))%R in H by (rewrite plus_IZR, mult_IZR; cbn; lra).
  rewrite <- (Rcompare_plus_r (IZR (Zfloor Y)) (Y - _)), <- (Rcompare_plus_r (IZR (Zfloor Y)) (X - _)).
  replace (X - IZR (Zfloor Y) + IZR (Zfloor Y))%R with X by ring. replace (Y - IZR (Zfloor Y) + IZR (Zfloor Y))%R with Y by ring. symmetry. exact H.
Qed.
Lemma cell_near h k X Y : cell h X Y -> h + 1 <= k -> ZnearestE (X * bp (- k)) = ZnearestE (Y * bp (- k)).
Proof. intros H L. apply cell_near0, cell_weaken with (h + - k); [lia|]. apply cell_scale, H. Qed.

(** Truncation with a sticky bit. *)
Lemma cell_stkr R s : 0 <= s -> 0 <= R -> cell 1 (IZR R * bp (- s)) (IZR (stkr R s)).
Proof.
  intros Hs HR. pose proof (pow2_pos s Hs) as P. unfold stkr. rewrite lor_b2z by (apply Z.div_pos; lia).
  pose proof (Z.div_mod R (2 ^ s) ltac:(lia)) as D. pose proof (Z.mod_pos_bound R (2 ^ s) P) as M.
  assert (IZR R * bp (- s) = IZR (R / 2 ^ s) + IZR (R mod 2 ^ s) / IZR (2 ^ s))%R as E.
  { rewrite D at 1. rewrite plus_IZR, mult_IZR, bpow_opp. change 2 with (radix2 : Z). rewrite IZR_Zpower by lia. field. apply Rgt_not_eq, bpow_gt_0. }
  set (q := R / 2 ^ s) in *. destruct (Z.eqb_spec (R mod 2 ^ s) 0) as [Z0|Z0]; cbn [negb].
  - rewrite E, Z0. unfold Rdiv. rewrite Rmult_0_l, Rplus_0_r. apply cell_refl.
  - assert (0 < IZR (R mod 2 ^ s) / IZR (2 ^ s) < 1)%R as F.
    { assert (0 < IZR (2 ^ s))%R by (apply IZR_lt; lia). split; [apply Rdiv_lt_0_compat; [apply IZR_lt; lia|assumption]|]. apply Rmult_lt_reg_r with (IZR (2 ^ s)); [assumption|]. unfold Rdiv. rewrite Rmult_assoc, Rinv_l, Rmult_1_r, Rmult_1_l by lra. apply IZR_lt; lia. }
    pose proof (Z.div_mod q 2 ltac:(lia)) as D2. pose proof (Z.mod_pos_bound q 2 ltac:(lia)) as M2.
    apply cell_between with (q / 2); rewrite ?E; change (bp 1) with 2%R; rewrite plus_IZR;
      (assert (IZR q = 2 * IZR (q / 2) + IZR (q mod 2))%R as Q by (rewrite <- mult_IZR, <- plus_IZR, <- D2; reflexivity));
      (assert (0 <= IZR (q mod 2) <= 1)%R by (split; apply IZR_le; lia)).
    + rewrite Q. split; lra.
    + replace (q + 1 - q mod 2) with (2 * (q / 2) + 1) by lia. rewrite plus_IZR, mult_IZR. split; lra.
Qed.
Lemma stkr_pos R s : 0 <= s -> 0 <= R -> R / 2 ^ s <= stkr R s <= R / 2 ^ s + 1.
Proof.
  intros. unfold stkr. rewrite lor_b2z by (apply Z.div_pos; [lia|apply pow2_pos; lia]). destruct (negb _); [|lia]. pose proof (Z.mod_pos_bound (R / 2 ^ s) 2). lia.
Qed.

(** * Rounding *)
Section Fmt.
Context (f : fmt) (W : wf f).
Notation fexp := (FLT_exp (emin f) (prec f)).

Lemma rne_eq n X : (bp (n - 1) <= X < bp n)%R -> rne f X = (IZR (ZnearestE (X * bp (- fexp n))) * bp (fexp n))%R.
Proof using.
  intros H. unfold rne, round, scaled_mantissa, cexp. assert (mag radix2 X = n :> Z) as ->; [|reflexivity].
  apply mag_unique. rewrite Rabs_pos_eq; [exact H|]. pose proof (bpow_ge_0 radix2 (n - 1)). lra.
Qed.
Lemma scale_range n e X : (bp (n - 1) <= X < bp n)%R -> (bp (n + e - 1) <= X * bp e < bp (n + e))%R.
Proof using.
  intros H. replace (n + e - 1) with (n - 1 + e) by lia. rewrite !bpow_plus. pose proof (bpow_gt_0 radix2 e). split; [apply Rmult_le_compat_r; lra|apply Rmult_lt_compat_r; lra].
Qed.
Lemma rne_cell n h e X Y : (bp (n - 1) <= X < bp n)%R -> (bp (n - 1) <= Y < bp n)%R -> cell h X Y -> h + 1 + e <= fexp (n + e) ->
  rne f (X * bp e) = rne f (Y * bp e).
Proof using.
  intros HX HY HC L. rewrite !(rne_eq (n + e)) by (apply scale_range; assumption). f_equal. f_equal.
  rewrite !Rmult_assoc, <- bpow_plus. replace (e + - fexp (n + e)) with (- (fexp (n + e) - e)) by lia. apply cell_near with h; [exact HC|lia].
Qed.
Lemma rne_shift n e X : (bp (n - 1) <= X < bp n)%R -> emin f <= n - prec f -> emin f <= n + e - prec f -> rne f (X * bp e) = (rne f X * bp e)%R.
Proof using.
  intros HX H1 H2. rewrite (rne_eq (n + e)) by (apply scale_range; assumption). rewrite (rne_eq n) by assumption.
  unfold FLT_exp. rewrite !Z.max_l by lia. rewrite !Rmult_assoc, <- !bpow_plus. replace (e + - (n + e - prec f)) with (- (n - prec f)) by lia. replace (n - prec f + e) with (n + e - prec f) by lia. reflexivity.
Qed.
Lemma rne_idem X : rne f (rne f X) = rne f X.
Proof using W. assert (Valid_exp fexp) by (apply FLT_exp_valid; unfold Prec_gt_0, prec; destruct W; lia). unfold rne. apply round_generic; [auto with typeclass_instances|]. apply generic_format_round; auto with typeclass_instances. Qed.
Lemma rne_int q k : Z.abs q <= 2 ^ prec f -> emin f <= k -> rne f (IZR q * bp k) = (IZR q * bp k)%R.
Proof using W.
  intros Hq Hk. assert (Valid_exp fexp) by (apply FLT_exp_valid; unfold Prec_gt_0, prec; destruct W; lia).
  unfold rne. apply round_generic; [auto with typeclass_instances|].
  destruct (Z.eq_dec (Z.abs q) (2 ^ prec f)) as [E|E].
  - assert (IZR q * bp k = bp (prec f + k) \/ IZR q * bp k = - bp (prec f + k))%R as [->| ->].
    { rewrite bpow_plus, <- (IZR_Zpower radix2 (prec f)) by (unfold prec; destruct W; lia). change (radix2 : Z) with 2. rewrite <- E. destruct (Z.abs_eq_or_opp q) as [-> | ->]; [left; reflexivity|right; rewrite opp_IZR; ring]. }
    + apply generic_format_bpow. unfold FLT_exp. unfold prec in *. destruct W. lia.
    + apply generic_format_opp, generic_format_bpow. unfold FLT_exp. unfold prec in *. destruct W. lia.
  - apply generic_format_FLT. exists (Float radix2 q k); [reflexivity| |exact Hk]. cbn [Fnum]. change (radix2 : Z) with 2. lia.
Qed.
Lemma rounds_ext zs zs' x y r : rounds_to f zs x r -> rne f x = rne f y -> Rcompare x 0 = Rcompare y 0 -> (y = 0%R -> zs = zs') -> rounds_to f zs' y r.
Proof using.
  intros (A & B & C) E1 E2 Hz. rewrite E2 in B. rewrite E1 in C. split; [exact A|]. split; [|exact C]. rewrite B. destruct (Rcompare_spec y 0); auto.
Qed.
Lemma Rcmp_signed (s : bool) x y : (0 < x)%R -> (0 < y)%R -> Rcompare (if s then - x else x) 0 = Rcompare (if s then - y else y) 0.
Proof using. intros. destruct s; [rewrite !Rcompare_Lt by lra|rewrite !Rcompare_Gt by lra]; reflexivity. Qed.
Lemma rne_signed (s : bool) x : rne f (if s then - x else x) = (if s then - rne f x else rne f x)%R.
Proof using. destruct s; [apply rne_opp|reflexivity]. Qed.
End Fmt.
