(** Bounding the rounding error of straight-line floating-point code.

    [aev] evaluates an expression on triples (lower bound, upper bound, error bound) in
    fixed point, [aev_sound] transfers the bounds to every IEEE implementation of the
    operators. This file is proof machinery; it models no code. *)
From Coq Require Import ZArith Reals Bool List Lia Lra Psatz.
From Flocq Require Import Core.
From Verif Require Import FloatModel FloatSpec FloatConvSpec LibmModel LibmSpec.
Open Scope Z_scope.

Section Fix.
(** Fixed point: the integer [n] stands for n / 2^P. *)
Context (P : Z) (HP : 0 <= P).
Definition fx (n : Z) : R := (IZR n * bpow radix2 (- P))%R.

Lemma fx_pos : (0 < bpow radix2 (- P))%R. Proof. apply bpow_gt_0. Qed.
Lemma fx_add a b : fx (a + b) = (fx a + fx b)%R. Proof. unfold fx. rewrite plus_IZR. ring. Qed.
Lemma fx_sub a b : fx (a - b) = (fx a - fx b)%R. Proof. unfold fx. rewrite minus_IZR. ring. Qed.
Lemma fx_opp a : fx (- a) = (- fx a)%R. Proof. unfold fx. rewrite opp_IZR. ring. Qed.
Lemma fx_0 : fx 0 = 0%R. Proof. unfold fx. ring. Qed.
Lemma fx_le a b : a <= b -> (fx a <= fx b)%R.
Proof. intros H. unfold fx. apply Rmult_le_compat_r; [apply bpow_ge_0|apply IZR_le, H]. Qed.
Lemma fx_lt a b : a < b -> (fx a < fx b)%R.
Proof. intros H. unfold fx. apply Rmult_lt_compat_r; [apply bpow_gt_0|apply IZR_lt, H]. Qed.
Lemma fx_max a b : fx (Z.max a b) = Rmax (fx a) (fx b).
Proof.
  destruct (Z.max_spec a b) as [[H ->]|[H ->]].
  - rewrite Rmax_right; [reflexivity|apply fx_le; lia].
  - rewrite Rmax_left; [reflexivity|apply fx_le; lia].
Qed.
Lemma fx_nonneg a : 0 <= a -> (0 <= fx a)%R. Proof. intros H. rewrite <- fx_0. apply fx_le, H. Qed.
Lemma fx_pow k : 0 <= k -> fx (2 ^ k) = bpow radix2 (k - P).
Proof.
  intros H. unfold fx. replace (k - P) with (k + - P) by ring. rewrite bpow_plus. f_equal.
  rewrite <- (IZR_Zpower radix2) by exact H. reflexivity.
Qed.
Lemma fx_P a : fx (a * 2 ^ P) = IZR a.
Proof.
  unfold fx. rewrite mult_IZR. change (IZR (2 ^ P)) with (IZR (Zpower radix2 P)). rewrite IZR_Zpower by lia.
  rewrite Rmult_assoc, <- bpow_plus. replace (P + - P) with 0 by ring. cbn. ring.
Qed.

(** Quotients by 2^P rounded down and up. *)
Definition fl (n : Z) : Z := Z.shiftr n P.
Definition cl (n : Z) : Z := - Z.shiftr (- n) P.
Lemma fl_le n : (fx (fl n) <= fx n * bpow radix2 (- P))%R.
Proof.
  unfold fl. rewrite Z.shiftr_div_pow2 by exact HP. assert (n / 2 ^ P * 2 ^ P <= n) by (assert (0 < 2 ^ P) by (apply Z.pow_pos_nonneg; lia); pose proof (Z.mul_div_le n (2 ^ P)); lia).
  apply fx_le in H. unfold fx at 1 in H. rewrite mult_IZR in H.
  change (IZR (2 ^ P)) with (IZR (Zpower radix2 P)) in H. rewrite IZR_Zpower in H by lia.
  pose proof fx_pos. unfold fx at 1. apply Rmult_le_compat_r with (r := bpow radix2 (- P)) in H; [|lra].
  refine (Rle_trans _ _ _ _ H). apply Req_le. rewrite (Rmult_assoc _ (bpow radix2 P)). rewrite <- (bpow_plus _ P). replace (P + - P) with 0 by ring. cbn [bpow]. ring.
Qed.
Lemma cl_ge n : (fx n * bpow radix2 (- P) <= fx (cl n))%R.
Proof. unfold cl. rewrite fx_opp. pose proof (fl_le (- n)) as H. unfold fl in H. rewrite fx_opp in H. lra. Qed.
Lemma fx_mul a b : (fx a * fx b)%R = (fx (a * b) * bpow radix2 (- P))%R.
Proof. unfold fx. rewrite mult_IZR. ring. Qed.

(** Interval product. *)
Definition ibox (l h l' h' : Z) : Z * Z :=
  if 0 <=? l then
    if 0 <=? l' then (l * l', h * h') else if h' <=? 0 then (h * l', l * h') else (h * l', h * h')
  else if h <=? 0 then
    if 0 <=? l' then (l * h', h * l') else if h' <=? 0 then (h * h', l * l') else (l * h', l * l')
  else
    if 0 <=? l' then (l * h', h * h') else if h' <=? 0 then (h * l', l * l') else (Z.min (l * h') (h * l'), Z.max (l * l') (h * h')).
Lemma ibox_ok l h l' h' : l <= h -> l' <= h' -> let m := fst (ibox l h l' h') in let M := snd (ibox l h l' h') in
  (m <= l * l' /\ m <= l * h' /\ m <= h * l' /\ m <= h * h') /\ (l * l' <= M /\ l * h' <= M /\ h * l' <= M /\ h * h' <= M).
Proof.
  intros A B. unfold ibox.
  destruct (Z.leb_spec 0 l); [|destruct (Z.leb_spec h 0)]; (destruct (Z.leb_spec 0 l'); [|destruct (Z.leb_spec h' 0)]); cbn [fst snd];
    cbv zeta; repeat split; try apply Z.min_case_strong; try apply Z.max_case_strong; intros; nia.
Qed.
Definition imul (l h l' h' : Z) : Z * Z := let b := ibox l h l' h' in (fl (fst b), cl (snd b)).
Lemma Rmul_box (l h l' h' a b m M : R) : (l <= a <= h)%R -> (l' <= b <= h')%R ->
  (m <= l * l' -> m <= l * h' -> m <= h * l' -> m <= h * h' ->
   l * l' <= M -> l * h' <= M -> h * l' <= M -> h * h' <= M -> m <= a * b <= M)%R.
Proof.
  intros A B m1 m2 m3 m4 M1 M2 M3 M4.
  assert (X : (m <= a * l' <= M)%R).
  { destruct (Rle_lt_dec 0 l') as [q|q].
    - split; [apply Rle_trans with (l * l')%R; [exact m1|apply Rmult_le_compat_r; lra]|
              apply Rle_trans with (h * l')%R; [apply Rmult_le_compat_r; lra|exact M3]].
    - split; [apply Rle_trans with (h * l')%R; [exact m3|]|apply Rle_trans with (l * l')%R; [|exact M1]];
      rewrite !(Rmult_comm _ l'); apply Rmult_le_compat_neg_l; lra. }
  assert (Y : (m <= a * h' <= M)%R).
  { destruct (Rle_lt_dec 0 h') as [q|q].
    - split; [apply Rle_trans with (l * h')%R; [exact m2|apply Rmult_le_compat_r; lra]|
              apply Rle_trans with (h * h')%R; [apply Rmult_le_compat_r; lra|exact M4]].
    - split; [apply Rle_trans with (h * h')%R; [exact m4|]|apply Rle_trans with (l * h')%R; [|exact M2]];
      rewrite !(Rmult_comm _ h'); apply Rmult_le_compat_neg_l; lra. }
  destruct (Rle_lt_dec 0 a) as [q|q].
  - split; [apply Rle_trans with (a * l')%R; [apply X|apply Rmult_le_compat_l; lra]|
            apply Rle_trans with (a * h')%R; [apply Rmult_le_compat_l; lra|apply Y]].
  - split; [apply Rle_trans with (a * h')%R; [apply Y|apply Rmult_le_compat_neg_l; lra]|
            apply Rle_trans with (a * l')%R; [apply Rmult_le_compat_neg_l; lra|apply X]].
Qed.
Lemma imul_ok l h l' h' a b : (fx l <= a <= fx h)%R -> (fx l' <= b <= fx h')%R ->
  (fx (fst (imul l h l' h')) <= a * b <= fx (snd (imul l h l' h')))%R.
Proof.
  intros A B. unfold imul. cbv zeta. cbn [fst snd].
  assert (LL : forall u v (r : R), (fx u <= r <= fx v)%R -> u <= v). { intros u v r Hr. apply Z.le_ngt. intros c. apply fx_lt in c. lra. }
  destruct (ibox_ok l h l' h' (LL _ _ _ A) (LL _ _ _ B)) as ((a1 & a2 & a3 & a4) & b1 & b2 & b3 & b4).
  set (mn := fst (ibox l h l' h')) in *. set (mx := snd (ibox l h l' h')) in *.
  pose proof (fl_le mn) as F. pose proof (cl_ge mx) as G. pose proof fx_pos as pp.
  assert (forall u v w, w <= u * v -> (fx w * bpow radix2 (- P) <= fx u * fx v)%R) as LE.
  { intros u v w q. rewrite fx_mul. apply Rmult_le_compat_r; [lra|apply fx_le, q]. }
  assert (forall u v w, u * v <= w -> (fx u * fx v <= fx w * bpow radix2 (- P))%R) as GE.
  { intros u v w q. rewrite fx_mul. apply Rmult_le_compat_r; [lra|apply fx_le, q]. }
  assert (fx mn * bpow radix2 (- P) <= a * b <= fx mx * bpow radix2 (- P))%R.
  { apply Rmul_box with (fx l) (fx h) (fx l') (fx h'); auto. }
  lra.
Qed.

(** Interval inverse, for an interval that does not contain 0. *)
Definition iinv (l h : Z) : Z * Z := (2 ^ (2 * P) / h, - (- 2 ^ (2 * P) / l)).
Lemma fx_2P : fx (2 ^ (2 * P)) = bpow radix2 P. Proof. rewrite fx_pow by lia. f_equal. lia. Qed.
Lemma inv_pos_le d q : 0 < d -> q * d <= 2 ^ (2 * P) -> (fx q <= / fx d)%R.
Proof.
  intros Hd H. pose proof (fx_lt 0 d Hd) as p. rewrite fx_0 in p. pose proof fx_pos as pp.
  apply Rmult_le_reg_r with (fx d); [exact p|]. rewrite Rinv_l by lra. rewrite fx_mul.
  apply fx_le in H. rewrite fx_2P in H. apply Rmult_le_compat_r with (r := bpow radix2 (- P)) in H; [|lra].
  rewrite <- bpow_plus in H. replace (P + - P) with 0 in H by ring. exact H.
Qed.
Lemma inv_pos_ge d q : 0 < d -> 2 ^ (2 * P) <= q * d -> (/ fx d <= fx q)%R.
Proof.
  intros Hd H. pose proof (fx_lt 0 d Hd) as p. rewrite fx_0 in p. pose proof fx_pos as pp.
  apply Rmult_le_reg_r with (fx d); [exact p|]. rewrite Rinv_l by lra. rewrite fx_mul.
  apply fx_le in H. rewrite fx_2P in H. apply Rmult_le_compat_r with (r := bpow radix2 (- P)) in H; [|lra].
  rewrite <- bpow_plus in H. replace (P + - P) with 0 in H by ring. exact H.
Qed.
Lemma iinv_ok l h a : (0 < l \/ h < 0) -> (fx l <= a <= fx h)%R -> (fx (fst (iinv l h)) <= / a <= fx (snd (iinv l h)))%R.
Proof.
  intros S [A B]. cbn [iinv fst snd].
  assert (lh : l <= h).
  { apply Z.le_ngt. intros c. apply fx_lt in c. lra. }
  assert (D : forall x d, d <> 0 -> x = d * (x / d) + x mod d) by (intros; apply Z.div_mod; assumption).
  destruct S as [S|S].
  - pose proof (fx_lt 0 l S) as p. rewrite fx_0 in p. split.
    + apply Rle_trans with (/ fx h)%R.
      * apply inv_pos_le; [lia|]. pose proof (Z.mul_div_le (2 ^ (2 * P)) h ltac:(lia)). lia.
      * apply Rinv_le; lra.
    + apply Rle_trans with (/ fx l)%R; [apply Rinv_le; lra|]. apply inv_pos_ge; [lia|].
      pose proof (Z.mul_div_le (- 2 ^ (2 * P)) l ltac:(lia)). lia.
  - pose proof (fx_lt h 0 S) as p. rewrite fx_0 in p.
    assert (I : forall u v, (u <= v < 0)%R -> (/ v <= / u)%R).
    { intros u v [q1 q2]. apply Ropp_le_cancel. rewrite <- !Rinv_opp. apply Rinv_le; lra. }
    split.
    + apply Rle_trans with (/ fx h)%R; [|apply I; lra].
      replace (fx h) with (- fx (- h))%R by (rewrite fx_opp; ring). rewrite Rinv_opp.
      replace (fx (2 ^ (2 * P) / h)) with (- fx (- (2 ^ (2 * P) / h)))%R by (rewrite fx_opp; ring). apply Ropp_le_contravar.
      apply inv_pos_ge; [lia|]. pose proof (Z.mul_div_le (2 ^ (2 * P)) h) as _. 
      pose proof (D (2 ^ (2 * P)) h ltac:(lia)). pose proof (Z.mod_neg_bound (2 ^ (2 * P)) h S). lia.
    + apply Rle_trans with (/ fx l)%R; [apply I; lra|].
      replace (fx l) with (- fx (- l))%R by (rewrite fx_opp; ring). rewrite Rinv_opp.
      rewrite (fx_opp (- 2 ^ (2 * P) / l)). apply Ropp_le_contravar.
      apply inv_pos_le; [lia|].
      pose proof (D (- 2 ^ (2 * P)) l ltac:(lia)). pose proof (Z.mod_neg_bound (- 2 ^ (2 * P)) l ltac:(lia)). lia.
Qed.

(** * Expressions *)
Inductive ex := Vr (i : nat) | K (c : Z) | Add (a b : ex) | Sub (a b : ex) | Mul (a b : ex) | Div (a b : ex).

Section Fmt.
Context (f : fmt).

(** Value on floats. *)
Fixpoint fval (o : fops) (env : list Z) (e : ex) : Z :=
  match e with
  | Vr i => nth i env 0
  | K c => c
  | Add a b => o_add o (fval o env a) (fval o env b)
  | Sub a b => o_sub o (fval o env a) (fval o env b)
  | Mul a b => o_mul o (fval o env a) (fval o env b)
  | Div a b => o_div o (fval o env a) (fval o env b)
  end.
(** Value on real numbers, without rounding. *)
Fixpoint rval (env : list R) (e : ex) : R :=
  match e with
  | Vr i => nth i env 0%R
  | K c => value f c
  | Add a b => (rval env a + rval env b)%R
  | Sub a b => (rval env a - rval env b)%R
  | Mul a b => (rval env a * rval env b)%R
  | Div a b => (rval env a / rval env b)%R
  end.

Record ab := Ab { lo : Z; hi : Z; er : Z }.
Definition okv (a : ab) (x : Z) (r : R) : Prop :=
  is_float f x /\ is_finite f x /\ (fx (lo a) <= value f x <= fx (hi a))%R /\ (Rabs (value f x - r) <= fx (er a))%R.

(** Half an ulp of the numbers of magnitude at most fx M. *)
Definition half_ulp (M : Z) : Z :=
  if M <=? 0 then 0
  else let k := Z.max (Z.log2 M + 1 - P - prec f) (emin f) - 1 + P in
       if k <? 0 then 1 else 2 ^ k.
Definition mx (l h : Z) : Z := Z.max (Z.abs l) (Z.abs h).
Definition rnd (l h e : Z) : option ab :=
  let M := mx l h in
  let u := half_ulp M in
  if M <? 2 ^ (P + emax f - 2) then Some (Ab (l - u) (h + u) (e + u)) else None.

(** Bounds of a constant. *)
Definition kbits (c : Z) : option ab :=
  let e := (c / 2 ^ fs f) mod 2 ^ (fb f - 1 - fs f) in
  let m := c mod 2 ^ fs f in
  if (0 <=? c) && (c <? 2 ^ fb f) && negb (e =? 2 ^ (fb f - 1 - fs f) - 1) then
    let sg := Z.odd (c / 2 ^ (fb f - 1)) in
    let mm := if e =? 0 then m else 2 ^ fs f + m in
    let q := (if e =? 0 then emin f else e - bias f - fs f) + P in
    let sm := if sg then - mm else mm in
    if 0 <=? q then Some (Ab (sm * 2 ^ q) (sm * 2 ^ q) 0) else Some (Ab (sm / 2 ^ (- q)) (- (- sm / 2 ^ (- q))) 0)
  else None.

Fixpoint aev (env : list ab) (e : ex) : option ab :=
  match e with
  | Vr i => nth_error env i
  | K c => kbits c
  | Add a b =>
    match aev env a, aev env b with
    | Some x, Some y => rnd (lo x + lo y) (hi x + hi y) (er x + er y)
    | _, _ => None
    end
  | Sub a b =>
    match aev env a, aev env b with
    | Some x, Some y => rnd (lo x - hi y) (hi x - lo y) (er x + er y)
    | _, _ => None
    end
  | Mul a b =>
    match aev env a, aev env b with
    | Some x, Some y =>
      let p := imul (lo x) (hi x) (lo y) (hi y) in
      rnd (fst p) (snd p) (cl (mx (lo x) (hi x) * er y) + cl ((mx (lo y) (hi y) + er y) * er x))
    | _, _ => None
    end
  | Div a b =>
    match aev env a, aev env b with
    | Some x, Some y =>
      let l := lo y - er y in
      let h := hi y + er y in
      if (0 <? l) || (h <? 0) then
        let iv := iinv (lo y) (hi y) in
        let iw := iinv l h in
        let p := imul (lo x) (hi x) (fst iv) (snd iv) in
        let Bi := mx (fst iw) (snd iw) in
        rnd (fst p) (snd p) (cl (Bi * (er x + cl (mx (fst p) (snd p) * er y))))
      else None
    | _, _ => None
    end
  end.

Context (o : fops) (Ho : ieee_ops f o) (Wp : 0 < prec f) (We : emin f <= 0) (Wm : 2 <= emax f).

Lemma half_ulp_nonneg M : 0 <= half_ulp M.
Proof. unfold half_ulp. destruct (M <=? 0); [lia|]. cbv zeta. destruct (_ <? 0); [lia|]. apply Z.pow_nonneg; lia. Qed.
Lemma mx_ok l h r : (fx l <= r <= fx h)%R -> (Rabs r <= fx (mx l h))%R.
Proof.
  intros [A B]. unfold mx. apply Rabs_le. split.
  - rewrite <- fx_opp. apply Rle_trans with (fx l); [apply fx_le; lia|exact A].
  - apply Rle_trans with (fx h); [exact B|apply fx_le; lia].
Qed.

Lemma rne_error (E : Z) (v : R) : (Rabs v < bpow radix2 E)%R ->
  (Rabs (rne f v - v) <= / 2 * bpow radix2 (Z.max (E - prec f) (emin f)))%R.
Proof.
  intros H. unfold rne.
  assert (Valid_exp (FLT_exp (emin f) (prec f))) as VE by (apply FLT_exp_valid; exact Wp).
  eapply Rle_trans; [apply error_le_half_ulp; exact VE|].
  destruct (Req_dec v 0) as [->|nz].
  { rewrite ulp_FLT_0 by exact Wp. apply Rmult_le_compat_l; [lra|]. apply bpow_le. lia. }
  rewrite ulp_neq_0 by exact nz. apply Rmult_le_compat_l; [lra|]. apply bpow_le. unfold cexp, FLT_exp.
  pose proof (mag_le_bpow radix2 v E nz H). lia.
Qed.
Lemma rne_0 : rne f 0 = 0%R. Proof. unfold rne. apply round_0. auto with typeclass_instances. Qed.
Lemma half_ulp_ok M v : (Rabs v <= fx M)%R -> (Rabs (rne f v - v) <= fx (half_ulp M))%R.
Proof.
  intros H. unfold half_ulp. destruct (Z.leb_spec M 0) as [c|c].
  - apply fx_le in c. rewrite fx_0 in *. assert (v = 0%R) as ->.
    { pose proof (Rabs_pos v). destruct (Req_dec v 0) as [e|e]; [exact e|]. apply Rabs_pos_lt in e. lra. }
    rewrite rne_0. rewrite Rminus_0_r, Rabs_R0. lra.
  - assert (Rabs v < bpow radix2 (Z.log2 M + 1 - P))%R as L.
    { eapply Rle_lt_trans; [exact H|]. rewrite <- fx_pow by (pose proof (Z.log2_nonneg M); lia).
      apply fx_lt. pose proof (Z.log2_spec M c). rewrite <- Z.add_1_r in H0. lia. }
    apply rne_error in L. eapply Rle_trans; [exact L|].
    change (/ 2)%R with (bpow radix2 (-1)). rewrite <- bpow_plus. cbv zeta.
    destruct (Z.ltb_spec (Z.max (Z.log2 M + 1 - P - prec f) (emin f) - 1 + P) 0) as [d|d].
    + change (fx 1) with (fx (2 ^ 0)). rewrite fx_pow by lia. apply bpow_le. lia.
    + rewrite fx_pow by exact d. apply bpow_le. lia.
Qed.

Lemma rnd_ok zs v x r l h e a : rounds_to f zs v x -> (fx l <= v <= fx h)%R -> (Rabs (v - r) <= fx e)%R ->
  rnd l h e = Some a -> okv a x r.
Proof.
  intros (F & _ & Rn) A B. unfold rnd. cbv zeta. destruct (Z.ltb_spec (mx l h) (2 ^ (P + emax f - 2))) as [c|c]; [|discriminate].
  intros q. injection q as <-. pose proof (mx_ok l h v A) as M. pose proof (half_ulp_ok _ _ M) as U.
  set (u := half_ulp (mx l h)) in *.
  rewrite Rlt_bool_true in Rn.
  2:{ assert (Rabs v <= bpow radix2 (emax f - 2))%R.
      { eapply Rle_trans; [exact M|]. replace (emax f - 2) with (P + emax f - 2 - P) by ring. rewrite <- fx_pow by lia. apply fx_le. lia. }
      assert (Rabs (rne f v) <= bpow radix2 (emax f - 2))%R.
      { unfold rne. apply abs_round_le_generic; [apply FLT_exp_valid; exact Wp|auto with typeclass_instances| |assumption].
        apply generic_format_bpow. unfold FLT_exp. lia. }
      eapply Rle_lt_trans; [eassumption|]. apply bpow_lt. lia. }
  destruct Rn as [Fi Vx]. unfold okv. cbn [lo hi er]. split; [exact F|split; [exact Fi|]]. rewrite Vx.
  rewrite fx_sub, !fx_add. clearbody u. apply Rabs_le_inv in U. split; [lra|].
  replace (rne f v - r)%R with ((v - r) + (rne f v - v))%R by ring. eapply Rle_trans; [apply Rabs_triang|].
  apply Rplus_le_compat; [exact B|]. apply Rabs_le, U.
Qed.

Lemma kbits_ok c a : kbits c = Some a -> okv a c (value f c).
Proof.
  unfold kbits. cbv zeta. destruct (_ && _ && _) eqn:G; [|discriminate].
  apply andb_prop in G. destruct G as [G G3]. apply andb_prop in G. destruct G as [G1 G2].
  apply Z.leb_le in G1. apply Z.ltb_lt in G2. apply negb_true_iff, Z.eqb_neq in G3.
  fold (exp_field f c) (frac_field f c) (sign_of f c) in *.
  set (mm := if exp_field f c =? 0 then frac_field f c else 2 ^ fs f + frac_field f c).
  set (q := if exp_field f c =? 0 then emin f else exp_field f c - bias f - fs f).
  assert (Vc : value f c = (IZR (if sign_of f c then - mm else mm) * bpow radix2 q)%R).
  { unfold value. fold (exp_field f c) (frac_field f c). unfold mm, q. destruct (exp_field f c =? 0), (sign_of f c); rewrite ?opp_IZR; ring. }
  set (sm := if sign_of f c then - mm else mm) in *.
  assert (Z0 : forall r : R, (Rabs (r - r) <= fx 0)%R) by (intros; rewrite Rminus_diag_eq by reflexivity; rewrite Rabs_R0, fx_0; lra).
  destruct (Z.leb_spec 0 (q + P)) as [d|d]; intros E; injection E as <-; unfold okv; cbn [lo hi er].
  - split; [split; assumption|]. split; [exact G3|]. split; [|apply Z0].
    assert (fx (sm * 2 ^ (q + P)) = value f c) as ->; [|lra].
    rewrite Vc. unfold fx. rewrite mult_IZR, Rmult_assoc. f_equal. change (2 ^ (q + P)) with (Zpower radix2 (q + P)).
    rewrite IZR_Zpower by exact d. rewrite <- bpow_plus. f_equal. ring.
  - split; [split; assumption|]. split; [exact G3|]. split; [|apply Z0].
    assert (FX : forall n, (IZR n * bpow radix2 q)%R = (fx n * bpow radix2 (- (- (q + P))))%R).
    { intros n. unfold fx. rewrite Rmult_assoc, <- bpow_plus. do 2 f_equal. ring. }
    assert (X : forall n, (fx (n / 2 ^ (- (q + P))) <= IZR n * bpow radix2 q)%R).
    { intros n. rewrite FX. set (w := - (q + P)) in *. assert (0 < 2 ^ w) by (apply Z.pow_pos_nonneg; lia).
      pose proof (Z.mul_div_le n (2 ^ w) ltac:(lia)) as L. apply fx_le in L.
      assert (fx (2 ^ w * (n / 2 ^ w)) = bpow radix2 w * fx (n / 2 ^ w))%R as XX.
      { unfold fx. rewrite mult_IZR. change (2 ^ w) with (Zpower radix2 w) at 1. rewrite IZR_Zpower by lia. ring. }
      rewrite XX in L. apply Rmult_le_compat_r with (r := bpow radix2 (- w)) in L; [|apply bpow_ge_0].
      refine (Rle_trans _ _ _ _ L). apply Req_le. rewrite (Rmult_comm (bpow radix2 w)), Rmult_assoc, <- bpow_plus.
      replace (w + - w) with 0 by ring. cbn [bpow]. ring. }
    rewrite Vc. split; [apply X|]. rewrite fx_opp. pose proof (X (- sm)) as X1. rewrite opp_IZR in X1. lra.
Qed.

Lemma er_nonneg a x r : okv a x r -> (0 <= fx (er a))%R.
Proof. intros (_ & _ & _ & H). eapply Rle_trans; [apply Rabs_pos|exact H]. Qed.
Lemma cl_mul a b : (fx a * fx b <= fx (cl (a * b)))%R.
Proof. rewrite fx_mul. apply cl_ge. Qed.

Lemma okv_nonzero a x r : okv a x r -> 0 < lo a \/ hi a < 0 -> ~ is_zero f x.
Proof.
  intros (F & _ & [L H] & _) S [Z1 Z2].
  assert (value f x = 0%R) as V0. { unfold value. rewrite Z1, Z2. cbn [Z.eqb]. destruct (sign_of f x); ring. }
  rewrite V0 in L, H. destruct S as [S|S]; apply fx_lt in S; rewrite fx_0 in S; lra.
Qed.

(** The bounds hold for every IEEE implementation. *)
Theorem aev_sound (aenv : list ab) (env : list Z) (renv : list R) :
  (forall i a, nth_error aenv i = Some a -> okv a (nth i env 0) (nth i renv 0%R)) ->
  forall e a, aev aenv e = Some a -> okv a (fval o env e) (rval renv e).
Proof.
  intros HE. induction e as [i|c|e1 IH1 e2 IH2|e1 IH1 e2 IH2|e1 IH1 e2 IH2|e1 IH1 e2 IH2]; intros a; cbn [aev fval rval].
  - apply HE.
  - apply kbits_ok.
  - destruct (aev aenv e1) as [x|]; [|discriminate]. destruct (aev aenv e2) as [y|]; [|discriminate].
    specialize (IH1 _ eq_refl). specialize (IH2 _ eq_refl). destruct IH1 as (F1 & N1 & B1 & E1), IH2 as (F2 & N2 & B2 & E2).
    destruct (ops_add f o Ho _ _ F1 F2) as (_ & _ & _ & _ & _ & R). specialize (R N1 N2). apply rnd_ok with (1 := R).
    + rewrite !fx_add. lra.
    + rewrite fx_add. set (u := value f _) in *. set (v := value f (fval o env e2)) in *.
      replace (u + v - (rval renv e1 + rval renv e2))%R with ((u - rval renv e1) + (v - rval renv e2))%R by ring.
      eapply Rle_trans; [apply Rabs_triang|lra].
  - destruct (aev aenv e1) as [x|]; [|discriminate]. destruct (aev aenv e2) as [y|]; [|discriminate].
    specialize (IH1 _ eq_refl). specialize (IH2 _ eq_refl). destruct IH1 as (F1 & N1 & B1 & E1), IH2 as (F2 & N2 & B2 & E2).
    destruct (ops_sub f o Ho _ _ F1 F2) as (_ & _ & _ & _ & _ & R). specialize (R N1 N2). apply rnd_ok with (1 := R).
    + rewrite !fx_sub. lra.
    + rewrite fx_add. set (u := value f _) in *. set (v := value f (fval o env e2)) in *.
      replace (u - v - (rval renv e1 - rval renv e2))%R with ((u - rval renv e1) + - (v - rval renv e2))%R by ring.
      eapply Rle_trans; [apply Rabs_triang|]. rewrite Rabs_Ropp. lra.
  - destruct (aev aenv e1) as [x|]; [|discriminate]. destruct (aev aenv e2) as [y|]; [|discriminate].
    specialize (IH1 _ eq_refl). specialize (IH2 _ eq_refl). pose proof (er_nonneg _ _ _ IH1) as p1. pose proof (er_nonneg _ _ _ IH2) as p2.
    destruct IH1 as (F1 & N1 & B1 & E1), IH2 as (F2 & N2 & B2 & E2).
    destruct (ops_mul f o Ho _ _ F1 F2) as (_ & _ & _ & _ & R). specialize (R N1 N2). cbv zeta. apply rnd_ok with (1 := R).
    + apply imul_ok; assumption.
    + rewrite fx_add. pose proof (mx_ok _ _ _ B1) as M1. pose proof (mx_ok _ _ _ B2) as M2.
      set (u := value f _) in *. set (v := value f (fval o env e2)) in *. set (r1 := rval renv e1) in *. set (r2 := rval renv e2) in *.
      replace (u * v - r1 * r2)%R with (u * (v - r2) + r2 * (u - r1))%R by ring.
      eapply Rle_trans; [apply Rabs_triang|]. rewrite !Rabs_mult. apply Rplus_le_compat.
      * eapply Rle_trans; [|apply cl_mul]. apply Rmult_le_compat; try apply Rabs_pos; assumption.
      * eapply Rle_trans; [|apply cl_mul]. apply Rmult_le_compat; try apply Rabs_pos; [|assumption].
        rewrite fx_add. replace r2 with (v + - (v - r2))%R by ring. eapply Rle_trans; [apply Rabs_triang|]. rewrite Rabs_Ropp. lra.
  - destruct (aev aenv e1) as [x|]; [|discriminate]. destruct (aev aenv e2) as [y|]; [|discriminate]. cbv zeta.
    destruct ((0 <? lo y - er y) || (hi y + er y <? 0)) eqn:G; [|discriminate].
    assert (S' : 0 < lo y - er y \/ hi y + er y < 0).
    { apply orb_prop in G. destruct G as [G|G]; apply Z.ltb_lt in G; [left|right]; assumption. }
    specialize (IH1 _ eq_refl). specialize (IH2 _ eq_refl). pose proof (er_nonneg _ _ _ IH1) as p1. pose proof (er_nonneg _ _ _ IH2) as p2.
    assert (er2 : 0 <= er y). { apply Z.le_ngt. intros q. apply fx_lt in q. rewrite fx_0 in q. lra. }
    pose proof (okv_nonzero _ _ _ IH2 ltac:(lia)) as NZ.
    destruct IH1 as (F1 & N1 & B1 & E1), IH2 as (F2 & N2 & B2 & E2).
    destruct (ops_div f o Ho _ _ F1 F2) as (_ & _ & _ & _ & _ & R). specialize (R N1 N2 NZ).
    set (u := value f (fval o env e1)) in *. set (v := value f (fval o env e2)) in *. set (r1 := rval renv e1) in *. set (r2 := rval renv e2) in *.
    assert (r2B : (fx (lo y - er y) <= r2 <= fx (hi y + er y))%R).
    { rewrite fx_sub, fx_add. apply Rabs_le_inv in E2. lra. }
    assert (v0 : v <> 0%R). { destruct S' as [q|q]; [assert (0 < lo y) as q' by lia|assert (hi y < 0) as q' by lia]; apply fx_lt in q'; rewrite fx_0 in q'; lra. }
    assert (r0 : r2 <> 0%R). { destruct S' as [q|q]; apply fx_lt in q; rewrite fx_0 in q; lra. }
    pose proof (iinv_ok (lo y) (hi y) v ltac:(lia) B2) as I1. pose proof (iinv_ok _ _ r2 S' r2B) as I2.
    pose proof (imul_ok _ _ _ _ u (/ v) B1 I1) as M. fold (u / v)%R in M.
    apply rnd_ok with (1 := R); [exact M|].
    pose proof (mx_ok _ _ _ M) as M1. pose proof (mx_ok _ _ _ I2) as M2.
    set (Bi := mx _ _) in M2 |- *. set (Q := mx _ _) in M1 |- *.
    replace (u / v - r1 / r2)%R with (/ r2 * ((u - r1) + - ((u / v) * (v - r2))))%R by (field; split; assumption).
    rewrite Rabs_mult. eapply Rle_trans; [|apply cl_mul]. apply Rmult_le_compat; try apply Rabs_pos; [exact M2|].
    rewrite fx_add. eapply Rle_trans; [apply Rabs_triang|]. apply Rplus_le_compat; [exact E1|]. rewrite Rabs_Ropp, Rabs_mult.
    eapply Rle_trans; [|apply cl_mul]. apply Rmult_le_compat; try apply Rabs_pos; assumption.
Qed.

(** One operation without overflow. *)
Lemma rounds_val zs v x : rounds_to f zs v x -> (Rabs v <= bpow radix2 (emax f - 2))%R ->
  is_float f x /\ is_finite f x /\ value f x = rne f v.
Proof.
  intros (F & _ & Rn) M. split; [exact F|]. rewrite Rlt_bool_true in Rn; [exact Rn|].
  apply Rle_lt_trans with (bpow radix2 (emax f - 2)); [|apply bpow_lt; lia].
  unfold rne. apply abs_round_le_generic; [apply FLT_exp_valid; exact Wp|auto with typeclass_instances| |exact M].
  apply generic_format_bpow. unfold FLT_exp. lia.
Qed.
Lemma add_val a b : is_float f a -> is_float f b -> is_finite f a -> is_finite f b -> (Rabs (value f a + value f b) <= bpow radix2 (emax f - 2))%R ->
  is_float f (o_add o a b) /\ is_finite f (o_add o a b) /\ value f (o_add o a b) = rne f (value f a + value f b).
Proof. intros Fa Fb Na Nb M. destruct (ops_add f o Ho _ _ Fa Fb) as (_ & _ & _ & _ & _ & R). eapply rounds_val; [apply (R Na Nb)|exact M]. Qed.
Lemma sub_val a b : is_float f a -> is_float f b -> is_finite f a -> is_finite f b -> (Rabs (value f a - value f b) <= bpow radix2 (emax f - 2))%R ->
  is_float f (o_sub o a b) /\ is_finite f (o_sub o a b) /\ value f (o_sub o a b) = rne f (value f a - value f b).
Proof. intros Fa Fb Na Nb M. destruct (ops_sub f o Ho _ _ Fa Fb) as (_ & _ & _ & _ & _ & R). eapply rounds_val; [apply (R Na Nb)|exact M]. Qed.
Lemma mul_val a b : is_float f a -> is_float f b -> is_finite f a -> is_finite f b -> (Rabs (value f a * value f b) <= bpow radix2 (emax f - 2))%R ->
  is_float f (o_mul o a b) /\ is_finite f (o_mul o a b) /\ value f (o_mul o a b) = rne f (value f a * value f b).
Proof. intros Fa Fb Na Nb M. destruct (ops_mul f o Ho _ _ Fa Fb) as (_ & _ & _ & _ & R). eapply rounds_val; [apply (R Na Nb)|exact M]. Qed.
Lemma div_val a b : is_float f a -> is_float f b -> is_finite f a -> is_finite f b -> ~ is_zero f b -> (Rabs (value f a / value f b) <= bpow radix2 (emax f - 2))%R ->
  is_float f (o_div o a b) /\ is_finite f (o_div o a b) /\ value f (o_div o a b) = rne f (value f a / value f b).
Proof. intros Fa Fb Na Nb Nz M. destruct (ops_div f o Ho _ _ Fa Fb) as (_ & _ & _ & _ & _ & R). eapply rounds_val; [apply (R Na Nb Nz)|exact M]. Qed.

(** A multiple of a power of two that is small enough is representable. *)
Lemma rne_exact (m e : Z) : Z.abs m <= 2 ^ prec f -> emin f <= e -> rne f (IZR m * bpow radix2 e) = (IZR m * bpow radix2 e)%R.
Proof.
  intros Hm He. unfold rne. apply round_generic; [auto with typeclass_instances|].
  apply generic_format_FLT. destruct (Z.eq_dec (Z.abs m) (2 ^ prec f)) as [E|E].
  - assert (m = Z.sgn m * 2 ^ prec f) as -> by (rewrite <- E; lia).
    apply (FLT_spec _ _ _ _ (Float radix2 (Z.sgn m) (e + prec f))).
    + unfold F2R. cbn [Fnum Fexp]. rewrite mult_IZR, bpow_plus. change (2 ^ prec f) with (Zpower radix2 (prec f)). rewrite IZR_Zpower by lia. ring.
    + cbn [Fnum]. change (Zpower radix2 (prec f)) with (2 ^ prec f). pose proof (Z.pow_gt_1 2 (prec f)). destruct m; cbn; lia.
    + cbn [Fexp]. lia.
  - apply (FLT_spec _ _ _ _ (Float radix2 m e)); cbn [Fnum Fexp]; [reflexivity| |exact He].
    change (Zpower radix2 (prec f)) with (2 ^ prec f). lia.
Qed.

(** [chk] on consecutive intervals [l, l + d], [l + d, l + 2 d], ... *)
Fixpoint scan (chk : Z -> Z -> bool) (l d : Z) (n : nat) : bool :=
  match n with O => true | S m => chk l (l + d) && scan chk (l + d) d m end.
Lemma scan_ok chk l d n x : scan chk l d n = true -> n <> O -> (fx l <= x <= fx (l + d * Z.of_nat n))%R ->
  exists a b, chk a b = true /\ (fx a <= x <= fx b)%R.
Proof.
  revert l. induction n as [|n IH]; intros l H Nn Hx; [contradiction|]. cbn [scan] in H. apply andb_prop in H. destruct H as [H1 H2].
  destruct (Rle_lt_dec x (fx (l + d))) as [c|c]; [exists l, (l + d); split; [exact H1|lra]|].
  destruct n as [|n]; [exfalso; replace (l + d * Z.of_nat 1) with (l + d) in Hx by lia; lra|].
  apply (IH (l + d)); [exact H2|discriminate|]. split; [lra|]. replace (l + d + d * Z.of_nat (S n)) with (l + d * Z.of_nat (S (S n))) by lia. apply Hx.
Qed.
End Fmt.
End Fix.
