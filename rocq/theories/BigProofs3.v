(** linear_mul_reduction (modular.rs) is correct over any lawful dictionary. *)
From Coq Require Import ZArith Bool List Lia.
From Verif Require Import Base BaseLemmas IntProofs IntProofs3 BigModel BigProofs BigProofs2.
Open Scope Z_scope.

Section M.
Context (w : Z) (d : dict) (val : D d -> Z) (V : D d -> Prop).
Context (Hw : 8 <= w) (OK : dict_ok w d val V).
Let R := 2 ^ w.
Let P := 2 ^ (w - 1).

Lemma RP : R = 2 * P. Proof using Hw. apply pow2_S; lia. Qed.
Lemma Ppos : 0 < P. Proof using Hw. apply pow2_pos; lia. Qed.

(** the state [s] represents [x], for the modulus [n] *)
Definition inv (n : Z) (s : reducer d) (x : Z) : Prop :=
  r_m d s = 2 * n /\ V (r_2xq d s) /\ 0 <= x < 2 * n /\
  exists q, 0 < q /\ R < q /\ R * P = q * (2 * n) + r_r d s /\ 0 <= r_r d s < 2 * n /\ val (r_2xq d s) = 2 * x * q.

Lemma new_ok x n : 2 ^ (w - 3) < n < 2 ^ (w - 2) -> 0 <= x < 2 * n ->
  exists s, reducer_new w d x n = Ok s /\ inv n s x.
Proof using OK Hw.
  intros Hn Hx. unfold reducer_new. pose proof RP as ERP. pose proof Ppos as HP.
  assert (E2 : P = 2 * 2 ^ (w - 2)) by (unfold P; replace (w - 2) with (w - 1 - 1) by lia; apply pow2_S; lia).
  assert (E3 : 2 ^ (w - 2) = 2 * 2 ^ (w - 3)) by (replace (w - 3) with (w - 2 - 1) by lia; apply pow2_S; lia).
  assert (H3 : 0 < 2 ^ (w - 3)) by (apply pow2_pos; lia).
  rewrite (cshl_u_exact w 1 (w - 3)) by (fold R; lia). cbn [bind].
  replace (1 * 2 ^ (w - 3) <? n) with true by lia. cbn [assert bind].
  rewrite (cshl_u_exact w 1 (w - 2)) by (fold R; lia). cbn [bind].
  replace (n <? 1 * 2 ^ (w - 2)) with true by lia. cbn [assert bind].
  rewrite (cshl_u_exact w n 1) by (fold R; lia). cbn [bind]. change (2 ^ 1) with 2.
  replace (x <? n * 2) with true by lia. cbn [assert bind].
  rewrite (cshl_u_exact w 1 (w - 1)) by (fold R P; lia). cbn [bind]. fold P.
  rewrite csub_u by (fold R; lia). cbn [bind].
  destruct (L_whi _ _ _ _ OK (1 * P - n * 2) ltac:(fold R; lia)) as [Vd Ed]. fold R in Ed.
  set (m := n * 2) in *. assert (Hm : m = 2 * n) by (subst m; lia). clearbody m. rewrite Z.mul_1_l in *.
  assert (Hdv : (P - m) * R / R = P - m) by (apply Z.div_mul; lia).
  rewrite (L_ndiv _ _ _ _ OK) by (auto; fold R; rewrite ?Ed, ?Hdv; lia). rewrite Ed. cbn [bind].
  pose proof (Z.div_mod ((P - m) * R) m ltac:(lia)) as Df. pose proof (Z.mod_pos_bound ((P - m) * R) m ltac:(lia)) as Mf.
  assert (Hf : 0 <= (P - m) * R / m < R).
  { split; [apply Z.div_pos; [apply Z.mul_nonneg_nonneg; lia|lia]|apply Z.div_lt_upper_bound; [lia|]].
    apply Z.mul_lt_mono_pos_r; lia. }
  set (f := (P - m) * R / m) in *. set (r := ((P - m) * R) mod m) in *. clearbody f r.
  rewrite cadd_u by (fold R; lia). cbn [bind].
  destruct (L_wmul _ _ _ _ OK (x + x) f ltac:(fold R; lia) ltac:(fold R; lia)) as (p & -> & Vp & Ep). cbn [bind].
  destruct (L_whi _ _ _ _ OK (x + x) ltac:(fold R; lia)) as [Vh Eh]. fold R in Eh.
  assert (Hq : R * P = (f + R) * m + r) by lia.
  destruct (L_add _ _ _ _ OK _ _ Vh Vp) as (z & -> & Vz & Ez).
  { rewrite Eh, Ep. fold R.
    assert (2 * (x * (f + R)) <= 2 * ((m - 1) * (f + R))) by (apply Z.mul_le_mono_nonneg_l; [lia|apply Z.mul_le_mono_nonneg_r; lia]).
    assert (R * R = 2 * (R * P)) by (rewrite ERP at 2; ring). lia. }
  cbn [bind]. eexists. split; [reflexivity|]. unfold inv. cbn [r_m r_r r_2xq].
  split; [exact Hm|]. split; [exact Vz|]. split; [lia|]. exists (f + R).
  assert (f <> 0).
  { intro Hf0. assert (R * P = R * m + r) by (rewrite Hq, Hf0; ring). assert (R * (P - m) = r) by lia.
    assert (R * 1 <= R * (P - m)) by (apply Z.mul_le_mono_nonneg_l; lia). lia. }
  split; [lia|]. split; [lia|]. rewrite <- Hm. split; [lia|]. split; [lia|]. rewrite Ez, Eh, Ep. ring.
Qed.


Lemma hi_bound n q x r : 0 < n -> R < q -> R * P = q * (2 * n) + r -> 0 <= r -> 0 <= x < 2 * n ->
  2 * x * q + 2 * R < R * R.
Proof using Hw.
  intros Hn Hq E Hr Hx. pose proof RP. assert (R * R = 2 * (R * P)) by (rewrite H at 2; ring).
  assert (x * q <= (2 * n - 1) * q) by (apply Z.mul_le_mono_nonneg_r; lia). lia.
Qed.

Lemma reduce_core n q r x k a b :
  0 < n -> 2 * n < P -> 0 < q -> R < q -> R * P = q * (2 * n) + r -> 0 <= r < 2 * n -> 0 <= x < 2 * n ->
  0 <= k -> 2 * x * q * 2 ^ k = a * (R * P) + b -> 0 <= b < R * P -> 0 <= a -> a + 2 < R ->
  a * r + b = 2 * (x * 2 ^ k - a * n) * q /\ 0 <= x * 2 ^ k - a * n < 2 * n /\ 0 <= a * r + b < R * R.
Proof using Hw.
  intros Hn Hn2 Hq HqR E Hr Hx Hk Es Hb Ha Ha2. pose proof RP as ERP. pose proof Ppos.
  assert (EQ : a * r + b = 2 * (x * 2 ^ k - a * n) * q).
  { rewrite E in Es. replace (2 * (x * 2 ^ k - a * n) * q) with (2 * x * q * 2 ^ k - a * (q * (2 * n))) by ring. rewrite Es. ring. }
  assert (ERR : R * R = 2 * (R * P)) by (rewrite ERP at 2; ring).
  assert (0 <= a * r) by (apply Z.mul_nonneg_nonneg; lia).
  assert ((a + 2) * r <= (a + 2) * P) by (apply Z.mul_le_mono_nonneg_l; lia).
  assert ((a + 2) * P <= R * P) by (apply Z.mul_le_mono_nonneg_r; lia).
  split; [exact EQ|]. split; [|lia].
  set (y := x * 2 ^ k - a * n) in *. clearbody y.
  split.
  - destruct (Z_lt_le_dec y 0) as [Hy|]; [exfalso|lia].
    assert (y * q <= -1 * q) by (apply Z.mul_le_mono_nonneg_r; lia). lia.
  - destruct (Z_lt_le_dec y (2 * n)) as [|Hy]; [lia|exfalso].
    assert (2 * n * q <= y * q) by (apply Z.mul_le_mono_nonneg_r; lia). lia.
Qed.

Lemma word_reduce_ok n s x : 0 < n -> 2 * n < P -> inv n s x ->
  exists s' a, word_reduce w d s = Ok (s', a) /\ inv n s' (x * 2 ^ (w - 1) - a * n).
Proof using OK Hw.
  intros Hn Hn2 (Hm & Vx & Hx & q & Hq & HqR & E & Hr & Ev). unfold word_reduce.
  rewrite (L_lo _ _ _ _ OK), (L_hi _ _ _ _ OK) by auto. fold R.
  pose proof RP as ERP. pose proof Ppos as HP. pose proof (V_range _ _ _ _ OK _ Vx) as Rv. fold R in Rv.
  pose proof (hi_bound n q x (r_r d s) Hn HqR E ltac:(lia) Hx) as HB.
  rewrite Ev in *. set (W := 2 * x * q) in *.
  pose proof (Z.div_mod W R ltac:(lia)) as DW. pose proof (Z.mod_pos_bound W R ltac:(lia)) as MW.
  assert (Hu : 0 <= W / R /\ W / R + 2 < R).
  { split; [apply Z.div_pos; lia|]. assert (W / R < R - 2); [|lia]. apply Z.div_lt_upper_bound; lia. }
  assert (Hev : exists v2, W mod R = 2 * v2).
  { exists (x * q - P * (W / R)). assert (W = 2 * (x * q)) by (subst W; ring). lia. }
  destruct Hev as [v2 Hv2].
  set (u := W / R) in *. set (v := W mod R) in *. 
  destruct (L_wmul _ _ _ _ OK u (r_r d s) ltac:(fold R; lia) ltac:(fold R; lia)) as (p & -> & Vp & Ep). cbn [bind].
  rewrite cshr_ok by (rewrite bits_u; lia). cbn [bind]. change (2 ^ 1) with 2.
  replace (v / 2) with v2 by (apply Z.div_unique with 0; lia).
  destruct (L_whi _ _ _ _ OK v2 ltac:(fold R; lia)) as [Vh Eh]. fold R in Eh.
  assert (v2 * R <= (P - 1) * R) by (apply Z.mul_le_mono_nonneg_r; lia).
  pose proof (Z.mul_nonneg_nonneg v2 R ltac:(lia) ltac:(lia)).
  assert (Hs : W * 2 ^ (w - 1) = u * (R * P) + v2 * R) by (fold P; rewrite DW, Hv2, ERP; ring).
  destruct (reduce_core n q (r_r d s) x (w - 1) u (v2 * R)) as (E1 & E2 & E3); auto; try lia.
  destruct (L_add _ _ _ _ OK _ _ Vp Vh) as (z & -> & Vz & Ez). { rewrite Ep, Eh. fold R. lia. }
  cbn [bind]. do 2 eexists. split; [reflexivity|]. unfold inv. cbn [r_m r_r r_2xq].
  split; [exact Hm|]. split; [exact Vz|]. split; [exact E2|]. exists q.
  split; [lia|]. split; [lia|]. split; [lia|]. split; [lia|]. rewrite Ez, Ep, Eh. exact E1.
Qed.

Lemma shift_reduce_ok n s x k : w < 2 ^ 32 -> 0 < n -> 2 * n < P -> inv n s x -> 0 <= k < w ->
  exists s' a, shift_reduce w d s k = Ok (s', a) /\ inv n s' (x * 2 ^ k - a * n).
Proof using OK Hw.
  intros Hw32 Hn Hn2 (Hm & Vx & Hx & q & Hq & HqR & E & Hr & Ev) Hk. unfold shift_reduce.
  replace (k <? w) with true by lia. cbn [assert bind].
  rewrite csub_u by lia. cbn [bind].
  rewrite (L_hi _ _ _ _ OK) by auto. fold R.
  pose proof RP as ERP. pose proof Ppos as HP. pose proof (V_range _ _ _ _ OK _ Vx) as Rv. fold R in Rv.
  pose proof (hi_bound n q x (r_r d s) Hn HqR E ltac:(lia) Hx) as HB.
  rewrite cshr_ok by (rewrite bits_u; lia). cbn [bind].
  destruct (L_shl _ _ _ _ OK _ k Vx Hk) as (y & -> & Vy & Ey). cbn [bind]. fold R in Ey.
  rewrite (L_lo _ _ _ _ OK), (L_hi _ _ _ _ OK) by auto. fold R.
  rewrite Ev in *. set (W := 2 * x * q) in *.
  pose proof (pow2_pos k ltac:(lia)) as HK. pose proof (pow2_pos (w - 1 - k) ltac:(lia)) as HK'.
  assert (EP : P = 2 ^ (w - 1 - k) * 2 ^ k) by (unfold P; rewrite <- pow2_add by lia; f_equal; lia).
  set (K := 2 ^ k) in *. set (K' := 2 ^ (w - 1 - k)) in *.
  rewrite Zdiv_Zdiv by lia.
  (* the quotient a = floor(2xq * 2^k / (R*P)) *)
  set (A := W / (R * K')).
  assert (HA : A = W * K / (R * P)).
  { unfold A. rewrite EP, Z.mul_assoc. symmetry. apply Z.div_mul_cancel_r; lia. }
  assert (HRP : 0 < R * P) by (apply Z.mul_pos_pos; lia).
  assert (HRK : 0 < R * K') by (apply Z.mul_pos_pos; lia).
  pose proof (Z.div_mod (W * K) (R * P) ltac:(lia)) as DA. pose proof (Z.mod_pos_bound (W * K) (R * P) HRP) as MA.
  rewrite <- HA in DA. set (B := (W * K) mod (R * P)) in *.
  assert (HA0 : 0 <= A) by (apply Z.div_pos; lia).
  assert (HA2 : A + 2 < R).
  { assert (A < R - 2); [|lia]. apply Z.div_lt_upper_bound; [lia|].
    assert ((R - 2) * R <= (R - 2) * (R * K')); [|lia]. apply Z.mul_le_mono_nonneg_l; [lia|].
    assert (R * 1 <= R * K') by (apply Z.mul_le_mono_nonneg_l; lia). lia. }
  clearbody A.
  (* the low part *)
  rewrite cshr_ok by (rewrite bits_u; lia). cbn [bind].
  replace ((R - 1) / 2 ^ 1) with (P - 1) by (apply Z.div_unique with 1; lia).
  pose proof (V_range _ _ _ _ OK _ Vy) as Ry. fold R in Ry.
  set (Y := val y) in *.
  assert (HYB : Y mod (R * P) = B).
  { rewrite Ey. unfold B. replace (R * R) with (2 * (R * P)) by (rewrite ERP at 3; ring).
    rewrite <- (Znumtheory.Zmod_div_mod (R * P) (2 * (R * P))); try lia. exists 2. reflexivity. }
  change (P - 1) with (2 ^ (w - 1) - 1). rewrite land_ones_mod by lia. fold P.
  assert (HB2 : ((Y / R) mod P) * R + Y mod R = B).
  { rewrite <- HYB. rewrite Z.rem_mul_r by lia. ring. }
  pose proof (Z.mod_pos_bound Y R ltac:(lia)). pose proof (Z.mod_pos_bound (Y / R) P ltac:(lia)).
  destruct (L_flh _ _ _ _ OK (Y mod R) ((Y / R) mod P) ltac:(fold R; lia) ltac:(fold R; lia)) as [Vb Eb].
  fold R in Eb. rewrite HB2 in Eb.
  destruct (L_wmul _ _ _ _ OK A (r_r d s) ltac:(fold R; lia) ltac:(fold R; lia)) as (p & -> & Vp & Ep). cbn [bind].
  destruct (reduce_core n q (r_r d s) x k A B) as (E1 & E2 & E3); auto; try lia.
  destruct (L_add _ _ _ _ OK _ _ Vp Vb) as (z & -> & Vz & Ez). { rewrite Ep, Eb. fold R. lia. }
  cbn [bind]. do 2 eexists. split; [reflexivity|]. unfold inv. cbn [r_m r_r r_2xq].
  split; [exact Hm|]. split; [exact Vz|]. split; [exact E2|]. exists q.
  split; [lia|]. split; [lia|]. split; [lia|]. split; [lia|]. rewrite Ez, Ep, Eb. exact E1.
Qed.

Lemma partial_remainder_ok n s x : 0 < n -> 2 * n < P -> inv n s x -> partial_remainder w d s = Ok x.
Proof using OK Hw.
  intros Hn Hn2 (Hm & Vx & Hx & q & Hq & HqR & E & Hr & Ev). unfold partial_remainder.
  rewrite (L_hi _ _ _ _ OK) by auto. fold R.
  pose proof RP as ERP. pose proof Ppos as HP. pose proof (V_range _ _ _ _ OK _ Vx) as Rv. fold R in Rv.
  pose proof (hi_bound n q x (r_r d s) Hn HqR E ltac:(lia) Hx) as HB.
  rewrite Ev in *. set (W := 2 * x * q) in *.
  pose proof (Z.div_mod W R ltac:(lia)) as DW. pose proof (Z.mod_pos_bound W R ltac:(lia)) as MW.
  assert (Hu : 0 <= W / R /\ W / R + 2 < R).
  { split; [apply Z.div_pos; lia|]. assert (W / R < R - 2); [|lia]. apply Z.div_lt_upper_bound; lia. }
  set (u := W / R) in *. set (v := W mod R) in *. clearbody u v.
  assert (H2 : 2 < 2 ^ w) by (fold R; lia).
  rewrite (cadd_u w 1 1) by (change (1 + 1) with 2; lia). cbn [bind]. change (1 + 1) with 2.
  rewrite cadd_u by (fold R; lia). cbn [bind]. rewrite Hm.
  destruct (L_wmul _ _ _ _ OK (2 * n) (u + 2) ltac:(fold R; lia) ltac:(fold R; lia)) as (p & -> & Vp & Ep). cbn [bind].
  rewrite (L_hi _ _ _ _ OK) by auto. rewrite Ep. fold R. f_equal.
  (* m(u+2)R = x R R + 2 m R - (m v + 2 x r) *)
  set (r := r_r d s) in *. clearbody r.
  assert (EE : (2 * n) * (u + 2) * R = x * R * R + (2 * (2 * n) * R - (2 * n * v + 2 * x * r))).
  { assert (F : u * R = 2 * x * q - v) by (subst W; lia).
    replace (2 * n * (u + 2) * R) with (2 * n * (u * R) + 2 * (2 * n) * R) by ring. rewrite F.
    replace (x * R * R) with (2 * x * (R * P)) by (rewrite ERP at 3; ring). rewrite E. ring. }
  assert (0 <= 2 * n * v <= 2 * n * (R - 1)) by (split; [apply Z.mul_nonneg_nonneg; lia|apply Z.mul_le_mono_nonneg_l; lia]).
  assert (0 <= x * r <= P * (2 * n)) by (split; [apply Z.mul_nonneg_nonneg; lia|apply Z.mul_le_mono_nonneg; lia]).
  set (T := 2 * n * (u + 2)) in *. clearbody T.
  symmetry. apply Z.div_unique with (T - x * R); [|lia]. left.
  assert (HT : (T - x * R) * R = 2 * (2 * n) * R - (2 * n * v + 2 * x * r)) by lia.
  set (T' := T - x * R) in *. clearbody T'.
  assert (0 < T' * R < R * R).
  { rewrite HT. assert (4 * n * R < 2 * P * R) by (apply Z.mul_lt_mono_pos_r; lia).
    assert (2 * P * R = R * R) by (rewrite <- ERP; reflexivity). lia. }
  split.
  - destruct (Z_lt_le_dec T' 0) as [Hc|]; [|lia]. assert (T' * R <= 0) by (apply Z.mul_nonpos_nonneg; lia). lia.
  - destruct (Z_lt_le_dec T' R) as [|Hc]; [lia|]. assert (R * R <= T' * R) by (apply Z.mul_le_mono_nonneg_r; lia). lia.
Qed.

Lemma loop_ok n : 0 < n -> 2 * n < P -> forall fuel s x e, inv n s x -> 0 <= e < 2 ^ 32 ->
  e / (w - 1) <= Z.of_nat fuel ->
  exists s' e' x' c, lmr_loop w d fuel s e = Ok (s', e') /\ 0 <= e' < w - 1 /\ inv n s' x' /\
    x' * 2 ^ e' = x * 2 ^ e + c * n.
Proof using OK Hw.
  intros Hn Hn2. induction fuel as [|fuel IH]; intros s x e Hi He Hf.
  - assert (e / (w - 1) = 0) by (pose proof (Z.div_pos e (w - 1) ltac:(lia) ltac:(lia)); lia).
    pose proof (Z.div_mod e (w - 1) ltac:(lia)). pose proof (Z.mod_pos_bound e (w - 1) ltac:(lia)).
    cbn [lmr_loop]. replace (w - 1 <=? e) with false by lia.
    exists s, e, x, 0. split; [reflexivity|]. split; [lia|]. split; [exact Hi|lia].
  - cbn [lmr_loop]. destruct (Z.leb_spec (w - 1) e) as [Hc|Hc].
    2:{ exists s, e, x, 0. split; [reflexivity|]. split; [lia|]. split; [exact Hi|lia]. }
    destruct (word_reduce_ok n s x Hn Hn2 Hi) as (s1 & a & -> & Hi1). cbn [bind fst].
    rewrite csub_u by lia. cbn [bind].
    assert (Hd : (e - (w - 1)) / (w - 1) = e / (w - 1) - 1).
    { replace (e - (w - 1)) with (e + (-1) * (w - 1)) by ring. rewrite Z.div_add by lia. lia. }
    destruct (IH s1 _ (e - (w - 1)) Hi1 ltac:(lia) ltac:(lia)) as (s' & e' & x' & c & E1 & E2 & E3 & E4).
    exists s', e', x', (c - a * 2 ^ (e - (w - 1))). split; [exact E1|]. split; [exact E2|]. split; [exact E3|].
    rewrite E4. replace (2 ^ e) with (2 ^ (w - 1) * 2 ^ (e - (w - 1))) by (rewrite <- pow2_add by lia; f_equal; lia). ring.
Qed.

(** Powers of two: [y & (y-1) == 0]. *)
Lemma pow2_test y : 0 < y -> (Z.land y (y - 1) =? 0) = true <-> y = 2 ^ Z.log2 y.
Proof using Hw.
  intros Hy. pose proof (Z.log2_spec y Hy) as [L1 L2]. pose proof (Z.log2_nonneg y) as L0.
  set (k := Z.log2 y) in *. rewrite Z.eqb_eq. split; intros H.
  - destruct (Z.eq_dec y (2 ^ k)) as [|Hne]; [assumption|exfalso].
    assert (Hb : Z.testbit (Z.land y (y - 1)) k = true); [|rewrite H, Z.bits_0 in Hb; discriminate].
    rewrite Z.land_spec. unfold k. rewrite Z.bit_log2 by lia. fold k. cbn [andb].
    replace k with (Z.log2 (y - 1)); [apply Z.bit_log2; pose proof (pow2_pos k); lia|].
    apply Z.log2_unique; [lia|]. split; lia.
  - rewrite H, land_ones_mod by lia. apply Z.mod_same. pose proof (pow2_pos k); lia.
Qed.

Theorem lmr_ok x e y : w < 2 ^ 31 -> 0 < y < 2 ^ (w - 2) -> 0 <= x < 2 * y -> 0 <= e -> e + w <= 2 ^ 32 ->
  linear_mul_reduction w d x e y = Ok ((x * 2 ^ e) mod y).
Proof using OK Hw.
  intros Hw32 Hy Hx He Hew. unfold linear_mul_reduction.
  pose proof RP as ERP. pose proof Ppos as HP.
  assert (E2 : P = 2 * 2 ^ (w - 2)) by (unfold P; replace (w - 2) with (w - 1 - 1) by lia; apply pow2_S; lia).
  assert (E3 : 2 ^ (w - 2) = 2 * 2 ^ (w - 3)) by (replace (w - 3) with (w - 2 - 1) by lia; apply pow2_S; lia).
  rewrite shiftr_div by lia. fold R. change (2 ^ 2) with 4.
  replace ((R - 1) / 4) with (2 ^ (w - 2) - 1) by (apply Z.div_unique with 3; lia).
  replace (y <=? 2 ^ (w - 2) - 1) with true by lia. cbn [assert bind].
  rewrite (cshl_u_exact w y 1) by (fold R; lia). cbn [bind]. change (2 ^ 1) with 2.
  replace (x <? y * 2) with true by lia. cbn [assert bind].
  rewrite csub_u by (fold R; lia). cbn [bind].
  destruct (Z.land y (y - 1) =? 0) eqn:HT.
  { (* power of two *)
    apply pow2_test in HT; [|lia]. set (k := Z.log2 y) in *. pose proof (Z.log2_nonneg y) as Hk. fold k in Hk. clearbody k.
    assert (Hkw : k < w - 2) by (apply (Z.pow_lt_mono_r_iff 2); lia).
    destruct (Z.ltb_spec e w).
    - rewrite cshl_ok by (rewrite bits_u; lia). cbn [bind]. rewrite HT at 1. rewrite land_ones_mod by lia. f_equal.
      rewrite norm_u, HT. rewrite <- (Znumtheory.Zmod_div_mod (2 ^ k) (2 ^ w)); try apply pow2_pos; try lia; auto.
      exists (2 ^ (w - k)). rewrite <- pow2_add by lia. f_equal; lia.
    - f_equal. symmetry. apply Znumtheory.Zdivide_mod. exists (x * 2 ^ (e - k)). rewrite HT.
      rewrite <- Z.mul_assoc, <- pow2_add by lia. do 2 f_equal; lia. }
  assert (Hnp : y <> 2 ^ Z.log2 y) by (intros Hc; apply (pow2_test y) in Hc; [congruence|lia]).
  destruct (nlz_spec w y ltac:(fold R; lia)) as [Hz Hzs]. set (z := nlz w y) in *.
  assert (Hz2 : 2 <= z).
  { destruct (Z_lt_le_dec z 2); [|lia]. assert (2 ^ (w - 2) <= 2 ^ (w - 1 - z)) by (apply pow2_le; lia). lia. }
  assert (Hyne : y <> 2 ^ (w - 1 - z)).
  { intros Hc. apply Hnp. rewrite Hc at 2. rewrite Z.log2_pow2 by lia. exact Hc. }
  rewrite csub_u by lia. cbn [bind]. rewrite cadd_u by lia. cbn [bind].
  set (s := z - 2) in *. pose proof (pow2_pos s ltac:(lia)) as Hps.
  assert (Hn : 2 ^ (w - 3) < y * 2 ^ s < 2 ^ (w - 2)).
  { replace (2 ^ (w - 3)) with (2 ^ (w - 1 - z) * 2 ^ s) by (rewrite <- pow2_add by lia; f_equal; lia).
    replace (2 ^ (w - 2)) with (2 ^ (w - z) * 2 ^ s) by (rewrite <- pow2_add by lia; f_equal; lia).
    split; apply Z.mul_lt_mono_pos_r; lia. }
  rewrite cshl_u_exact by (try fold R; lia). cbn [bind].
  set (n := y * 2 ^ s) in *.
  assert (Hny : y <= n) by (unfold n; rewrite <- (Z.mul_1_r y) at 1; apply Z.mul_le_mono_nonneg_l; lia).
  assert (H3 : 0 < 2 ^ (w - 3)) by (apply pow2_pos; lia).
  destruct (new_ok x n ltac:(lia) ltac:(lia)) as (m & -> & Hi). cbn [bind].
  destruct (loop_ok n ltac:(lia) ltac:(lia) (Z.to_nat ((e + s) / (w - 1))) m x (e + s) Hi ltac:(lia)) as (s' & e' & x' & c & -> & He' & Hi' & Ex).
  { rewrite Z2Nat.id; [lia|]. apply Z.div_pos; lia. }
  cbn [bind fst snd].
  destruct (shift_reduce_ok n s' x' e' ltac:(lia) ltac:(lia) ltac:(lia) Hi' ltac:(lia)) as (s2 & a & -> & Hi2). cbn [bind fst].
  rewrite (partial_remainder_ok n s2 _ ltac:(lia) ltac:(lia) Hi2). cbn [bind].
  destruct Hi2 as (_ & _ & Hr & _). rewrite Ex in *.
  set (r := x * 2 ^ (e + s) + c * n - a * n) in *.
  assert (Hmod : (x * 2 ^ (e + s)) mod n = if n <=? r then r - n else r).
  { destruct (Z.leb_spec n r).
    - destruct (div_mod_unique (x * 2 ^ (e + s)) n (a - c + 1) (r - n)) as [_ ->]; [lia| |reflexivity]. unfold r. ring.
    - destruct (div_mod_unique (x * 2 ^ (e + s)) n (a - c) r) as [_ ->]; [lia| |reflexivity]. unfold r. ring. }
  rewrite <- Hmod. rewrite pow2_add, Z.mul_assoc by lia. unfold n. rewrite Zmult_mod_distr_r.
  rewrite cshr_ok by (rewrite bits_u; lia). f_equal. apply Z.div_mul. lia.
Qed.
End M.
