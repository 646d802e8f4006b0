(** Proofs about sqrt: the Goldschmidt iterations. *)
From Coq Require Import ZArith Reals Bool List Lia Lra Psatz.
From Flocq Require Import Core.
From Verif Require Import Base BaseLemmas IntProofs IntProofs3 FloatModel SqrtModel.
Open Scope R_scope.

(** * One step in real numbers *)
Lemma newton_u a c k A C K : 0 <= A <= 1/100 -> 0 <= C <= 1/100 -> 0 <= K <= 1/1000 -> -A <= a <= A -> -C <= c <= C -> 0 <= k <= K ->
  195/100 <= 3 - (1 + a) * (1 + a + c) + k <= 205/100.
Proof. intros. nra. Qed.
Lemma sq_le a A : - A <= a <= A -> 0 <= a * a <= A * A.
Proof. intros. nra. Qed.
Lemma newton_x a c k A C K : 0 <= A <= 1/100 -> 0 <= C <= 1/100 -> 0 <= K <= 1/1000 -> -A <= a <= A -> -C <= c <= C -> 0 <= k <= K ->
  1 - 301/200 * (A * A) - 511/1000 * C <= (1 + a) * (3 - (1 + a) * (1 + a + c) + k) / 2 <= 1 - 299/200 * (a * a) + 511/1000 * C + 101/200 * K.
Proof.
  intros HA HC HK Ha Hc Hk. replace ((1 + a) * (3 - (1 + a) * (1 + a + c) + k) / 2) with (1 - a * a * (3 + a) / 2 - (1 + a) * (1 + a) / 2 * c + (1 + a) / 2 * k) by field.
  pose proof (sq_le a A Ha) as Q. set (t := a * a) in *. assert (299/200 * t <= t * (3 + a) / 2 <= 301/200 * t) as T by (clearbody t; nra).
  assert (0 <= (1 + a) * (1 + a) / 2 <= 511/1000) as P1 by nra. set (p := (1 + a) * (1 + a) / 2) in *. assert (- (511/1000 * C) <= p * c <= 511/1000 * C) as P2 by (clearbody p; nra).
  assert (0 <= (1 + a) / 2 * k <= 101/200 * K) as P3 by nra. lra.
Qed.
Lemma newton_y a c k A C K : 0 <= A <= 1/100 -> 0 <= C <= 1/100 -> 0 <= K <= 1/1000 -> -A <= a <= A -> -C <= c <= C -> 0 <= k <= K ->
  1 - 301/200 * (A * A) - 53/100 * C <= (1 + a + c) * (3 - (1 + a) * (1 + a + c) + k) / 2 <= 1 + 53/100 * C + 101/200 * K.
Proof.
  intros HA HC HK Ha Hc Hk.
  replace ((1 + a + c) * (3 - (1 + a) * (1 + a + c) + k) / 2) with (1 - a * a * (3 + a) / 2 + (3 - 2 * ((1 + a) * (1 + a)) - (1 + a) * c + k) / 2 * c + (1 + a) / 2 * k) by field.
  pose proof (sq_le a A Ha) as Q. set (t := a * a) in *. assert (299/200 * t <= t * (3 + a) / 2 <= 301/200 * t) as T by (clearbody t; nra).
  assert (0 <= (3 - 2 * ((1 + a) * (1 + a)) - (1 + a) * c + k) / 2 <= 53/100) as P1 by nra. set (p := (3 - 2 * ((1 + a) * (1 + a)) - (1 + a) * c + k) / 2) in *.
  assert (- (53/100 * C) <= p * c <= 53/100 * C) as P2 by (clearbody p; nra). assert (0 <= (1 + a) / 2 * k <= 101/200 * K) as P3 by nra. lra.
Qed.

Lemma sq_ge a B : 0 <= B -> a <= - B -> B * B <= a * a.
Proof. intros. nra. Qed.
Lemma root_above q : 0 <= q -> 1 + 1/1048576 < q * q -> 1 + 1/4194304 <= q.
Proof. intros H K. destruct (Rle_or_lt (1 + 1/4194304) q) as [L|L]; [exact L|]. exfalso. assert (q * q <= (1 + 1/4194304) * (1 + 1/4194304)) by (apply Rmult_le_compat; lra). lra. Qed.
Lemma mul_bound c V C : 0 <= V <= 103/100 -> - C <= c <= C -> - (103/100 * C) <= c * V <= 103/100 * C.
Proof. intros. nra. Qed.

(** * One round on integers *)
Lemma div_real a b : (0 < b)%Z -> IZR a / IZR b - 1 < IZR (a / b) <= IZR a / IZR b.
Proof.
  intros Hb. assert (0 < IZR b) by (apply IZR_lt; assumption). pose proof (Z.div_mod a b ltac:(lia)) as E. pose proof (Z.mod_pos_bound a b Hb) as Q.
  assert (IZR a = IZR b * IZR (a / b) + IZR (a mod b)) as E' by (rewrite <- mult_IZR, <- plus_IZR; f_equal; exact E).
  assert (0 <= IZR (a mod b) < IZR b) as Q' by (split; [apply IZR_le|apply IZR_lt]; apply Q).
  replace (IZR a / IZR b) with (IZR (a / b) + IZR (a mod b) / IZR b) by (rewrite E'; field; lra).
  assert (0 <= IZR (a mod b) / IZR b < 1) as F. { split; [apply Rle_mult_inv_pos; lra|apply Rmult_lt_reg_r with (IZR b); [assumption|]; unfold Rdiv; rewrite Rmult_assoc, Rinv_l by lra; lra]. }
  lra.
Qed.

Section Round.
Context (n m : Z) (Hn : (16 <= n)%Z) (Hm : (2 ^ (n - 2) <= m < 2 ^ n)%Z).
Definition width : R := IZR (2 ^ n).
Definition root : R := sqrt (4 * IZR m / width).
(** The approximations of 1, scaled by the root: r * sqrt(M) and s / sqrt(M). *)
Definition xr (r : Z) : R := root * (IZR r / width).
Definition ys (s : Z) : R := 4 * IZR s / width / root.
Local Notation W := width.
Local Notation q := root.
Local Notation w := (/ width).

Lemma width_big : 65536 <= W.
Proof using Hn. clear m Hm. unfold width. apply IZR_le. change 65536%Z with (2 ^ 16)%Z. apply Z.pow_le_mono_r; lia. Qed.
Lemma w_small : 0 < w <= 1/65536.
Proof using Hn. clear m Hm. pose proof width_big. split; [apply Rinv_0_lt_compat; lra|]. replace (1/65536) with (/ 65536) by lra. apply Rinv_le_contravar; lra. Qed.
Lemma M_range : 1 <= 4 * IZR m / W < 4.
Proof using Hn Hm.
  pose proof width_big. assert (W = 4 * IZR (2 ^ (n - 2))) as E. { unfold width. rewrite <- mult_IZR. f_equal. replace n with (n - 2 + 2)%Z at 1 by lia. rewrite Z.pow_add_r by lia. lia. }
  assert (IZR (2 ^ (n - 2)) <= IZR m < W) as [Q1 Q2] by (unfold width; split; [apply IZR_le|apply IZR_lt]; lia).
  split.
  - apply Rmult_le_reg_r with W; [lra|]. unfold Rdiv. rewrite Rmult_assoc, Rinv_l by lra. lra.
  - apply Rmult_lt_reg_r with W; [lra|]. unfold Rdiv. rewrite Rmult_assoc, Rinv_l by lra. lra.
Qed.
Lemma root_sq : q * q = 4 * IZR m / W.
Proof using Hn Hm. unfold root. apply sqrt_sqrt. pose proof M_range. lra. Qed.
Lemma root_range : 1 <= q < 2.
Proof using Hn Hm.
  pose proof M_range as M. split.
  - unfold root. rewrite <- sqrt_1 at 1. apply sqrt_le_1_alt. lra.
  - unfold root. replace 2 with (sqrt 4). 2:{ replace 4 with (2 * 2) by ring. apply sqrt_square. lra. } apply sqrt_lt_1_alt. lra.
Qed.

Lemma wmulh_eq a b : (0 <= a < 2 ^ n)%Z -> (0 <= b < 2 ^ n)%Z -> wmulh n a b = (a * b / 2 ^ n)%Z.
Proof using Hn.
  clear m Hm. intros Ha Hb. unfold wmulh. rewrite widen_mul_u by (assumption || lia). change (dbl (UI n)) with (UI (2 * n)). apply hi_u; [lia|].
  replace (2 * n)%Z with (n + n)%Z by lia. rewrite Z.pow_add_r by lia. nia.
Qed.
Lemma wmulh_range a b : (0 <= a < 2 ^ n)%Z -> (0 <= b < 2 ^ n)%Z -> (0 <= wmulh n a b < 2 ^ n)%Z.
Proof using Hn.
  clear m Hm. intros Ha Hb. rewrite wmulh_eq by assumption. split; [apply Z.div_pos; lia|]. apply Z.div_lt_upper_bound; nia.
Qed.
Lemma wmulh_real a b : (0 <= a < 2 ^ n)%Z -> (0 <= b < 2 ^ n)%Z -> exists t, 0 <= t < 1 /\ IZR (wmulh n a b) = IZR a * IZR b / W - t.
Proof using Hn.
  clear m Hm. intros Ha Hb. rewrite wmulh_eq by assumption. pose proof (div_real (a * b) (2 ^ n) ltac:(lia)) as D. rewrite mult_IZR in D. fold width in D.
  exists (IZR a * IZR b / W - IZR (a * b / 2 ^ n)). split; lra.
Qed.

Lemma first_s r : (0 <= r < 2 ^ n)%Z -> xr r - 4 * w <= ys (wmulh n m r) <= xr r.
Proof using Hn Hm.
  intros Hr. assert (0 <= m < 2 ^ n)%Z as Hm' by (assert (0 < 2 ^ (n - 2))%Z by (apply Z.pow_pos_nonneg; lia); lia).
  destruct (wmulh_real m r Hm' Hr) as (t & Ht & E). pose proof width_big. pose proof root_range as Q. pose proof root_sq as S. pose proof w_small.
  unfold ys, xr. rewrite E. replace (4 * (IZR m * IZR r / W - t) / W / q) with (4 * IZR m / W * (IZR r / W) / q - 4 * t * w / q) by (field; lra).
  rewrite <- S. replace (q * q * (IZR r / W) / q) with (q * (IZR r / W)) by (field; lra).
  assert (0 <= 4 * t * w / q <= 4 * w). { split; [apply Rle_mult_inv_pos; nra|]. apply Rmult_le_reg_r with q; [lra|]. unfold Rdiv. rewrite Rmult_assoc, Rinv_l by lra. nra. }
  lra.
Qed.

(** The rounding errors of one round: [k] in u, [g] in r, [h] in s. *)
Lemma mid_round r s A C : (0 <= r < 2 ^ n)%Z -> (0 <= s < 2 ^ n)%Z -> 0 <= A <= 1/100 -> 0 <= C <= 1/100 ->
  1 - A <= xr r <= 1 + A -> xr r - C <= ys s <= xr r + C ->
  exists u k g h, wrapping_sub (UI n) (3 * 2 ^ (n - 2)) (wmulh n s r) = u /\ (0 <= u < 2 ^ n)%Z /\ 0 <= k <= 4 * w /\ 0 <= g <= 4 * w /\ 0 <= h <= 8 * w /\
    q * (2 * IZR (wmulh n r u) / W) = xr r * (3 - xr r * ys s + k) / 2 - g /\
    8 * IZR (wmulh n s u) / W / q = ys s * (3 - xr r * ys s + k) / 2 - h.
Proof using Hn Hm.
  intros Hr Hs HA HC Hx Hy. destruct (wmulh_real s r Hs Hr) as (t & Ht & E). pose proof width_big. pose proof root_range as Q. pose proof root_sq as S. pose proof w_small as Ww.
  assert (4 * IZR (wmulh n s r) / W = xr r * ys s - 4 * t * w) as D. { rewrite E. unfold xr, ys. field. lra. }
  assert (xr r * ys s <= 2) by nra. pose proof (wmulh_range s r Hs Hr) as Rd. set (d := wmulh n s r) in *.
  assert (2 ^ n = 4 * 2 ^ (n - 2))%Z as P4. { replace n with (n - 2 + 2)%Z at 1 by lia. rewrite Z.pow_add_r by lia. lia. }
  assert (W = 4 * IZR (2 ^ (n - 2))) as W4 by (unfold width; rewrite P4, mult_IZR; reflexivity).
  assert (d < 3 * 2 ^ (n - 2))%Z as Ld.
  { apply lt_IZR. rewrite mult_IZR. assert (4 * IZR d / W * W = 4 * IZR d) as E4 by (field; lra). assert (0 <= t * w) by (apply Rmult_le_pos; lra).
    assert (4 * IZR d / W * W <= 2 * W) by (apply Rmult_le_compat_r; lra). lra. }
  exists (3 * 2 ^ (n - 2) - d)%Z. set (u := (3 * 2 ^ (n - 2) - d)%Z).
  assert (0 <= u < 2 ^ n)%Z as Hu by (unfold u; lia). assert (4 * IZR u / W = 3 - xr r * ys s + 4 * t * w) as U.
  { unfold u. rewrite minus_IZR, mult_IZR. replace (4 * (3 * IZR (2 ^ (n - 2)) - IZR d) / W) with (3 * (4 * IZR (2 ^ (n - 2))) / W - 4 * IZR d / W) by (field; lra). rewrite D, <- W4. field. lra. }
  destruct (wmulh_real r u Hr Hu) as (t1 & Ht1 & E1). destruct (wmulh_real s u Hs Hu) as (t2 & Ht2 & E2).
  exists (4 * t * w), (2 * q * t1 * w), (8 * t2 * w / q). split.
  { unfold wrapping_sub. rewrite norm_u. apply Z.mod_small. exact Hu. }
  split; [exact Hu|]. split; [nra|]. split. { assert (0 <= q * t1 <= 2) by nra. nra. }
  split. { split; [apply Rle_mult_inv_pos; nra|]. apply Rmult_le_reg_r with q; [lra|]. unfold Rdiv. rewrite Rmult_assoc, Rinv_l by lra. nra. }
  rewrite <- U, E1, E2. split; unfold xr, ys; field; lra.
Qed.

(** The bounds after a round. [below r B]: the error is bounded away from zero when M is
    close to 1. *)
Definition near (r : Z) (A : R) : Prop := (0 <= r < 2 ^ n)%Z /\ 1 - A <= xr r <= 1 + A.
Definition below (r : Z) (B : R) : Prop := 4 * IZR m / W <= 1 + 1/1048576 -> xr r <= 1 - B.
Definition next_u (r s : Z) : Z := wrapping_sub (UI n) (3 * 2 ^ (n - 2)) (wmulh n s r).

Lemma round_r r s A C : near r A -> (0 <= s < 2 ^ n)%Z -> 0 <= A <= 1/100 -> 0 <= C <= 1/100 -> xr r - C <= ys s <= xr r + C ->
  let u := next_u r s in
  (0 <= u < 2 ^ n)%Z /\
  1 - (301/200 * (A * A) + 53/100 * C + 11 * w) <= 8 * IZR (wmulh n s u) / W / q <= 1 + (53/100 * C + 11 * w) /\
  (1 + 511/1000 * C + 202/100 * w < q -> (2 * wmulh n r u < 2 ^ n)%Z) /\
  (forall B, 0 <= B -> below r B -> 511/1000 * C + 202/100 * w < 1/4194304 -> 511/1000 * C + 202/100 * w < 299/200 * (B * B) ->
     (2 * wmulh n r u < 2 ^ n)%Z /\ below (2 * wmulh n r u) (299/200 * (B * B) - 511/1000 * C - 202/100 * w)) /\
  ((2 * wmulh n r u < 2 ^ n)%Z -> near (2 * wmulh n r u) (301/200 * (A * A) + 52/100 * C + 61/10 * w) /\
     xr (2 * wmulh n r u) - (103/100 * C + 8 * w) <= 8 * IZR (wmulh n s u) / W / q <= xr (2 * wmulh n r u) + (103/100 * C + 8 * w)).
Proof using Hn Hm.
  intros (Hr & Hx) Hs HA HC Hy u. destruct (mid_round r s A C Hr Hs HA HC Hx Hy) as (u' & k & g & h & Eu & Hu & Hk & Hg & Hh & Er & Es). change (u = u') in Eu. subst u'.
  split; [exact Hu|]. rewrite Es. pose proof w_small as Ww. pose proof root_range as Q. pose proof width_big as WB.
  set (a := xr r - 1). set (c := ys s - xr r). assert (- A <= a <= A) as Ha by (unfold a; lra). assert (- C <= c <= C) as Hc by (unfold c; lra).
  assert (xr r = 1 + a) as Xa by (unfold a; lra). assert (ys s = 1 + a + c) as Yc by (unfold a, c; lra). clearbody a c. rewrite Xa, Yc in *.
  assert (0 <= 4 * w <= 1/1000) as HK by lra. pose proof (newton_u a c k A C (4 * w) HA HC HK Ha Hc Hk) as Nu. pose proof (newton_x a c k A C (4 * w) HA HC HK Ha Hc Hk) as Nx. pose proof (newton_y a c k A C (4 * w) HA HC HK Ha Hc Hk) as Ny.
  pose proof (wmulh_range r u Hr Hu) as Rr.
  assert (0 <= a * a) as A2 by apply Rle_0_sqr. assert (0 <= A * A) as A3 by apply Rle_0_sqr.
  assert (xr (2 * wmulh n r u) = q * (2 * IZR (wmulh n r u) / W)) as EX by (unfold xr; rewrite mult_IZR; reflexivity). rewrite Er in EX.
  assert (forall z, z < q -> xr (2 * wmulh n r u) <= z -> (2 * wmulh n r u < 2 ^ n)%Z) as LT.
  { intros z Z1 Z2. apply lt_IZR. fold width. apply Rmult_lt_reg_r with (/ W); [apply Ww|]. rewrite (Rinv_r W) by lra. apply Rmult_lt_reg_l with q; [lra|]. rewrite Rmult_1_r.
    change (q * (IZR (2 * wmulh n r u) * / W)) with (xr (2 * wmulh n r u)). lra. }
  split; [lra|]. split; [intros C0; apply (LT (1 + 511/1000 * C + 202/100 * w)); lra|]. split.
  - intros B B0 HB C1 C2. assert (4 * IZR m / W <= 1 + 1/1048576 -> B * B <= a * a) as BB. { intros K. specialize (HB K). apply sq_ge; lra. }
    split.
    + destruct (Rle_or_lt (4 * IZR m / W) (1 + 1/1048576)) as [K|K].
      * specialize (BB K). apply (LT (1 - 299/200 * (a * a) + 511/1000 * C + 202/100 * w)); lra.
      * assert (1 + 1/4194304 <= q) as Lq. { rewrite <- root_sq in K. apply root_above; lra. } apply (LT (1 + 511/1000 * C + 202/100 * w)); lra.
    + intros K. specialize (BB K). lra.
  - intros NO. split; [split; [lia|lra]|].
    rewrite EX. set (U := 3 - (1 + a) * (1 + a + c) + k) in *. replace ((1 + a + c) * U / 2) with ((1 + a) * U / 2 + c * (U / 2)) by field. assert (- (103/100 * C) <= c * (U / 2) <= 103/100 * C) by (apply mul_bound; lra). lra.
Qed.

(** * The loop *)
Lemma loop_S cnt fin k i r s u : goldschmidt_loop n cnt fin (S k) i r s u =
  goldschmidt_loop n cnt fin k (i + 1)
    (norm (UI n) (wmulh n r (next_u r (if (0 <? i)%Z && (negb fin || (i + 1 <? cnt)%Z) then norm (UI n) (wmulh n s u * 2 ^ 1) else wmulh n s u)) * 2 ^ 1))
    (if (0 <? i)%Z && (negb fin || (i + 1 <? cnt)%Z) then norm (UI n) (wmulh n s u * 2 ^ 1) else wmulh n s u)
    (next_u r (if (0 <? i)%Z && (negb fin || (i + 1 <? cnt)%Z) then norm (UI n) (wmulh n s u * 2 ^ 1) else wmulh n s u)).
Proof using Hn.
  clear m Hm. assert (2 ^ n = 4 * 2 ^ (n - 2))%Z as P4. { replace n with (n - 2 + 2)%Z at 1 by lia. rewrite Z.pow_add_r by lia. lia. }
  cbn [goldschmidt_loop]. destruct ((0 <? i)%Z && (negb fin || (i + 1 <? cnt)%Z)).
  - rewrite cshl_ok by (cbn; lia). cbn [bind]. rewrite cshl_u_exact by lia. cbn [bind]. rewrite cshl_ok by (cbn; lia). reflexivity.
  - cbn [bind]. rewrite cshl_u_exact by lia. cbn [bind]. rewrite cshl_ok by (cbn; lia). reflexivity.
Qed.
Lemma norm_dbl z : (0 <= z)%Z -> (2 * z < 2 ^ n)%Z -> norm (UI n) (z * 2 ^ 1) = (2 * z)%Z.
Proof using. clear Hn m Hm. intros. rewrite norm_u. change (2 ^ 1)%Z with 2%Z. rewrite Z.mod_small; lia. Qed.

(** After the first round of a set. *)
Lemma first_round r A : near r A -> 0 <= A <= 1/100 -> let s := wmulh n m r in
  (0 <= s < 2 ^ n)%Z /\ xr r - 4 * w <= ys s <= xr r + 4 * w /\ 0 <= 4 * w <= 1/100.
Proof using Hn Hm.
  intros (Hr & Hx) HA s. assert (0 <= m < 2 ^ n)%Z as Hm' by (assert (0 < 2 ^ (n - 2))%Z by (apply Z.pow_pos_nonneg; lia); lia).
  split; [apply wmulh_range; assumption|]. pose proof (first_s r Hr) as F. pose proof w_small. fold s in F. split; lra.
Qed.
(** The doubled s of a later round. *)
Lemma second_s s u C : (0 <= s < 2 ^ n)%Z -> (0 <= u < 2 ^ n)%Z -> 8 * IZR (wmulh n s u) / W / q <= 1 + C -> C <= 1/2 ->
  (0 <= wmulh n s u)%Z /\ (2 * wmulh n s u < 2 ^ n)%Z /\ ys (2 * wmulh n s u) = 8 * IZR (wmulh n s u) / W / q.
Proof using Hn Hm.
  intros Hs Hu L HC. pose proof (wmulh_range s u Hs Hu) as Rr. pose proof width_big. pose proof root_range. split; [apply Rr|]. split.
  - apply lt_IZR. rewrite mult_IZR. fold width. assert (8 * IZR (wmulh n s u) / W / q * (W * q) = 8 * IZR (wmulh n s u)) as E by (field; lra).
    assert (8 * IZR (wmulh n s u) / W / q * (W * q) <= 3/2 * (W * q)) by (apply Rmult_le_compat_r; [apply Rmult_le_pos; lra|lra]). assert (W * q <= W * 2) by (apply Rmult_le_compat_l; lra). lra.
  - unfold ys. rewrite mult_IZR. field. lra.
Qed.

Lemma set1 r A : near r A -> 0 <= A <= 1/100 -> (2 * wmulh n r (next_u r (wmulh n m r)) < 2 ^ n)%Z ->
  exists r' s', goldschmidt n r m 1 false = Ok (r', s') /\ r' = (2 * wmulh n r (next_u r (wmulh n m r)))%Z /\ near r' (301/200 * (A * A) + 82/10 * w) /\
    (forall B, 0 <= B -> below r B -> 41/10 * w < 1/4194304 -> 41/10 * w < 299/200 * (B * B) -> below r' (299/200 * (B * B) - 41/10 * w)).
Proof using Hn Hm.
  intros N HA NO. destruct (first_round r A N HA) as (Hs & Hy & HC). set (s := wmulh n m r) in *. pose proof w_small as Ww.
  destruct (round_r r s A (4 * w) N Hs HA HC Hy) as (Hu & _ & _ & HB & NX). destruct (NX NO) as ((NX1 & NX2) & _). set (u := next_u r s) in *.
  unfold goldschmidt. rewrite loop_S. replace ((0 <? 0)%Z && (negb false || (0 + 1 <? Z.of_nat 1)%Z)) with false by reflexivity. fold s. fold u. rewrite norm_dbl by lia. cbn [goldschmidt_loop].
  exists (2 * wmulh n r u)%Z, s. split; [reflexivity|]. split; [reflexivity|]. split; [split; [exact NX1|lra]|]. intros B B0 Bl K1 K2. destruct (HB B B0 Bl ltac:(lra) ltac:(lra)) as (_ & HB2). intros K. specialize (HB2 K). lra.
Qed.

Lemma set2 r A : near r A -> 0 <= A <= 1/100 ->
  let u := next_u r (wmulh n m r) in let r1 := (2 * wmulh n r u)%Z in let s2 := (2 * wmulh n (wmulh n m r) u)%Z in
  (r1 < 2 ^ n)%Z ->
  (2 * wmulh n r1 (next_u r1 s2) < 2 ^ n)%Z ->
  exists r' s', goldschmidt n r m 2 false = Ok (r', s') /\
    (let A1 := 301/200 * (A * A) + 82/10 * w in A1 <= 1/100 -> near r' (301/200 * (A1 * A1) + 13 * w)).
Proof using Hn Hm.
  intros N HA u r1 s2 NO1 NO2. destruct (first_round r A N HA) as (Hs & Hy & HC). set (s := wmulh n m r) in *. pose proof w_small as Ww. pose proof root_range as Q.
  destruct (round_r r s A (4 * w) N Hs HA HC Hy) as (Hu & YU & _ & _ & NX). destruct (NX NO1) as ((NX1 & NX2) & NXY). fold u in Hu, YU, NX, NX1, NX2, NXY. fold r1 in NX1, NX2, NXY.
  destruct (second_s s u (53/100 * (4 * w) + 11 * w) Hs Hu ltac:(lra) ltac:(lra)) as (S0 & S1 & S2). fold s2 in S1, S2.
  unfold goldschmidt. rewrite loop_S. replace ((0 <? 0)%Z && (negb false || (0 + 1 <? Z.of_nat 2)%Z)) with false by reflexivity. fold s. fold u. rewrite norm_dbl by lia. fold r1.
  rewrite loop_S. replace ((0 <? 0 + 1)%Z && (negb false || (0 + 1 + 1 <? Z.of_nat 2)%Z)) with true by reflexivity. rewrite (norm_dbl (wmulh n s u)) by (unfold s2 in S1; lia). fold s2.
  assert (0 <= next_u r1 s2 < 2 ^ n)%Z as Hu2. { unfold next_u, wrapping_sub. rewrite norm_u. apply Z.mod_pos_bound. lia. }
  pose proof (wmulh_range r1 _ NX1 Hu2) as R2. rewrite norm_dbl by lia. cbn [goldschmidt_loop].
  exists (2 * wmulh n r1 (next_u r1 s2))%Z, s2. split; [reflexivity|]. cbv zeta. intros HA1. set (A1 := 301/200 * (A * A) + 82/10 * w) in *.
  assert (0 <= A * A) by apply Rle_0_sqr. assert (near r1 A1) as N1 by (split; [exact NX1|unfold A1; lra]). assert (0 <= A1 <= 1/100) as HA1' by (split; [unfold A1; lra|exact HA1]).
  destruct (round_r r1 s2 A1 (103/100 * (4 * w) + 8 * w) N1 ltac:(unfold s2 in *; lia) HA1' ltac:(lra) ltac:(rewrite S2; lra)) as (_ & _ & _ & _ & NX'). destruct (NX' NO2) as ((NX3 & NX4) & _).
  split; [exact NX3|]. lra.
Qed.

Lemma final2 r A : near r A -> 0 <= A <= 1/100 ->
  exists r' s, goldschmidt n r m 2 true = Ok (r', s) /\ (0 <= s < 2 ^ n)%Z /\ 1 - (301/200 * (A * A) + 132/10 * w) <= 8 * IZR s / W / q <= 1 + 132/10 * w.
Proof using Hn Hm.
  intros N HA. destruct (first_round r A N HA) as (Hs & Hy & HC). set (s := wmulh n m r) in *. pose proof w_small as Ww.
  destruct (round_r r s A (4 * w) N Hs HA HC Hy) as (Hu & YU & _). set (u := next_u r s) in *.
  unfold goldschmidt. rewrite loop_S. replace ((0 <? 0)%Z && (negb true || (0 + 1 <? Z.of_nat 2)%Z)) with false by reflexivity. fold s. fold u.
  rewrite loop_S. replace ((0 <? 0 + 1)%Z && (negb true || (0 + 1 + 1 <? Z.of_nat 2)%Z)) with false by reflexivity. cbn [goldschmidt_loop].
  eexists _, _. split; [reflexivity|]. split; [apply wmulh_range; assumption|]. lra.
Qed.

Lemma final3 r A : near r A -> 0 <= A <= 1/100 -> (2 * wmulh n r (next_u r (wmulh n m r)) < 2 ^ n)%Z ->
  exists r' s, goldschmidt n r m 3 true = Ok (r', s) /\ (0 <= s < 2 ^ n)%Z /\
   (let A1 := 301/200 * (A * A) + 82/10 * w in A1 <= 1/100 -> 1 - (301/200 * (A1 * A1) + 18 * w) <= 8 * IZR s / W / q <= 1 + 18 * w).
Proof using Hn Hm.
  intros N HA NO1. destruct (first_round r A N HA) as (Hs & Hy & HC). set (s := wmulh n m r) in *. pose proof w_small as Ww. pose proof root_range as Q. set (u := next_u r s) in *. set (r1 := (2 * wmulh n r u)%Z) in *.
  destruct (round_r r s A (4 * w) N Hs HA HC Hy) as (Hu & YU & _ & _ & NX). destruct (NX NO1) as ((NX1 & NX2) & NXY). fold u in Hu, YU, NX, NX1, NX2, NXY. fold r1 in NX1, NX2, NXY.
  destruct (second_s s u (53/100 * (4 * w) + 11 * w) Hs Hu ltac:(lra) ltac:(lra)) as (S0 & S1 & S2). set (s2 := (2 * wmulh n s u)%Z) in *.
  unfold goldschmidt. rewrite loop_S. replace ((0 <? 0)%Z && (negb true || (0 + 1 <? Z.of_nat 3)%Z)) with false by reflexivity. fold s. fold u. rewrite norm_dbl by lia. fold r1.
  rewrite loop_S. replace ((0 <? 0 + 1)%Z && (negb true || (0 + 1 + 1 <? Z.of_nat 3)%Z)) with true by reflexivity. rewrite (norm_dbl (wmulh n s u)) by (unfold s2 in S1; lia). fold s2.
  rewrite loop_S. replace ((0 <? 0 + 1 + 1)%Z && (negb true || (0 + 1 + 1 + 1 <? Z.of_nat 3)%Z)) with false by reflexivity. cbn [goldschmidt_loop].
  assert (0 <= next_u r1 s2 < 2 ^ n)%Z as Hu2. { unfold next_u, wrapping_sub. rewrite norm_u. apply Z.mod_pos_bound. lia. }
  assert (0 <= s2 < 2 ^ n)%Z as Hs2 by (unfold s2 in *; lia).
  eexists _, _. split; [reflexivity|]. split; [apply wmulh_range; assumption|]. cbv zeta. intros HA1. set (A1 := 301/200 * (A * A) + 82/10 * w) in *.
  assert (0 <= A * A) by apply Rle_0_sqr. assert (near r1 A1) as N1 by (split; [exact NX1|unfold A1; lra]). assert (0 <= A1 <= 1/100) as HA1' by (split; [unfold A1; lra|exact HA1]).
  destruct (round_r r1 s2 A1 (103/100 * (4 * w) + 8 * w) N1 Hs2 HA1' ltac:(lra) ltac:(rewrite S2; lra)) as (_ & YU' & _). lra.
Qed.
End Round.
