(** Argument reduction from 2^20 pi / 2 on, rem_pio2_large: doubles that hold scaled integers, and arrays. *)
From Coq Require Import ZArith Reals Bool List Lia Lra Psatz.
From Flocq Require Import Core.
From Verif Require Import Base BaseLemmas FloatModel FloatSpec FloatProofs5 LibmModel LibmSpec LibmProps FloatConvSpec FloatErr PolyBound Elem ElemModel ElemSpec TrigModel F64Lib ExpProofs3 ExpProofs4 ExpProofs7 TrigRed TrigRed4.
Import ListNotations.
Open Scope Z_scope.

(** * Arrays *)
Definition el (l : list Z) (i : Z) : Z := nth (Z.to_nat i) l 0.
Definition len (l : list Z) : Z := Z.of_nat (length l).
Lemma tab_el l i : 0 <= i < len l -> tab l i = Ok (el l i).
Proof. intros H. unfold tab. fold (len l). replace ((0 <=? i) && (i <? len l)) with true by lia. reflexivity. Qed.
Lemma put_nat (l : list Z) n v : (n < length l)%nat -> length (firstn n l ++ v :: skipn (S n) l) = length l /\ forall k, nth k (firstn n l ++ v :: skipn (S n) l) 0 = if (k =? n)%nat then v else nth k l 0.
Proof.
  revert n. induction l as [|a l IH]; intros n H; [cbn in H; lia|]. destruct n as [|n].
  - cbn. split; [reflexivity|]. intros [|k]; reflexivity.
  - cbn in H. destruct (IH n ltac:(lia)) as [L N]. cbn [firstn skipn app length]. split; [f_equal; exact L|]. intros [|k]; [reflexivity|]. cbn [nth Nat.eqb]. apply N.
Qed.
Lemma put_el l i v : 0 <= i < len l -> exists l', put l i v = Ok l' /\ len l' = len l /\ forall k, 0 <= k -> el l' k = if k =? i then v else el l k.
Proof.
  intros H. unfold put. fold (len l). replace ((0 <=? i) && (i <? len l)) with true by lia. eexists. split; [reflexivity|].
  destruct (put_nat l (Z.to_nat i) v) as [L N]; [unfold len in H; lia|]. split; [unfold len; rewrite L; reflexivity|]. intros k Hk. unfold el. rewrite N.
  destruct (Z.eqb_spec k i) as [->|D]; [rewrite Nat.eqb_refl; reflexivity|]. replace (Z.to_nat k =? Z.to_nat i)%nat with false; [reflexivity|]. symmetry. apply Nat.eqb_neq. lia.
Qed.
Lemma usub_ok a b : 0 <= b <= a -> a < 2 ^ 64 -> usub a b = Ok (a - b).
Proof. intros H1 H2. unfold usub. apply chk_ok, fits_u. lia. Qed.

(** * Doubles *)
Definition sc (b m e : Z) : Prop := good b /\ value F64 b = (IZR m * bpow radix2 e)%R.
Lemma sc_shift b m e d : 0 <= d -> sc b m e -> sc b (m * 2 ^ d) (e - d).
Proof. intros Hd (G & V). split; [exact G|]. rewrite V, mult_IZR, (IZR_Zpower radix2), Rmult_assoc, <- bpow_plus by exact Hd. do 2 f_equal. lia. Qed.
Lemma sc_unshift b m e d : 0 <= d -> sc b (m * 2 ^ d) e -> sc b m (e + d).
Proof. intros Hd (G & V). split; [exact G|]. rewrite V, mult_IZR, (IZR_Zpower radix2), Rmult_assoc, <- bpow_plus by exact Hd. do 2 f_equal. lia. Qed.
Lemma sc_bound m e : Z.abs m <= 2 ^ 53 -> e <= 40 -> (Rabs (IZR m * bpow radix2 e) <= bpow radix2 100)%R.
Proof.
  intros Hm He. rewrite Rabs_mult, (Rabs_pos_eq (bpow radix2 e)), <- abs_IZR by apply bpow_ge_0. replace 100 with (53 + 47) by lia. rewrite bpow_plus.
  apply Rmult_le_compat; [apply IZR_le; lia|apply bpow_ge_0|rewrite <- (IZR_Zpower radix2) by lia; apply IZR_le; exact Hm|apply bpow_le; lia].
Qed.
Lemma sc_lt a b m n e : sc a m e -> sc b n e -> ((value F64 a < value F64 b)%R <-> m < n).
Proof.
  intros (_ & A) (_ & B). rewrite A, B. pose proof (bpow_gt_0 radix2 e). split; intros H1.
  - apply lt_IZR. apply (Rmult_lt_reg_r (bpow radix2 e)); assumption.
  - apply Rmult_lt_compat_r; [assumption|apply IZR_lt; exact H1].
Qed.
Lemma sc_inj a b m n e : sc a m e -> sc b n e -> (value F64 a = value F64 b <-> m = n).
Proof.
  intros (_ & A) (_ & B). rewrite A, B. pose proof (bpow_gt_0 radix2 e). split; intros H1; [|rewrite H1; reflexivity].
  apply eq_IZR. apply (Rmult_eq_reg_r (bpow radix2 e)); [assumption|lra].
Qed.
Lemma sc_zero : sc 0 0 0.
Proof. split; [const_good|]. rewrite (kb_val 0 0 0 eq_refl). reflexivity. Qed.
Lemma sc_zero_at e : sc 0 0 e.
Proof. destruct sc_zero as (G & V). split; [exact G|]. rewrite V. ring. Qed.
Lemma sc_one : sc one 1 0. Proof. split; [unfold one; const_good|]. rewrite (kb_val 0 one 1 eq_refl). reflexivity. Qed.
Lemma sc_half : sc half 1 (-1). Proof. split; [unfold half; const_good|]. rewrite (kb_val 1 half 1 eq_refl). reflexivity. Qed.
Lemma sc_eight : sc eight 1 3.
Proof. apply (sc_unshift _ 1 0 3); [lia|]. split; [unfold eight; const_good|]. rewrite (kb_val 0 eight 8 eq_refl). reflexivity. Qed.
Lemma sc_eighth : sc eighth 1 (-3). Proof. split; [unfold eighth; const_good|]. rewrite (kb_val 3 eighth 1 eq_refl). reflexivity. Qed.
Lemma sc_x1p24 : sc x1p24 1 24.
Proof. apply (sc_unshift _ 1 0 24); [lia|]. split; [unfold x1p24; const_good|]. rewrite (kb_val 0 x1p24 (2 ^ 24) eq_refl). reflexivity. Qed.
Lemma sc_x1p_24 : sc x1p_24 1 (-24). Proof. split; [unfold x1p_24; const_good|]. rewrite (kb_val 24 x1p_24 1 eq_refl). reflexivity. Qed.

Section Trig.
Context (o : fops) (Ho : ieee_ops F64 o) (c : icast) (Hc : icast_ok c).
Lemma sc_add a b m n e : sc a m e -> sc b n e -> Z.abs (m + n) <= 2 ^ 53 -> -1074 <= e <= 40 -> sc (o_add o a b) (m + n) e.
Proof using Ho.
  intros (Ga & A) (Gb & B) H He. assert (E : (value F64 a + value F64 b = IZR (m + n) * bpow radix2 e)%R) by (rewrite A, B, plus_IZR; ring).
  destruct (add64 o Ho a b Ga Gb) as (G & V); [rewrite E; apply sc_bound; lia|]. split; [exact G|]. rewrite V, E. apply rne_exact64; lia.
Qed.
Lemma sc_sub a b m n e : sc a m e -> sc b n e -> Z.abs (m - n) <= 2 ^ 53 -> -1074 <= e <= 40 -> sc (o_sub o a b) (m - n) e.
Proof using Ho.
  intros (Ga & A) (Gb & B) H He. assert (E : (value F64 a - value F64 b = IZR (m - n) * bpow radix2 e)%R) by (rewrite A, B, minus_IZR; ring).
  destruct (sub64 o Ho a b Ga Gb) as (G & V); [rewrite E; apply sc_bound; lia|]. split; [exact G|]. rewrite V, E. apply rne_exact64; lia.
Qed.
Lemma sc_mul a b m n e g : sc a m e -> sc b n g -> Z.abs (m * n) <= 2 ^ 53 -> -1074 <= e + g <= 40 -> sc (o_mul o a b) (m * n) (e + g).
Proof using Ho.
  intros (Ga & A) (Gb & B) H He. assert (E : (value F64 a * value F64 b = IZR (m * n) * bpow radix2 (e + g))%R) by (rewrite A, B, mult_IZR, bpow_plus; ring).
  destruct (mul64 o Ho a b Ga Gb) as (G & V); [rewrite E; apply sc_bound; lia|]. split; [exact G|]. rewrite V, E. apply rne_exact64; lia.
Qed.
Lemma sc_ofi k : - 2 ^ 31 <= k < 2 ^ 31 -> sc (c_ofi c k) k 0.
Proof using Hc. intros H. destruct (ofi64 c Hc k H) as (G & V). split; [exact G|]. rewrite V. cbn [bpow]. ring. Qed.
(** The conversion to i32 truncates. *)
Lemma sc_toi x m e : 0 <= e -> sc x m (- e) -> 0 <= m -> m / 2 ^ e < 2 ^ 31 -> c_toi c x = m / 2 ^ e.
Proof using Hc.
  intros He ((F & N) & V) Hm H. destruct (cast_toi c Hc x F) as (_ & _ & K). specialize (K N). rewrite K, V.
  replace (IZR m * bpow radix2 (- e))%R with (IZR m / IZR (2 ^ e))%R by (rewrite (IZR_Zpower radix2), bpow_opp by exact He; reflexivity).
  assert (P : 0 < 2 ^ e) by lia. rewrite Ztrunc_floor by (apply Rmult_le_pos; [apply IZR_le; exact Hm|apply Rlt_le, Rinv_0_lt_compat, IZR_lt; lia]).
  rewrite Zfloor_div by lia. assert (0 <= m / 2 ^ e) by (apply Z.div_pos; lia). unfold clamp; cbn; lia.
Qed.
Lemma sc_scale x m e k : sc x m e -> Z.abs m <= 2 ^ 53 -> -1074 <= e + k <= 40 -> - 2 ^ 31 <= k < 2 ^ 31 -> exists r, scalbn F64 o x k = Ok r /\ sc r m (e + k).
Proof using Ho.
  intros ((F & N) & V) Hm He Hk. destruct (C36_scalbn F64 o x k) as (r & E & Fr & R & _); [unfold std; tauto|exact Ho|exact F|exact Hk|]. exists r. split; [exact E|].
  specialize (R N). rewrite V in R. replace (IZR m * bpow radix2 e * bpow radix2 k)%R with (IZR m * bpow radix2 (e + k))%R in R by (rewrite bpow_plus; ring).
  destruct (rounds_val F64 Hp64 He64 Hm64 _ _ _ R) as (A & B & D); [pose proof (sc_bound m (e + k) Hm ltac:(lia)); pose proof big64; lra|].
  split; [split; assumption|]. rewrite D. apply rne_exact64; lia.
Qed.
Lemma sc_floor x m e : 0 <= e -> sc x m (- e) -> exists r st, floor_status F64 x = Ok (r, st) /\ sc r (m / 2 ^ e) 0.
Proof using.
  intros He ((F & N) & V). destruct (C32_floor F64 x) as (r & st & E & R & _); [unfold std; tauto|exact F|]. exists r, st. split; [exact E|].
  destruct (R N) as ((A & _ & B & D) & _). split; [split; assumption|]. rewrite D, V. cbn [bpow]. rewrite Rmult_1_r. f_equal.
  replace (IZR m * bpow radix2 (- e))%R with (IZR m / IZR (2 ^ e))%R by (rewrite (IZR_Zpower radix2), bpow_opp by exact He; reflexivity). apply Zfloor_div. lia.
Qed.
Lemma eq64 x y : good x -> good y -> (o_eq o x y = true <-> value F64 x = value F64 y).
Proof using Ho.
  intros (F & N) (F0 & N0). rewrite (ops_eq F64 o Ho x y F F0). unfold num_eq, ordered. split.
  - intros (_ & [(_ & _ & K)|(I & _)]); [exact K|]. unfold is_inf, is_finite in *. tauto.
  - intros E. split; [unfold is_nan, is_finite in *; tauto|]. left. tauto.
Qed.
Lemma le64 x y : good x -> good y -> (o_le o x y = true <-> (value F64 x <= value F64 y)%R).
Proof using Ho.
  intros (F & N) (F0 & N0). rewrite (ops_le F64 o Ho x y F F0). unfold num_le, num_lt, num_eq, ordered, neg_inf, pos_inf. split.
  - intros [(_ & [(_ & _ & K)|[(I & _)|(_ & I)]])|(_ & [(_ & _ & K)|(I & _)])]; [lra| | |lra|]; unfold is_inf, is_finite in *; tauto.
  - intros [E|E]; [left|right]; (split; [unfold is_nan, is_finite in *; tauto|]); left; tauto.
Qed.
Lemma sc_eq0 x m e : sc x m e -> o_eq o x 0 = (m =? 0).
Proof using Ho.
  intros S. pose proof (sc_inj x 0 m 0 e S (sc_zero_at e)) as I. pose proof (eq64 x 0 (proj1 S) (proj1 sc_zero)) as Q.
  destruct (Z.eqb_spec m 0) as [E|E]; [apply Q, I, E|]. destruct (o_eq o x 0); [|reflexivity]. exfalso. apply E, I, Q. reflexivity.
Qed.
Lemma sc_le x y m n e : sc x m e -> sc y n e -> o_le o x y = (m <=? n).
Proof using Ho.
  intros S T. pose proof (sc_lt y x n m e T S) as I. pose proof (le64 x y (proj1 S) (proj1 T)) as Q.
  destruct (Z.leb_spec m n) as [E|E].
  - apply Q. destruct (Rle_lt_dec (value F64 x) (value F64 y)) as [L|L]; [exact L|]. apply I in L. lia.
  - apply I in E. destruct (o_le o x y); [|reflexivity]. apply proj1 in Q. specialize (Q eq_refl). lra.
Qed.
End Trig.
