From Coq Require Import ZArith Lia Bool List.
From Verif Require Import Base BaseLemmas MemModel MemProofs.
Import ListNotations.
Open Scope Z_scope.

(** * Copying as a relation between memories *)

Definition copied (m m' : mem) (d s n : Z) : Prop :=
  forall x, m' x = if (d <=? x) && (x <? d + n) then m (s + (x - d)) else m x.

Ltac zb := repeat match goal with
  | |- context [?a <=? ?b] => destruct (Z.leb_spec a b)
  | |- context [?a <? ?b] => destruct (Z.ltb_spec a b)
  | |- context [?a =? ?b] => destruct (Z.eqb_spec a b)
  end; cbn [andb orb negb].

Lemma copied_0 m d s : copied m m d s 0.
Proof. intros x. zb; try reflexivity; lia. Qed.
Lemma copied_fwd m m1 m2 d s k n : 0 <= k -> 0 <= n -> (d <= s \/ s + k + n <= d) ->
  copied m m1 d s k -> copied m1 m2 (d + k) (s + k) n -> copied m m2 d s (k + n).
Proof.
  intros Hk Hn Hd H1 H2 x. rewrite H2.
  destruct ((d + k <=? x) && (x <? d + k + n)) eqn:E.
  - apply andb_true_iff in E. destruct E as [E1 E2].
    apply Z.leb_le in E1. apply Z.ltb_lt in E2. rewrite H1.
    replace (s + k + (x - (d + k))) with (s + (x - d)) by lia.
    zb; try lia; reflexivity.
  - rewrite H1. apply andb_false_iff in E. rewrite Z.leb_gt, Z.ltb_ge in E.
    zb; try lia; reflexivity.
Qed.
Lemma copied_bwd m m1 m2 d s k n : 0 <= k -> 0 <= n -> (s <= d \/ d + k + n <= s) ->
  copied m m1 (d + k) (s + k) n -> copied m1 m2 d s k -> copied m m2 d s (k + n).
Proof.
  intros Hk Hn Hd H1 H2 x. rewrite H2.
  destruct ((d <=? x) && (x <? d + k)) eqn:E.
  - apply andb_true_iff in E. destruct E as [E1 E2].
    apply Z.leb_le in E1. apply Z.ltb_lt in E2. rewrite H1.
    zb; try lia; reflexivity.
  - rewrite H1. apply andb_false_iff in E. rewrite Z.leb_gt, Z.ltb_ge in E.
    replace (s + k + (x - (d + k))) with (s + (x - d)) by lia.
    zb; try lia; reflexivity.
Qed.
Lemma copied_bytes m m' d s n : bytes_ok m -> copied m m' d s n -> bytes_ok m'.
Proof. intros Hm H a. rewrite H. destruct (_ && _); apply Hm. Qed.

(** What the caller provides. *)
Definition can_read (e : env) (a n : Z) : Prop := forall x, a <= x < a + n -> rd e x = true.
Definition can_write (e : env) (a n : Z) : Prop := forall x, a <= x < a + n -> wr e x = true.
Definition in_space (e : env) (a n : Z) : Prop := 0 <= a /\ a + n < 2 ^ abits e.

Lemma ld_ok e sz m a : 0 < sz -> a mod sz = 0 -> can_read e a sz -> ld e sz m a = Ok (word_at (be e) sz m a).
Proof.
  intros Hs Ha Hr. unfold ld. rewrite Ha. cbn [Z.eqb andb].
  rewrite (proj2 (range_ok_spec (rd e) a sz ltac:(lia))) by exact Hr. reflexivity.
Qed.
Lemma ldu_ok e sz m a : 0 < sz -> can_read e a sz -> ldu e sz m a = Ok (word_at (be e) sz m a).
Proof.
  intros Hs Hr. unfold ldu.
  rewrite (proj2 (range_ok_spec (rd e) a sz ltac:(lia))) by exact Hr. reflexivity.
Qed.
Lemma st_ok e sz m a v : 0 < sz -> a mod sz = 0 -> can_write e a sz -> st e sz m a v = Ok (upd e sz m a v).
Proof.
  intros Hs Ha Hr. unfold st. rewrite Ha. cbn [Z.eqb andb].
  rewrite (proj2 (range_ok_spec (wr e) a sz ltac:(lia))) by exact Hr. reflexivity.
Qed.
Lemma stu_ok e sz m a v : 0 < sz -> can_write e a sz -> stu e sz m a v = Ok (upd e sz m a v).
Proof.
  intros Hs Hr. unfold stu.
  rewrite (proj2 (range_ok_spec (wr e) a sz ltac:(lia))) by exact Hr. reflexivity.
Qed.
Lemma upd_word e sz m d s : bytes_ok m -> copied m (upd e sz m d (word_at (be e) sz m s)) d s sz.
Proof.
  intros Hm x. unfold upd. destruct ((d <=? x) && (x <? d + sz)) eqn:E; [|reflexivity].
  apply andb_true_iff in E. rewrite Z.leb_le, Z.ltb_lt in E.
  apply word_at_byte; [exact Hm|lia].
Qed.
(** A word whose bytes are those at [s] *)
Lemma upd_bytes e sz m d s v : (forall i, 0 <= i < sz -> byte v (idx (be e) sz i) = m (s + i)) ->
  copied m (upd e sz m d v) d s sz.
Proof.
  intros Hv x. unfold upd. destruct ((d <=? x) && (x <? d + sz)) eqn:E; [|reflexivity].
  apply andb_true_iff in E. rewrite Z.leb_le, Z.ltb_lt in E. apply Hv. lia.
Qed.

(** * Forward copying loops *)

Definition fwd_ok (d s n : Z) : Prop := d <= s \/ s + n <= d.
Definition bwd_ok (d s n : Z) : Prop := s <= d \/ d + n <= s.

Lemma copy_forward_loop_ok e sz : 0 < sz -> forall fuel m d s k,
  (Z.to_nat k <= fuel)%nat -> 0 <= k -> d mod sz = 0 -> s mod sz = 0 ->
  in_space e d (sz * k) -> in_space e s (sz * k) ->
  can_read e s (sz * k) -> can_write e d (sz * k) -> fwd_ok d s (sz * k) -> bytes_ok m ->
  exists m', copy_forward_loop fuel e sz m d s (d + sz * k) = Ok m' /\ copied m m' d s (sz * k).
Proof.
  intros Hsz. induction fuel as [|fuel IH]; intros m d s k Hf Hk Hd Hs HD HS HR HW HF Hm;
    cbn [copy_forward_loop]; destruct (Z.ltb_spec d (d + sz * k)) as [Hlt|Hge].
  - nia.
  - exists m. assert (k = 0) by nia. subst k. split; [reflexivity|]. rewrite Z.mul_0_r. apply copied_0.
  - assert (Hk1 : 1 <= k) by nia.
    assert (Hmul : sz * k = sz + sz * (k - 1)) by lia.
    assert (0 <= sz * (k - 1)) by (apply Z.mul_nonneg_nonneg; lia).
    unfold in_space, fwd_ok in *.
    rewrite ld_ok; [|lia|exact Hs|intros x Hx; apply HR; lia]. cbn [bind].
    rewrite st_ok; [|lia|exact Hd|intros x Hx; apply HW; lia]. cbn [bind].
    set (m1 := upd e sz m d (word_at (be e) sz m s)).
    assert (C1 : copied m m1 d s sz) by (apply upd_word; exact Hm).
    rewrite !padd_id by lia.
    replace (d + sz * k) with (d + sz + sz * (k - 1)) by lia.
    destruct (IH m1 (d + sz) (s + sz) (k - 1)) as (m' & E & C2); unfold fwd_ok, in_space; try lia.
    + rewrite <- Z.add_mod_idemp_r by lia. rewrite Z.mod_same by lia. rewrite Z.add_0_r. exact Hd.
    + rewrite <- Z.add_mod_idemp_r by lia. rewrite Z.mod_same by lia. rewrite Z.add_0_r. exact Hs.
    + intros x Hx. apply HR. lia.
    + intros x Hx. apply HW. lia.
    + apply copied_bytes with m d s sz; assumption.
    + exists m'. split; [exact E|]. rewrite Hmul.
      apply copied_fwd with m1; try assumption; lia.
  - exists m. assert (k = 0) by nia. subst k. split; [reflexivity|]. rewrite Z.mul_0_r. apply copied_0.
Qed.

Lemma mul_exact n w : 0 < w -> n mod w = 0 -> n = w * (n / w).
Proof. intros Hw H. pose proof (Z.div_mod n w). lia. Qed.

Lemma copy_forward_bytes_ok e m d s n : 0 <= n -> in_space e d n -> in_space e s n ->
  can_read e s n -> can_write e d n -> fwd_ok d s n -> bytes_ok m ->
  exists m', copy_forward_bytes e m d s n = Ok m' /\ copied m m' d s n.
Proof.
  intros. unfold copy_forward_bytes. unfold in_space in *. rewrite padd_id by lia.
  destruct (copy_forward_loop_ok e 1 ltac:(lia) (Z.to_nat n) m d s n) as (m' & E & C);
    unfold in_space; rewrite ?Z.mul_1_l; try assumption; try lia; try apply Z.mod_1_r.
  rewrite Z.mul_1_l in *. eauto.
Qed.
Lemma copy_forward_words_ok e m d s n : env_ok e -> 0 <= n -> n mod W e = 0 -> d mod W e = 0 -> s mod W e = 0 ->
  in_space e d n -> in_space e s n ->
  can_read e s n -> can_write e d n -> fwd_ok d s n -> bytes_ok m ->
  exists m', copy_forward_aligned_words e m d s n = Ok m' /\ copied m m' d s n.
Proof.
  intros He Hn Hnw Hd Hs HD HS HR HWr HF Hm. pose proof (env_W e He).
  unfold copy_forward_aligned_words. unfold in_space in *. rewrite padd_id by lia.
  pose proof (mul_exact n (W e) ltac:(lia) Hnw) as E0.
  assert (0 <= n / W e <= n) by (split; [apply Z.div_pos; lia|]; apply Z.div_le_upper_bound; nia).
  destruct (copy_forward_loop_ok e (W e) ltac:(lia) (Z.to_nat n) m d s (n / W e)) as (m' & E & C);
    unfold in_space; rewrite <- ?E0; try assumption; try lia.
  rewrite <- E0 in *. eauto.
Qed.
Lemma copy_forward_unal_loop_ok e : env_ok e -> forall fuel m d s k,
  (Z.to_nat k <= fuel)%nat -> 0 <= k -> d mod W e = 0 ->
  in_space e d (W e * k) -> in_space e s (W e * k) ->
  can_read e s (W e * k) -> can_write e d (W e * k) -> fwd_ok d s (W e * k) -> bytes_ok m ->
  exists m', copy_forward_unal_loop fuel e m d s (d + W e * k) = Ok m' /\ copied m m' d s (W e * k).
Proof.
  intros He. pose proof (env_W e He). set (sz := W e) in *.
  induction fuel as [|fuel IH]; intros m d s k Hf Hk Hd HD HS HR HW HF Hm;
    cbn [copy_forward_unal_loop]; destruct (Z.ltb_spec d (d + sz * k)) as [Hlt|Hge].
  - nia.
  - exists m. assert (k = 0) by nia. subst k. split; [reflexivity|]. rewrite Z.mul_0_r. apply copied_0.
  - assert (Hk1 : 1 <= k) by nia.
    assert (Hmul : sz * k = sz + sz * (k - 1)) by lia.
    assert (0 <= sz * (k - 1)) by (apply Z.mul_nonneg_nonneg; lia).
    unfold in_space, fwd_ok in *. fold sz.
    rewrite ldu_ok; [|lia|intros x Hx; apply HR; lia]. cbn [bind].
    rewrite st_ok; [|lia|exact Hd|intros x Hx; apply HW; lia]. cbn [bind].
    set (m1 := upd e sz m d (word_at (be e) sz m s)).
    assert (C1 : copied m m1 d s sz) by (apply upd_word; exact Hm).
    rewrite !padd_id by lia.
    replace (d + sz * k) with (d + sz + sz * (k - 1)) by lia.
    destruct (IH m1 (d + sz) (s + sz) (k - 1)) as (m' & E & C2); unfold fwd_ok, in_space; try lia.
    + rewrite <- Z.add_mod_idemp_r by lia. rewrite Z.mod_same by lia. rewrite Z.add_0_r. exact Hd.
    + intros x Hx. apply HR. lia.
    + intros x Hx. apply HW. lia.
    + apply copied_bytes with m d s sz; assumption.
    + exists m'. split; [exact E|]. rewrite Hmul.
      apply copied_fwd with m1; try assumption; lia.
  - exists m. assert (k = 0) by nia. subst k. split; [reflexivity|]. rewrite Z.mul_0_r. apply copied_0.
Qed.

(** * Reassembling words *)

Lemma byte_bit x i j : 0 <= i -> 0 <= j < 8 -> Z.testbit (byte x i) j = Z.testbit x (8 * i + j).
Proof.
  intros Hi Hj. unfold byte. rewrite Z.land_spec, Z.shiftr_spec by lia.
  change 255 with (Z.ones 8). rewrite Z.ones_spec_low by lia. rewrite andb_true_r. f_equal. lia.
Qed.
Lemma byte_ext x y i k : 0 <= i -> 0 <= k -> (forall j, 0 <= j < 8 -> Z.testbit x (8 * i + j) = Z.testbit y (8 * k + j)) ->
  byte x i = byte y k.
Proof.
  intros Hi Hk H. apply Z.bits_inj'. intros j Hj.
  destruct (Z.lt_ge_cases j 8) as [Hlt|Hge].
  - rewrite !byte_bit by lia. apply H. lia.
  - unfold byte. rewrite !Z.land_spec. change 255 with (Z.ones 8).
    rewrite Z.ones_spec_high by lia. rewrite !andb_false_r. reflexivity.
Qed.
Lemma high_bit x n i : 0 <= n -> 0 <= x < 2 ^ n -> n <= i -> Z.testbit x i = false.
Proof.
  intros Hn Hx Hi. destruct (Z.eq_dec x 0) as [->|]; [apply Z.bits_0|].
  apply Z.bits_above_log2; [lia|]. apply Z.log2_lt_pow2; [lia|].
  apply Z.lt_le_trans with (2 ^ n); [lia|]. apply pow2_le. lia.
Qed.

Lemma reassemble_fwd_ok e prev cur o : env_ok e -> 0 < o < W e ->
  0 <= prev < 2 ^ abits e -> 0 <= cur < 2 ^ abits e ->
  exists r, reassemble_fwd e prev cur (o * 8) = Ok r /\
    forall i, 0 <= i < W e -> byte r (idx (be e) (W e) i) =
      if i + o <? W e then byte prev (idx (be e) (W e) (i + o)) else byte cur (idx (be e) (W e) (i + o - W e)).
Proof.
  intros He Ho Hp Hc. pose proof (env_W e He). unfold reassemble_fwd.
  assert (HA : abits e = 8 * W e) by reflexivity. set (A := abits e) in *. set (w := W e) in *.
  destruct (be e); cbn [idx].
  - rewrite cshl_ok by (rewrite bits_u; lia). cbn [bind].
    rewrite cshr_ok by (rewrite bits_u; lia). cbn [bind].
    eexists. split; [reflexivity|]. intros i Hi.
    rewrite <- shiftl_mul, <- shiftr_div by lia. rewrite norm_u.
    destruct (Z.ltb_spec (i + o) w).
    + apply byte_ext; [lia|lia|]. intros j Hj.
      rewrite Z.lor_spec, Z.mod_pow2_bits_low, Z.shiftl_spec, Z.shiftr_spec by lia.
      rewrite (high_bit cur A) by lia. rewrite orb_false_r. f_equal. lia.
    + apply byte_ext; [lia|lia|]. intros j Hj.
      rewrite Z.lor_spec, Z.mod_pow2_bits_low, Z.shiftl_spec, Z.shiftr_spec by lia.
      rewrite (Z.testbit_neg_r prev) by lia. cbn [orb]. f_equal. lia.
  - rewrite cshr_ok by (rewrite bits_u; lia). cbn [bind].
    rewrite cshl_ok by (rewrite bits_u; lia). cbn [bind].
    eexists. split; [reflexivity|]. intros i Hi.
    rewrite <- shiftl_mul, <- shiftr_div by lia. rewrite norm_u.
    destruct (Z.ltb_spec (i + o) w).
    + apply byte_ext; [lia|lia|]. intros j Hj.
      rewrite Z.lor_spec, Z.mod_pow2_bits_low, Z.shiftl_spec, Z.shiftr_spec by lia.
      rewrite (Z.testbit_neg_r cur) by lia. rewrite orb_false_r. f_equal. lia.
    + apply byte_ext; [lia|lia|]. intros j Hj.
      rewrite Z.lor_spec, Z.mod_pow2_bits_low, Z.shiftl_spec, Z.shiftr_spec by lia.
      rewrite (high_bit prev A) by lia. cbn [orb]. f_equal. lia.
Qed.
Lemma reassemble_bwd_ok e prev cur o : env_ok e -> 0 < o < W e ->
  0 <= prev < 2 ^ abits e -> 0 <= cur < 2 ^ abits e ->
  exists r, reassemble_bwd e prev cur (o * 8) = Ok r /\
    forall i, 0 <= i < W e -> byte r (idx (be e) (W e) i) =
      if i + o <? W e then byte cur (idx (be e) (W e) (i + o)) else byte prev (idx (be e) (W e) (i + o - W e)).
Proof.
  intros He Ho Hp Hc. destruct (reassemble_fwd_ok e cur prev o He Ho Hc Hp) as (r & E & H).
  exists r. split; [|exact H]. rewrite <- E. pose proof (env_W e He).
  assert (HA : abits e = 8 * W e) by reflexivity.
  unfold reassemble_bwd, reassemble_fwd. destruct (be e).
  - rewrite cshl_ok by (rewrite bits_u; lia). rewrite cshr_ok by (rewrite bits_u; lia). cbn [bind].
    rewrite Z.lor_comm. reflexivity.
  - rewrite cshl_ok by (rewrite bits_u; lia). rewrite cshr_ok by (rewrite bits_u; lia). cbn [bind].
    rewrite Z.lor_comm. reflexivity.
Qed.
