From Coq Require Import ZArith Lia Bool List.
From Verif Require Import Base BaseLemmas MemModel MemProofs MemProofs2 MemProofs3 MemProofs4 MemProofs5.
Import ListNotations.
Open Scope Z_scope.

(** * set_bytes *)

Definition filled (m m' : mem) (d c n : Z) : Prop :=
  forall x, m' x = if (d <=? x) && (x <? d + n) then c else m x.

Lemma filled_0 m d c : filled m m d c 0.
Proof. intros x. zb; try reflexivity; lia. Qed.
Lemma filled_app m m1 m2 d c k n : 0 <= k -> 0 <= n ->
  filled m m1 d c k -> filled m1 m2 (d + k) c n -> filled m m2 d c (k + n).
Proof. intros Hk Hn H1 H2 x. rewrite H2, H1. zb; try lia; reflexivity. Qed.

Lemma upd_fill e sz m d c v : (forall i, 0 <= i < sz -> byte v i = c) -> filled m (upd e sz m d v) d c sz.
Proof.
  intros Hv x. unfold upd. destruct ((d <=? x) && (x <? d + sz)) eqn:E; [|reflexivity].
  apply andb_true_iff in E. rewrite Z.leb_le, Z.ltb_lt in E. apply Hv. apply idx_range. lia.
Qed.

Lemma set_loop_ok e sz c v : 0 < sz -> (forall i, 0 <= i < sz -> byte v i = c) -> forall fuel m d k,
  (Z.to_nat k <= fuel)%nat -> 0 <= k -> d mod sz = 0 ->
  in_space e d (sz * k) -> can_write e d (sz * k) ->
  exists m', set_loop fuel e sz m d v (d + sz * k) = Ok m' /\ filled m m' d c (sz * k).
Proof.
  intros Hsz Hv. induction fuel as [|fuel IH]; intros m d k Hf Hk Hd HD HW;
    cbn [set_loop]; destruct (Z.ltb_spec d (d + sz * k)) as [Hlt|Hge].
  - nia.
  - exists m. assert (k = 0) by nia. subst k. split; [reflexivity|]. rewrite Z.mul_0_r. apply filled_0.
  - assert (Hk1 : 1 <= k) by nia.
    assert (Hmul : sz * k = sz + sz * (k - 1)) by lia.
    assert (0 <= sz * (k - 1)) by (apply Z.mul_nonneg_nonneg; lia).
    unfold in_space in *.
    rewrite st_ok; [|lia|exact Hd|intros x Hx; apply HW; lia]. cbn [bind].
    rewrite !padd_id by lia.
    replace (d + sz * k) with (d + sz + sz * (k - 1)) by lia.
    destruct (IH (upd e sz m d v) (d + sz) (k - 1)) as (m' & E & C2); unfold in_space; try lia.
    + apply mod_step; assumption.
    + intros x Hx. apply HW. lia.
    + exists m'. split; [exact E|]. rewrite Hmul.
      eapply filled_app; [lia|lia|apply upd_fill; exact Hv|exact C2].
  - exists m. assert (k = 0) by nia. subst k. split; [reflexivity|]. rewrite Z.mul_0_r. apply filled_0.
Qed.

Lemma byte_0 c : 0 <= c <= 255 -> byte c 0 = c.
Proof. intros H. rewrite byte_div by lia. change (2 ^ (8 * 0)) with 1. rewrite Z.div_1_r. apply Z.mod_small. lia. Qed.

(** All the byte-broadcast multiplications, exhaustively. *)
Lemma broadcast_bytes k w : In (k, w) [(257, 2); (16843009, 4); (72340172838076673, 8)] ->
  forall c, 0 <= c <= 255 -> forall i, 0 <= i < w -> byte (c * k) i = c.
Proof.
  intros Hk c Hc i Hi.
  assert (H : forallb (fun c => forallb (fun i => byte (Z.of_nat c * k) (Z.of_nat i) =? Z.of_nat c) (seq 0 (Z.to_nat w))) (seq 0 256) = true).
  { destruct Hk as [E|[E|[E|[]]]]; injection E as <- <-; vm_compute; reflexivity. }
  rewrite forallb_forall in H. specialize (H (Z.to_nat c)).
  rewrite forallb_forall in H. specialize (H ltac:(apply in_seq; lia) (Z.to_nat i) ltac:(apply in_seq; lia)).
  rewrite !Z2Nat.id in H by lia. apply Z.eqb_eq. exact H.
Qed.

Lemma bl_step fuel e x b : env_ok e -> b < W e * 8 -> 0 < b -> 2 * b <= abits e -> 0 <= x < 2 ^ b ->
  broadcast_loop (S fuel) e x b = broadcast_loop fuel e (x + x * 2 ^ b) (2 * b).
Proof.
  intros He Hb Hb0 Hb2 Hx. cbn [broadcast_loop].
  rewrite (proj2 (Z.ltb_lt b (W e * 8))) by lia.
  pose proof (env_W e He). pose proof (A_big e He).
  assert (HP : 2 ^ (b + b) <= 2 ^ abits e) by (apply pow2_le; lia). rewrite pow2_add in HP by lia.
  rewrite cshl_u_exact by nia. cbn [bind]. unfold abits in *.
  rewrite cmul_u by lia. cbn [bind].
  rewrite lor_add_low by lia. rewrite (Z.mul_comm b 2). reflexivity.
Qed.

Lemma broadcast_ok e c : env_ok e -> 0 <= c <= 255 ->
  exists b, broadcast_loop 3 e c 8 = Ok b /\ forall i, 0 <= i < W e -> byte b i = c.
Proof.
  intros He Hc. assert (HA : abits e = 8 * W e) by reflexivity.
  destruct (He) as [HW|[HW|HW]].
  - rewrite bl_step; [|exact He|lia|lia|lia|lia]. cbn [broadcast_loop]. rewrite HW. cbn [Z.mul Pos.mul Z.ltb Z.compare Pos.compare Pos.compare_cont].
    eexists. split; [reflexivity|]. intros i Hi.
    replace (c + c * 2 ^ 8) with (c * 257) by lia. apply (broadcast_bytes 257 2); [cbn; auto|lia|lia].
  - rewrite bl_step; [|exact He|lia|lia|lia|lia].
    rewrite bl_step; [|exact He|lia|lia|lia|]; [|lia]. cbn [broadcast_loop]. rewrite HW. cbn [Z.mul Pos.mul Z.ltb Z.compare Pos.compare Pos.compare_cont].
    eexists. split; [reflexivity|]. intros i Hi.
    replace (c + c * 2 ^ 8 + _) with (c * 16843009) by lia. apply (broadcast_bytes 16843009 4); [cbn; auto|lia|lia].
  - rewrite bl_step; [|exact He|lia|lia|lia|lia].
    rewrite bl_step; [|exact He|lia|lia|lia|lia].
    rewrite bl_step; [|exact He|lia|lia|lia|]; [|lia]. cbn [broadcast_loop]. rewrite HW. cbn [Z.mul Pos.mul Z.ltb Z.compare Pos.compare Pos.compare_cont].
    eexists. split; [reflexivity|]. intros i Hi.
    match goal with |- byte ?x i = _ => replace x with (c * 72340172838076673) by lia end.
    apply (broadcast_bytes 72340172838076673 8); [cbn; auto|lia|lia].
Qed.

Lemma set_bytes_bytes_ok e m d c n : 0 <= c <= 255 -> 0 <= n -> in_space e d n -> can_write e d n ->
  exists m', set_bytes_bytes e m d c n = Ok m' /\ filled m m' d c n.
Proof.
  intros. unfold set_bytes_bytes. unfold in_space in *. rewrite padd_id by lia.
  destruct (set_loop_ok e 1 c c ltac:(lia)) with (fuel := Z.to_nat n) (m := m) (d := d) (k := n) as (m' & E & C);
    unfold in_space; rewrite ?Z.mul_1_l; try assumption; try lia; try apply Z.mod_1_r.
  - intros i Hi. replace i with 0 by lia. apply byte_0. lia.
  - rewrite Z.mul_1_l in *. eauto.
Qed.
Lemma set_bytes_words_ok e m d c n : env_ok e -> 0 <= c <= 255 -> 0 <= n -> n mod W e = 0 -> d mod W e = 0 ->
  in_space e d n -> can_write e d n ->
  exists m', set_bytes_words e m d c n = Ok m' /\ filled m m' d c n.
Proof.
  intros He Hc Hn Hnw Hd HD HWr. pose proof (env_W e He).
  unfold set_bytes_words. unfold in_space in *.
  destruct (broadcast_ok e c He Hc) as (b & Eb & Hb). rewrite Eb. cbn [bind].
  rewrite padd_id by lia.
  pose proof (mul_exact n (W e) ltac:(lia) Hnw) as E0.
  assert (0 <= n / W e <= n) by (split; [apply Z.div_pos; lia|]; apply Z.div_le_upper_bound; nia).
  destruct (set_loop_ok e (W e) c b ltac:(lia) Hb (Z.to_nat n) m d (n / W e)) as (m' & E & C);
    unfold in_space; rewrite <- ?E0; try assumption; try lia.
  rewrite <- E0 in *. eauto.
Qed.

Theorem set_bytes_ok e m d c n : env_ok e -> 0 <= c <= 255 -> 0 <= n -> in_space e d n -> can_write e d n ->
  exists m', set_bytes e m d c n = Ok m' /\ filled m m' d c n.
Proof.
  intros He Hc Hn [HD1 HD2] HWr. pose proof (env_W e He) as HW.
  unfold set_bytes. destruct (Z.leb_spec (word_copy_threshold e) n) as [Hth|Hth].
  2: { cbn [bind]. apply set_bytes_bytes_ok; try assumption; unfold in_space; lia. }
  assert (Hn2 : 2 * W e <= n) by (unfold word_copy_threshold in Hth; destruct (16 <? 2 * W e); lia).
  rewrite neg_mis by auto.
  pose proof (Z.mod_pos_bound (- d) (W e) ltac:(lia)) as Hmis.
  set (mis := (- d) mod W e) in *.
  assert (Hdm : (d + mis) mod W e = 0).
  { unfold mis. rewrite Z.add_mod_idemp_r by lia. rewrite Z.add_opp_diag_r. apply Z.mod_0_l. lia. }
  clearbody mis.
  destruct (set_bytes_bytes_ok e m d c mis) as (m1 & E1 & C1); unfold in_space; try assumption; try lia.
  { intros x Hx. apply HWr. lia. }
  rewrite E1. cbn [bind]. rewrite !padd_id by lia. rewrite csub_u by lia. cbn [bind].
  rewrite land_not_mask by (auto; lia).
  pose proof (Z.mod_pos_bound (n - mis) (W e) ltac:(lia)) as Hnr.
  pose proof (Z.div_mod (n - mis) (W e) ltac:(lia)) as Hnd.
  assert (Hnw : (n - mis - (n - mis) mod W e) mod W e = 0).
  { replace (n - mis - (n - mis) mod W e) with ((n - mis) / W e * W e) by lia. apply Z.mod_mul. lia. }
  set (nw := n - mis - (n - mis) mod W e) in *.
  set (tail := (n - mis) mod W e) in *.
  assert (Htl : n = mis + nw + tail) by lia. clearbody tail nw. clear Hnd.
  destruct (set_bytes_words_ok e m1 (d + mis) c nw) as (m2 & E2 & C2); unfold in_space; try assumption; try lia.
  { intros x Hx. apply HWr. lia. }
  rewrite E2. cbn [bind]. rewrite !padd_id by lia. rewrite csub_u by lia. cbn [bind].
  destruct (set_bytes_bytes_ok e m2 (d + mis + nw) c (n - mis - nw)) as (m3 & E3 & C3); unfold in_space; try assumption; try lia.
  { intros x Hx. apply HWr. lia. }
  exists m3. split; [exact E3|].
  replace n with (mis + (nw + (n - mis - nw))) at 1 by lia.
  apply filled_app with m1; try lia; try assumption.
  apply filled_app with m2; try lia; try assumption.
Qed.

(** * compare_bytes *)

Definition cmp_rel (m : mem) (a b n r : Z) : Prop :=
  ((forall i, 0 <= i < n -> m (a + i) = m (b + i)) /\ r = 0) \/
  exists j, 0 <= j < n /\ (forall i, 0 <= i < j -> m (a + i) = m (b + i)) /\
    m (a + j) <> m (b + j) /\ r = m (a + j) - m (b + j).

Lemma word_at_1 b m a : bytes_ok m -> word_at b 1 m a = m a.
Proof.
  intros Hm. rewrite <- (Z.add_0_r a) at 2. rewrite <- (word_at_byte b 1 m a 0 Hm) by lia.
  pose proof (word_at_range b 1 m a Hm ltac:(lia)) as H. change (2 ^ (8 * 1)) with 256 in H.
  replace (idx b 1 0) with 0 by (destruct b; reflexivity). symmetry. apply byte_0. lia.
Qed.
Lemma ld1 e m a : bytes_ok m -> rd e a = true -> ld e 1 m a = Ok (m a).
Proof.
  intros Hm Hr. rewrite ld_ok; [|lia|apply Z.mod_1_r|]. { rewrite word_at_1 by exact Hm. reflexivity. }
  intros x Hx. replace x with a by lia. exact Hr.
Qed.

Lemma compare_loop_ok e m a b n : bytes_ok m -> in_space e a n -> in_space e b n ->
  can_read e a n -> can_read e b n -> forall fuel i,
  (Z.to_nat (n - i) <= fuel)%nat -> 0 <= i <= n -> (forall j, 0 <= j < i -> m (a + j) = m (b + j)) ->
  exists r, compare_loop fuel e m a b n i = Ok r /\ cmp_rel m a b n r.
Proof.
  intros Hm [HA1 HA2] [HB1 HB2] HRa HRb. induction fuel as [|fuel IH]; intros i Hf Hi Hpre; cbn [compare_loop];
    destruct (Z.ltb_spec i n) as [Hlt|Hge].
  - lia.
  - exists 0. split; [reflexivity|]. left. split; [intros; apply Hpre; lia|reflexivity].
  - rewrite !padd_id by lia.
    rewrite !ld1; try exact Hm; try (apply HRb; lia); try (apply HRa; lia). cbn [bind].
    pose proof (Hm (a + i)). pose proof (Hm (b + i)).
    destruct (Z.eqb_spec (m (a + i)) (m (b + i))) as [E|E]; cbn [negb].
    + rewrite cadd_u by lia. cbn [bind]. apply IH; try lia. intros j Hj.
      destruct (Z.eq_dec j i) as [->|]; [exact E|]. apply Hpre. lia.
    + exists (m (a + i) - m (b + i)). split.
      * unfold csub. rewrite chk_ok; [reflexivity|]. apply fits_s. change (2 ^ (16 - 1)) with 32768. lia.
      * right. exists i. repeat split; try lia; try assumption.
  - exists 0. split; [reflexivity|]. left. split; [intros; apply Hpre; lia|reflexivity].
Qed.
Theorem compare_bytes_ok e m a b n : bytes_ok m -> 0 <= n -> in_space e a n -> in_space e b n ->
  can_read e a n -> can_read e b n -> exists r, compare_bytes e m a b n = Ok r /\ cmp_rel m a b n r.
Proof. intros. unfold compare_bytes. apply compare_loop_ok; try assumption; lia. Qed.

(** * strlen *)

Definition cstr (m : mem) (s L : Z) : Prop :=
  0 <= L /\ (forall i, 0 <= i < L -> m (s + i) <> 0) /\ m (s + L) = 0.

Lemma strlen_loop_ok e m s L : bytes_ok m -> cstr m s L -> 0 <= s -> s + L < 2 ^ abits e ->
  can_read e s (L + 1) -> forall fuel n, 0 <= n <= L -> (Z.to_nat (L - n) < fuel)%nat ->
  strlen_loop fuel e m (s + n) n = Ok L.
Proof.
  intros Hm (HL & Hnz & Hz) Hs Hsp Hr. induction fuel as [|fuel IH]; intros n Hn Hf; [lia|].
  cbn [strlen_loop]. rewrite ld1; [|exact Hm|apply Hr; lia]. cbn [bind].
  destruct (Z.eq_dec n L) as [->|Hne].
  - rewrite Hz. reflexivity.
  - destruct (Z.eqb_spec (m (s + n)) 0) as [E|_]; [exfalso; apply (Hnz n); [lia|exact E]|]. cbn [negb].
    rewrite cadd_u by lia. cbn [bind]. rewrite padd_id by lia. rewrite <- Z.add_assoc. apply IH; lia.
Qed.
