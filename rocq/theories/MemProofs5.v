From Coq Require Import ZArith Lia Bool List.
From Verif Require Import Base BaseLemmas MemModel MemProofs MemProofs2 MemProofs3 MemProofs4.
Import ListNotations.
Open Scope Z_scope.

(** * copy_backward. [d], [s] are the starts of the regions. *)

Lemma copy_backward_loop_ok e sz : 0 < sz -> forall fuel m d s k,
  (Z.to_nat k <= fuel)%nat -> 0 <= k -> d mod sz = 0 -> s mod sz = 0 ->
  in_space e d (sz * k) -> in_space e s (sz * k) ->
  can_read e s (sz * k) -> can_write e d (sz * k) -> bwd_ok d s (sz * k) -> bytes_ok m ->
  exists m', copy_backward_loop fuel e sz m (d + sz * k) (s + sz * k) d = Ok m' /\ copied m m' d s (sz * k).
Proof.
  intros Hsz. induction fuel as [|fuel IH]; intros m d s k Hf Hk Hd Hs HD HS HR HW HF Hm;
    cbn [copy_backward_loop]; destruct (Z.ltb_spec d (d + sz * k)) as [Hlt|Hge].
  - nia.
  - exists m. assert (k = 0) by nia. subst k. split; [reflexivity|]. rewrite Z.mul_0_r. apply copied_0.
  - assert (Hk1 : 1 <= k) by nia.
    assert (Hmul : sz * k = sz * (k - 1) + sz) by lia.
    assert (0 <= sz * (k - 1)) by (apply Z.mul_nonneg_nonneg; lia).
    unfold in_space, bwd_ok in *.
    rewrite !padd_id by lia.
    replace (d + sz * k + - sz) with (d + sz * (k - 1)) by lia.
    replace (s + sz * k + - sz) with (s + sz * (k - 1)) by lia.
    assert (Hmd : forall a, a mod sz = 0 -> (a + sz * (k - 1)) mod sz = 0).
    { intros a Ha. replace (a + sz * (k - 1)) with (a + (k - 1) * sz) by lia. rewrite Z.mod_add by lia. exact Ha. }
    rewrite ld_ok; [|lia|auto|intros x Hx; apply HR; lia]. cbn [bind].
    rewrite st_ok; [|lia|auto|intros x Hx; apply HW; lia]. cbn [bind].
    set (m1 := upd _ _ _ _ _).
    assert (C1 : copied m m1 (d + sz * (k - 1)) (s + sz * (k - 1)) sz) by (apply upd_word; exact Hm).
    destruct (IH m1 d s (k - 1)) as (m' & E & C2); unfold bwd_ok, in_space; try assumption; try lia.
    + intros x Hx. apply HR. lia.
    + intros x Hx. apply HW. lia.
    + eapply copied_bytes; [exact Hm|exact C1].
    + exists m'. split; [exact E|]. rewrite Hmul.
      apply copied_bwd with m1; try assumption; lia.
  - exists m. assert (k = 0) by nia. subst k. split; [reflexivity|]. rewrite Z.mul_0_r. apply copied_0.
Qed.

Lemma copy_backward_bytes_ok e m d s n : 0 <= n -> in_space e d n -> in_space e s n ->
  can_read e s n -> can_write e d n -> bwd_ok d s n -> bytes_ok m ->
  exists m', copy_backward_bytes e m (d + n) (s + n) n = Ok m' /\ copied m m' d s n.
Proof.
  intros. unfold copy_backward_bytes. unfold in_space in *. rewrite padd_id by lia.
  replace (d + n + - n) with d by lia.
  destruct (copy_backward_loop_ok e 1 ltac:(lia) (Z.to_nat n) m d s n) as (m' & E & C);
    unfold in_space; rewrite ?Z.mul_1_l; try assumption; try lia; try apply Z.mod_1_r.
  rewrite Z.mul_1_l in *. eauto.
Qed.
Lemma copy_backward_words_ok e m d s n : env_ok e -> 0 <= n -> n mod W e = 0 -> d mod W e = 0 -> s mod W e = 0 ->
  in_space e d n -> in_space e s n ->
  can_read e s n -> can_write e d n -> bwd_ok d s n -> bytes_ok m ->
  exists m', copy_backward_aligned_words e m (d + n) (s + n) n = Ok m' /\ copied m m' d s n.
Proof.
  intros He Hn Hnw Hd Hs HD HS HR HWr HF Hm. pose proof (env_W e He).
  unfold copy_backward_aligned_words. unfold in_space in *. rewrite padd_id by lia.
  replace (d + n + - n) with d by lia.
  pose proof (mul_exact n (W e) ltac:(lia) Hnw) as E0.
  assert (0 <= n / W e <= n) by (split; [apply Z.div_pos; lia|]; apply Z.div_le_upper_bound; nia).
  destruct (copy_backward_loop_ok e (W e) ltac:(lia) (Z.to_nat n) m d s (n / W e)) as (m' & E & C);
    unfold in_space; rewrite <- ?E0; try assumption; try lia.
  rewrite <- E0 in *. eauto.
Qed.
Lemma copy_backward_unal_loop_ok e : env_ok e -> forall fuel m d s k,
  (Z.to_nat k <= fuel)%nat -> 0 <= k -> d mod W e = 0 ->
  in_space e d (W e * k) -> in_space e s (W e * k) ->
  can_read e s (W e * k) -> can_write e d (W e * k) -> bwd_ok d s (W e * k) -> bytes_ok m ->
  exists m', copy_backward_unal_loop fuel e m (d + W e * k) (s + W e * k) d = Ok m' /\ copied m m' d s (W e * k).
Proof.
  intros He. pose proof (env_W e He). set (sz := W e) in *.
  induction fuel as [|fuel IH]; intros m d s k Hf Hk Hd HD HS HR HW HF Hm;
    cbn [copy_backward_unal_loop]; destruct (Z.ltb_spec d (d + sz * k)) as [Hlt|Hge].
  - nia.
  - exists m. assert (k = 0) by nia. subst k. split; [reflexivity|]. rewrite Z.mul_0_r. apply copied_0.
  - assert (Hk1 : 1 <= k) by nia.
    assert (Hmul : sz * k = sz * (k - 1) + sz) by lia.
    assert (0 <= sz * (k - 1)) by (apply Z.mul_nonneg_nonneg; lia).
    unfold in_space, bwd_ok in *. fold sz.
    rewrite !padd_id by lia.
    replace (d + sz * k + - sz) with (d + sz * (k - 1)) by lia.
    replace (s + sz * k + - sz) with (s + sz * (k - 1)) by lia.
    assert (Hmd : forall a, a mod sz = 0 -> (a + sz * (k - 1)) mod sz = 0).
    { intros a Ha. replace (a + sz * (k - 1)) with (a + (k - 1) * sz) by lia. rewrite Z.mod_add by lia. exact Ha. }
    rewrite ldu_ok; [|lia|intros x Hx; apply HR; lia]. cbn [bind].
    rewrite st_ok; [|lia|auto|intros x Hx; apply HW; lia]. cbn [bind].
    set (m1 := upd _ _ _ _ _).
    assert (C1 : copied m m1 (d + sz * (k - 1)) (s + sz * (k - 1)) sz) by (apply upd_word; exact Hm).
    destruct (IH m1 d s (k - 1)) as (m' & E & C2); unfold bwd_ok, in_space; try assumption; try lia.
    + intros x Hx. apply HR. lia.
    + intros x Hx. apply HW. lia.
    + eapply copied_bytes; [exact Hm|exact C1].
    + exists m'. split; [exact E|]. rewrite Hmul.
      apply copied_bwd with m1; try assumption; lia.
  - exists m. assert (k = 0) by nia. subst k. split; [reflexivity|]. rewrite Z.mul_0_r. apply copied_0.
Qed.

(** The source region is [sa + o - w*k, sa + o); it ends inside the word at [sa]. *)
Lemma cbm_loop_ok e o : env_ok e -> 0 < o < W e -> forall fuel m d sa prev k,
  (Z.to_nat (k - 1) <= fuel)%nat -> 1 <= k -> d mod W e = 0 -> sa mod W e = 0 ->
  in_space e d (W e * k) -> 0 <= sa + o - W e * k -> sa + o < 2 ^ abits e ->
  can_read e (sa + o - W e * k) (W e * k) -> can_write e d (W e * k) -> bwd_ok d (sa + o - W e * k) (W e * k) -> bytes_ok m ->
  0 <= prev < 2 ^ abits e -> (forall i, 0 <= i < o -> byte prev (idx (be e) (W e) i) = m (sa + i)) ->
  exists m' prev', cbm_loop fuel e (o * 8) m (d + W e * k) sa prev d = Ok (m', d + W e, sa - W e * (k - 1), prev') /\
    copied m m' (d + W e) (sa + o - W e * (k - 1)) (W e * (k - 1)) /\ 0 <= prev' < 2 ^ abits e /\
    (forall i, 0 <= i < o -> byte prev' (idx (be e) (W e) i) = m' (sa - W e * (k - 1) + i)).
Proof.
  intros He Ho. pose proof (env_W e He) as HW.
  induction fuel as [|fuel IH]; intros m d sa prev k Hf Hk Hd Hs [HD1 HD2] HS1 HS2 HR HWr HF Hm Hp Hpb;
    cbn [cbm_loop]; set (w := W e) in *;
    (destruct (Z.eq_dec k 1) as [->|Hk1];
      [ rewrite padd_id by lia; destruct (Z.ltb_spec (d + w) (d + w * 1)); [lia|];
        exists m, prev; rewrite Z.mul_1_r, Z.mul_0_r, !Z.sub_0_r; repeat match goal with |- _ /\ _ => split end;
        [reflexivity | apply copied_0 | lia | lia | exact Hpb]
      | ]); [lia|].
  assert (Hmul : w * k = w + w * (k - 1)) by lia.
  assert (Hmul2 : w * (k - 1) = w * (k - 2) + w) by lia.
  assert (0 <= w * (k - 2)) by (apply Z.mul_nonneg_nonneg; lia).
  rewrite padd_id by lia.
  destruct (Z.ltb_spec (d + w) (d + w * k)); [|lia].
  rewrite !padd_id by lia. unfold bwd_ok in HF.
  replace (sa + - w) with (sa - w) by lia.
  rewrite ld_ok; [|lia|apply mod_back; [lia|exact Hs]|intros x Hx; apply HR; lia]. cbn [bind].
  pose proof (word_at_range (be e) w m (sa - w) Hm ltac:(lia)) as Hcur.
  change (8 * w) with (abits e) in Hcur.
  pose proof (fun i => word_at_byte (be e) w m (sa - w) i Hm) as Hcb.
  set (cur := word_at (be e) w m (sa - w)) in *.
  destruct (reassemble_bwd_ok e prev cur o He Ho Hp Hcur) as (r & Er & Hr). rewrite Er. cbn [bind].
  replace (d + w * k + - w) with (d + w * (k - 1)) by lia.
  rewrite st_ok; [|lia| |intros x Hx; apply HWr; lia].
  2: { replace (d + w * (k - 1)) with (d + (k - 1) * w) by lia. rewrite Z.mod_add by lia. exact Hd. }
  cbn [bind].
  set (m1 := upd e w m (d + w * (k - 1)) r).
  assert (C1 : copied m m1 (d + w * (k - 1)) (sa - w + o) w).
  { apply upd_bytes. intros i Hi. rewrite Hr by lia. destruct (Z.ltb_spec (i + o) (W e)).
    - rewrite Hcb by lia. f_equal. lia.
    - rewrite Hpb by lia. f_equal. lia. }
  destruct (IH m1 d (sa - w) cur (k - 1)) as (m' & prev' & E & C2 & Hp' & Hpb'); unfold in_space, bwd_ok; try assumption; try lia.
  + apply mod_back; [lia|exact Hs].
  + intros x Hx. apply HR. lia.
  + intros x Hx. apply HWr. lia.
  + eapply copied_bytes; [exact Hm|exact C1].
  + intros i Hi. rewrite Hcb by lia. rewrite C1. zb; try lia; reflexivity.
  + exists m', prev'. replace (k - 1 - 1) with (k - 2) in * by lia.
    split; [|split; [|split]].
    * rewrite E. replace (sa - w - w * (k - 2)) with (sa - w * (k - 1)) by lia. reflexivity.
    * rewrite Hmul2 at 2. apply copied_bwd with m1; try assumption; try lia.
      -- replace (d + w + w * (k - 2)) with (d + w * (k - 1)) by lia.
         replace (sa + o - w * (k - 1) + w * (k - 2)) with (sa - w + o) by lia. exact C1.
      -- replace (sa + o - w * (k - 1)) with (sa - w + o - w * (k - 2)) by lia. exact C2.
    * lia.
    * intros i Hi. rewrite Hpb' by lia. f_equal. lia.
Qed.

Lemma copy_backward_misaligned_ok e m d s n : env_ok e -> 0 < n -> n mod W e = 0 -> d mod W e = 0 -> s mod W e <> 0 ->
  in_space e d n -> in_space e s n -> can_read e s n -> can_write e d n -> bwd_ok d s n -> bytes_ok m ->
  exists m', copy_backward_misaligned e m (d + n) (s + n) n = Ok m' /\ copied m m' d s n.
Proof.
  intros He Hn Hnw Hd Hs [HD1 HD2] [HS1 HS2] HR HWr HF Hm. pose proof (env_W e He) as HW.
  assert (Hsn : (s + n) mod W e <> 0).
  { rewrite <- Z.add_mod_idemp_r by lia. rewrite Hnw, Z.add_0_r. exact Hs. }
  unfold copy_backward_misaligned.
  rewrite (proj2 (Z.ltb_lt 0 n) Hn), Hnw. cbn [Z.eqb andb assert bind].
  destruct (Z.eqb_spec ((s + n) mod W e) 0); [contradiction|]. cbn [negb assert bind].
  rewrite (padd_id e (d + n) (- n)) by lia. replace (d + n + - n) with d by lia. rewrite land_mask by auto.
  pose proof (Z.mod_pos_bound (s + n) (W e) ltac:(lia)). pose proof (Z.div_mod (s + n) (W e) ltac:(lia)) as Es.
  set (o := (s + n) mod W e) in *. pose proof (A_big e He).
  rewrite cmul_u by lia. cbn [bind].
  set (sa := W e * ((s + n) / W e)) in *.
  assert (Hsa : sa mod W e = 0) by (unfold sa; rewrite Z.mul_comm; apply Z.mod_mul; lia).
  pose proof (mul_exact n (W e) ltac:(lia) Hnw) as En. set (k := n / W e) in *.
  assert (1 <= k <= n) by (clearbody k; nia). assert (W e <= n) by (clearbody k; nia).
  assert (0 <= sa) by (apply Z.mul_nonneg_nonneg; [lia|apply Z.div_pos; lia]).
  rewrite padd_id by lia. replace (s + n + - o) with sa by lia.
  clearbody k sa o. set (w := W e) in *.
  assert (Es' : s = sa + o - n) by lia. subst s.
  destruct (load_aligned_partial_ok e m sa o) as (prev & Ep & Hp & Hpb); try assumption; try lia.
  { unfold in_space. lia. }
  { intros x Hx. apply HR. lia. }
  fold w in Hpb. rewrite Ep. cbn [bind].
  destruct (cbm_loop_ok e o He ltac:(lia) (Z.to_nat n) m d sa prev k) as (m1 & prev1 & E1 & C1 & Hp1 & Hpb1);
    fold w; unfold in_space; rewrite <- ?En; try assumption; try lia.
  fold w in E1, C1, Hpb1. rewrite <- En in E1. rewrite E1. cbn [bind].
  assert (Hmul : n = w + w * (k - 1)) by lia.
  assert (0 <= w * (k - 1)) by (apply Z.mul_nonneg_nonneg; lia).
  assert (Hsak : 0 <= sa - w * k).
  { destruct (Z.le_gt_cases 0 (sa - w * k)); [assumption|].
    exfalso. pose proof (mul_exact sa w ltac:(lia) Hsa) as Eq. rewrite Eq in *.
    assert (sa / w < k) by nia. assert (w * (sa / w) <= w * (k - 1)) by (apply Z.mul_le_mono_nonneg_l; lia). lia. }
  rewrite !padd_id by lia.
  assert (Hm1 : bytes_ok m1) by (eapply copied_bytes; [exact Hm|exact C1]).
  replace (sa - w * (k - 1) + - w) with (sa - w * k) by lia.
  destruct (load_aligned_end_partial_ok e m1 (sa - w * k) o) as (cur & Ec & Hc & Hcb); try assumption; try lia.
  { fold w. replace (sa - w * k) with (sa + (- k) * w) by lia. rewrite Z.mod_add by lia. exact Hsa. }
  { intros x Hx. apply HR. fold w in Hx. lia. }
  fold w in Ec, Hcb. rewrite Ec. cbn [bind].
  destruct (reassemble_bwd_ok e prev1 cur o He ltac:(lia) Hp1 Hc) as (r & Er & Hr). rewrite Er. cbn [bind].
  fold w in Hr.
  replace (d + w + - w) with d by lia.
  rewrite st_ok; [|lia|exact Hd|intros x Hx; apply HWr; lia].
  eexists. split; [reflexivity|].
  replace n with (w + w * (k - 1)) at 2 by lia. unfold bwd_ok in HF.
  apply copied_bwd with m1; try assumption; try lia.
  - replace (sa + o - n + w) with (sa + o - w * (k - 1)) by lia. exact C1.
  - apply upd_bytes. intros i Hi. rewrite Hr by lia. destruct (Z.ltb_spec (i + o) w).
    + rewrite Hcb by lia. f_equal. lia.
    + rewrite Hpb1 by lia. f_equal. lia.
Qed.

Theorem copy_backward_ok e m d s n : env_ok e -> 0 <= n ->
  in_space e d n -> in_space e s n -> can_read e s n -> can_write e d n -> bwd_ok d s n -> bytes_ok m ->
  exists m', copy_backward e m d s n = Ok m' /\ copied m m' d s n.
Proof.
  intros He Hn [HD1 HD2] [HS1 HS2] HR HWr HF Hm. pose proof (env_W e He) as HW.
  unfold copy_backward. rewrite !(padd_id e _ n) by lia.
  destruct (Z.leb_spec (word_copy_threshold e) n) as [Hth|Hth].
  2: { cbn [bind]. apply copy_backward_bytes_ok; try assumption; unfold in_space; lia. }
  assert (Hn2 : 2 * W e <= n) by (unfold word_copy_threshold in Hth; destruct (16 <? 2 * W e); lia).
  rewrite !land_mask by auto.
  pose proof (Z.mod_pos_bound (d + n) (W e) ltac:(lia)) as Hmis.
  pose proof (Z.div_mod (d + n) (W e) ltac:(lia)) as Hdn.
  set (mis := (d + n) mod W e) in *.
  assert (Hdm : (d + n - mis) mod W e = 0).
  { replace (d + n - mis) with ((d + n) / W e * W e) by lia. apply Z.mod_mul. lia. }
  clearbody mis. clear Hdn. unfold bwd_ok in HF.
  destruct (copy_backward_bytes_ok e m (d + n - mis) (s + n - mis) mis) as (m1 & E1 & C1); unfold in_space, bwd_ok; try assumption; try lia.
  { intros x Hx. apply HR. lia. } { intros x Hx. apply HWr. lia. }
  replace (d + n - mis + mis) with (d + n) in E1 by lia. replace (s + n - mis + mis) with (s + n) in E1 by lia.
  rewrite E1. cbn [bind]. rewrite !(padd_id e _ (- mis)) by lia. rewrite csub_u by lia. cbn [bind].
  replace (d + n + - mis) with (d + n - mis) by lia. replace (s + n + - mis) with (s + n - mis) by lia.
  rewrite land_not_mask by (auto; lia).
  pose proof (Z.mod_pos_bound (n - mis) (W e) ltac:(lia)) as Hnr.
  pose proof (Z.div_mod (n - mis) (W e) ltac:(lia)) as Hnd.
  assert (Hnw : (n - mis - (n - mis) mod W e) mod W e = 0).
  { replace (n - mis - (n - mis) mod W e) with ((n - mis) / W e * W e) by lia. apply Z.mod_mul. lia. }
  set (nw := n - mis - (n - mis) mod W e) in *.
  set (tail := (n - mis) mod W e) in *.
  assert (Htl : n = mis + nw + tail) by lia. clearbody tail nw. clear Hnd.
  assert (Hm1 : bytes_ok m1) by (eapply copied_bytes; [exact Hm|exact C1]).
  replace (d + n - mis) with (d + tail + nw) in * by lia. replace (s + n - mis) with (s + tail + nw) in * by lia.
  assert (Hdt : (d + tail) mod W e = 0).
  { rewrite <- Hdm. rewrite <- (Z.add_mod_idemp_r (d + tail) nw) by lia. rewrite Hnw, Z.add_0_r. reflexivity. }
  assert (Est : (s + tail + nw) mod W e = (s + tail) mod W e).
  { rewrite <- Z.add_mod_idemp_r by lia. rewrite Hnw, Z.add_0_r. reflexivity. }
  rewrite Est.
  set (body := if (s + tail) mod W e =? 0 then _ else _).
  assert (HB : exists m2, body = Ok m2 /\ copied m1 m2 (d + tail) (s + tail) nw).
  { unfold body. destruct (Z.eqb_spec ((s + tail) mod W e) 0) as [Ez|Enz].
    - apply copy_backward_words_ok; unfold in_space, bwd_ok; try assumption; try lia.
      + intros x Hx. apply HR. lia.
      + intros x Hx. apply HWr. lia.
    - destruct (unal e).
      + pose proof (mul_exact nw (W e) ltac:(lia) Hnw) as Ew.
        assert (0 <= nw / W e <= nw) by (split; [apply Z.div_pos; lia|]; apply Z.div_le_upper_bound; nia).
        rewrite padd_id by lia. replace (d + tail + nw + - nw) with (d + tail) by lia.
        destruct (copy_backward_unal_loop_ok e He (Z.to_nat nw) m1 (d + tail) (s + tail) (nw / W e)) as (m2 & E2 & C2);
          unfold in_space, bwd_ok; rewrite <- ?Ew; try assumption; try lia.
        * intros x Hx. apply HR. lia.
        * intros x Hx. apply HWr. lia.
        * rewrite <- Ew in *. eauto.
      + apply copy_backward_misaligned_ok; unfold in_space, bwd_ok; try assumption; try lia.
        * intros x Hx. apply HR. lia.
        * intros x Hx. apply HWr. lia. }
  destruct HB as (m2 & E2 & C2). rewrite E2. cbn [bind].
  rewrite !padd_id by lia. rewrite csub_u by lia. cbn [bind].
  assert (Hm2 : bytes_ok m2) by (eapply copied_bytes; [exact Hm1|exact C2]).
  assert (C12 : copied m m2 (d + tail) (s + tail) (nw + mis)) by (apply copied_bwd with m1; try assumption; lia).
  replace (d + tail + nw + - nw) with (d + tail) by lia. replace (s + tail + nw + - nw) with (s + tail) by lia.
  replace (n - mis - nw) with tail by lia.
  destruct (copy_backward_bytes_ok e m2 d s tail) as (m3 & E3 & C3);
    unfold in_space, bwd_ok; try assumption; try lia.
  { intros x Hx. apply HR. lia. } { intros x Hx. apply HWr. lia. }
  exists m3. split; [exact E3|].
  replace n with (tail + (nw + mis)) by lia.
  apply copied_bwd with m2; try assumption; lia.
Qed.
