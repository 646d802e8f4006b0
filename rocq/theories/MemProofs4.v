From Coq Require Import ZArith Lia Bool List.
From Verif Require Import Base BaseLemmas MemModel MemProofs MemProofs2 MemProofs3.
Import ListNotations.
Open Scope Z_scope.

(** * copy_forward *)

Lemma mod_step a w : 0 < w -> a mod w = 0 -> (a + w) mod w = 0.
Proof. intros Hw H. rewrite <- Z.add_mod_idemp_r by lia. rewrite Z.mod_same by lia. rewrite Z.add_0_r. exact H. Qed.
Lemma mod_back a w : 0 < w -> a mod w = 0 -> (a - w) mod w = 0.
Proof. intros Hw H. replace (a - w) with (a + (-1) * w) by lia. rewrite Z.mod_add by lia. exact H. Qed.

Lemma cfm_loop_ok e o : env_ok e -> 0 < o < W e -> forall fuel m d sa prev k,
  (Z.to_nat (k - 1) <= fuel)%nat -> 1 <= k -> d mod W e = 0 -> sa mod W e = 0 ->
  in_space e d (W e * k) -> 0 <= sa -> sa + o + W e * k < 2 ^ abits e ->
  can_read e (sa + o) (W e * k) -> can_write e d (W e * k) -> fwd_ok d (sa + o) (W e * k) -> bytes_ok m ->
  0 <= prev < 2 ^ abits e -> (forall i, o <= i < W e -> byte prev (idx (be e) (W e) i) = m (sa + i)) ->
  exists m' prev', cfm_loop fuel e (o * 8) m d sa prev (d + W e * k) = Ok (m', d + W e * (k - 1), sa + W e * (k - 1), prev') /\
    copied m m' d (sa + o) (W e * (k - 1)) /\ 0 <= prev' < 2 ^ abits e /\
    (forall i, o <= i < W e -> byte prev' (idx (be e) (W e) i) = m' (sa + W e * (k - 1) + i)).
Proof.
  intros He Ho. pose proof (env_W e He) as HW.
  induction fuel as [|fuel IH]; intros m d sa prev k Hf Hk Hd Hs [HD1 HD2] HS1 HS2 HR HWr HF Hm Hp Hpb;
    cbn [cfm_loop]; set (w := W e) in *;
    (destruct (Z.eq_dec k 1) as [->|Hk1];
      [ rewrite padd_id by lia; destruct (Z.ltb_spec (d + w) (d + w * 1)); [lia|];
        exists m, prev; rewrite Z.mul_0_r, !Z.add_0_r; repeat match goal with |- _ /\ _ => split end;
        [reflexivity | apply copied_0 | lia | lia | exact Hpb]
      | ]); [lia|].
  assert (Hmul : w * k = w + w * (k - 1)) by lia.
  assert (Hmul2 : w * (k - 1) = w + w * (k - 2)) by lia.
  assert (0 <= w * (k - 2)) by (apply Z.mul_nonneg_nonneg; lia).
  rewrite padd_id by lia.
  destruct (Z.ltb_spec (d + w) (d + w * k)); [|lia].
  rewrite padd_id by lia. unfold fwd_ok in HF.
  rewrite ld_ok; [|lia|apply mod_step; [lia|exact Hs]|intros x Hx; apply HR; lia]. cbn [bind].
  pose proof (word_at_range (be e) w m (sa + w) Hm ltac:(lia)) as Hcur.
  change (8 * w) with (abits e) in Hcur.
  pose proof (fun i => word_at_byte (be e) w m (sa + w) i Hm) as Hcb.
  set (cur := word_at (be e) w m (sa + w)) in *.
  destruct (reassemble_fwd_ok e prev cur o He Ho Hp Hcur) as (r & Er & Hr). rewrite Er. cbn [bind].
  rewrite st_ok; [|lia|exact Hd|intros x Hx; apply HWr; lia]. cbn [bind].
  set (m1 := upd e w m d r).
  assert (C1 : copied m m1 d (sa + o) w).
  { apply upd_bytes. intros i Hi. rewrite Hr by lia. destruct (Z.ltb_spec (i + o) (W e)).
    - rewrite Hpb by lia. f_equal. lia.
    - rewrite Hcb by lia. f_equal. lia. }
  replace (d + w * k) with (d + w + w * (k - 1)) by lia.
  destruct (IH m1 (d + w) (sa + w) cur (k - 1)) as (m' & prev' & E & C2 & Hp' & Hpb'); unfold in_space, fwd_ok; try lia.
  + apply mod_step; [lia|exact Hd].
  + apply mod_step; [lia|exact Hs].
  + intros x Hx. apply HR. lia.
  + intros x Hx. apply HWr. lia.
  + apply copied_bytes with m d (sa + o) w; assumption.
  + intros i Hi. rewrite Hcb by lia. rewrite C1. zb; try lia; reflexivity.
  + exists m', prev'. replace (k - 1 - 1) with (k - 2) in * by lia.
    split; [|split; [|split]].
    * rewrite E. replace (d + w + w * (k - 2)) with (d + w * (k - 1)) by lia.
      replace (sa + w + w * (k - 2)) with (sa + w * (k - 1)) by lia. reflexivity.
    * rewrite Hmul2. apply copied_fwd with m1; try assumption; try lia.
      replace (sa + o + w) with (sa + w + o) by lia. exact C2.
    * lia.
    * intros i Hi. rewrite Hpb' by lia. f_equal. lia.
Qed.

Lemma copy_forward_misaligned_ok e m d s n : env_ok e -> 0 < n -> n mod W e = 0 -> d mod W e = 0 -> s mod W e <> 0 ->
  in_space e d n -> in_space e s n -> can_read e s n -> can_write e d n -> fwd_ok d s n -> bytes_ok m ->
  exists m', copy_forward_misaligned e m d s n = Ok m' /\ copied m m' d s n.
Proof.
  intros He Hn Hnw Hd Hs [HD1 HD2] [HS1 HS2] HR HWr HF Hm. pose proof (env_W e He) as HW.
  unfold copy_forward_misaligned.
  rewrite (proj2 (Z.ltb_lt 0 n) Hn), Hnw. cbn [Z.eqb andb assert bind].
  destruct (Z.eqb_spec (s mod W e) 0); [contradiction|]. cbn [negb assert bind].
  rewrite (padd_id e d n) by lia. rewrite land_mask by auto.
  pose proof (Z.mod_pos_bound s (W e) ltac:(lia)). pose proof (Z.div_mod s (W e) ltac:(lia)) as Es.
  set (o := s mod W e) in *. pose proof (A_big e He).
  rewrite cmul_u by lia. cbn [bind].
  set (sa := W e * (s / W e)) in *.
  assert (Hsa : sa mod W e = 0) by (unfold sa; rewrite Z.mul_comm; apply Z.mod_mul; lia).
  assert (0 <= sa) by (apply Z.mul_nonneg_nonneg; [lia|apply Z.div_pos; lia]).
  rewrite padd_id by lia. replace (s + - o) with sa by lia.
  pose proof (mul_exact n (W e) ltac:(lia) Hnw) as En. set (k := n / W e) in *.
  assert (1 <= k <= n) by (clearbody k; nia). assert (W e <= n) by (clearbody k; nia). clearbody k sa o.
  set (w := W e) in *.
  destruct (load_aligned_end_partial_ok e m sa o) as (prev & Ep & Hp & Hpb); try assumption; try lia.
  { intros x Hx. apply HR. fold w in Hx. lia. }
  fold w in Ep, Hpb. rewrite Ep. cbn [bind].
  subst s. rename HS2 into HS2'.
  destruct (cfm_loop_ok e o He ltac:(lia) (Z.to_nat n) m d sa prev k) as (m1 & prev1 & E1 & C1 & Hp1 & Hpb1);
    fold w; unfold in_space; rewrite <- ?En; try assumption; try lia.
  fold w in E1, C1, Hpb1. rewrite <- En in E1. rewrite E1. cbn [bind].
  assert (Hmul : n = w + w * (k - 1)) by lia.
  assert (0 <= w * (k - 1)) by (apply Z.mul_nonneg_nonneg; lia).
  rewrite padd_id by lia.
  assert (Hm1 : bytes_ok m1) by (apply copied_bytes with m d (sa + o) (w * (k - 1)); assumption).
  destruct (load_aligned_partial_ok e m1 (sa + w * (k - 1) + w) o) as (cur & Ec & Hc & Hcb); try assumption; try lia.
  { apply mod_step; [lia|]. fold w. replace (sa + w * (k - 1)) with (sa + (k - 1) * w) by lia.
    rewrite Z.mod_add by lia. exact Hsa. }
  { unfold in_space. lia. }
  { intros x Hx. apply HR. lia. }
  rewrite Ec. cbn [bind].
  destruct (reassemble_fwd_ok e prev1 cur o He ltac:(lia) Hp1 Hc) as (r & Er & Hr). rewrite Er. cbn [bind].
  fold w in Hr, Hcb.
  rewrite st_ok; [|lia| |intros x Hx; apply HWr; lia].
  2: { replace (d + w * (k - 1)) with (d + (k - 1) * w) by lia. rewrite Z.mod_add by lia. exact Hd. }
  eexists. split; [reflexivity|].
  replace n with (w * (k - 1) + w) by lia. unfold fwd_ok in HF.
  apply copied_fwd with m1; try assumption; try lia.
  apply upd_bytes. intros i Hi. rewrite Hr by lia. destruct (Z.ltb_spec (i + o) w).
  - rewrite Hpb1 by lia. f_equal. lia.
  - rewrite Hcb by lia. f_equal. lia.
Qed.

Theorem copy_forward_ok e m d s n : env_ok e -> 0 <= n ->
  in_space e d n -> in_space e s n -> can_read e s n -> can_write e d n -> fwd_ok d s n -> bytes_ok m ->
  exists m', copy_forward e m d s n = Ok m' /\ copied m m' d s n.
Proof.
  intros He Hn [HD1 HD2] [HS1 HS2] HR HWr HF Hm. pose proof (env_W e He) as HW.
  unfold copy_forward. destruct (Z.leb_spec (word_copy_threshold e) n) as [Hth|Hth].
  2: { cbn [bind]. apply copy_forward_bytes_ok; try assumption; unfold in_space; lia. }
  assert (Hn2 : 2 * W e <= n) by (unfold word_copy_threshold in Hth; destruct (16 <? 2 * W e); lia).
  rewrite neg_mis by auto.
  pose proof (Z.mod_pos_bound (- d) (W e) ltac:(lia)) as Hmis.
  set (mis := (- d) mod W e) in *.
  assert (Hdm : (d + mis) mod W e = 0).
  { unfold mis. rewrite Z.add_mod_idemp_r by lia. rewrite Z.add_opp_diag_r. apply Z.mod_0_l. lia. }
  clearbody mis. unfold fwd_ok in HF.
  destruct (copy_forward_bytes_ok e m d s mis) as (m1 & E1 & C1); unfold in_space, fwd_ok; try assumption; try lia.
  { intros x Hx. apply HR. lia. } { intros x Hx. apply HWr. lia. }
  rewrite E1. cbn [bind]. rewrite !padd_id by lia. rewrite csub_u by lia. cbn [bind].
  rewrite land_not_mask by (auto; lia). rewrite land_mask by auto.
  pose proof (Z.mod_pos_bound (n - mis) (W e) ltac:(lia)) as Hnr.
  pose proof (Z.div_mod (n - mis) (W e) ltac:(lia)) as Hnd.
  assert (Hnw : (n - mis - (n - mis) mod W e) mod W e = 0).
  { replace (n - mis - (n - mis) mod W e) with ((n - mis) / W e * W e) by lia. apply Z.mod_mul. lia. }
  set (nw := n - mis - (n - mis) mod W e) in *.
  set (tail := (n - mis) mod W e) in *.
  assert (Htl : n = mis + nw + tail) by lia. clearbody tail nw.
  assert (Hm1 : bytes_ok m1) by (apply copied_bytes with m d s mis; assumption).
  set (body := if (s + mis) mod W e =? 0 then _ else _).
  assert (HB : exists m2, body = Ok m2 /\ copied m1 m2 (d + mis) (s + mis) nw).
  { unfold body. destruct (Z.eqb_spec ((s + mis) mod W e) 0) as [Ez|Enz].
    - apply copy_forward_words_ok; unfold in_space, fwd_ok; try assumption; try lia.
      + intros x Hx. apply HR. lia.
      + intros x Hx. apply HWr. lia.
    - destruct (unal e).
      + pose proof (mul_exact nw (W e) ltac:(lia) Hnw) as Ew.
        assert (0 <= nw / W e <= nw) by (split; [apply Z.div_pos; lia|]; apply Z.div_le_upper_bound; nia).
        rewrite padd_id by lia.
        destruct (copy_forward_unal_loop_ok e He (Z.to_nat nw) m1 (d + mis) (s + mis) (nw / W e)) as (m2 & E2 & C2);
          unfold in_space, fwd_ok; rewrite <- ?Ew; try assumption; try lia.
        * intros x Hx. apply HR. lia.
        * intros x Hx. apply HWr. lia.
        * rewrite <- Ew in *. eauto.
      + apply copy_forward_misaligned_ok; unfold in_space, fwd_ok; try assumption; try lia.
        * intros x Hx. apply HR. lia.
        * intros x Hx. apply HWr. lia. }
  destruct HB as (m2 & E2 & C2). rewrite E2. cbn [bind].
  rewrite !padd_id by lia. rewrite csub_u by lia. cbn [bind].
  assert (Hm2 : bytes_ok m2) by (apply copied_bytes with m1 (d + mis) (s + mis) nw; assumption).
  assert (C12 : copied m m2 d s (mis + nw)) by (apply copied_fwd with m1; try assumption; lia).
  destruct (copy_forward_bytes_ok e m2 (d + mis + nw) (s + mis + nw) (n - mis - nw)) as (m3 & E3 & C3);
    unfold in_space, fwd_ok; try assumption; try lia.
  { intros x Hx. apply HR. lia. } { intros x Hx. apply HWr. lia. }
  exists m3. split; [exact E3|].
  replace n with ((mis + nw) + (n - mis - nw)) at 1 by lia.
  apply copied_fwd with m2; try assumption; try lia.
  rewrite !Z.add_assoc. exact C3.
Qed.
