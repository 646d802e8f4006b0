(** Lemmas about the wide-integer model (BigModel.v): 256-bit arithmetic. *)
From Coq Require Import ZArith Bool List Lia.
From Verif Require Import Base BaseLemmas BigModel.
Open Scope Z_scope.

Definition bval (a : big) : Z := b_hi a * 2 ^ 128 + b_lo a.
Definition okb (t : ity) (a : big) : Prop := fits t (b_hi a) /\ 0 <= b_lo a < 2 ^ 128.
Definition wide (t : ity) : ity := Ity 256 (signed t).

Lemma p256 : 2 ^ 256 = 2 ^ 128 * 2 ^ 128. Proof. reflexivity. Qed.
Lemma p255 : 2 ^ 255 = 2 ^ 127 * 2 ^ 128. Proof. reflexivity. Qed.
Lemma p128 : 2 ^ 128 = 2 * 2 ^ 127. Proof. reflexivity. Qed.

Section Ty.
Context (t : ity) (Ht : bits t = 128).

Lemma okb_fits a : okb t a -> fits (wide t) (bval a).
Proof using Ht.
  unfold okb, fits, imin, imax, wide, bval. cbn [bits signed]. rewrite Ht.
  change (128 - 1) with 127. change (256 - 1) with 255. rewrite p256, p255, p128.
  assert (0 < 2 ^ 127) by reflexivity. generalize dependent (2 ^ 127). intros.
  destruct (signed t); nia.
Qed.
Lemma okb_norm r x : okb t r -> (exists k, bval r = x + k * 2 ^ 256) -> bval r = norm (wide t) x.
Proof using Ht. intros H [k Hk]. symmetry. apply norm_unique with (k := k); [reflexivity| |exact Hk]. now apply okb_fits. Qed.

Lemma carrying_add_spec a b c : fits t a -> fits t b ->
  carrying_add t a b c = (norm t (a + b + b2z c), negb (fitsb t (a + b + b2z c))).
Proof using Ht.
  intros Ha Hb. unfold carrying_add, overflowing_add.
  rewrite norm_add_l by lia. f_equal.
  destruct (norm_eq_mod t ltac:(lia) (a + b)) as [k Hk].
  pose proof (norm_fits t ltac:(lia) (a + b)) as Hf. rewrite Hk in *. clear Hk.
  unfold fitsb, fits, imin, imax in *. rewrite Ht in *. change (128 - 1) with 127 in *. rewrite p128 in *.
  assert (1 < 2 ^ 127) by reflexivity. generalize dependent (2 ^ 127). intros P Ha Hb Hf HP.
  destruct c, (signed t); cbn [b2z];
    assert (k = 0 \/ k = 1 \/ k = -1) as [-> | [-> | ->]] by nia; lia.
Qed.
Lemma borrowing_sub_spec a b c : fits t a -> fits t b ->
  borrowing_sub t a b c = (norm t (a - b - b2z c), negb (fitsb t (a - b - b2z c))).
Proof using Ht.
  intros Ha Hb. unfold borrowing_sub, overflowing_sub.
  rewrite norm_sub_l by lia. f_equal.
  destruct (norm_eq_mod t ltac:(lia) (a - b)) as [k Hk].
  pose proof (norm_fits t ltac:(lia) (a - b)) as Hf. rewrite Hk in *. clear Hk.
  unfold fitsb, fits, imin, imax in *. rewrite Ht in *. change (128 - 1) with 127 in *. rewrite p128 in *.
  assert (1 < 2 ^ 127) by reflexivity. generalize dependent (2 ^ 127). intros P Ha Hb Hf HP.
  destruct c, (signed t); cbn [b2z];
    assert (k = 0 \/ k = 1 \/ k = -1) as [-> | [-> | ->]] by nia; lia.
Qed.

(** The high limb overflows exactly when the 256-bit value does. *)
Lemma fits_wide h l : 0 <= l < 2 ^ 128 -> fitsb t h = fitsb (wide t) (h * 2 ^ 128 + l).
Proof using Ht.
  intros Hl. unfold fitsb, imin, imax, wide in *. cbn [bits signed]. rewrite Ht in *.
  change (128 - 1) with 127. change (256 - 1) with 255. rewrite p256, p255, p128 in *.
  assert (0 < 2 ^ 127) by reflexivity. generalize dependent (2 ^ 127). intros P Hl HP.
  destruct (signed t).
  - apply eq_true_iff_eq. rewrite !andb_true_iff, !Z.leb_le. nia.
  - apply eq_true_iff_eq. rewrite !andb_true_iff, !Z.leb_le. nia.
Qed.

Lemma big_add_spec dbg a b : okb t a -> okb t b ->
  exists r, okb t r /\ bval r = norm (wide t) (bval a + bval b) /\
  big_add dbg t a b = (if dbg && negb (fitsb (wide t) (bval a + bval b)) then Err Panic else Ok r).
Proof using Ht.
  intros [Ha1 Ha2] [Hb1 Hb2]. unfold big_add, overflowing_add.
  rewrite carrying_add_spec by auto.
  set (c := negb (fitsb (UI 128) (b_lo a + b_lo b))).
  assert (Hs : b_lo a + b_lo b = b2z c * 2 ^ 128 + norm (UI 128) (b_lo a + b_lo b)).
  { rewrite norm_u. subst c. unfold fitsb, imin, imax, UI; cbn [signed bits].
    destruct (Z_lt_le_dec (b_lo a + b_lo b) (2 ^ 128)).
    - rewrite Z.mod_small by lia. replace ((0 <=? _) && _) with true by lia. cbn. lia.
    - replace ((0 <=? _) && _) with false by lia. cbn [b2z negb].
      destruct (div_mod_unique (b_lo a + b_lo b) (2 ^ 128) 1 (b_lo a + b_lo b - 2 ^ 128)) as [_ ->]; lia. }
  assert (Hl : 0 <= norm (UI 128) (b_lo a + b_lo b) < 2 ^ 128) by (rewrite norm_u; apply Z.mod_pos_bound; reflexivity).
  set (l := norm (UI 128) (b_lo a + b_lo b)) in *. clearbody l. clearbody c.
  set (h := b_hi a + b_hi b + b2z c).
  assert (Hv : bval a + bval b = h * 2 ^ 128 + l) by (unfold bval, h; lia).
  assert (Hok : okb t (Big (norm t h) l)) by (split; cbn; [apply norm_fits; lia|lia]).
  exists (Big (norm t h) l). split; [exact Hok|]. split.
  - apply okb_norm; [exact Hok|]. rewrite Hv. unfold bval; cbn [b_hi b_lo].
    destruct (norm_eq_mod t ltac:(lia) h) as [k ->]. rewrite Ht. exists k. rewrite p256. ring.
  - rewrite Hv, <- fits_wide by auto. unfold debug_assert, assert.
    destruct dbg, (fitsb t h); reflexivity.
Qed.
Lemma big_sub_spec dbg a b : okb t a -> okb t b ->
  exists r, okb t r /\ bval r = norm (wide t) (bval a - bval b) /\
  big_sub dbg t a b = (if dbg && negb (fitsb (wide t) (bval a - bval b)) then Err Panic else Ok r).
Proof using Ht.
  intros [Ha1 Ha2] [Hb1 Hb2]. unfold big_sub, overflowing_sub.
  rewrite borrowing_sub_spec by auto.
  set (c := negb (fitsb (UI 128) (b_lo a - b_lo b))).
  assert (Hs : b_lo a - b_lo b = - b2z c * 2 ^ 128 + norm (UI 128) (b_lo a - b_lo b)).
  { rewrite norm_u. subst c. unfold fitsb, imin, imax, UI; cbn [signed bits].
    destruct (Z_lt_le_dec (b_lo a - b_lo b) 0).
    - replace ((0 <=? _) && _) with false by lia. cbn [b2z negb].
      destruct (div_mod_unique (b_lo a - b_lo b) (2 ^ 128) (-1) (b_lo a - b_lo b + 2 ^ 128)) as [_ ->]; lia.
    - rewrite Z.mod_small by lia. replace ((0 <=? _) && _) with true by lia. cbn. lia. }
  assert (Hl : 0 <= norm (UI 128) (b_lo a - b_lo b) < 2 ^ 128) by (rewrite norm_u; apply Z.mod_pos_bound; reflexivity).
  set (l := norm (UI 128) (b_lo a - b_lo b)) in *. clearbody l. clearbody c.
  set (h := b_hi a - b_hi b - b2z c).
  assert (Hv : bval a - bval b = h * 2 ^ 128 + l) by (unfold bval, h; lia).
  assert (Hok : okb t (Big (norm t h) l)) by (split; cbn; [apply norm_fits; lia|lia]).
  exists (Big (norm t h) l). split; [exact Hok|]. split.
  - apply okb_norm; [exact Hok|]. rewrite Hv. unfold bval; cbn [b_hi b_lo].
    destruct (norm_eq_mod t ltac:(lia) h) as [k ->]. rewrite Ht. exists k. rewrite p256. ring.
  - rewrite Hv, <- fits_wide by auto. unfold debug_assert, assert.
    destruct dbg, (fitsb t h); reflexivity.
Qed.

Lemma bval_lor a : okb t a -> bval a = Z.lor (b_lo a) (Z.shiftl (b_hi a) 128).
Proof using. intros [_ H]. rewrite shiftl_mul, lor_add_low by lia. unfold bval. lia. Qed.

Lemma fits_lor a b : fits t a -> fits t b -> fits t (Z.lor a b).
Proof using Ht.
  unfold fits, imin, imax. rewrite Ht. change (128 - 1) with 127. destruct (signed t); intros.
  - assert (forall x, - 2 ^ 127 <= x <= 2 ^ 127 - 1 <-> Z.shiftr x 127 = 0 \/ Z.shiftr x 127 = -1) as E.
    { intros x. rewrite shiftr_div by lia. pose proof (Z.div_mod x (2 ^ 127) ltac:(lia)).
      pose proof (Z.mod_pos_bound x (2 ^ 127) ltac:(lia)).
      assert (0 < 2 ^ 127) by reflexivity. generalize dependent (2 ^ 127). intros. nia. }
    apply E. apply E in H, H0. rewrite Z.shiftr_lor.
    destruct H as [-> | ->], H0 as [-> | ->]; cbn; auto.
  - assert (forall x, 0 <= x <= 2 ^ 128 - 1 <-> Z.shiftr x 128 = 0) as E.
    { intros x. rewrite shiftr_div by lia. pose proof (Z.div_mod x (2 ^ 128) ltac:(lia)).
      pose proof (Z.mod_pos_bound x (2 ^ 128) ltac:(lia)).
      assert (0 < 2 ^ 128) by reflexivity. generalize dependent (2 ^ 128). intros. nia. }
    apply E. apply E in H, H0. rewrite Z.shiftr_lor, H, H0. reflexivity.
Qed.
End Ty.

Lemma lor_u128 a b : 0 <= a < 2 ^ 128 -> 0 <= b < 2 ^ 128 -> 0 <= Z.lor a b < 2 ^ 128.
Proof. intros. pose proof (fits_lor (UI 128) eq_refl a b). rewrite !fits_u in H1. auto. Qed.

Section Ty2.
Context (t : ity) (Ht : bits t = 128).
Lemma big_or_spec a b : okb t a -> okb t b ->
  okb t (big_or a b) /\ bval (big_or a b) = Z.lor (bval a) (bval b).
Proof using Ht.
  intros Ha Hb. assert (Ho : okb t (big_or a b)).
  { split; cbn; [apply fits_lor; [exact Ht| |]|apply lor_u128]; first [apply Ha | apply Hb]. }
  split; [exact Ho|].
  rewrite !(bval_lor t) by auto. cbn [b_hi b_lo big_or].
  rewrite Z.shiftl_lor. rewrite <- !Z.lor_assoc. f_equal. rewrite !Z.lor_assoc. f_equal. apply Z.lor_comm.
Qed.
Lemma big_not_spec a : okb t a -> okb t (big_not t a) /\ bval (big_not t a) = norm (wide t) (- bval a - 1).
Proof using Ht.
  intros Ha. assert (Ho : okb t (big_not t a)).
  { unfold okb, big_not, inot; cbn [b_hi b_lo]. split; [apply norm_fits; lia|]. rewrite norm_u. apply Z.mod_pos_bound; reflexivity. }
  split; [exact Ho|]. apply okb_norm; auto. unfold bval, big_not, inot; cbn [b_hi b_lo]. unfold Z.lnot.
  destruct (norm_eq_mod t ltac:(lia) (Z.pred (- b_hi a))) as [k ->]. rewrite Ht. exists k.
  destruct Ha as [_ Hl]. rewrite norm_u.
  destruct (div_mod_unique (Z.pred (- b_lo a)) (2 ^ 128) (-1) (2 ^ 128 - 1 - b_lo a)) as [_ ->]; [lia|lia|].
  rewrite p256. lia.
Qed.
Lemma big_ltb_spec a b : okb t a -> okb t b -> big_ltb a b = (bval a <? bval b).
Proof using.
  intros [_ Ha] [_ Hb]. unfold big_ltb, bval. assert (0 < 2 ^ 128) by reflexivity.
  generalize dependent (2 ^ 128). intros P Ha Hb HP.
  apply eq_true_iff_eq. rewrite orb_true_iff, andb_true_iff, !Z.ltb_lt, Z.eqb_eq.
  destruct (Z.lt_trichotomy (b_hi a) (b_hi b)) as [H|[H|H]]; nia.
Qed.
Lemma big_eqb_spec a b : okb t a -> okb t b -> big_eqb a b = (bval a =? bval b).
Proof using.
  intros [_ Ha] [_ Hb]. unfold big_eqb, bval. assert (0 < 2 ^ 128) by reflexivity.
  generalize dependent (2 ^ 128). intros P Ha Hb HP.
  apply eq_true_iff_eq. rewrite andb_true_iff, !Z.eqb_eq.
  destruct (Z.lt_trichotomy (b_hi a) (b_hi b)) as [H|[H|H]]; nia.
Qed.
End Ty2.

(** ** Shifts *)
Lemma shift_masks s : 0 <= s < 256 ->
  Z.land s 127 = s mod 128 /\ (Z.land s 128 =? 0) = (s <? 128) /\ Z.lxor 127 (s mod 128) = 127 - s mod 128.
Proof.
  intros Hs.
  assert (H : forallb (fun n => let s := Z.of_nat n in
     (Z.land s 127 =? s mod 128) && Bool.eqb (Z.land s 128 =? 0) (s <? 128) && (Z.lxor 127 (s mod 128) =? 127 - s mod 128)) (seq 0 256) = true) by (vm_compute; reflexivity).
  rewrite forallb_forall in H. specialize (H (Z.to_nat s)).
  rewrite in_seq, Z2Nat.id in H by lia. specialize (H ltac:(lia)).
  rewrite !andb_true_iff, !Z.eqb_eq, eqb_true_iff in H. tauto.
Qed.

Section Ty3.
Context (t : ity) (Ht : bits t = 128).

Lemma big_shl_spec dbg a s : okb t a -> 0 <= s < 256 ->
  exists r, big_shl dbg t a s = Ok r /\ okb t r /\ bval r = norm (wide t) (bval a * 2 ^ s).
Proof using Ht.
  intros [Ha1 Ha2] Hs. unfold big_shl.
  assert (Hd : debug_assert dbg (s <? 256) = Ok tt) by (unfold debug_assert, assert; destruct dbg; replace (s <? 256) with true by lia; reflexivity).
  rewrite Hd. cbn [bind]. change (256 / 2 - 1) with 127. change (256 / 2) with 128.
  destruct (shift_masks s Hs) as (-> & -> & ->).
  pose proof (Z.mod_pos_bound s 128 ltac:(lia)).
  rewrite cshl_ok by (rewrite bits_u; lia). cbn [bind].
  destruct (Z.ltb_spec s 128).
  - rewrite (Z.mod_small s 128) in * by lia.
    rewrite !cshr_ok by (rewrite ?bits_u; lia). cbn [bind]. rewrite cshr_ok by (rewrite ?bits_u; lia). cbn [bind].
    rewrite cshl_ok by (rewrite Ht; lia). cbn [bind].
    rewrite Zdiv_Zdiv by (try apply Z.lt_le_incl; apply pow2_pos; lia). rewrite <- pow2_add by lia.
    replace (127 - s + 1) with (128 - s) by lia.
    assert (Hx : 0 <= b_lo a / 2 ^ (128 - s) < 2 ^ s).
    { split; [apply Z.div_pos; [lia|apply pow2_pos; lia]|]. apply Z.div_lt_upper_bound; [apply pow2_pos; lia|].
      rewrite <- pow2_add by lia. replace (128 - s + s) with 128 by lia. lia. }
    assert (Hfx : fits t (b_lo a / 2 ^ (128 - s))).
    { pose proof (pow2_le s 127 ltac:(lia)). assert (0 < 2 ^ 127) by reflexivity. unfold fits, imin, imax. rewrite Ht. change (128 - 1) with 127. rewrite p128. destruct (signed t); lia. }
    rewrite norm_id by (auto; lia).
    set (y := norm t (b_hi a * 2 ^ s)).
    assert (Hy : exists k, y = b_hi a * 2 ^ s + k * 2 ^ 128) by (destruct (norm_eq_mod t ltac:(lia) (b_hi a * 2 ^ s)) as [k Hk]; exists k; rewrite <- Ht; exact Hk).
    destruct Hy as [k Hy].
    assert (Hlor : Z.lor (b_lo a / 2 ^ (128 - s)) y = b_lo a / 2 ^ (128 - s) + y).
    { rewrite Hy. replace (b_hi a * 2 ^ s + k * 2 ^ 128) with ((b_hi a + k * 2 ^ (128 - s)) * 2 ^ s); [apply lor_add_low; lia|].
      rewrite Z.mul_add_distr_r, <- Z.mul_assoc, <- pow2_add by lia. replace (128 - s + s) with 128 by lia. reflexivity. }
    eexists. split; [reflexivity|].
    match goal with |- okb _ ?r /\ _ => assert (Ho : okb t r) end.
    { split; cbn [b_hi b_lo]; [apply fits_lor; auto; apply norm_fits; lia|rewrite norm_u; apply Z.mod_pos_bound; reflexivity]. }
    split; [exact Ho|]. apply okb_norm; auto. unfold bval; cbn [b_hi b_lo]. rewrite Hlor, Hy, norm_u.
    exists k. pose proof (Z.div_mod (b_lo a * 2 ^ s) (2 ^ 128) ltac:(lia)) as Hdm.
    assert (Hq : b_lo a * 2 ^ s / 2 ^ 128 = b_lo a / 2 ^ (128 - s)).
    { replace (2 ^ 128) with (2 ^ (128 - s) * 2 ^ s) by (rewrite <- pow2_add by lia; f_equal; lia).
      apply Z.div_mul_cancel_r; pose proof (pow2_pos s); pose proof (pow2_pos (128 - s)); lia. }
    rewrite Hq in Hdm. rewrite p256.
    remember ((b_lo a * 2 ^ s) mod 2 ^ 128) as M. clear HeqM.
    replace ((b_hi a * 2 ^ 128 + b_lo a) * 2 ^ s) with (b_hi a * 2 ^ 128 * 2 ^ s + b_lo a * 2 ^ s) by ring. rewrite Hdm. ring.
  - assert (Hm : s mod 128 = s - 128) by (symmetry; apply Z.mod_unique with 1; lia).
    rewrite Hm. set (l := norm (UI 128) (b_lo a * 2 ^ (s - 128))).
    eexists. split; [reflexivity|].
    match goal with |- okb _ ?r /\ _ => assert (Ho : okb t r) end.
    { split; cbn [b_hi b_lo]; [apply norm_fits; lia|lia]. }
    split; [exact Ho|]. apply okb_norm; auto. unfold bval; cbn [b_hi b_lo].
    destruct (norm_eq_mod t ltac:(lia) l) as [k ->]. rewrite Ht. subst l.
    destruct (norm_eq_mod (UI 128) ltac:(rewrite bits_u; lia) (b_lo a * 2 ^ (s - 128))) as [k2 ->]. rewrite bits_u.
    exists (k + k2 - b_hi a * 2 ^ (s - 128)).
    replace (2 ^ s) with (2 ^ (s - 128) * 2 ^ 128) by (rewrite <- pow2_add by lia; f_equal; lia).
    rewrite p256. ring.
Qed.

Lemma big_shr_spec dbg a s : okb t a -> 0 <= s < 256 ->
  exists r, big_shr dbg t a s = Ok r /\ okb t r /\ bval r = bval a / 2 ^ s.
Proof using Ht.
  intros [Ha1 Ha2] Hs. unfold big_shr.
  assert (Hd : debug_assert dbg (s <? 256) = Ok tt) by (unfold debug_assert, assert; destruct dbg; replace (s <? 256) with true by lia; reflexivity).
  rewrite Hd. cbn [bind]. change (256 / 2 - 1) with 127. change (256 / 2) with 128.
  destruct (shift_masks s Hs) as (-> & -> & ->).
  pose proof (Z.mod_pos_bound s 128 ltac:(lia)).
  rewrite cshr_ok by (rewrite Ht; lia). cbn [bind].
  assert (Hfd : forall k, 0 <= k -> fits t (b_hi a / 2 ^ k)).
  { intros k Hk. unfold fits, imin, imax in *. rewrite Ht in *. change (128 - 1) with 127 in *.
    pose proof (pow2_pos k Hk). assert (0 < 2 ^ 127) by reflexivity. assert (0 < 2 ^ 128) by reflexivity.
    destruct (signed t).
    - split; [|apply Zlt_succ_le; change (Z.succ _) with (2 ^ 127 - 1 + 1)]. apply Z.div_le_lower_bound; nia. apply Z.div_lt_upper_bound; nia.
    - split; [apply Z.div_pos; lia|]. apply Zlt_succ_le; change (Z.succ _) with (2 ^ 128 - 1 + 1). apply Z.div_lt_upper_bound; nia. }
  destruct (Z.ltb_spec s 128).
  - rewrite (Z.mod_small s 128) in * by lia.
    rewrite cshl_ok by (rewrite Ht; lia). cbn [bind]. rewrite cshl_ok by (rewrite Ht; lia). cbn [bind].
    rewrite cshr_ok by (rewrite bits_u; lia). cbn [bind].
    assert (Hx : norm (UI 128) (norm t (norm t (b_hi a * 2 ^ (127 - s)) * 2 ^ 1)) = (b_hi a mod 2 ^ s) * 2 ^ (128 - s)).
    { rewrite norm_mul_l by lia. destruct (norm_eq_mod t ltac:(lia) (b_hi a * 2 ^ (127 - s) * 2 ^ 1)) as [k ->]. rewrite Ht, norm_u.
      rewrite Z_mod_plus_full. rewrite <- Z.mul_assoc, <- pow2_add by lia. replace (127 - s + 1) with (128 - s) by lia.
      replace (2 ^ 128) with (2 ^ s * 2 ^ (128 - s)) by (rewrite <- pow2_add by lia; f_equal; lia).
      apply Zmult_mod_distr_r. }
    rewrite Hx.
    assert (Hy : 0 <= b_lo a / 2 ^ s < 2 ^ (128 - s)).
    { split; [apply Z.div_pos; [lia|apply pow2_pos; lia]|]. apply Z.div_lt_upper_bound; [apply pow2_pos; lia|].
      rewrite <- pow2_add by lia. replace (s + (128 - s)) with 128 by lia. lia. }
    rewrite Z.lor_comm, lor_add_low by lia.
    pose proof (Z.mod_pos_bound (b_hi a) (2 ^ s) (pow2_pos s ltac:(lia))) as Hmb.
    assert (Hp : 2 ^ 128 = 2 ^ s * 2 ^ (128 - s)) by (rewrite <- pow2_add by lia; f_equal; lia).
    eexists. split; [reflexivity|]. split.
    + split; cbn [b_hi b_lo]; [apply Hfd; lia|]. rewrite Hp.
      assert (b_hi a mod 2 ^ s * 2 ^ (128 - s) <= (2 ^ s - 1) * 2 ^ (128 - s)) by (apply Z.mul_le_mono_nonneg_r; lia).
      pose proof (Z.mul_nonneg_nonneg (b_hi a mod 2 ^ s) (2 ^ (128 - s)) ltac:(lia) ltac:(lia)). lia.
    + unfold bval; cbn [b_hi b_lo].
      replace (b_hi a * 2 ^ 128 + b_lo a) with (b_lo a + (b_hi a * 2 ^ (128 - s)) * 2 ^ s) by (rewrite Hp; ring).
      rewrite Z.div_add by (pose proof (pow2_pos s); lia).
      pose proof (Z.div_mod (b_hi a) (2 ^ s) ltac:(pose proof (pow2_pos s); lia)) as Hdm.
      rewrite Hp. remember (b_hi a / 2 ^ s) as Q. remember (b_hi a mod 2 ^ s) as M. clear HeqQ HeqM. rewrite Hdm. ring.
  - assert (Hm : s mod 128 = s - 128) by (symmetry; apply Z.mod_unique with 1; lia).
    rewrite Hm. specialize (Hfd (s - 128) ltac:(lia)).
    assert (Hv : bval a / 2 ^ s = b_hi a / 2 ^ (s - 128)).
    { replace (2 ^ s) with (2 ^ 128 * 2 ^ (s - 128)) by (rewrite <- pow2_add by lia; f_equal; lia).
      rewrite <- Zdiv_Zdiv by (try lia; apply Z.lt_le_incl, pow2_pos; lia). f_equal.
      unfold bval. rewrite Z.add_comm, Z.div_add by lia. rewrite Z.div_small by lia. lia. }
    rewrite Hv. eexists. split; [reflexivity|].
    assert (Hsg : b_hi a < 0 <-> b_hi a / 2 ^ (s - 128) < 0).
    { pose proof (pow2_pos (s - 128) ltac:(lia)). split; intros.
      - apply Z.div_lt_upper_bound; lia.
      - destruct (Z_lt_le_dec (b_hi a) 0) as [|Hn]; auto. pose proof (Z.div_pos (b_hi a) (2 ^ (s - 128)) Hn ltac:(lia)). lia. }
    set (h := b_hi a / 2 ^ (s - 128)) in *. clearbody h. rewrite norm_u.
    unfold okb, bval, fits, imin, imax, inot, norm in *. cbn [b_hi b_lo]. rewrite Ht in *.
    change (128 - 1) with 127 in *. rewrite p128 in *.
    destruct (Z.ltb_spec (b_hi a) 0); destruct (signed t); try lia.
    + destruct (div_mod_unique h (2 * 2 ^ 127) (-1) (h + 2 * 2 ^ 127)) as [_ ->]; [lia|lia|]. change (Z.lnot 0) with (-1).
      rewrite (Z.mod_small (-1 + 2 ^ 127)) by lia. lia.
    + rewrite (Z.mod_small h) by lia. lia.
    + rewrite (Z.mod_small h) by lia. lia.
Qed.
End Ty3.

(** ** Widening multiplication *)
Lemma u128_widen_mul_spec a b : 0 <= a < 2 ^ 128 -> 0 <= b < 2 ^ 128 ->
  exists r, u128_widen_mul a b = Ok r /\ okb (UI 128) r /\ bval r = a * b.
Proof.
  intros Ha Hb. unfold u128_widen_mul. rewrite !land_ones_mod by lia.
  rewrite !cshr_ok by (rewrite bits_u; lia). cbn [bind].
  set (l0 := a mod 2 ^ 64). set (l1 := b mod 2 ^ 64). set (h0 := a / 2 ^ 64). set (h1 := b / 2 ^ 64).
  assert (Hl0 : 0 <= l0 < 2 ^ 64) by (apply Z.mod_pos_bound; reflexivity).
  assert (Hl1 : 0 <= l1 < 2 ^ 64) by (apply Z.mod_pos_bound; reflexivity).
  assert (Hh0 : 0 <= h0 < 2 ^ 64) by (split; [apply Z.div_pos; lia|apply Z.div_lt_upper_bound; lia]).
  assert (Hh1 : 0 <= h1 < 2 ^ 64) by (split; [apply Z.div_pos; lia|apply Z.div_lt_upper_bound; lia]).
  assert (Ea : a = h0 * 2 ^ 64 + l0) by (pose proof (Z.div_mod a (2 ^ 64) ltac:(lia)); subst h0 l0; lia).
  assert (Eb : b = h1 * 2 ^ 64 + l1) by (pose proof (Z.div_mod b (2 ^ 64) ltac:(lia)); subst h1 l1; lia).
  clearbody l0 l1 h0 h1. clear Ha Hb. subst a b.
  assert (Hw : forall x y, 0 <= x < 2 ^ 64 -> 0 <= y < 2 ^ 64 -> wrapping_mul (UI 128) x y = x * y /\ 0 <= x * y <= (2 ^ 64 - 1) * (2 ^ 64 - 1)).
  { intros x y Hx Hy. assert (0 <= x * y <= (2 ^ 64 - 1) * (2 ^ 64 - 1)) by (split; [apply Z.mul_nonneg_nonneg; lia|apply Z.mul_le_mono_nonneg; lia]).
    split; [|lia]. unfold wrapping_mul. rewrite norm_u. apply Z.mod_small. lia. }
  destruct (Hw l0 l1 Hl0 Hl1) as [-> Bll]. destruct (Hw l0 h1 Hl0 Hh1) as [-> Blh].
  destruct (Hw h0 l1 Hh0 Hl1) as [-> Bhl]. destruct (Hw h0 h1 Hh0 Hh1) as [-> Bhh].
  assert (E : (h0 * 2 ^ 64 + l0) * (h1 * 2 ^ 64 + l1) = h0 * h1 * 2 ^ 128 + (h0 * l1 + l0 * h1) * 2 ^ 64 + l0 * l1)
    by (change (2 ^ 128) with (2 ^ 64 * 2 ^ 64); ring).
  rewrite E. clear E.
  generalize dependent (l0 * l1). generalize dependent (l0 * h1). generalize dependent (h0 * l1). generalize dependent (h0 * h1).
  intros hh Bhh hl Bhl lh Blh ll Bll. clear - Bhh Bhl Blh Bll.
  pose proof (Z.div_mod ll (2 ^ 64) ltac:(lia)) as Dll. pose proof (Z.mod_pos_bound ll (2 ^ 64) ltac:(lia)) as Mll.
  set (llh := ll / 2 ^ 64) in *. set (lll := ll mod 2 ^ 64) in *. clearbody llh lll.
  assert (0 <= llh < 2 ^ 64) by lia.
  rewrite cadd_u by lia. cbn [bind]. rewrite cshl_ok by (rewrite bits_u; lia). cbn [bind].
  rewrite norm_u. set (s0 := hl + llh) in *.
  pose proof (Z.div_mod s0 (2 ^ 64) ltac:(lia)) as Ds0. pose proof (Z.mod_pos_bound s0 (2 ^ 64) ltac:(lia)) as Ms0.
  assert (E0 : (s0 * 2 ^ 64) mod 2 ^ 128 = s0 mod 2 ^ 64 * 2 ^ 64) by (change (2 ^ 128) with (2 ^ 64 * 2 ^ 64); apply Zmult_mod_distr_r).
  rewrite E0. set (s0h := s0 / 2 ^ 64) in *. set (s0l := s0 mod 2 ^ 64) in *. clearbody s0h s0l.
  rewrite cadd_u by lia. cbn [bind]. rewrite cshr_ok by (rewrite bits_u; lia). cbn [bind].
  rewrite (Z.div_add lll s0l) by lia. rewrite (Z.div_small lll) by lia. rewrite Z.add_0_l.
  rewrite cadd_u by lia. cbn [bind]. rewrite cshl_ok by (rewrite bits_u; lia). cbn [bind].
  rewrite norm_u. set (s2 := lh + s0l) in *.
  pose proof (Z.div_mod s2 (2 ^ 64) ltac:(lia)) as Ds2. pose proof (Z.mod_pos_bound s2 (2 ^ 64) ltac:(lia)) as Ms2.
  assert (E2 : (s2 * 2 ^ 64) mod 2 ^ 128 = s2 mod 2 ^ 64 * 2 ^ 64) by (change (2 ^ 128) with (2 ^ 64 * 2 ^ 64); apply Zmult_mod_distr_r).
  rewrite E2. set (s2l := s2 mod 2 ^ 64) in *. 
  rewrite cadd_u by lia. cbn [bind]. rewrite !cshr_ok by (rewrite bits_u; lia). cbn [bind].
  set (s2h := s2 / 2 ^ 64) in *.
  assert (s0 / 2 ^ 64 = s0h) as -> by (symmetry; apply Z.div_unique with s0l; lia).
  clearbody s2h s2l.
  rewrite cadd_u by lia. cbn [bind]. rewrite cadd_u by lia. cbn [bind].
  eexists. split; [reflexivity|]. unfold okb, bval. rewrite fits_u. cbn [b_hi b_lo].
  split; [lia|]. lia.
Qed.
