From Coq Require Import ZArith Lia Bool List.
From Verif Require Import Base BaseLemmas MemModel MemProofs MemProofs2 MemProofs3 MemProofs4 MemProofs5 MemProofs6 MemProofs7 MemProofs8.
Import ListNotations.
Open Scope Z_scope.

(** * mod.rs *)

Definition impl_ok (i : impl) (e : env) : Prop :=
  match i with Generic => env_ok e | X86 _ _ => x86_env e end.

Lemma impl_env i e : impl_ok i e -> env_ok e.
Proof. destruct i; [auto|apply x86_ok]. Qed.

Lemma impl_copy_forward_ok i e m d s n : impl_ok i e -> 0 <= n ->
  in_space e d n -> in_space e s n -> can_read e s n -> can_write e d n -> fwd_ok d s n -> bytes_ok m ->
  exists m', impl_copy_forward i e m d s n = Ok m' /\ copied m m' d s n.
Proof. destruct i; [apply copy_forward_ok|apply x86_copy_forward_ok]. Qed.
Lemma impl_copy_backward_ok i e m d s n : impl_ok i e -> 0 < n ->
  in_space e d n -> in_space e s n -> can_read e s n -> can_write e d n -> bwd_ok d s n -> bytes_ok m ->
  exists m', impl_copy_backward i e m d s n = Ok m' /\ copied m m' d s n.
Proof.
  destruct i; [|apply x86_copy_backward_ok].
  intros He Hn. apply copy_backward_ok; [exact He|lia].
Qed.
Lemma memcpy_ok i e m d s n : impl_ok i e -> 0 <= n ->
  in_space e d n -> in_space e s n -> can_read e s n -> can_write e d n -> fwd_ok d s n -> bytes_ok m ->
  exists m', memcpy i e m d s n = Ok (m', d) /\ copied m m' d s n.
Proof.
  intros. unfold memcpy. destruct (impl_copy_forward_ok i e m d s n) as (m' & E & C); try assumption.
  rewrite E. cbn [bind]. eauto.
Qed.
Lemma memmove_ok i e m d s n : impl_ok i e -> 0 <= n ->
  in_space e d n -> in_space e s n -> can_read e s n -> can_write e d n -> bytes_ok m ->
  exists m', memmove i e m d s n = Ok (m', d) /\ copied m m' d s n.
Proof.
  intros He Hn HD HS HR HW Hm. unfold memmove, wrapping_sub. rewrite norm_u.
  pose proof (A_big e (impl_env i e He)).
  assert (Hdelta : (d - s) mod 2 ^ abits e = if s <=? d then d - s else d - s + 2 ^ abits e).
  { unfold in_space in *. destruct (Z.leb_spec s d).
    - apply Z.mod_small. lia.
    - symmetry. apply Z.mod_unique_pos with (q := -1); lia. }
  rewrite Hdelta. unfold in_space in *.
  destruct (Z.leb_spec n (if s <=? d then d - s else d - s + 2 ^ abits e)) as [Hle|Hgt].
  - destruct (impl_copy_forward_ok i e m d s n) as (m' & E & C); unfold in_space; try assumption.
    { unfold fwd_ok. destruct (Z.leb_spec s d); lia. }
    rewrite E. cbn [bind]. eauto.
  - destruct (impl_copy_backward_ok i e m d s n) as (m' & E & C); unfold in_space; try assumption.
    { destruct (Z.leb_spec s d); lia. }
    { unfold bwd_ok. destruct (Z.leb_spec s d); lia. }
    rewrite E. cbn [bind]. eauto.
Qed.
Lemma memset_ok i e m d c n : impl_ok i e -> 0 <= n -> in_space e d n -> can_write e d n ->
  exists m', memset i e m d c n = Ok (m', d) /\ filled m m' d (c mod 256) n.
Proof.
  intros He Hn HD HW. unfold memset. rewrite norm_u. change (2 ^ 8) with 256.
  pose proof (Z.mod_pos_bound c 256 ltac:(lia)) as Hc. set (c' := c mod 256) in *. clearbody c'.
  assert (exists m', impl_set_bytes i e m d c' n = Ok m' /\ filled m m' d c' n) as (m' & E & C).
  { destruct i; [apply set_bytes_ok|apply x86_set_bytes_ok]; try assumption; lia. }
  rewrite E. cbn [bind]. eauto.
Qed.

(** * ARM EABI *)

Lemma aeabi_memcpy4_loop_ok e : env_ok e -> forall fuel m d s n,
  (Z.to_nat (n / 4) <= fuel)%nat -> 0 <= n -> d mod 4 = 0 -> s mod 4 = 0 ->
  in_space e d n -> in_space e s n -> can_read e s n -> can_write e d n -> fwd_ok d s n -> bytes_ok m ->
  exists m' k, aeabi_memcpy4_loop fuel e m d s n = Ok (m', d + k, s + k, n - k) /\ 0 <= k <= n /\ copied m m' d s k.
Proof.
  intros He. induction fuel as [|fuel IH]; intros m d s n Hf Hn Hd Hs HD HS HR HW HF Hm; cbn [aeabi_memcpy4_loop];
    destruct (Z.leb_spec 4 n) as [H4|H4];
    try (exists m, 0; rewrite !Z.add_0_r, Z.sub_0_r; split; [reflexivity|]; split; [lia|apply copied_0]).
  - exfalso. assert (1 <= n / 4) by (apply Z.div_le_lower_bound; lia). lia.
  - unfold in_space, fwd_ok in *.
    rewrite ld_ok; [|lia|exact Hs|intros x Hx; apply HR; lia]. cbn [bind].
    rewrite st_ok; [|lia|exact Hd|intros x Hx; apply HW; lia]. cbn [bind].
    rewrite csub_u by lia. cbn [bind]. rewrite !padd_id by lia.
    set (m1 := upd _ _ _ _ _).
    assert (C1 : copied m m1 d s 4) by (apply upd_word; exact Hm).
    destruct (IH m1 (d + 4) (s + 4) (n - 4)) as (m' & k & E & Hk & C2); unfold in_space, fwd_ok; try lia.
    + replace (n - 4) with (n + (-1) * 4) by lia. rewrite Z.div_add by lia. lia.
    + apply mod_step; [lia|exact Hd].
    + apply mod_step; [lia|exact Hs].
    + intros x Hx. apply HR. lia.
    + intros x Hx. apply HW. lia.
    + eapply copied_bytes; [exact Hm|exact C1].
    + exists m', (4 + k). split; [|split; [lia|]].
      * rewrite E. rewrite !Z.add_assoc. replace (n - 4 - k) with (n - (4 + k)) by lia. reflexivity.
      * apply copied_fwd with m1; try assumption; lia.
Qed.
Lemma aeabi_memcpy_ok e m d s n : env_ok e -> 0 <= n ->
  in_space e d n -> in_space e s n -> can_read e s n -> can_write e d n -> fwd_ok d s n -> bytes_ok m ->
  exists m', aeabi_memcpy e m d s n = Ok m' /\ copied m m' d s n.
Proof.
  intros. unfold aeabi_memcpy. destruct (memcpy_ok Generic e m d s n) as (m' & E & C); try assumption.
  rewrite E. cbn [bind fst]. eauto.
Qed.
Lemma aeabi_memcpy4_ok e m d s n : env_ok e -> 0 <= n -> d mod 4 = 0 -> s mod 4 = 0 ->
  in_space e d n -> in_space e s n -> can_read e s n -> can_write e d n -> fwd_ok d s n -> bytes_ok m ->
  exists m', aeabi_memcpy4 e m d s n = Ok m' /\ copied m m' d s n.
Proof.
  intros He Hn Hd Hs HD HS HR HW HF Hm. unfold aeabi_memcpy4. rewrite Hd, Hs. cbn [Z.eqb assert bind].
  destruct (aeabi_memcpy4_loop_ok e He (Z.to_nat n) m d s n) as (m1 & k & E1 & Hk & C1); try assumption.
  { apply Z2Nat.inj_le; [apply Z.div_pos; lia|lia|]. apply Z.div_le_upper_bound; lia. }
  rewrite E1. cbn [bind]. unfold in_space, fwd_ok in *.
  destruct (aeabi_memcpy_ok e m1 (d + k) (s + k) (n - k)) as (m2 & E2 & C2); unfold in_space, fwd_ok; try assumption; try lia.
  { intros x Hx. apply HR. lia. } { intros x Hx. apply HW. lia. }
  { eapply copied_bytes; [exact Hm|exact C1]. }
  exists m2. split; [exact E2|]. replace n with (k + (n - k)) by lia.
  apply copied_fwd with m1; try assumption; lia.
Qed.
Lemma aeabi_memmove_ok e m d s n : env_ok e -> 0 <= n ->
  in_space e d n -> in_space e s n -> can_read e s n -> can_write e d n -> bytes_ok m ->
  exists m', aeabi_memmove e m d s n = Ok m' /\ copied m m' d s n.
Proof.
  intros. unfold aeabi_memmove. destruct (memmove_ok Generic e m d s n) as (m' & E & C); try assumption.
  rewrite E. cbn [bind fst]. eauto.
Qed.
Lemma aeabi_memset_ok e m d c n : env_ok e -> 0 <= n -> in_space e d n -> can_write e d n ->
  exists m', aeabi_memset e m d n c = Ok m' /\ filled m m' d (c mod 256) n.
Proof.
  intros. unfold aeabi_memset. destruct (memset_ok Generic e m d c n) as (m' & E & C); try assumption.
  rewrite E. cbn [bind fst]. eauto.
Qed.
Lemma aeabi_memset4_loop_ok e c v : env_ok e -> (forall i, 0 <= i < 4 -> byte v i = c) -> forall fuel m d n,
  (Z.to_nat (n / 4) <= fuel)%nat -> 0 <= n -> d mod 4 = 0 -> in_space e d n -> can_write e d n ->
  exists m' k, aeabi_memset4_loop fuel e m d v n = Ok (m', d + k, n - k) /\ 0 <= k <= n /\ filled m m' d c k.
Proof.
  intros He Hv. induction fuel as [|fuel IH]; intros m d n Hf Hn Hd HD HW; cbn [aeabi_memset4_loop];
    destruct (Z.leb_spec 4 n) as [H4|H4];
    try (exists m, 0; rewrite !Z.add_0_r, Z.sub_0_r; split; [reflexivity|]; split; [lia|apply filled_0]).
  - exfalso. assert (1 <= n / 4) by (apply Z.div_le_lower_bound; lia). lia.
  - unfold in_space in *.
    rewrite st_ok; [|lia|exact Hd|intros x Hx; apply HW; lia]. cbn [bind].
    rewrite csub_u by lia. cbn [bind]. rewrite !padd_id by lia.
    destruct (IH (upd e 4 m d v) (d + 4) (n - 4)) as (m' & k & E & Hk & C2); unfold in_space; try lia.
    + replace (n - 4) with (n + (-1) * 4) by lia. rewrite Z.div_add by lia. lia.
    + apply mod_step; [lia|exact Hd].
    + intros x Hx. apply HW. lia.
    + exists m', (4 + k). split; [|split; [lia|]].
      * rewrite E. rewrite !Z.add_assoc. replace (n - 4 - k) with (n - (4 + k)) by lia. reflexivity.
      * eapply filled_app; [lia|lia|apply upd_fill; exact Hv|exact C2].
Qed.
Lemma spread_all : forallb (fun c => forallb (fun i =>
  let b := Z.of_nat c in
  byte (Z.lor (Z.lor (Z.lor (norm (UI 32) (b * 2 ^ 24)) (norm (UI 32) (b * 2 ^ 16))) (norm (UI 32) (b * 2 ^ 8))) b) (Z.of_nat i) =? b)
  (seq 0 4)) (seq 0 256) = true.
Proof. vm_compute. reflexivity. Qed.
Lemma aeabi_memset4_ok e m d c n : env_ok e -> 0 <= n -> d mod 4 = 0 -> in_space e d n -> can_write e d n ->
  exists m', aeabi_memset4 e m d n c = Ok m' /\ filled m m' d (c mod 256) n.
Proof.
  intros He Hn Hd HD HW. unfold aeabi_memset4. rewrite Hd. cbn [Z.eqb assert bind].
  assert (Eb : Z.land (norm (UI 32) c) 255 = c mod 256).
  { rewrite norm_u. change 255 with (2 ^ 8 - 1). rewrite land_ones_mod by lia.
    change (2 ^ 32) with (2 ^ 8 * 2 ^ 24). rewrite Z.rem_mul_r by lia.
    rewrite (Z.mul_comm (2 ^ 8)), Z.mod_add by lia. change (2 ^ 8) with 256. apply Z.mod_mod. lia. }
  rewrite Eb. pose proof (Z.mod_pos_bound c 256 ltac:(lia)) as Hb. set (b := c mod 256) in *. clearbody b.
  rewrite !cshl_ok by (rewrite bits_u; lia). cbn [bind].
  set (v := Z.lor _ b).
  assert (Hv : forall i, 0 <= i < 4 -> byte v i = b).
  { intros i Hi. pose proof spread_all as H. rewrite forallb_forall in H.
    specialize (H (Z.to_nat b) ltac:(apply in_seq; lia)). rewrite forallb_forall in H.
    specialize (H (Z.to_nat i) ltac:(apply in_seq; lia)). cbv zeta in H. rewrite !Z2Nat.id in H by lia.
    apply Z.eqb_eq. exact H. }
  clearbody v.
  destruct (aeabi_memset4_loop_ok e b v He Hv (Z.to_nat n) m d n) as (m1 & k & E1 & Hk & C1); try assumption.
  { apply Z2Nat.inj_le; [apply Z.div_pos; lia|lia|]. apply Z.div_le_upper_bound; lia. }
  rewrite E1. cbn [bind]. unfold in_space in *.
  destruct (aeabi_memset_ok e m1 (d + k) (norm (SI 32) b) (n - k)) as (m2 & E2 & C2); unfold in_space; try assumption; try lia.
  { intros x Hx. apply HW. lia. }
  rewrite norm_id in C2 by (try apply fits_s; cbn; lia). rewrite (Z.mod_small b) in C2 by lia.
  rewrite norm_id in E2 by (try apply fits_s; cbn; lia).
  rewrite norm_id by (try apply fits_s; cbn; lia).
  exists m2. split; [exact E2|]. replace n with (k + (n - k)) by lia.
  apply filled_app with m1; try assumption; lia.
Qed.
