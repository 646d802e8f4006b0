(** Proofs about the ARM EABI division wrappers (RegModel.v). *)

From Coq Require Import ZArith Bool List Lia Zquot.
From Verif Require Import Base BaseLemmas IntProofs IntProofs2 DivModel DivProofs DivProofs4 RegModel.
Import ListNotations.
Open Scope Z_scope.

Lemma upd_eq r k v : upd r k v k = v.
Proof. unfold upd. rewrite Z.eqb_refl. reflexivity. Qed.
Lemma upd_ne r k v j : j <> k -> upd r k v j = r j.
Proof. intros H. unfold upd. destruct (Z.eqb_spec j k); congruence. Qed.
Lemma clob_keep j s k : 4 <= k <= 11 \/ k = 13 -> rr (clobber j s) k = rr s k.
Proof.
  intros H. unfold clobber. cbn [rr]. replace (k <=? 3) with false by lia. replace (k =? 12) with false by lia.
  replace (14 <=? k) with false by lia. reflexivity.
Qed.
Lemma clob_mem j s a : rr s 13 <= a -> mem (clobber j s) a = mem s a.
Proof. intros H. unfold clobber. cbn [mem]. replace (a <? rr s 13) with false by lia. reflexivity. Qed.

Lemma run_cons call i p s : arm_run call (i :: p) s = let* s := arm_step call i s in arm_run call p s.
Proof. reflexivity. Qed.

Ltac u := repeat first [rewrite upd_eq | rewrite (upd_ne _ 4 _ 13) by lia | rewrite upd_ne by lia].

Lemma uidivmod_ok dr j s : correct_div 32 dr -> (rr s 13) mod 8 = 0 ->
  0 <= rr s 0 < 2 ^ 32 -> 0 < rr s 1 < 2 ^ 32 ->
  exists s', aeabi_uidivmod dr j s = Ok s' /\
    rr s' 0 = rr s 0 / rr s 1 /\ rr s' 1 = rr s 0 mod rr s 1 /\
    rr s' 15 = rr s 14 /\ rr s' 13 = rr s 13 /\ (forall k, 4 <= k <= 11 -> rr s' k = rr s k) /\
    (forall a, rr s 13 <= a -> mem s' a = mem s a).
Proof.
  intros Hdr Hsp H0 H1. unfold aeabi_uidivmod, aeabi_uidivmod_prog.
  rewrite run_cons. cbn [arm_step bind length Z.of_nat store_regs].
  rewrite run_cons. cbn [arm_step bind rr mem].
  rewrite run_cons. cbn [arm_step bind rr mem].
  match goal with |- context[arm_run _ _ ?x] => remember x as s1 eqn:E1 end.
  assert (rr s1 13 = rr s 13 - 8) as A13 by (rewrite E1; cbn [rr]; u; lia).
  assert (rr s1 2 = rr s 13 - 8) as A2 by (rewrite E1; cbn [rr]; u; lia).
  assert (forall k, k <> 2 -> k <> 13 -> rr s1 k = rr s k) as Ak by (intros; rewrite E1; cbn [rr]; u; lia).
  assert (mem s1 (rr s 13 - 4) = rr s 14) as M1 by (rewrite E1; cbn [mem]; u; lia).
  assert (forall a, rr s 13 <= a -> mem s1 a = mem s a) as M2 by (intros; rewrite E1; cbn [mem]; u; lia).
  clear E1.
  rewrite run_cons. cbn [arm_step]. rewrite A13.
  replace ((rr s 13 - 8) mod 8) with 0.
  2:{ rewrite Zminus_mod, Hsp. reflexivity. }
  rewrite Z.eqb_refl. unfold call_udivmodsi4, udivmod. rewrite !Ak by lia. rewrite Hdr by lia. cbn [bind fst snd]. rewrite A2.
  match goal with |- context[arm_run _ _ ?x] => remember x as s2 eqn:E2 end.
  assert (rr s2 13 = rr s 13 - 8) as B13 by (rewrite E2; cbn [rr]; u; rewrite clob_keep by lia; auto).
  assert (rr s2 0 = rr s 0 / rr s 1) as B0 by (rewrite E2; cbn [rr]; u; auto).
  assert (forall k, 4 <= k <= 11 -> rr s2 k = rr s k) as Bk by (intros; rewrite E2; cbn [rr]; u; rewrite clob_keep by lia; apply Ak; lia).
  assert (mem s2 (rr s 13 - 8) = rr s 0 mod rr s 1) as N0 by (rewrite E2; cbn [mem]; u; auto).
  assert (mem s2 (rr s 13 - 4) = rr s 14) as N1 by (rewrite E2; cbn [mem]; u; rewrite clob_mem by lia; auto).
  assert (forall a, rr s 13 <= a -> mem s2 a = mem s a) as N2 by (intros; rewrite E2; cbn [mem]; u; rewrite clob_mem by lia; auto).
  clear E2.
  rewrite run_cons. cbn [arm_step bind rr mem].
  rewrite run_cons. cbn [arm_step bind rr mem].
  rewrite run_cons. cbn [arm_step bind rr mem length Z.of_nat load_regs arm_run].
  eexists. split; [reflexivity|]. cbn [rr mem].
  split; [u; auto|]. split; [u; rewrite <- N0; f_equal; lia|].
  split; [u; rewrite <- N1; f_equal; lia|]. split; [u; lia|].
  split; [intros; u; auto|auto].
Qed.

Definition words_of (be : bool) (x y v : Z) : Prop := 0 <= x < 2 ^ 32 /\ 0 <= y < 2 ^ 32 /\ v = pair64 be x y.
Lemma pair_words be v : 0 <= v < 2 ^ 64 -> pair64 be (fst64 be v) (snd64 be v) = v /\
  0 <= fst64 be v < 2 ^ 32 /\ 0 <= snd64 be v < 2 ^ 32.
Proof.
  intros Hv. pose proof (Z.div_mod v (2 ^ 32) ltac:(lia)). pose proof (Z.mod_pos_bound v (2 ^ 32) ltac:(lia)).
  assert (0 <= v / 2 ^ 32 < 2 ^ 32). { split; [apply Z.div_pos; lia|apply Z.div_lt_upper_bound; lia]. }
  destruct be; unfold pair64, fst64, snd64; lia.
Qed.

Lemma divmod64_ok be f j s q r : (rr s 13) mod 8 = 0 ->
  f (pair64 be (rr s 0) (rr s 1)) (pair64 be (rr s 2) (rr s 3)) = Ok (q, r) ->
  exists s', arm_run (call_divmod64 be f j) aeabi_uldivmod_prog s = Ok s' /\
    rr s' 0 = fst64 be q /\ rr s' 1 = snd64 be q /\ rr s' 2 = fst64 be r /\ rr s' 3 = snd64 be r /\
    rr s' 15 = rr s 14 /\ rr s' 13 = rr s 13 /\ (forall k, 4 <= k <= 11 -> rr s' k = rr s k) /\
    (forall a, rr s 13 <= a -> mem s' a = mem s a).
Proof.
  intros Hsp Hf. unfold aeabi_uldivmod_prog.
  rewrite run_cons. cbn [arm_step bind length Z.of_nat store_regs].
  match goal with |- context[arm_run _ _ ?x] => remember x as s0 eqn:E0 end.
  assert (rr s0 13 = rr s 13 - 8) as Z13 by (rewrite E0; cbn [rr]; u; lia).
  assert (forall k, k <> 13 -> rr s0 k = rr s k) as Zk by (intros; rewrite E0; cbn [rr]; u; lia).
  assert (mem s0 (rr s 13 - 8) = rr s 4) as L1 by (rewrite E0; cbn [mem]; u; auto).
  assert (mem s0 (rr s 13 - 4) = rr s 14) as L2.
  { rewrite E0; cbn [mem]. replace (rr s 13 - 4) with (rr s 13 - 4 * Z.pos (Pos.of_succ_nat 1) + 4) by lia. u. auto. }
  assert (forall a, rr s 13 <= a -> mem s0 a = mem s a) as L3 by (intros; rewrite E0; cbn [mem]; u; lia).
  clear E0.
  rewrite run_cons. cbn [arm_step bind rr mem].
  rewrite run_cons. cbn [arm_step bind rr mem].
  rewrite run_cons. cbn [arm_step bind rr mem].
  match goal with |- context[arm_run _ _ ?x] => remember x as s1 eqn:E1 end.
  assert (rr s1 13 = rr s 13 - 24) as A13 by (rewrite E1; cbn [rr]; u; lia).
  assert (rr s1 4 = rr s 13 - 16) as A4 by (rewrite E1; cbn [rr]; u; lia).
  assert (forall k, k <> 4 -> k <> 13 -> rr s1 k = rr s k) as Ak by (intros; rewrite E1; cbn [rr]; u; auto).
  assert (mem s1 (rr s 13 - 24) = rr s 13 - 16) as M0.
  { rewrite E1; cbn [mem]. u. replace (rr s 13 - 24) with (rr s0 13 - 16 + 0) by lia. u. lia. }
  assert (forall a, rr s 13 - 8 <= a -> mem s1 a = mem s0 a) as M2 by (intros; rewrite E1; cbn [mem]; u; auto).
  clear E1.
  rewrite run_cons. cbn [arm_step]. rewrite A13.
  replace ((rr s 13 - 24) mod 8) with 0.
  2:{ rewrite Zminus_mod, Hsp. reflexivity. }
  rewrite Z.eqb_refl. unfold call_divmod64. rewrite !Ak by lia. rewrite Hf. cbn [bind fst snd]. rewrite A13, M0.
  match goal with |- context[arm_run _ _ ?x] => remember x as s2 eqn:E2 end.
  assert (rr s2 13 = rr s 13 - 24) as B13 by (rewrite E2; cbn [rr]; u; rewrite clob_keep by lia; auto).
  assert (rr s2 0 = fst64 be q) as B0 by (rewrite E2; cbn [rr]; u; auto).
  assert (rr s2 1 = snd64 be q) as B1 by (rewrite E2; cbn [rr]; u; auto).
  assert (forall k, 5 <= k <= 11 -> rr s2 k = rr s k) as Bk by (intros; rewrite E2; cbn [rr]; u; rewrite clob_keep by lia; apply Ak; lia).
  assert (mem s2 (rr s 13 - 16) = fst64 be r) as N0 by (rewrite E2; cbn [mem]; u; auto).
  assert (mem s2 (rr s 13 - 12) = snd64 be r) as N1.
  { rewrite E2; cbn [mem]. replace (rr s 13 - 12) with (rr s 13 - 16 + 4) by lia. u. auto. }
  assert (forall a, rr s 13 - 8 <= a -> mem s2 a = mem s0 a) as N2.
  { intros; rewrite E2; cbn [mem]; u; rewrite clob_mem by lia; auto. }
  clear E2.
  rewrite run_cons. cbn [arm_step bind rr mem].
  rewrite run_cons. cbn [arm_step bind rr mem].
  rewrite run_cons. cbn [arm_step bind rr mem].
  rewrite run_cons. cbn [arm_step bind rr mem length Z.of_nat load_regs arm_run].
  eexists. split; [reflexivity|]. cbn [rr mem].
  split; [u; auto|]. split; [u; auto|].
  split; [u; rewrite <- N0; f_equal; lia|].
  split; [u; rewrite <- N1; f_equal; lia|].
  split; [u; rewrite <- L2, <- N2 by lia; f_equal; lia|]. split; [u; lia|].
  split.
  - intros k Hk. destruct (Z.eq_dec k 4) as [->|]; u; [|apply Bk; lia].
    rewrite <- L1, <- N2 by lia. f_equal. lia.
  - intros. rewrite N2 by lia. auto.
Qed.

Lemma idivmod_ok dr j s : correct_div 32 dr -> (rr s 13) mod 8 = 0 ->
  0 <= rr s 0 < 2 ^ 32 -> 0 < rr s 1 < 2 ^ 32 ->
  let a := norm (SI 32) (rr s 0) in let b := norm (SI 32) (rr s 1) in
  exists s', aeabi_idivmod dr j s = Ok s' /\
    rr s' 0 = (Z.quot a b) mod 2 ^ 32 /\ rr s' 1 = (Z.rem a b) mod 2 ^ 32 /\
    rr s' 15 = rr s 14 /\ rr s' 13 = rr s 13 /\ (forall k, 4 <= k <= 11 -> rr s' k = rr s k) /\
    (forall a, rr s 13 <= a -> mem s' a = mem s a).
Proof.
  intros Hdr Hsp H0 H1 a b.
  assert (0 < bits (SI 32)) as Hb32 by (rewrite bits_s; lia).
  assert (fits (SI 32) a) as Fa by (apply norm_fits; auto). assert (fits (SI 32) b) as Fb by (apply norm_fits; auto).
  destruct (norm_eq_mod (SI 32) Hb32 (rr s 0)) as (ka & Ea). destruct (norm_eq_mod (SI 32) Hb32 (rr s 1)) as (kb & Eb).
  fold a in Ea. fold b in Eb. rewrite bits_s in Ea, Eb.
  assert (b <> 0) as Hb0 by nia.
  unfold aeabi_idivmod, aeabi_idivmod_prog.
  rewrite run_cons. cbn [arm_step bind length Z.of_nat store_regs].
  match goal with |- context[arm_run _ _ ?x] => remember x as s0 eqn:E0 end.
  assert (rr s0 13 = rr s 13 - 16) as Z13 by (rewrite E0; cbn [rr]; u; lia).
  assert (forall k, k <> 13 -> rr s0 k = rr s k) as Zk by (intros; rewrite E0; cbn [rr]; u; lia).
  assert (mem s0 (rr s 13 - 16) = rr s 0) as L0 by (rewrite E0; cbn [mem]; u; auto).
  assert (mem s0 (rr s 13 - 12) = rr s 1) as L1.
  { rewrite E0; cbn [mem]. replace (rr s 13 - 12) with (rr s 13 - 4 * Z.pos (Pos.of_succ_nat 3) + 4) by lia. u. auto. }
  assert (mem s0 (rr s 13 - 8) = rr s 4) as L2.
  { rewrite E0; cbn [mem]. replace (rr s 13 - 8) with (rr s 13 - 4 * Z.pos (Pos.of_succ_nat 3) + 4 + 4) by lia. u. auto. }
  assert (mem s0 (rr s 13 - 4) = rr s 14) as L3.
  { rewrite E0; cbn [mem]. replace (rr s 13 - 4) with (rr s 13 - 4 * Z.pos (Pos.of_succ_nat 3) + 4 + 4 + 4) by lia. u. auto. }
  assert (forall a, rr s 13 <= a -> mem s0 a = mem s a) as L4 by (intros; rewrite E0; cbn [mem]; u; lia).
  clear E0.
  rewrite run_cons. cbn [arm_step]. rewrite Z13.
  replace ((rr s 13 - 16) mod 8) with 0.
  2:{ rewrite Zminus_mod, Hsp. reflexivity. }
  rewrite Z.eqb_refl. unfold call_divsi3. rewrite !Zk by lia. fold a b.
  rewrite (sdiv_correct 32 dr ltac:(lia) Hdr) by auto. cbn [bind].
  match goal with |- context[arm_run _ _ ?x] => remember x as s2 eqn:E2 end.
  assert (rr s2 13 = rr s 13 - 16) as B13 by (rewrite E2; cbn [rr]; u; rewrite clob_keep by lia; auto).
  assert (rr s2 0 = (Z.quot a b) mod 2 ^ 32) as B0.
  { rewrite E2; cbn [rr]; u. rewrite norm_u. destruct (norm_eq_mod (SI 32) Hb32 (Z.quot a b)) as (k & ->).
    rewrite bits_s. apply Z.mod_add. lia. }
  assert (forall k, 4 <= k <= 11 -> rr s2 k = rr s k) as Bk by (intros; rewrite E2; cbn [rr]; u; rewrite clob_keep by lia; apply Zk; lia).
  assert (forall a, rr s 13 - 16 <= a -> mem s2 a = mem s0 a) as N2 by (intros; rewrite E2; cbn [mem]; u; rewrite clob_mem by lia; auto).
  clear E2.
  rewrite run_cons. cbn [arm_step bind rr mem length Z.of_nat load_regs].
  rewrite run_cons. cbn [arm_step bind rr mem].
  rewrite run_cons. cbn [arm_step bind rr mem].
  match goal with |- context[arm_run _ _ ?x] => remember x as s3 eqn:E3 end.
  assert (rr s3 13 = rr s 13 - 8) as C13 by (rewrite E3; cbn [rr]; u; lia).
  assert (rr s3 0 = (Z.quot a b) mod 2 ^ 32) as C0 by (rewrite E3; cbn [rr]; u; auto).
  assert (rr s3 1 = (Z.rem a b) mod 2 ^ 32) as C1.
  { rewrite E3; cbn [rr]; u. rewrite B13, N2, L0 by lia.
    replace (rr s 13 - 16 + 4) with (rr s 13 - 12) by lia. rewrite N2, L1, B0 by lia.
    rewrite Zmult_mod_idemp_r, Zminus_mod_idemp_r.
    apply mod_congr. exists (- ka + kb * Z.quot a b).
    pose proof (Z.quot_rem' a b) as QR. replace (rr s 0) with (a - ka * 2 ^ 32) by lia.
    replace (rr s 1) with (b - kb * 2 ^ 32) by lia. rewrite QR at 1. ring. }
  assert (forall k, 4 <= k <= 11 -> rr s3 k = rr s k) as Ck by (intros; rewrite E3; cbn [rr]; u; auto).
  assert (forall a, rr s 13 - 16 <= a -> mem s3 a = mem s0 a) as O2 by (intros; rewrite E3; cbn [mem]; auto).
  clear E3.
  rewrite run_cons. cbn [arm_step bind rr mem length Z.of_nat load_regs arm_run].
  eexists. split; [reflexivity|]. cbn [rr mem].
  split; [u; auto|]. split; [u; auto|].
  split; [u; rewrite <- L3, <- O2 by lia; f_equal; lia|]. split; [u; lia|].
  split.
  - intros k Hk. destruct (Z.eq_dec k 4) as [->|]; u; [|auto].
    rewrite <- L2, <- O2 by lia. f_equal. lia.
  - intros. rewrite O2 by lia. auto.
Qed.
