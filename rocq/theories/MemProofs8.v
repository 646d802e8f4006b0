From Coq Require Import ZArith Lia Bool List.
From Verif Require Import Base BaseLemmas IntProofs3 MemModel MemProofs MemProofs2 MemProofs3 MemProofs4 MemProofs5 MemProofs6 MemProofs7.
Import ListNotations.
Open Scope Z_scope.

(** * x86_64: strlen with sse2 *)

Lemma zero_mask_gen x : forall n k, fold_right (fun i acc => b2z (byte x (Z.of_nat i) =? 0) + 2 * acc) 0 (seq k n) =
  match n with O => 0 | S n' => b2z (byte x (Z.of_nat k) =? 0) + 2 * fold_right (fun i acc => b2z (byte x (Z.of_nat i) =? 0) + 2 * acc) 0 (seq (S k) n') end.
Proof. intros [|n] k; reflexivity. Qed.
Lemma zero_mask_bits x n : forall k, let F := fold_right (fun i acc => b2z (byte x (Z.of_nat i) =? 0) + 2 * acc) 0 (seq k n) in
  0 <= F < 2 ^ Z.of_nat n /\
  forall j, 0 <= j -> Z.testbit F j = (j <? Z.of_nat n) && (byte x (Z.of_nat k + j) =? 0).
Proof.
  induction n as [|n IH]; intros k F.
  - subst F. cbn [seq fold_right]. split; [cbn; lia|]. intros j Hj. rewrite Z.bits_0.
    destruct (Z.ltb_spec j (Z.of_nat 0)); [lia|reflexivity].
  - subst F. cbn [seq fold_right]. destruct (IH (S k)) as [Hr Hb].
    set (G := fold_right _ 0 (seq (S k) n)) in *. clearbody G.
    replace (Z.of_nat (S n)) with (1 + Z.of_nat n) by lia. rewrite pow2_add by lia. change (2 ^ 1) with 2.
    split; [destruct (byte x (Z.of_nat k) =? 0); cbn [b2z]; lia|].
    intros j Hj. destruct (Z.eq_dec j 0) as [->|Hne].
    + rewrite Z.add_0_r. rewrite (proj2 (Z.ltb_lt 0 (1 + Z.of_nat n))) by lia. cbn [andb].
      destruct (byte x (Z.of_nat k) =? 0); cbn [b2z].
      * rewrite Z.add_comm. apply Z.testbit_odd_0.
      * rewrite Z.add_0_l. apply Z.testbit_even_0.
    + replace j with (Z.succ (j - 1)) at 1 by lia.
      replace (Z.testbit (b2z (byte x (Z.of_nat k) =? 0) + 2 * G) (Z.succ (j - 1))) with (Z.testbit G (j - 1)).
      2: { destruct (byte x (Z.of_nat k) =? 0); cbn [b2z].
           - rewrite Z.add_comm. rewrite Z.testbit_odd_succ by lia. reflexivity.
           - rewrite Z.add_0_l. rewrite Z.testbit_even_succ by lia. reflexivity. }
      rewrite Hb by lia. f_equal; [zb; try lia; reflexivity|]. do 2 f_equal. lia.
Qed.
Lemma zero_mask_spec n x : 0 <= zero_mask n x < 2 ^ Z.of_nat n /\
  forall j, 0 <= j -> Z.testbit (zero_mask n x) j = (j <? Z.of_nat n) && (byte x j =? 0).
Proof. exact (zero_mask_bits x n 0). Qed.

Lemma ntz_first n y k : 0 < y -> 0 <= k -> Z.testbit y k = true -> (forall j, 0 <= j < k -> Z.testbit y j = false) -> ntz n y = k.
Proof.
  intros Hy Hk Hb Hl. apply (tz_unique y); [apply ntz_spec; exact Hy|]. split; [exact Hk|].
  exists (y / 2 ^ k / 2).
  assert (Hodd : (y / 2 ^ k) mod 2 = 1).
  { rewrite <- shiftr_div by lia. rewrite Zmod_odd. rewrite <- Z.bit0_odd. rewrite Z.shiftr_spec by lia. rewrite Z.add_0_l, Hb. reflexivity. }
  assert (Hmod : y mod 2 ^ k = 0).
  { apply Z.bits_inj'. intros j Hj. rewrite Z.bits_0. destruct (Z.lt_ge_cases j k).
    - rewrite Z.mod_pow2_bits_low by lia. apply Hl. lia.
    - apply Z.mod_pow2_bits_high. lia. }
  pose proof (Z.div_mod (y / 2 ^ k) 2 ltac:(lia)). pose proof (pow2_pos k Hk).
  pose proof (Z.div_mod y (2 ^ k) ltac:(lia)). nia.
Qed.

(** Every byte of an [n]-aligned block containing a byte of the string is mapped. *)
Definition mapped (e : env) (blk s L : Z) : Prop :=
  forall x y, s <= x <= s + L -> y / blk = x / blk -> pg e y = true.

Lemma ld_asm_ok e sz m a s L : 0 < sz -> a mod sz = 0 -> mapped e sz s L ->
  (exists x, a <= x < a + sz /\ s <= x <= s + L) -> ld_asm e sz m a = Ok (word_at (be e) sz m a).
Proof.
  intros Hs Ha Hmap (x & Hx & Hsx). unfold ld_asm. rewrite Ha. cbn [Z.eqb andb].
  rewrite (proj2 (range_ok_spec (pg e) a sz ltac:(lia))); [reflexivity|].
  intros y Hy. apply (Hmap x y Hsx).
  pose proof (mul_exact a sz Hs Ha) as E. set (q := a / sz) in *. clearbody q.
  transitivity q; [symmetry; apply Z.div_unique_pos with (r := y - a)|apply Z.div_unique_pos with (r := x - a)]; lia.
Qed.

Section Strlen.
Variables (e : env) (m : mem) (s L : Z).
Hypothesis He : x86_env e.
Hypothesis Hm : bytes_ok m.
Hypothesis Hstr : cstr m s L.
Hypothesis Hs : 0 <= s.
Hypothesis Hsp : s + L < 2 ^ abits e.
Hypothesis Hr : can_read e s (L + 1).

Lemma block_byte blk a j : 0 < blk -> 0 <= j < blk -> byte (word_at (be e) blk m a) j = m (a + j).
Proof using He Hm.
  intros Hb Hj. destruct He as [_ Hbe]. rewrite Hbe.
  pose proof (word_at_byte false blk m a j Hm Hj) as H. exact H.
Qed.

Lemma prefix_ok : forall k n, 0 <= n -> n <= L ->
  sse_prefix k e m (s + n) n = if L <? n + Z.of_nat k then Ok (inl L) else Ok (inr (s + n + Z.of_nat k, n + Z.of_nat k)).
Proof using He Hm Hstr Hs Hsp Hr.
  destruct Hstr as (HL & Hnz & Hz).
  induction k as [|k IH]; intros n Hn HnL; cbn [sse_prefix].
  - destruct (Z.ltb_spec L (n + Z.of_nat 0)); [lia|]. rewrite !Z.add_0_r. reflexivity.
  - rewrite ld1; [|exact Hm|apply Hr; lia]. cbn [bind].
    destruct (Z.eqb_spec (m (s + n)) 0) as [E|E].
    + assert (n = L). { destruct (Z.eq_dec n L); [auto|]. exfalso. apply (Hnz n); [lia|exact E]. }
      destruct (Z.ltb_spec L (n + Z.of_nat (S k))); [|lia]. congruence.
    + assert (n < L) by (destruct (Z.eq_dec n L) as [->|]; [contradiction|lia]).
      rewrite cadd_u by lia. cbn [bind]. rewrite padd_id by lia. rewrite <- Z.add_assoc. rewrite IH by lia.
      replace (n + 1 + Z.of_nat k) with (n + Z.of_nat (S k)) by lia.
      replace (s + (n + 1) + Z.of_nat k) with (s + n + Z.of_nat (S k)) by lia. reflexivity.
Qed.

Hypothesis Hmap : mapped e 16 s L.

Lemma sse_loop_ok : forall fuel n, (s + n) mod 16 = 0 -> 0 <= n <= L -> (Z.to_nat (L - n) < fuel)%nat ->
  sse_loop fuel e m (s + n) n = Ok L.
Proof using He Hm Hstr Hs Hsp Hr Hmap.
  destruct Hstr as (HL & Hnz & Hz).
  induction fuel as [|fuel IH]; intros n Ha Hn Hf; [lia|]. cbn [sse_loop].
  rewrite (ld_asm_ok e 16 m (s + n) s L); [|lia|exact Ha|exact Hmap|exists (s + n); lia]. cbn [bind].
  destruct (zero_mask_spec 16 (word_at (be e) 16 m (s + n))) as [Hrange Hbits].
  change (Z.of_nat 16) with 16 in *.
  set (z := zero_mask 16 _) in *.
  assert (Hb : forall j, 0 <= j < 16 -> Z.testbit z j = (m (s + n + j) =? 0)).
  { intros j Hj. rewrite Hbits by lia. rewrite (proj2 (Z.ltb_lt j 16)) by lia. cbn [andb].
    rewrite block_byte by lia. reflexivity. }
  destruct (Z.lt_ge_cases L (n + 16)) as [Hin|Hout].
  - assert (HbL : Z.testbit z (L - n) = true).
    { rewrite Hb by lia. replace (s + n + (L - n)) with (s + L) by lia. rewrite Hz. reflexivity. }
    assert (0 < z). { destruct (Z.eq_dec z 0) as [E|]; [|lia]. rewrite E, Z.bits_0 in HbL. discriminate. }
    destruct (Z.eqb_spec z 0); [lia|].
    rewrite (ntz_first 32 z (L - n)); [|lia|lia|exact HbL|].
    2: { intros j Hj. rewrite Hb by lia. apply Z.eqb_neq. replace (s + n + j) with (s + (n + j)) by lia. apply Hnz. lia. }
    rewrite cadd_u by lia. f_equal. lia.
  - assert (z = 0).
    { apply Z.bits_inj'. intros j Hj. rewrite Z.bits_0. destruct (Z.lt_ge_cases j 16).
      - rewrite Hb by lia. apply Z.eqb_neq. replace (s + n + j) with (s + (n + j)) by lia. apply Hnz. lia.
      - apply (high_bit z 16); lia. }
    rewrite (proj2 (Z.eqb_eq z 0)) by assumption.
    rewrite cadd_u by lia. cbn [bind]. rewrite padd_id by lia. rewrite <- Z.add_assoc.
    apply IH; [|lia|lia]. rewrite Z.add_assoc. apply mod_step; [lia|exact Ha].
Qed.

Theorem sse_strlen_ok fuel : (Z.to_nat L < fuel)%nat -> sse_strlen fuel e m s = Ok L.
Proof using He Hm Hstr Hs Hsp Hr Hmap.
  intros Hf. unfold sse_strlen.
  pose proof (prefix_ok 4 0 ltac:(lia) (proj1 Hstr)) as Hp. rewrite Z.add_0_r in Hp. rewrite Hp. clear Hp.
  change (Z.of_nat 4) with 4. destruct Hstr as (HL & Hnz & Hz).
  destruct (Z.ltb_spec L (0 + 4)); cbn [bind]; [reflexivity|]. rewrite Z.add_0_l.
  change 15 with (2 ^ 4 - 1). rewrite land_ones_mod by lia. change (2 ^ 4) with 16.
  pose proof (Z.mod_pos_bound (s + 4) 16 ltac:(lia)) as Hal.
  assert (Hbase : (s + 4 - (s + 4) mod 16) mod 16 = 0).
  { pose proof (Z.div_mod (s + 4) 16 ltac:(lia)).
    replace (s + 4 - (s + 4) mod 16) with ((s + 4) / 16 * 16) by lia. apply Z.mod_mul. lia. }
  pose proof (Z.mod_le (s + 4) 16 ltac:(lia) ltac:(lia)).
  set (al := (s + 4) mod 16) in *. clearbody al.
  rewrite csub_u by lia. cbn [bind].
  set (b := s + 4 - al) in *.
  rewrite (ld_asm_ok e 16 m b s L); [|lia|exact Hbase|exact Hmap|exists (s + 4); lia]. cbn [bind].
  destruct (zero_mask_spec 16 (word_at (be e) 16 m b)) as [Hrange Hbits].
  change (Z.of_nat 16) with 16 in *.
  set (z := zero_mask 16 _) in *.
  unfold cshr. rewrite bits_s. rewrite (proj2 (Z.leb_le 0 al)), (proj2 (Z.ltb_lt al 32)) by lia. cbn [andb bind].
  assert (Hb : forall j, 0 <= j -> Z.testbit (Z.shiftr z al) j = (j + al <? 16) && (m (s + 4 + j) =? 0)).
  { intros j Hj. rewrite Z.shiftr_spec by lia. rewrite Hbits by lia. destruct (Z.ltb_spec (j + al) 16); [|reflexivity].
    cbn [andb]. rewrite block_byte by lia. do 2 f_equal. lia. }
  assert (Hnn : 0 <= Z.shiftr z al) by (apply Z.shiftr_nonneg; lia).
  set (y := Z.shiftr z al) in *. clearbody y.
  destruct (Z.lt_ge_cases (L - 4 + al) 16) as [Hin|Hout].
  - assert (HbL : Z.testbit y (L - 4) = true).
    { rewrite Hb by lia. replace (s + 4 + (L - 4)) with (s + L) by lia. rewrite Hz.
      rewrite (proj2 (Z.ltb_lt _ _)) by lia. reflexivity. }
    assert (0 < y). { destruct (Z.eq_dec y 0) as [E|]; [|lia]. rewrite E, Z.bits_0 in HbL. discriminate. }
    destruct (Z.eqb_spec y 0); [lia|]. cbn [negb].
    rewrite (ntz_first 32 y (L - 4)); [|lia|lia|exact HbL|].
    2: { intros j Hj. rewrite Hb by lia. apply andb_false_intro2. apply Z.eqb_neq.
         replace (s + 4 + j) with (s + (4 + j)) by lia. apply Hnz. lia. }
    rewrite cadd_u by lia. f_equal. lia.
  - assert (y = 0).
    { apply Z.bits_inj'. intros j Hj. rewrite Z.bits_0. rewrite Hb by lia.
      destruct (Z.ltb_spec (j + al) 16); [|reflexivity]. cbn [andb]. apply Z.eqb_neq.
      replace (s + 4 + j) with (s + (4 + j)) by lia. apply Hnz. lia. }
    rewrite (proj2 (Z.eqb_eq y 0)) by assumption. cbn [negb].
    pose proof (A_big e (x86_ok e He)).
    rewrite csub_u by lia. cbn [bind]. rewrite cadd_u by lia. cbn [bind].
    rewrite padd_id by lia. replace (b + 16) with (s + (4 + (16 - al))) by lia.
    apply sse_loop_ok; [|lia|lia].
    replace (s + (4 + (16 - al))) with (b + 16) by lia. apply mod_step; [lia|exact Hbase].
Qed.
End Strlen.

(** * x86_64: strlen without sse2 *)

Lemma word_at_le sz m a : word_at false sz m a = le_word (Z.to_nat sz) (fun i => m (a + i)).
Proof. unfold word_at. reflexivity. Qed.

Lemma sub_ones_byte n : forall f k, (forall i, 0 <= i < Z.of_nat n -> 0 <= f i <= 255) ->
  0 <= k < Z.of_nat n -> (forall i, 0 <= i < k -> f i <> 0) ->
  byte (le_word n f - le_word n (fun _ => 1)) k = (f k - 1) mod 256.
Proof.
  induction n as [|n IH]; intros f k Hf Hk Hnz; [lia|].
  rewrite byte_div by lia. cbn [le_word].
  set (R := le_word n (fun i => f (i + 1))). set (O := le_word n (fun _ => 1)).
  pose proof (Hf 0 ltac:(lia)) as H0.
  replace (f 0 + 256 * R - (1 + 256 * O)) with (f 0 - 1 + (R - O) * 256) by lia.
  destruct (Z.eq_dec k 0) as [->|Hne].
  - change (2 ^ (8 * 0)) with 1. rewrite Z.div_1_r. apply Z.mod_add. lia.
  - replace (8 * k) with (8 + 8 * (k - 1)) by lia. rewrite pow2_add by lia.
    rewrite <- Z.div_div by (try apply pow2_pos; lia). change (2 ^ 8) with 256.
    rewrite Z.div_add by lia. rewrite (Z.div_small (f 0 - 1)) by (specialize (Hnz 0); lia). rewrite Z.add_0_l.
    rewrite <- byte_div by lia. unfold R, O. rewrite IH; [f_equal; f_equal; f_equal; lia | | lia | ].
    + intros i Hi. apply Hf. lia.
    + intros i Hi. apply Hnz. lia.
Qed.

Lemma byte_mod64 x k : 0 <= k < 8 -> byte (x mod 2 ^ 64) k = byte x k.
Proof.
  intros Hk. apply byte_ext; [lia|lia|]. intros j Hj. apply Z.mod_pow2_bits_low. lia.
Qed.
Lemma sub_bit_all : forallb (fun b => negb (Z.testbit (Z.of_nat b - 1) 7 && negb (Z.testbit (Z.of_nat b) 7))) (seq 1 255) = true.
Proof. vm_compute. reflexivity. Qed.
Lemma mask_bits : forallb (fun j => negb (Z.testbit 9259542123273814144 (Z.of_nat j)) || (Nat.modulo j 8 =? 7)%nat) (seq 0 64) = true.
Proof. vm_compute. reflexivity. Qed.
Lemma mask_bit_at : forallb (fun k => Z.testbit 9259542123273814144 (8 * Z.of_nat k + 7)) (seq 0 8) = true.
Proof. vm_compute. reflexivity. Qed.

Lemma has_zero f : (forall i, 0 <= i < 8 -> 0 <= f i <= 255) ->
  let cs := le_word 8 f in
  (Z.land (Z.land (wrapping_sub (UI 64) cs 72340172838076673) (inot (UI 64) cs)) 9259542123273814144 =? 0) =
  forallb (fun i => negb (f (Z.of_nat i) =? 0)) (seq 0 8).
Proof.
  intros Hf cs. unfold wrapping_sub, inot. rewrite !norm_u.
  change 72340172838076673 with (le_word 8 (fun _ => 1)).
  assert (HX : forall k, 0 <= k < 8 -> (forall i, 0 <= i < k -> f i <> 0) ->
     Z.testbit ((cs - le_word 8 (fun _ => 1)) mod 2 ^ 64) (8 * k + 7) = Z.testbit ((f k - 1) mod 256) 7).
  { intros k Hk Hnz. rewrite <- byte_bit by lia. rewrite byte_mod64 by lia.
    unfold cs. rewrite sub_ones_byte by (auto; lia). reflexivity. }
  assert (HN : forall k, 0 <= k < 8 -> Z.testbit (Z.lnot cs mod 2 ^ 64) (8 * k + 7) = negb (Z.testbit (f k) 7)).
  { intros k Hk. rewrite Z.mod_pow2_bits_low by lia. rewrite Z.lnot_spec by lia. f_equal.
    rewrite <- byte_bit by lia. unfold cs. rewrite le_word_byte; [reflexivity|exact Hf|lia]. }
  set (X := (cs - _) mod 2 ^ 64) in *. set (N := Z.lnot cs mod 2 ^ 64) in *. clearbody X N.
  set (M := 9259542123273814144) in *.
  destruct (forallb (fun i => negb (f (Z.of_nat i) =? 0)) (seq 0 8)) eqn:EF.
  - rewrite forallb_forall in EF.
    assert (Hnz : forall i, 0 <= i < 8 -> f i <> 0).
    { intros i Hi. specialize (EF (Z.to_nat i) ltac:(apply in_seq; lia)). rewrite Z2Nat.id in EF by lia.
      apply negb_true_iff, Z.eqb_neq in EF. exact EF. }
    apply Z.eqb_eq. apply Z.bits_inj'. intros j Hj. rewrite Z.bits_0, !Z.land_spec.
    destruct (Z.lt_ge_cases j 64) as [H64|H64].
    2: { rewrite (high_bit M 64) by (unfold M; lia). apply andb_false_r. }
    pose proof mask_bits as Hmb. rewrite forallb_forall in Hmb.
    specialize (Hmb (Z.to_nat j) ltac:(apply in_seq; lia)). rewrite Z2Nat.id in Hmb by lia.
    fold M in Hmb. destruct (Z.testbit M j) eqn:EM; [|apply andb_false_r]. cbn [negb orb] in Hmb.
    apply Nat.eqb_eq in Hmb.
    assert (exists k, 0 <= k < 8 /\ j = 8 * k + 7) as (k & Hk & ->).
    { exists (j / 8). pose proof (Z.div_mod j 8 ltac:(lia)). assert (j mod 8 = 7).
      { rewrite <- (Z2Nat.id j) by lia. change 8 with (Z.of_nat 8). rewrite <- Nat2Z.inj_mod. rewrite Hmb. reflexivity. }
      lia. }
    rewrite HX by (auto; intros; apply Hnz; lia). rewrite HN by lia.
    pose proof (Hf k Hk). pose proof (Hnz k Hk).
    rewrite (Z.mod_small (f k - 1)) by lia.
    pose proof sub_bit_all as Hsb. rewrite forallb_forall in Hsb.
    specialize (Hsb (Z.to_nat (f k)) ltac:(apply in_seq; lia)). rewrite Z2Nat.id in Hsb by lia.
    apply negb_true_iff in Hsb. rewrite Hsb. reflexivity.
  - apply Z.eqb_neq. intros E0.
    assert (Hex : exists k, 0 <= k < 8 /\ f k = 0 /\ forall i, 0 <= i < k -> f i <> 0).
    { clear - EF.
      assert (H : forall n, forallb (fun i => negb (f (Z.of_nat i) =? 0)) (seq 0 n) = false ->
        exists k, 0 <= k < Z.of_nat n /\ f k = 0 /\ (forall i, 0 <= i < k -> f i <> 0)).
      { induction n as [|n IH]; [discriminate|]. rewrite seq_S. rewrite forallb_app. cbn [forallb plus].
        destruct (forallb (fun i => negb (f (Z.of_nat i) =? 0)) (seq 0 n)) eqn:E.
        - cbn [andb]. rewrite andb_true_r. intros H. apply negb_false_iff, Z.eqb_eq in H.
          exists (Z.of_nat n). split; [lia|]. split; [exact H|]. intros i Hi.
          rewrite forallb_forall in E. specialize (E (Z.to_nat i) ltac:(apply in_seq; lia)).
          rewrite Z2Nat.id in E by lia. apply negb_true_iff, Z.eqb_neq in E. exact E.
        - intros _. destruct (IH eq_refl) as (k & Hk & H). exists k. split; [lia|exact H]. }
      destruct (H 8%nat EF) as (k & Hk & H'). exists k. split; [lia|exact H']. }
    destruct Hex as (k & Hk & Hz & Hnz).
    assert (Hbit : Z.testbit (Z.land (Z.land X N) M) (8 * k + 7) = true).
    { rewrite !Z.land_spec. rewrite HX by auto. rewrite HN by lia. rewrite Hz.
      pose proof mask_bit_at as Hma. rewrite forallb_forall in Hma.
      specialize (Hma (Z.to_nat k) ltac:(apply in_seq; lia)). rewrite Z2Nat.id in Hma by lia.
      unfold M. rewrite Hma. reflexivity. }
    rewrite E0, Z.bits_0 in Hbit. discriminate.
Qed.

Lemma w8_find_ok e : forall k cs, 0 <= k -> byte cs k = 0 -> (forall i, 0 <= i < k -> byte cs i <> 0) ->
  forall fuel n, (Z.to_nat k < fuel)%nat -> 0 <= n -> n + k < 2 ^ abits e -> w8_find fuel e cs n = Ok (n + k).
Proof.
  intros k cs Hk. revert cs. pattern k. apply natlike_ind; [| |exact Hk]; clear k Hk.
  - intros cs Hz _ [|fuel] n Hf Hn Hs; [lia|]. cbn [w8_find].
    unfold byte in Hz. change (8 * 0) with 0 in Hz. rewrite Z.shiftr_0_r in Hz. rewrite Hz. cbn [Z.eqb]. f_equal. lia.
  - intros k Hk IH cs Hz Hnz [|fuel] n Hf Hn Hs; [lia|]. cbn [w8_find].
    pose proof (Hnz 0 ltac:(lia)) as H0. unfold byte in H0. change (8 * 0) with 0 in H0. rewrite Z.shiftr_0_r in H0.
    destruct (Z.eqb_spec (Z.land cs 255) 0); [contradiction|].
    rewrite cadd_u by lia. cbn [bind].
    assert (Hsh : forall i, 0 <= i -> byte (Z.shiftr cs 8) i = byte cs (i + 1)).
    { intros i Hi. unfold byte. rewrite Z.shiftr_shiftr by lia. do 2 f_equal. lia. }
    rewrite IH; [f_equal; lia| | |lia|lia|lia].
    + rewrite Hsh by lia. rewrite Z.add_1_r. exact Hz.
    + intros i Hi. rewrite Hsh by lia. apply Hnz. lia.
Qed.

Section Strlen8.
Variables (e : env) (m : mem) (s L : Z).
Hypothesis He : x86_env e.
Hypothesis Hm : bytes_ok m.
Hypothesis Hstr : cstr m s L.
Hypothesis Hs : 0 <= s.
Hypothesis Hsp : s + L < 2 ^ abits e.
Hypothesis Hr : can_read e s (L + 1).
Hypothesis Hmap : mapped e 8 s L.

Lemma w8_loop_ok : forall fuel n, (s + n) mod 8 = 0 -> 0 <= n <= L -> (Z.to_nat (L - n) < fuel)%nat ->
  w8_loop fuel e m (s + n) n = Ok L.
Proof using He Hm Hstr Hs Hsp Hr Hmap.
  destruct Hstr as (HL & Hnz & Hz).
  induction fuel as [|fuel IH]; intros n Ha Hn Hf; [lia|]. cbn [w8_loop].
  rewrite (ld_asm_ok e 8 m (s + n) s L); [|lia|exact Ha|exact Hmap|exists (s + n); lia]. cbn [bind].
  destruct He as [_ Hbe]. rewrite Hbe, word_at_le. change (Z.to_nat 8) with 8%nat.
  set (f := fun i => m (s + n + i)).
  assert (Hf8 : forall i, 0 <= i < 8 -> 0 <= f i <= 255) by (intros; apply Hm).
  rewrite (has_zero f Hf8).
  destruct (Z.lt_ge_cases L (n + 8)) as [Hin|Hout].
  - assert (EF : forallb (fun i => negb (f (Z.of_nat i) =? 0)) (seq 0 8) = false).
    { apply not_true_iff_false. rewrite forallb_forall. intros H.
      specialize (H (Z.to_nat (L - n)) ltac:(apply in_seq; lia)). rewrite Z2Nat.id in H by lia.
      unfold f in H. replace (s + n + (L - n)) with (s + L) in H by lia. rewrite Hz in H. discriminate. }
    rewrite EF. cbn [negb].
    rewrite (w8_find_ok e (L - n)); [f_equal; lia|lia| | |lia|lia|lia].
    + rewrite le_word_byte; [|exact Hf8|lia]. unfold f. replace (s + n + (L - n)) with (s + L) by lia. exact Hz.
    + intros i Hi. rewrite le_word_byte; [|exact Hf8|lia]. unfold f. rewrite <- Z.add_assoc. apply Hnz. lia.
  - assert (EF : forallb (fun i => negb (f (Z.of_nat i) =? 0)) (seq 0 8) = true).
    { apply forallb_forall. intros i Hi. apply in_seq in Hi. apply negb_true_iff, Z.eqb_neq. unfold f.
      rewrite <- Z.add_assoc. apply Hnz. lia. }
    rewrite EF. cbn [negb].
    rewrite cadd_u by lia. cbn [bind]. rewrite padd_id by lia. rewrite <- Z.add_assoc.
    apply IH; [|lia|lia]. rewrite Z.add_assoc. apply mod_step; [lia|exact Ha].
Qed.

Lemma w8_prefix_ok : forall fuel n, 0 <= n <= L -> (Z.to_nat ((- (s + n)) mod 8) <= fuel)%nat ->
  w8_prefix fuel e m (s + n) n = Ok (inl L) \/
  exists n', n <= n' <= L /\ (s + n') mod 8 = 0 /\ w8_prefix fuel e m (s + n) n = Ok (inr (s + n', n')).
Proof using He Hm Hstr Hs Hsp Hr.
  destruct Hstr as (HL & Hnz & Hz).
  assert (H7 : forall x, Z.land x 7 = x mod 8) by (intros x; change 7 with (2 ^ 3 - 1); apply land_ones_mod; lia).
  induction fuel as [|fuel IH]; intros n Hn Hf; cbn [w8_prefix]; rewrite H7;
    destruct (Z.eqb_spec ((s + n) mod 8) 0) as [E|E]; cbn [negb];
    try (right; exists n; repeat split; [lia|lia|exact E]).
  - exfalso. pose proof (Z.mod_pos_bound (- (s + n)) 8 ltac:(lia)).
    assert (E0 : (- (s + n)) mod 8 = 0) by lia. apply E. Z.to_euclidean_division_equations. lia.
  - rewrite ld1; [|exact Hm|apply Hr; lia]. cbn [bind].
    destruct (Z.eqb_spec (m (s + n)) 0) as [Ez|Ez].
    + left. assert (n = L). { destruct (Z.eq_dec n L); [auto|]. exfalso. apply (Hnz n); [lia|exact Ez]. } congruence.
    + assert (n < L) by (destruct (Z.eq_dec n L) as [->|]; [contradiction|lia]).
      rewrite cadd_u by lia. cbn [bind]. rewrite padd_id by lia. rewrite <- Z.add_assoc.
      destruct (IH (n + 1) ltac:(lia)) as [H1|(n' & Hn' & Hal & H1)].
      * assert ((- (s + (n + 1))) mod 8 = (- (s + n)) mod 8 - 1); [|lia].
        clear - E. Z.to_euclidean_division_equations. lia.
      * left. exact H1.
      * right. exists n'. split; [lia|]. split; [exact Hal|exact H1].
Qed.

Theorem w8_strlen_ok fuel : (Z.to_nat L < fuel)%nat -> w8_strlen fuel e m s = Ok L.
Proof using He Hm Hstr Hs Hsp Hr Hmap.
  intros Hf. unfold w8_strlen. pose proof (proj1 Hstr) as HL.
  destruct (w8_prefix_ok 8 0 ltac:(lia)) as [H1|(n' & Hn' & Hal & H1)].
  - pose proof (Z.mod_pos_bound (- (s + 0)) 8 ltac:(lia)). lia.
  - rewrite Z.add_0_r in H1. rewrite H1. reflexivity.
  - rewrite Z.add_0_r in H1. rewrite H1. cbn [bind]. apply w8_loop_ok; [exact Hal|lia|lia].
Qed.
End Strlen8.
