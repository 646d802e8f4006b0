(** C07-C09: the division intrinsics. Statements, proofs from the lemmas, and
    non-vacuity examples. *)
From Coq Require Import ZArith Bool List Lia.
From Verif Require Import Base BaseLemmas IntProofs IntProofs2 IntSpec DivModel DivProofs DivProofs2 DivProofs3 DivProofs4 RegModel DivProofs5 DivSpec.
Import ListNotations.
Open Scope Z_scope.

Lemma half32_ok hw usz lz : 16 <= usz -> correct_div 32 (half32 hw usz lz).
Proof. intros. unfold half32. destruct hw; [apply hw_div_correct|apply u32_correct; lia]. Qed.
Lemma half64_ok hw c usz lz h : 16 <= usz -> correct_div 32 h -> correct_div 64 (half64 hw c usz lz h).
Proof. intros. unfold half64. destruct hw; [apply hw_div_correct|apply u64_correct; auto; lia]. Qed.

Lemma unsigned_spec w dr n d : correct_div w dr -> is_u w n -> is_u w d -> d <> 0 ->
  exists q r, divides_to n d q r /\ udiv dr n d = Ok q /\ umod dr n d = Ok r /\ udivmod dr n d = Ok (q, r).
Proof.
  intros H Hn Hd Hz. unfold is_u in *. exists (n / d), (n mod d).
  unfold udiv, umod, udivmod. rewrite H by lia. cbn [bind fst snd].
  repeat split; auto; try (apply Z.mod_pos_bound; lia).
  pose proof (Z.div_mod n d Hz). lia.
Qed.

(** ** C07. [usz]: pointer width; [lz]: the USE_LZ constant of the target;
    [hw32]/[hw64]: whether the target divides half-width integers in hardware. *)
Theorem C07_udiv32 : forall usz lz n d, 16 <= usz -> is_u 32 n -> is_u 32 d -> d <> 0 ->
  let dr := u32_div_rem usz lz in
  exists q r, divides_to n d q r /\ udiv dr n d = Ok q /\ umod dr n d = Ok r /\ udivmod dr n d = Ok (q, r).
Proof. intros. apply (unsigned_spec 32); auto. apply u32_correct; lia. Qed.
Theorem C07_udiv64 : forall c hw32 usz lz n d, 16 <= usz -> is_u 64 n -> is_u 64 d -> d <> 0 ->
  let dr := u64_div_rem c usz lz (half32 hw32 usz lz) in
  exists q r, divides_to n d q r /\ udiv dr n d = Ok q /\ umod dr n d = Ok r /\ udivmod dr n d = Ok (q, r).
Proof. intros. apply (unsigned_spec 64); auto. apply u64_correct; [lia|]. now apply half32_ok. Qed.
Theorem C07_udiv128 : forall c c64 hw32 hw64 usz lz n d, 16 <= usz -> is_u 128 n -> is_u 128 d -> d <> 0 ->
  let dr := u128_div_rem c usz lz (half64 hw64 c64 usz lz (half32 hw32 usz lz)) in
  exists q r, divides_to n d q r /\ udiv dr n d = Ok q /\ umod dr n d = Ok r /\ udivmod dr n d = Ok (q, r).
Proof.
  intros. apply (unsigned_spec 128); auto. apply u128_correct; [lia|]. apply half64_ok; [lia|]. now apply half32_ok.
Qed.
Example C07_ex :
  forallb (fun lz => match udivmod (u32_div_rem 32 lz) 4294967295 7 with Ok (q, r) => (q =? 613566756) && (r =? 3) | _ => false end) [true; false] &&
  forallb (fun c => match udivmod (u64_div_rem c 32 false (half32 false 32 false)) (2 ^ 64 - 2) (2 ^ 33 - 1) with Ok (q, r) => (q =? (2 ^ 64 - 2) / (2 ^ 33 - 1)) && (r =? (2 ^ 64 - 2) mod (2 ^ 33 - 1)) | _ => false end)
    [D64_delegate; D64_binary_long; D64_asymmetric] &&
  forallb (fun c => match udivmod (u128_div_rem c 64 true (half64 false D64_binary_long 64 true (half32 false 64 true))) (2 ^ 128 - 1) (3 * 2 ^ 70 + 12345) with
      Ok (q, r) => (q * (3 * 2 ^ 70 + 12345) + r =? 2 ^ 128 - 1) && (r <? 3 * 2 ^ 70 + 12345) && (0 <? r) | _ => false end)
    [D128_trifecta; D128_delegate; D128_asymmetric; D128_sparc] = true.
Proof. vm_compute. reflexivity. Qed.

(** A zero divisor always reaches the division-by-zero handler. *)
Theorem C07_div_by_zero : forall c64 c128 hw32 hw64 usz lz n,
  let h32 := half32 hw32 usz lz in let h64 := half64 hw64 c64 usz lz h32 in
  (is_u 32 n -> u32_div_rem usz lz n 0 = Err Trap) /\
  (is_u 64 n -> u64_div_rem c64 usz lz h32 n 0 = Err Trap) /\
  (is_u 128 n -> u128_div_rem c128 usz lz h64 n 0 = Err Trap).
Proof.
  intros. unfold is_u. split; [|split]; intros Hn.
  - reflexivity.
  - destruct c64; cbn [u64_div_rem].
    + unfold delegate. rewrite !cshr_ok by (rewrite bits_u; lia). reflexivity.
    + reflexivity.
    + unfold asymmetric. rewrite !cshr_ok by (rewrite bits_u; lia). reflexivity.
  - destruct c128; cbn [u128_div_rem].
    + reflexivity.
    + unfold delegate. rewrite !cshr_ok by (rewrite bits_u; lia). reflexivity.
    + unfold asymmetric. rewrite !cshr_ok by (rewrite bits_u; lia). reflexivity.
    + unfold delegate. rewrite !cshr_ok by (rewrite bits_u; lia). reflexivity.
Qed.
Example C07_div_by_zero_ex : is_u 128 (2 ^ 127 + 5). Proof. unfold is_u. lia. Qed.

(** ** C08 *)
Lemma trunc_spec w a b : 0 < w -> is_i w a -> is_i w b -> b <> 0 ->
  truncates_to w a b (norm (SI w) (Z.quot a b)) (Z.rem a b).
Proof.
  intros Hw Ha Hb Hz. unfold is_i in *.
  assert (2 ^ w = 2 * 2 ^ (w - 1)) as Ew by (apply pow2_S; lia).
  assert (0 < 2 ^ (w - 1)) by (apply pow2_pos; lia).
  pose proof (Z.quot_rem' a b) as QR. pose proof (Z.rem_bound_abs a b Hz) as RB.
  assert (Z.rem a b = 0 \/ Z.sgn (Z.rem a b) = Z.sgn a) as HS.
  { destruct (Z.eq_dec (Z.rem a b) 0); [auto|right]. now apply Z.rem_sign_nz. }
  assert (is_i w (norm (SI w) (Z.quot a b))) as F.
  { apply fits_s. apply norm_fits. rewrite bits_s; lia. }
  assert (is_i w (Z.rem a b)) as FR.
  { unfold is_i. lia. }
  split; [auto|]. split; [auto|].
  destruct (Z.eq_dec b (-1)) as [Eb|Eb].
  - assert (Z.rem a b = 0) as R0 by lia.
    assert (Z.quot a b = - a) as Q by lia. rewrite R0, Q in *.
    destruct (Z.eq_dec a (- 2 ^ (w - 1))) as [Ea|Ea].
    + left. repeat split; auto. apply (norm_unique (SI w) ltac:(rewrite bits_s; lia) _ _ (-1)).
      * apply fits_s. lia.
      * rewrite bits_s. lia.
    + right. split; [tauto|]. rewrite norm_id by (try apply fits_s; try rewrite bits_s; lia). lia.
  - right. split; [tauto|].
    assert (- 2 ^ (w - 1) <= Z.quot a b < 2 ^ (w - 1)).
    { rewrite Z.quot_div by auto.
      assert (0 <= Z.abs a / Z.abs b) by (apply Z.div_pos; lia).
      destruct (Z.eq_dec b 1) as [->|].
      - rewrite Z.div_1_r. destruct (Z.sgn_spec a) as [[? ->]|[[? ->]|[? ->]]]; cbn [Z.sgn]; lia.
      - assert (Z.abs a / Z.abs b <= Z.abs a / 2) by (apply Z.div_le_compat_l; lia).
        assert (Z.abs a / 2 < 2 ^ (w - 1)) by (apply Z.div_lt_upper_bound; lia).
        destruct (Z.sgn_spec a) as [[? ->]|[[? ->]|[? ->]]]; destruct (Z.sgn_spec b) as [[? ->]|[[? ->]|[? ->]]]; lia. }
    rewrite norm_id by (try apply fits_s; try rewrite bits_s; lia). split; [lia|]. split; [lia|auto].
Qed.
Lemma signed_spec w dr a b : 0 < w -> correct_div w dr -> is_i w a -> is_i w b -> b <> 0 ->
  exists q r, truncates_to w a b q r /\ sdiv w dr a b = Ok q /\ smod w dr a b = Ok r /\ sdivmod w dr a b = Ok (q, r).
Proof.
  intros Hw H Ha Hb Hz. exists (norm (SI w) (Z.quot a b)), (Z.rem a b).
  split; [now apply trunc_spec|]. apply fits_s in Ha, Hb.
  rewrite sdiv_correct, smod_correct, sdivmod_correct by auto. auto.
Qed.
Theorem C08_div32 : forall usz lz a b, 16 <= usz -> is_i 32 a -> is_i 32 b -> b <> 0 ->
  let dr := u32_div_rem usz lz in
  exists q r, truncates_to 32 a b q r /\ sdiv 32 dr a b = Ok q /\ smod 32 dr a b = Ok r /\ sdivmod 32 dr a b = Ok (q, r).
Proof. intros. apply signed_spec; auto; [lia|]. apply u32_correct; lia. Qed.
Theorem C08_div64 : forall c hw32 usz lz a b, 16 <= usz -> is_i 64 a -> is_i 64 b -> b <> 0 ->
  let dr := u64_div_rem c usz lz (half32 hw32 usz lz) in
  exists q r, truncates_to 64 a b q r /\ sdiv 64 dr a b = Ok q /\ smod 64 dr a b = Ok r /\ sdivmod 64 dr a b = Ok (q, r).
Proof. intros. apply signed_spec; auto; [lia|]. apply u64_correct; [lia|]. now apply half32_ok. Qed.
Theorem C08_div128 : forall c c64 hw32 hw64 usz lz a b, 16 <= usz -> is_i 128 a -> is_i 128 b -> b <> 0 ->
  let dr := u128_div_rem c usz lz (half64 hw64 c64 usz lz (half32 hw32 usz lz)) in
  exists q r, truncates_to 128 a b q r /\ sdiv 128 dr a b = Ok q /\ smod 128 dr a b = Ok r /\ sdivmod 128 dr a b = Ok (q, r).
Proof. intros. apply signed_spec; auto; [lia|]. apply u128_correct; [lia|]. apply half64_ok; [lia|]. now apply half32_ok. Qed.
Example C08_ex :
  sdivmod 32 (u32_div_rem 32 true) (-7) 2 = Ok (-3, -1) /\
  sdivmod 64 (u64_div_rem D64_delegate 32 true (half32 true 32 true)) (- 2 ^ 63) (-1) = Ok (- 2 ^ 63, 0) /\
  sdivmod 128 (u128_div_rem D128_trifecta 64 true hw_div_rem) (- 2 ^ 127) 3 = Ok (- (2 ^ 127 / 3), -2).
Proof. repeat split; vm_compute; reflexivity. Qed.

(** ** C09 *)
(** AVR __udivmodqi4: dividend R24, divisor R22; quotient R24, remainder R25; only
    R23 (and the flags) clobbered. *)
Theorem C09_avr_udivmodqi4 : forall s, is_u 8 (ar s 24) -> is_u 8 (ar s 22) -> ar s 22 <> 0 ->
  exists fuel s', avr_run udivmodqi4_prog fuel 0 s = Ok s' /\
    divides_to (ar s 24) (ar s 22) (ar s' 24) (ar s' 25) /\
    (forall i, i <> 23 -> i <> 24 -> i <> 25 -> ar s' i = ar s i).
Proof.
  unfold is_u. change (2 ^ 8) with 256. intros s Hn Hd Hz.
  destruct (udivmodqi4_ok (ar s 24) (ar s 22) s) as (s' & E & Q & R); try lia.
  exists 67%nat, s'. split; [exact E|]. rewrite Q, R.
  split.
  - split; [pose proof (Z.div_mod (ar s 24) (ar s 22) Hz); lia|apply Z.mod_pos_bound; lia].
  - intros i H1 H2 H3. eapply run_frame; [|exact E].
    intros x Hx. cbn in Hx. repeat (destruct Hx as [<-|Hx]; [cbn; congruence|]). destruct Hx.
Qed.
(** AVR __udivmodhi4: dividend R25:R24, divisor R23:R22; quotient R23:R22,
    remainder R25:R24; clobbers R21, R26, R27. *)
Theorem C09_avr_udivmodhi4 : forall s, (forall i, is_u 8 (ar s i)) ->
  let n := ar s 24 + 256 * ar s 25 in let d := ar s 22 + 256 * ar s 23 in d <> 0 ->
  exists fuel s', avr_run udivmodhi4_prog fuel 0 s = Ok s' /\
    (forall i, 22 <= i <= 25 -> is_u 8 (ar s' i)) /\
    divides_to n d (ar s' 22 + 256 * ar s' 23) (ar s' 24 + 256 * ar s' 25) /\
    (forall i, ~ In i [21; 22; 23; 24; 25; 26; 27] -> ar s' i = ar s i).
Proof.
  intros s Hb n d Hz. unfold is_u in *. change (2 ^ 8) with 256 in *.
  pose proof (Hb 22). pose proof (Hb 23). pose proof (Hb 24). pose proof (Hb 25).
  destruct (udivmodhi4_ok n d s) as (s' & E & B & Q & R); try lia; auto.
  exists 200%nat, s'. split; [exact E|]. rewrite Q, R.
  split; [|split].
  - intros i Hi. assert (i = 22 \/ i = 23 \/ i = 24 \/ i = 25) as [->|[->|[->| ->]]] by lia; lia.
  - split; [pose proof (Z.div_mod n d Hz); lia|apply Z.mod_pos_bound; lia].
  - intros i Hi. eapply run_frame; [|exact E].
    intros x Hx. cbn in Hx.
    repeat match type of Hx with _ \/ _ => destruct Hx as [<-|Hx]; [cbn [dest]; intros HH; try discriminate HH;
      injection HH as <-; apply Hi; cbn; tauto|] end. destruct Hx.
Qed.
Example C09_avr_ex :
  (match avr_run udivmodqi4_prog 100 0 (Avr (fun k => if k =? 24 then 250 else 7) false false) with
   | Ok s => (ar s 24, ar s 25) | _ => (0, 0) end) = (35, 5) /\
  (match avr_run udivmodhi4_prog 300 0 (Avr (fun k => if k =? 25 then 255 else 3) false false) with
   | Ok s => (ar s 22 + 256 * ar s 23, ar s 24 + 256 * ar s 25) | _ => (0, 0) end) = (65283 / 771, 65283 mod 771).
Proof. split; vm_compute; reflexivity. Qed.

(** AVR's packed results: quotient in the low word, remainder in the high word. *)
Theorem C09_avr_udivmodsi4 : forall usz lz n d, 16 <= usz -> is_u 32 n -> is_u 32 d -> d <> 0 ->
  exists q r, avr_udivmodsi4 (u32_div_rem usz lz) n d = Ok (r * 2 ^ 32 + q) /\ divides_to n d q r /\ is_u 32 q /\ is_u 32 r.
Proof.
  unfold is_u. intros usz lz n d Hu Hn Hd Hz. exists (n / d), (n mod d).
  rewrite avr_udivmodsi4_correct by (try apply u32_correct; lia).
  pose proof (Z.div_mod n d Hz). pose proof (Z.mod_pos_bound n d ltac:(lia)).
  split; [f_equal; ring|]. split; [split; lia|]. split; [|lia].
  split; [apply Z.div_pos; lia|]. apply Z.le_lt_trans with n; [|lia]. apply Z.div_le_upper_bound; nia.
Qed.
Lemma denotes_mod w x : 0 < w -> is_i w x -> denotes_i w (x mod 2 ^ w) x.
Proof.
  unfold denotes_i, is_u, is_i. intros Hw Hx.
  assert (2 ^ w = 2 * 2 ^ (w - 1)) by (apply pow2_S; lia).
  assert (0 < 2 ^ (w - 1)) by (apply pow2_pos; lia).
  pose proof (Z.mod_pos_bound x (2 ^ w) ltac:(lia)). split; [auto|]. split; [auto|].
  destruct (Z_lt_le_dec x 0).
  - right. symmetry. apply Z.mod_unique_pos with (-1); lia.
  - left. apply Z.mod_small. lia.
Qed.
Lemma norm_mod_i w x : 0 < w -> (norm (SI w) x) mod 2 ^ w = x mod 2 ^ w.
Proof.
  intros Hw. destruct (norm_eq_mod (SI w) ltac:(rewrite bits_s; lia) x) as (k & ->). rewrite bits_s.
  apply Z.mod_add. pose proof (pow2_pos w). lia.
Qed.
Theorem C09_avr_divmodsi4 : forall usz lz a b, 16 <= usz -> is_i 32 a -> is_i 32 b -> b <> 0 ->
  exists q r pq pr, avr_divmodsi4 (u32_div_rem usz lz) a b = Ok (pr * 2 ^ 32 + pq) /\
    denotes_i 32 pq q /\ denotes_i 32 pr r /\ truncates_to 32 a b q r.
Proof.
  intros usz lz a b Hu Ha Hb Hz.
  pose proof (trunc_spec 32 a b ltac:(lia) Ha Hb Hz) as T.
  exists (norm (SI 32) (Z.quot a b)), (Z.rem a b), ((Z.quot a b) mod 2 ^ 32), ((Z.rem a b) mod 2 ^ 32).
  rewrite avr_divmodsi4_correct; [|apply u32_correct; lia|apply fits_s; auto|apply fits_s; auto|auto].
  split; [f_equal; ring|]. split; [|split; [|exact T]].
  - rewrite <- norm_mod_i by lia. apply denotes_mod; [lia|]. apply T.
  - apply denotes_mod; [lia|]. apply T.
Qed.
Example C09_avr_packed_ex : avr_udivmodsi4 (u32_div_rem 16 true) 100 7 = Ok (2 * 2 ^ 32 + 14) /\
  avr_divmodsi4 (u32_div_rem 16 true) (-100) 7 = Ok ((2 ^ 32 - 2) * 2 ^ 32 + (2 ^ 32 - 14)).
Proof. split; vm_compute; reflexivity. Qed.

(** What every ARM wrapper must restore: return to lr, sp, r4-r11 and the caller's
    stack. [rr s 15] after the final [pop] is the address returned to. *)
Definition arm_returns (s s' : arm) : Prop :=
  rr s' 15 = rr s 14 /\ rr s' 13 = rr s 13 /\ (forall k, 4 <= k <= 11 -> rr s' k = rr s k) /\
  (forall a, rr s 13 <= a -> mem s' a = mem s a).

(** [j]: whatever the callee leaves in caller-saved registers and below its stack. *)
Theorem C09_aeabi_uidivmod : forall usz lz j s, 16 <= usz -> (rr s 13) mod 8 = 0 ->
  is_u 32 (rr s 0) -> is_u 32 (rr s 1) -> rr s 1 <> 0 ->
  exists s', aeabi_uidivmod (u32_div_rem usz lz) j s = Ok s' /\ arm_returns s s' /\
    divides_to (rr s 0) (rr s 1) (rr s' 0) (rr s' 1).
Proof.
  unfold is_u. intros usz lz j s Hu Hsp H0 H1 Hz.
  destruct (uidivmod_ok (u32_div_rem usz lz) j s) as (s' & E & Q & R & X); auto; try lia; [apply u32_correct; lia|].
  exists s'. split; [exact E|]. split; [exact X|]. rewrite Q, R.
  split; [pose proof (Z.div_mod (rr s 0) (rr s 1) Hz); lia|apply Z.mod_pos_bound; lia].
Qed.
Lemma two_words_split be v : is_u 64 v -> two_words be (fst64 be v) (snd64 be v) v.
Proof.
  intros Hv. destruct (pair_words be v Hv) as (E & A & B). split; [exact A|]. split; [exact B|].
  rewrite <- E at 1. unfold pair64. destruct be; ring.
Qed.
Lemma two_words_pair be x y v : two_words be x y v -> pair64 be x y = v /\ is_u 64 v.
Proof. unfold is_u. intros (A & B & ->). unfold is_u, pair64 in *. destruct be; split; try ring; lia. Qed.
Theorem C09_aeabi_uldivmod : forall be c hw32 usz lz j s n d, 16 <= usz -> (rr s 13) mod 8 = 0 ->
  two_words be (rr s 0) (rr s 1) n -> two_words be (rr s 2) (rr s 3) d -> d <> 0 ->
  exists s' q r, aeabi_uldivmod be (u64_div_rem c usz lz (half32 hw32 usz lz)) j s = Ok s' /\ arm_returns s s' /\
    two_words be (rr s' 0) (rr s' 1) q /\ two_words be (rr s' 2) (rr s' 3) r /\ divides_to n d q r.
Proof.
  intros be c hw32 usz lz j s n d Hu Hsp Wn Wd Hz.
  destruct (two_words_pair _ _ _ _ Wn) as [En Hn]. destruct (two_words_pair _ _ _ _ Wd) as [Ed Hd].
  destruct (C07_udiv64 c hw32 usz lz n d Hu Hn Hd Hz) as (q & r & D & _ & _ & E).
  destruct (divmod64_ok be (udivmod (u64_div_rem c usz lz (half32 hw32 usz lz))) j s q r Hsp) as (s' & E' & A & B & C & D' & X).
  { rewrite En, Ed. exact E. }
  assert (is_u 64 q /\ is_u 64 r) as [Hq Hr].
  { unfold is_u in *. destruct D as [D1 D2]. split; [|lia]. 
    assert (0 <= q) by (destruct (Z_lt_le_dec q 0); [assert (q * d <= -1 * d) by (apply Z.mul_le_mono_nonneg_r; lia); lia|auto]).
    assert (q * 1 <= q * d) by (apply Z.mul_le_mono_nonneg_l; lia). lia. }
  exists s', q, r. split; [exact E'|]. split; [exact X|]. rewrite A, B, C, D'.
  split; [now apply two_words_split|]. split; [now apply two_words_split|auto].
Qed.
Theorem C09_aeabi_idivmod : forall usz lz j s a b, 16 <= usz -> (rr s 13) mod 8 = 0 ->
  denotes_i 32 (rr s 0) a -> denotes_i 32 (rr s 1) b -> b <> 0 ->
  exists s' q r, aeabi_idivmod (u32_div_rem usz lz) j s = Ok s' /\ arm_returns s s' /\
    denotes_i 32 (rr s' 0) q /\ denotes_i 32 (rr s' 1) r /\ truncates_to 32 a b q r.
Proof.
  intros usz lz j s a b Hu Hsp Da Db Hz.
  assert (forall p x, denotes_i 32 p x -> norm (SI 32) p = x) as Hn.
  { intros p x (Hp & Hx & [->| ->]).
    - apply norm_id; [rewrite bits_s; lia|apply fits_s; exact Hx].
    - apply (norm_unique (SI 32) ltac:(rewrite bits_s; lia) _ _ (-1)); [apply fits_s; exact Hx|rewrite bits_s; lia]. }
  destruct (idivmod_ok (u32_div_rem usz lz) j s) as (s' & E & Q & R & X); auto; [apply u32_correct; lia|apply Da| |].
  { destruct Db as (Hp & Hx & D). unfold is_u, is_i in *. lia. }
  rewrite (Hn _ _ Da), (Hn _ _ Db) in Q, R.
  destruct Da as (_ & Ha & _). destruct Db as (_ & Hb & _).
  pose proof (trunc_spec 32 a b ltac:(lia) Ha Hb Hz) as T.
  exists s', (norm (SI 32) (Z.quot a b)), (Z.rem a b). split; [exact E|]. split; [exact X|]. rewrite Q, R.
  split; [|split; [|exact T]].
  - rewrite <- norm_mod_i by lia. apply denotes_mod; [lia|]. apply T.
  - apply denotes_mod; [lia|]. apply T.
Qed.
Theorem C09_aeabi_ldivmod : forall be c hw32 usz lz j s pa pb a b, 16 <= usz -> (rr s 13) mod 8 = 0 ->
  two_words be (rr s 0) (rr s 1) pa -> two_words be (rr s 2) (rr s 3) pb -> denotes_i 64 pa a -> denotes_i 64 pb b -> b <> 0 ->
  exists s' pq pr q r, aeabi_ldivmod be (u64_div_rem c usz lz (half32 hw32 usz lz)) j s = Ok s' /\ arm_returns s s' /\
    two_words be (rr s' 0) (rr s' 1) pq /\ two_words be (rr s' 2) (rr s' 3) pr /\
    denotes_i 64 pq q /\ denotes_i 64 pr r /\ truncates_to 64 a b q r.
Proof.
  intros be c hw32 usz lz j s pa pb a b Hu Hsp Wn Wd Da Db Hz.
  destruct (two_words_pair _ _ _ _ Wn) as [En Hn]. destruct (two_words_pair _ _ _ _ Wd) as [Ed Hd].
  assert (forall p x, denotes_i 64 p x -> norm (SI 64) p = x) as Hno.
  { intros p x (Hp & Hx & [->| ->]).
    - apply norm_id; [rewrite bits_s; lia|apply fits_s; exact Hx].
    - apply (norm_unique (SI 64) ltac:(rewrite bits_s; lia) _ _ (-1)); [apply fits_s; exact Hx|rewrite bits_s; lia]. }
  set (q := norm (SI 64) (Z.quot a b)). set (r := Z.rem a b).
  destruct (divmod64_ok be (divmoddi4_words (u64_div_rem c usz lz (half32 hw32 usz lz))) j s (norm (UI 64) q) (norm (UI 64) r) Hsp) as (s' & E' & A & B & C & D' & X).
  { rewrite En, Ed. unfold divmoddi4_words. rewrite (Hno _ _ Da), (Hno _ _ Db).
    destruct Da as (_ & Ha & _). destruct Db as (_ & Hb & _). apply fits_s in Ha, Hb.
    rewrite sdivmod_correct; auto; try lia. apply u64_correct; [lia|]. now apply half32_ok. }
  destruct Da as (_ & Ha & _). destruct Db as (_ & Hb & _).
  pose proof (trunc_spec 64 a b ltac:(lia) Ha Hb Hz) as T. fold q r in T.
  exists s', (q mod 2 ^ 64), (r mod 2 ^ 64), q, r. split; [exact E'|]. split; [exact X|]. rewrite A, B, C, D', !norm_u.
  split; [apply two_words_split; apply Z.mod_pos_bound; lia|].
  split; [apply two_words_split; apply Z.mod_pos_bound; lia|].
  split; [apply denotes_mod; [lia|apply T]|]. split; [apply denotes_mod; [lia|apply T]|exact T].
Qed.
Example C09_arm_ex :
  (match aeabi_idivmod (u32_div_rem 32 true) (Havoc (fun _ => 77) (fun _ => 88))
           (Arm (fun k => if k =? 0 then 2 ^ 32 - 7 else if k =? 1 then 2 else if k =? 13 then 4096 else k) (fun _ => 0)) with
   | Ok s => (rr s 0, rr s 1, rr s 13, rr s 15, rr s 4) | _ => (0, 0, 0, 0, 0) end) = (2 ^ 32 - 3, 2 ^ 32 - 1, 4096, 14, 4) /\
  (match aeabi_uldivmod false (u64_div_rem D64_delegate 32 true hw_div_rem) (Havoc (fun _ => 77) (fun _ => 88))
           (Arm (fun k => if k =? 13 then 4096 else k + 1) (fun _ => 0)) with
   | Ok s => (rr s 0 + 2 ^ 32 * rr s 1, rr s 2 + 2 ^ 32 * rr s 3, rr s 13, rr s 15, rr s 4) | _ => (0, 0, 0, 0, 0) end)
   = ((1 + 2 ^ 33) / (3 + 2 ^ 34), (1 + 2 ^ 33) mod (3 + 2 ^ 34), 4096, 15, 5).
Proof. split; vm_compute; reflexivity. Qed.

Definition C07_all := (C07_udiv32, C07_udiv64, C07_udiv128, C07_div_by_zero).
Print Assumptions C07_all.
Definition C08_all := (C08_div32, C08_div64, C08_div128).
Print Assumptions C08_all.
Definition C09_all := (C09_avr_udivmodqi4, C09_avr_udivmodhi4, C09_avr_udivmodsi4, C09_avr_divmodsi4,
  C09_aeabi_uidivmod, C09_aeabi_uldivmod, C09_aeabi_idivmod, C09_aeabi_ldivmod).
Print Assumptions C09_all.
