(** Proofs about signed division, the target configurations, and the
    register-level routines. *)

From Coq Require Import ZArith Bool List Lia Zquot.
From Verif Require Import Base BaseLemmas IntProofs IntProofs2 DivModel DivProofs DivProofs2 DivProofs3 RegModel.
Import ListNotations.
Open Scope Z_scope.

(** * Configurations *)
Lemma pw32 : pow2_width 32. Proof. exists 4. lia. Qed.
Lemma pw64 : pow2_width 64. Proof. exists 5. lia. Qed.

Lemma ns_ok usz lz n : 8 <= usz -> pow2_width n ->
  norm_shift_spec n (fun a b => normalization_shift usz lz n a b false).
Proof. intros H1 H2 a b Hab Ha. apply normalization_half; auto. Qed.

Lemma u32_correct usz lz : 8 <= usz -> correct_div 32 (u32_div_rem usz lz).
Proof. intros. apply binary_long_correct; auto using pw32. Qed.
Lemma u64_correct c usz lz h32 : 8 <= usz -> correct_div 32 h32 -> correct_div 64 (u64_div_rem c usz lz h32).
Proof.
  intros Hu Hh. destruct c.
  - apply (delegate_correct 16 ltac:(lia) h32 Hh). apply ns_ok; auto using pw32.
  - apply binary_long_correct; auto using pw64.
  - apply (asymmetric_correct 16 ltac:(lia) h32 Hh).
Qed.
Lemma u128_correct c usz lz h64 : 8 <= usz -> correct_div 64 h64 -> correct_div 128 (u128_div_rem c usz lz h64).
Proof.
  intros Hu Hh. destruct c.
  - apply (trifecta_correct 32 ltac:(lia) h64 Hh).
  - apply (delegate_correct 32 ltac:(lia) h64 Hh). apply ns_ok; auto using pw64.
  - apply (asymmetric_correct 32 ltac:(lia) h64 Hh).
  - apply (delegate_correct 32 ltac:(lia) h64 Hh). apply ns_ok; auto using pw64.
Qed.

(** * Signed *)
Section Signed.
Variables (w : Z) (dr : Z -> Z -> res (Z * Z)).
Hypothesis Hw : 0 < w.
Hypothesis Hdr : correct_div w dr.

Lemma abs_norm a : fits (SI w) a ->
  norm (UI w) (if a <? 0 then wrapping_neg (SI w) a else a) = Z.abs a /\ 0 <= Z.abs a < 2 ^ w.
Proof.
  intros Ha. apply fits_s in Ha. assert (2 ^ w = 2 * 2 ^ (w - 1)) by (apply pow2_S; lia).
  assert (0 < 2 ^ (w - 1)) by (apply pow2_pos; lia).
  split; [|lia]. rewrite norm_u. destruct (Z.ltb_spec a 0).
  - unfold wrapping_neg. destruct (norm_eq_mod (SI w) Hw (- a)) as (k & ->). rewrite bits_s.
    rewrite Z.mod_add by lia. rewrite Z.mod_small by lia. lia.
  - rewrite Z.mod_small by lia. lia.
Qed.

Lemma quo_norm a b : fits (SI w) a -> fits (SI w) b -> b <> 0 ->
  (let t := norm (SI w) (Z.abs a / Z.abs b) in
   if negb (eqb (a <? 0) (b <? 0)) then wrapping_neg (SI w) t else t) = norm (SI w) (Z.quot a b).
Proof.
  intros Ha Hb Hz. cbv zeta. rewrite Z.quot_div by auto.
  assert (0 < Z.abs b) by lia.
  assert (Z.abs a = 0 -> Z.abs a / Z.abs b = 0) as H0 by (intros ->; apply Z.div_0_l; lia).
  assert (forall x, wrapping_neg (SI w) (norm (SI w) x) = norm (SI w) (- x)) as Hn.
  { intros x. unfold wrapping_neg. replace (- norm (SI w) x) with (0 - norm (SI w) x) by lia.
    rewrite norm_sub_r by auto. f_equal. }
  destruct (Z.ltb_spec a 0), (Z.ltb_spec b 0); cbn [negb eqb]; rewrite ?Hn; f_equal.
  all: destruct (Z.eq_dec a 0); [rewrite H0 by lia; lia|].
  all: destruct (Z.sgn_spec a) as [[? ->]|[[? ->]|[? ->]]]; destruct (Z.sgn_spec b) as [[? ->]|[[? ->]|[? ->]]]; lia.
Qed.

Lemma rem_norm a b : fits (SI w) a -> fits (SI w) b -> b <> 0 ->
  (let r := norm (SI w) (Z.abs a mod Z.abs b) in
   if a <? 0 then wrapping_neg (SI w) r else r) = Z.rem a b.
Proof.
  intros Ha Hb Hz. cbv zeta. rewrite Z.rem_mod by auto.
  assert (0 < Z.abs b) by lia.
  pose proof (Z.mod_pos_bound (Z.abs a) (Z.abs b) ltac:(lia)).
  apply fits_s in Ha, Hb. 
  rewrite (norm_id (SI w) Hw (_ mod _)) by (apply fits_s; lia).
  destruct (Z.ltb_spec a 0).
  - unfold wrapping_neg. rewrite (norm_id (SI w) Hw (- _)) by (apply fits_s; lia). rewrite Z.sgn_neg by lia. lia.
  - destruct (Z.eq_dec a 0) as [->|]; [reflexivity|]. rewrite Z.sgn_pos by lia. lia.
Qed.

Lemma sdivmod_correct a b : fits (SI w) a -> fits (SI w) b -> b <> 0 ->
  sdivmod w dr a b = Ok (norm (SI w) (Z.quot a b), Z.rem a b).
Proof.
  intros Ha Hb Hz. unfold sdivmod, udivmod.
  destruct (abs_norm a Ha) as [-> A]. destruct (abs_norm b Hb) as [-> B].
  rewrite Hdr by lia. cbn [bind fst snd].
  pose proof (quo_norm a b Ha Hb Hz) as Q. pose proof (rem_norm a b Ha Hb Hz) as R. cbv zeta in Q, R.
  rewrite Q, R. reflexivity.
Qed.
Lemma sdiv_correct a b : fits (SI w) a -> fits (SI w) b -> b <> 0 ->
  sdiv w dr a b = Ok (norm (SI w) (Z.quot a b)).
Proof.
  intros Ha Hb Hz. unfold sdiv, udiv.
  destruct (abs_norm a Ha) as [-> A]. destruct (abs_norm b Hb) as [-> B].
  rewrite Hdr by lia. cbn [bind fst snd].
  pose proof (quo_norm a b Ha Hb Hz) as Q. cbv zeta in Q. rewrite Q. reflexivity.
Qed.
Lemma smod_correct a b : fits (SI w) a -> fits (SI w) b -> b <> 0 ->
  smod w dr a b = Ok (Z.rem a b).
Proof.
  intros Ha Hb Hz. unfold smod, umod.
  destruct (abs_norm a Ha) as [-> A]. destruct (abs_norm b Hb) as [-> B].
  rewrite Hdr by lia. cbn [bind fst snd].
  pose proof (rem_norm a b Ha Hb Hz) as R. cbv zeta in R. rewrite R. reflexivity.
Qed.
End Signed.

(** * AVR packed results *)
Lemma pack_ok q r : 0 <= q < 2 ^ 32 -> 0 <= r < 2 ^ 32 ->
  (let* x := cshl (UI 64) r 32 in Ok (Z.lor x q)) = Ok (q + 2 ^ 32 * r).
Proof.
  intros Hq Hr. rewrite cshl_u_exact by lia. cbn [bind].
  rewrite Z.lor_comm, lor_add_low by lia. f_equal. ring.
Qed.

Lemma avr_udivmodsi4_correct dr a b : correct_div 32 dr -> 0 <= a < 2 ^ 32 -> 0 < b < 2 ^ 32 ->
  avr_udivmodsi4 dr a b = Ok (a / b + 2 ^ 32 * (a mod b)).
Proof.
  intros Hdr Ha Hb. unfold avr_udivmodsi4. rewrite Hdr by lia. cbn [bind fst snd].
  pose proof (Z.mod_pos_bound a b ltac:(lia)).
  apply pack_ok; [|lia]. split; [apply Z.div_pos; lia|].
  apply Z.le_lt_trans with a; [|lia]. apply Z.div_le_upper_bound; nia.
Qed.

Lemma avr_divmodsi4_correct dr a b : correct_div 32 dr -> fits (SI 32) a -> fits (SI 32) b -> b <> 0 ->
  avr_divmodsi4 dr a b = Ok ((Z.quot a b) mod 2 ^ 32 + 2 ^ 32 * ((Z.rem a b) mod 2 ^ 32)).
Proof.
  intros Hdr Ha Hb Hz. unfold avr_divmodsi4.
  destruct (abs_norm 32 ltac:(lia) a Ha) as [-> A]. destruct (abs_norm 32 ltac:(lia) b Hb) as [-> B].
  rewrite avr_udivmodsi4_correct by (auto; lia). cbn [bind].
  pose proof (Z.mod_pos_bound (Z.abs a) (Z.abs b) ltac:(lia)) as M.
  assert (0 <= Z.abs a / Z.abs b < 2 ^ 32) as Q.
  { split; [apply Z.div_pos; lia|]. apply Z.le_lt_trans with (Z.abs a); [|lia]. apply Z.div_le_upper_bound; nia. }
  pose proof (quo_norm 32 ltac:(lia) a b Ha Hb Hz) as EQ.
  pose proof (rem_norm 32 ltac:(lia) a b Ha Hb Hz) as ER. cbv zeta in EQ, ER.
  set (q := Z.abs a / Z.abs b) in *. set (r := Z.abs a mod Z.abs b) in *.
  rewrite cshr_ok by (rewrite bits_u; lia). cbn [bind].
  replace ((q + 2 ^ 32 * r) / 2 ^ 32) with r.
  2:{ rewrite (Z.mul_comm (2 ^ 32) r), Z.div_add by lia. rewrite Z.div_small by lia. lia. }
  rewrite (norm_u 32 (q + 2 ^ 32 * r)), (norm_u 32 r).
  rewrite (Z.mul_comm (2 ^ 32) r), Z.mod_add, !Z.mod_small by lia.
  rewrite EQ, ER. rewrite !norm_u.
  destruct (norm_eq_mod (SI 32) ltac:(rewrite bits_s; lia) (Z.quot a b)) as (k & ->). rewrite bits_s, Z.mod_add by lia.
  apply pack_ok; apply Z.mod_pos_bound; lia.
Qed.

(** * AVR register-level *)
(** Long division step: [R = P mod d], [Q = P / d] for the dividend prefix [P]. *)
Lemma long_step P d bit : 0 < d -> 0 <= P -> bit = 0 \/ bit = 1 ->
  let R' := 2 * (P mod d) + bit in
  if d <=? R' then (2 * P + bit) mod d = R' - d /\ (2 * P + bit) / d = 2 * (P / d) + 1
  else (2 * P + bit) mod d = R' /\ (2 * P + bit) / d = 2 * (P / d).
Proof.
  intros Hd HP Hb R'. pose proof (Z.div_mod P d ltac:(lia)). pose proof (Z.mod_pos_bound P d Hd).
  destruct (Z.leb_spec d R').
  - destruct (div_mod_unique (2 * P + bit) d (2 * (P / d) + 1) (R' - d)); lia.
  - destruct (div_mod_unique (2 * P + bit) d (2 * (P / d)) R'); lia.
Qed.

Lemma mod256 x : 0 <= x < 512 -> x mod 256 = if 256 <=? x then x - 256 else x.
Proof.
  intros Hx. destruct (Z.leb_spec 256 x).
  - symmetry. apply Z.mod_unique_pos with 1; lia.
  - apply Z.mod_small; lia.
Qed.

Lemma lor1_even x : 0 <= x -> Z.even x = true -> Z.lor x 1 = x + 1.
Proof.
  intros Hx He. apply Z.even_spec in He. destruct He as (m & ->).
  rewrite Z.lor_comm. replace (2 * m) with (m * 2 ^ 1) by lia. rewrite lor_add_low by lia. lia.
Qed.


Lemma ld_arith W n d k : 0 <= n < 2 ^ W -> 0 < d -> 1 <= k <= W ->
  let P := n / 2 ^ k in let Q := P / d in
  let X := (n mod 2 ^ k) * 2 ^ (W - k) + Q in
  let bit := b2z (2 ^ W <=? 2 * X) in
  Q < 2 ^ (W - k) ->
  0 <= X < 2 ^ W /\ 0 <= P /\ 0 <= Q /\ (bit = 0 \/ bit = 1) /\
  n / 2 ^ (k - 1) = 2 * P + bit /\
  2 * X - bit * 2 ^ W = (n mod 2 ^ (k - 1)) * 2 ^ (W - (k - 1)) + 2 * Q /\
  2 * Q + 1 < 2 ^ (W - (k - 1)) /\
  0 <= 2 * (P mod d) + bit < 2 ^ W.
Proof.
  intros Hn Hd Hk P Q X bit HQ.
  assert (0 < 2 ^ (k - 1)) as Hp1 by (apply pow2_pos; lia).
  assert (0 < 2 ^ (W - k)) as Hp2 by (apply pow2_pos; lia).
  assert (2 ^ k = 2 * 2 ^ (k - 1)) as Ek by (apply pow2_S; lia).
  assert (2 ^ (W - (k - 1)) = 2 * 2 ^ (W - k)) as Ew by (rewrite pow2_S by lia; do 2 f_equal; lia).
  assert (2 ^ W = 2 ^ k * 2 ^ (W - k)) as EW by (rewrite <- pow2_add by lia; f_equal; lia).
  rewrite Ew. set (A := 2 ^ (k - 1)) in *. set (B := 2 ^ (W - k)) in *.
  pose proof (Z.div_mod n (2 ^ k) ltac:(lia)) as E1. pose proof (Z.mod_pos_bound n (2 ^ k) ltac:(lia)) as M1.
  fold P in E1. set (m := n mod 2 ^ k) in *.
  assert (0 <= P) by (apply Z.div_pos; lia). assert (0 <= Q) by (apply Z.div_pos; lia).
  pose proof (Z.mod_pos_bound P d Hd) as M2.
  assert (P < B). { apply Z.div_lt_upper_bound; lia. }
  assert (P mod d <= P) by (apply Z.mod_le; lia).
  assert (0 <= X < 2 ^ W).
  { unfold X. rewrite EW. assert (0 <= m * B) by (apply Z.mul_nonneg_nonneg; lia).
    assert ((m + 1) * B <= 2 ^ k * B) by (apply Z.mul_le_mono_nonneg_r; lia). lia. }
  assert (bit = b2z (A <=? m)) as Eb.
  { unfold bit. f_equal. rewrite EW, Ek. unfold X.
    destruct (Z.leb_spec A m).
    - assert (A * B <= m * B) by (apply Z.mul_le_mono_nonneg_r; lia). lia.
    - assert ((m + 1) * B <= A * B) by (apply Z.mul_le_mono_nonneg_r; lia). lia. }
  assert (2 * B <= 2 ^ W). { rewrite EW, Ek. assert (1 * B <= A * B) by (apply Z.mul_le_mono_nonneg_r; lia). lia. }
  rewrite Eb. destruct (Z.leb_spec A m); cbn [b2z].
  - destruct (div_mod_unique n A (2 * P + 1) (m - A)) as [-> ->]; [lia|lia|].
    repeat split; try lia.
  - destruct (div_mod_unique n A (2 * P) m) as [-> ->]; [lia|lia|].
    repeat split; try lia.
Qed.

Lemma even_2 x : 0 <= x -> Z.lor (2 * x) 1 = 2 * x + 1.
Proof. intros. apply lor1_even; [lia|]. rewrite Z.even_mul. reflexivity. Qed.


Definition is_branch (i : avr_instr) : bool := match i with Brlo _ | Brne _ | Ret => true | _ => false end.
Lemma run_step prog f pc s i : nth_error prog pc = Some i -> is_branch i = false ->
  avr_run prog (S f) pc s = avr_run prog f (S pc) (avr_step i s).
Proof. intros H1 H2. cbn [avr_run]. rewrite H1. destruct i; try discriminate; reflexivity. Qed.
Lemma run_brlo prog f pc s t : nth_error prog pc = Some (Brlo t) ->
  avr_run prog (S f) pc s = avr_run prog f (if ac s then t else S pc) s.
Proof. intros H1. cbn [avr_run]. rewrite H1. reflexivity. Qed.
Lemma run_brne prog f pc s t : nth_error prog pc = Some (Brne t) ->
  avr_run prog (S f) pc s = avr_run prog f (if az s then S pc else t) s.
Proof. intros H1. cbn [avr_run]. rewrite H1. reflexivity. Qed.
Lemma run_ret prog f pc s : nth_error prog pc = Some Ret -> avr_run prog (S f) pc s = Ok s.
Proof. intros H1. cbn [avr_run]. rewrite H1. reflexivity. Qed.

(** Registers that the program does not name as a destination are unchanged. *)
Definition dest (i : avr_instr) : option Z :=
  match i with
  | Clr d | Ldi d _ | MovR d _ | Lsl d | Rol d | Sub d _ | Sbc d _ | Sbr d _ | Dec d => Some d
  | _ => None
  end.
Lemma run_frame prog j : (forall i, In i prog -> dest i <> Some j) ->
  forall fuel pc s s', avr_run prog fuel pc s = Ok s' -> ar s' j = ar s j.
Proof.
  intros Hp. induction fuel as [|f IH]; intros pc s s' H; [discriminate|].
  cbn [avr_run] in H. destruct (nth_error prog pc) as [i|] eqn:Ei; [|discriminate].
  apply nth_error_In, Hp in Ei.
  assert (ar (avr_step i s) j = ar s j) as Es.
  { destruct i; cbn [avr_step ar]; try reflexivity; unfold upd; cbn [dest] in Ei;
      match goal with |- context[j =? ?d] => destruct (Z.eqb_spec j d); [congruence|reflexivity] end. }
  destruct i; try (apply IH in H; rewrite H; exact Es).
  inversion H. reflexivity.
Qed.

Ltac fact s1 s E j :=
  let H := fresh "F" in
  assert (H : ar s1 j = ar s1 j) by reflexivity;
  rewrite E in H at 2; cbn [avr_step ar ac az] in H; unfold upd in H; cbn [Z.eqb Pos.eqb] in H;
  repeat match goal with K : ar s _ = _ |- _ => rewrite K in H | K : ac s = _ |- _ => rewrite K in H end.
Ltac flags s1 s E :=
  let H := fresh "FC" in
  assert (H : ac s1 = ac s1) by reflexivity;
  rewrite E in H at 2; cbn [avr_step ar ac az] in H; unfold upd in H; cbn [Z.eqb Pos.eqb] in H;
  repeat match goal with K : ar s _ = _ |- _ => rewrite K in H | K : ac s = _ |- _ => rewrite K in H end;
  let H := fresh "FZ" in
  assert (H : az s1 = az s1) by reflexivity;
  rewrite E in H at 2; cbn [avr_step ar ac az] in H; unfold upd in H; cbn [Z.eqb Pos.eqb] in H;
  repeat match goal with K : ar s _ = _ |- _ => rewrite K in H | K : ac s = _ |- _ => rewrite K in H
    | K : az s = _ |- _ => rewrite K in H end.
Ltac drop s := repeat match goal with K : ar s _ = _ |- _ => clear K | K : ac s = _ |- _ => clear K | K : az s = _ |- _ => clear K end.
Ltac go s1 facts :=
  match goal with |- context[avr_run ?p (S ?f) ?pc ?s] =>
    rewrite (run_step p f pc s _ eq_refl eq_refl);
    let E := fresh "E" in
    match goal with |- context[avr_step ?i s] => remember (avr_step i s) as s1 eqn:E end;
    facts s1 s E; flags s1 s E; drop s; clear E; try clear s
  end.

Ltac getr s j K := match goal with H : ar s j = _ |- _ => rename H into K end.
Ltac getc s K := match goal with H : ac s = _ |- _ => rename H into K end.
Ltac getz s K := match goal with H : az s = _ |- _ => rename H into K end.
Ltac qi_facts s1 s E := fact s1 s E 22; fact s1 s E 23; fact s1 s E 24; fact s1 s E 25.

(** 8-bit routine: [k] iterations to go. R24 holds the dividend bits not yet
    consumed above the quotient bits found so far, R25 the partial remainder. *)
Lemma qi_loop n d : 0 <= n < 256 -> 0 < d < 256 ->
  forall k fuel s, (1 <= k <= 8)%nat -> (8 * k + 1 <= fuel)%nat ->
  let P := n / 2 ^ Z.of_nat k in
  ar s 22 = d -> ar s 23 = Z.of_nat k -> ar s 25 = P mod d ->
  ar s 24 = (n mod 2 ^ Z.of_nat k) * 2 ^ (8 - Z.of_nat k) + P / d ->
  P / d < 2 ^ (8 - Z.of_nat k) ->
  exists s', avr_run udivmodqi4_prog fuel 2 s = Ok s' /\ ar s' 24 = n / d /\ ar s' 25 = n mod d.
Proof.
  intros Hn Hd. induction k as [|k IH]; intros fuel s Hk Hf P H22 H23 H25 H24 HQ; [lia|].
  destruct (ld_arith 8 n d (Z.of_nat (S k))) as (A1 & A2 & A3 & A4 & A5 & A6 & A7 & A8); try lia; auto.
  fold P in A1, A2, A3, A4, A5, A6, A7, A8. rewrite <- H24 in A1, A4, A5, A6, A8. change (2 ^ 8) with 256 in *.
  clear H24. assert (exists X, ar s 24 = X) as (X & H24) by eauto. rewrite H24 in *.
  replace (Z.of_nat (S k) - 1) with (Z.of_nat k) in * by lia.
  set (bit := b2z (256 <=? 2 * X)) in *.
  pose proof (long_step P d bit ltac:(lia) A2 A4) as LS. cbv zeta in LS. rewrite <- A5 in LS.
  assert ((2 * X) mod 256 = 2 * X - bit * 256) as EX.
  { rewrite mod256 by lia. unfold bit. destruct (256 <=? 2 * X); cbn [b2z]; lia. }
  assert (exists h, 0 <= h /\ 2 * X - bit * 256 = 2 * h) as (h & Hh & Eh).
  { exists ((n mod 2 ^ Z.of_nat k) * 2 ^ (8 - Z.of_nat (S k)) + P / d).
    assert (0 <= n mod 2 ^ Z.of_nat k * 2 ^ (8 - Z.of_nat (S k))).
    { apply Z.mul_nonneg_nonneg; [apply Z.mod_pos_bound, pow2_pos; lia|apply Z.pow_nonneg; lia]. }
    split; [lia|]. rewrite A6. replace (8 - Z.of_nat k) with (1 + (8 - Z.of_nat (S k))) by lia. rewrite pow2_add by lia. lia. }
  rewrite Eh in EX, A6.
  assert (forall fuel s, (8 * k + 3 <= fuel)%nat ->
     ar s 22 = d -> ar s 23 = Z.of_nat (S k) -> ar s 25 = n / 2 ^ Z.of_nat k mod d ->
     ar s 24 = n mod 2 ^ Z.of_nat k * 2 ^ (8 - Z.of_nat k) + (n / 2 ^ Z.of_nat k) / d ->
     (n / 2 ^ Z.of_nat k) / d < 2 ^ (8 - Z.of_nat k) ->
     exists s', avr_run udivmodqi4_prog fuel 8 s = Ok s' /\ ar s' 24 = n / d /\ ar s' 25 = n mod d) as Hend.
  { clear - Hn Hd IH Hk. intros fuel s Hf G22 G23 G25 G24 GQ.
    do 2 (destruct fuel as [|fuel]; [lia|]).
    go s1 ltac:(fun a b c => qi_facts a b c).
    rewrite (run_brne _ _ _ _ 2) by reflexivity. rewrite FZ.
    rewrite Z.mod_small in FZ, F0 by lia. replace (Z.of_nat (S k) - 1) with (Z.of_nat k) in * by lia.
    rewrite Z.mod_small by lia.
    destruct (Z.eqb_spec (Z.of_nat k) 0) as [Ek|Ek].
    - destruct fuel as [|fuel]; [lia|]. rewrite run_ret by reflexivity. exists s1. split; [reflexivity|].
      rewrite Ek in *. change (2 ^ 0) with 1 in *. rewrite Z.div_1_r, Z.mod_1_r in *. split; [|auto].
      rewrite F1. lia.
    - apply IH; auto; lia. }
  clear IH.
  do 4 (destruct fuel as [|fuel]; [lia|]).
  go s1 ltac:(fun a b c => qi_facts a b c).
  go s2 ltac:(fun a b c => qi_facts a b c).
  getr s2 24 G24. getr s2 25 G25. rewrite EX in G24. fold bit in G25. rewrite (Z.mod_small (2 * (P mod d) + bit)) in G25 by lia.
  go s3 ltac:(fun a b c => qi_facts a b c).
  rewrite (run_brlo _ _ _ _ 8) by reflexivity. getc s3 C3. rewrite C3.
  destruct (Z.leb_spec d (2 * (P mod d) + bit)) as [Hc|Hc].
  - destruct LS as [LS1 LS2].
    replace (2 * (P mod d) + bit - d - b2z false <? 0) with false by (cbn [b2z]; lia).
    do 2 (destruct fuel as [|fuel]; [lia|]).
    go s4 ltac:(fun a b c => qi_facts a b c).
    go s5 ltac:(fun a b c => qi_facts a b c).
    getr s5 24 G24. getr s5 25 G25.
    rewrite even_2 in G24 by lia. cbn [b2z] in G25. rewrite Z.sub_0_r, Z.mod_small in G25 by lia.
    apply Hend; lia.
  - destruct LS as [LS1 LS2].
    replace (2 * (P mod d) + bit - d - b2z false <? 0) with true by (cbn [b2z]; lia).
    apply Hend; lia.
Qed.

Lemma udivmodqi4_ok n d s : 0 <= n < 256 -> 0 < d < 256 -> ar s 24 = n -> ar s 22 = d ->
  exists s', avr_run udivmodqi4_prog 67 0 s = Ok s' /\ ar s' 24 = n / d /\ ar s' 25 = n mod d.
Proof.
  intros Hn Hd H24 H22.
  assert (exists x, ar s 25 = x) as (x & H25) by eauto. assert (exists y, ar s 23 = y) as (y & H23) by eauto.
  go s1 ltac:(fun a b c => qi_facts a b c).
  go s2 ltac:(fun a b c => qi_facts a b c).
  apply (qi_loop n d Hn Hd 8); auto; try lia.
  - change (2 ^ Z.of_nat 8) with 256. rewrite (Z.div_small n 256) by lia. rewrite Z.mod_0_l by lia. auto.
  - change (2 ^ Z.of_nat 8) with 256. rewrite (Z.div_small n 256), (Z.mod_small n 256) by lia. rewrite Z.div_0_l by lia.
    change (2 ^ (8 - Z.of_nat 8)) with 1. lia.
  - change (2 ^ Z.of_nat 8) with 256. rewrite (Z.div_small n 256) by lia. rewrite Z.div_0_l by lia. reflexivity.
Qed.

(** 16-bit routine; pairs (R23:R22) = dividend/quotient, (R25:R24) = remainder,
    (R27:R26) = divisor, R21 = counter. *)
Ltac hi_facts s1 s E := fact s1 s E 21; fact s1 s E 22; fact s1 s E 23; fact s1 s E 24; fact s1 s E 25; fact s1 s E 26; fact s1 s E 27.

Lemma shl16 l h c : 0 <= l < 256 -> 0 <= h < 256 ->
  let l' := (2 * l + b2z c) mod 256 in let cl := 256 <=? 2 * l + b2z c in
  let h' := (2 * h + b2z cl) mod 256 in let ch := 256 <=? 2 * h + b2z cl in
  0 <= l' < 256 /\ 0 <= h' < 256 /\
  l' + 256 * h' = 2 * (l + 256 * h) + b2z c - b2z ch * 65536 /\
  ch = (65536 <=? 2 * (l + 256 * h) + b2z c).
Proof.
  intros Hl Hh. assert (0 <= b2z c <= 1) by (destruct c; cbn; lia). cbv zeta.
  rewrite (mod256 (2 * l + b2z c)) by lia.
  destruct (Z.leb_spec 256 (2 * l + b2z c)); cbn [b2z].
  - rewrite (mod256 (2 * h + 1)) by lia. destruct (Z.leb_spec 256 (2 * h + 1)); cbn [b2z]; lia.
  - rewrite (mod256 (2 * h + 0)) by lia. destruct (Z.leb_spec 256 (2 * h + 0)); cbn [b2z]; lia.
Qed.

Lemma sub16 l h x y : 0 <= l < 256 -> 0 <= h < 256 -> 0 <= x < 256 -> 0 <= y < 256 ->
  (h - y - b2z (l - x - b2z false <? 0) <? 0) = (l + 256 * h <? x + 256 * y).
Proof.
  intros. cbn [b2z]. destruct (Z.ltb_spec (l - x - 0) 0); cbn [b2z];
    destruct (Z.ltb_spec (l + 256 * h) (x + 256 * y)); lia.
Qed.
Lemma modneg x : -256 <= x < 256 -> x mod 256 = if x <? 0 then x + 256 else x.
Proof.
  intros Hx. destruct (Z.ltb_spec x 0).
  - symmetry. apply Z.mod_unique_pos with (-1); lia.
  - apply Z.mod_small; lia.
Qed.
Lemma sub16v l h x y : 0 <= l < 256 -> 0 <= h < 256 -> 0 <= x < 256 -> 0 <= y < 256 -> x + 256 * y <= l + 256 * h ->
  let l' := (l - x - b2z false) mod 256 in
  let h' := (h - y - b2z (l - x - b2z false <? 0)) mod 256 in
  0 <= l' < 256 /\ 0 <= h' < 256 /\ l' + 256 * h' = l + 256 * h - (x + 256 * y).
Proof.
  cbv zeta. intros. cbn [b2z]. rewrite (modneg (l - x - 0)) by lia.
  destruct (Z.ltb_spec (l - x - 0) 0); cbn [b2z].
  - rewrite modneg by lia. destruct (Z.ltb_spec (h - y - 1) 0); lia.
  - rewrite modneg by lia. destruct (Z.ltb_spec (h - y - 0) 0); lia.
Qed.

Lemma hi_loop n d x y : 0 <= n < 65536 -> 0 < d < 65536 -> 0 <= x < 256 -> 0 <= y < 256 -> d = x + 256 * y ->
  forall k fuel s, (1 <= k <= 16)%nat -> (12 * k + 1 <= fuel)%nat ->
  let P := n / 2 ^ Z.of_nat k in
  ar s 26 = x -> ar s 27 = y -> ar s 21 = Z.of_nat k ->
  0 <= ar s 22 < 256 -> 0 <= ar s 23 < 256 -> 0 <= ar s 24 < 256 -> 0 <= ar s 25 < 256 ->
  ar s 24 + 256 * ar s 25 = P mod d ->
  ar s 22 + 256 * ar s 23 = (n mod 2 ^ Z.of_nat k) * 2 ^ (16 - Z.of_nat k) + P / d ->
  P / d < 2 ^ (16 - Z.of_nat k) ->
  exists s', avr_run udivmodhi4_prog fuel 7 s = Ok s' /\
    (0 <= ar s' 22 < 256 /\ 0 <= ar s' 23 < 256 /\ 0 <= ar s' 24 < 256 /\ 0 <= ar s' 25 < 256) /\
    ar s' 22 + 256 * ar s' 23 = n / d /\ ar s' 24 + 256 * ar s' 25 = n mod d.
Proof.
  intros Hn Hd Hx Hy Ed. induction k as [|k IH]; intros fuel s Hk Hf P H26 H27 H21 B22 B23 B24 B25 HR HX HQ; [lia|].
  destruct (ld_arith 16 n d (Z.of_nat (S k))) as (A1 & A2 & A3 & A4 & A5 & A6 & A7 & A8); try lia; auto.
  fold P in A1, A2, A3, A4, A5, A6, A7, A8. rewrite <- HX in A1, A4, A5, A6, A8. change (2 ^ 16) with 65536 in *.
  clear HX.
  assert (exists l, ar s 22 = l) as (l & H22) by eauto. assert (exists h, ar s 23 = h) as (h & H23) by eauto.
  assert (exists rl, ar s 24 = rl) as (rl & H24) by eauto. assert (exists rh, ar s 25 = rh) as (rh & H25) by eauto.
  rewrite H22, H23, H24, H25 in *.
  replace (Z.of_nat (S k) - 1) with (Z.of_nat k) in * by lia.
  remember (l + 256 * h) as X eqn:EX0.
  set (bit := b2z (65536 <=? 2 * X)) in *.
  pose proof (long_step P d bit ltac:(lia) A2 A4) as LS. cbv zeta in LS. rewrite <- A5 in LS.
  assert (exists g, 0 <= g /\ 2 * X - bit * 65536 = 2 * g) as (g & Hg & Eg).
  { exists ((n mod 2 ^ Z.of_nat k) * 2 ^ (16 - Z.of_nat (S k)) + P / d).
    assert (0 <= n mod 2 ^ Z.of_nat k * 2 ^ (16 - Z.of_nat (S k))).
    { apply Z.mul_nonneg_nonneg; [apply Z.mod_pos_bound, pow2_pos; lia|apply Z.pow_nonneg; lia]. }
    split; [lia|]. rewrite A6. replace (16 - Z.of_nat k) with (1 + (16 - Z.of_nat (S k))) by lia. rewrite pow2_add by lia. lia. }
  rewrite Eg in A6.
  assert (forall fuel s, (12 * k + 3 <= fuel)%nat ->
     ar s 26 = x -> ar s 27 = y -> ar s 21 = Z.of_nat (S k) ->
     0 <= ar s 22 < 256 -> 0 <= ar s 23 < 256 -> 0 <= ar s 24 < 256 -> 0 <= ar s 25 < 256 ->
     ar s 24 + 256 * ar s 25 = n / 2 ^ Z.of_nat k mod d ->
     ar s 22 + 256 * ar s 23 = n mod 2 ^ Z.of_nat k * 2 ^ (16 - Z.of_nat k) + (n / 2 ^ Z.of_nat k) / d ->
     (n / 2 ^ Z.of_nat k) / d < 2 ^ (16 - Z.of_nat k) ->
     exists s', avr_run udivmodhi4_prog fuel 17 s = Ok s' /\
    (0 <= ar s' 22 < 256 /\ 0 <= ar s' 23 < 256 /\ 0 <= ar s' 24 < 256 /\ 0 <= ar s' 25 < 256) /\
    ar s' 22 + 256 * ar s' 23 = n / d /\ ar s' 24 + 256 * ar s' 25 = n mod d) as Hend.
  { clear - Hn Hd IH Hk. intros fuel s Hf G26 G27 G21 B22 B23 B24 B25 GR GX GQ.
    do 2 (destruct fuel as [|fuel]; [lia|]).
    assert (exists l, ar s 22 = l) as (l & H22) by eauto. assert (exists h, ar s 23 = h) as (h & H23) by eauto.
    assert (exists rl, ar s 24 = rl) as (rl & H24) by eauto. assert (exists rh, ar s 25 = rh) as (rh & H25) by eauto.
    rewrite H22, H23, H24, H25 in *.
    go s1 ltac:(fun a b c => hi_facts a b c).
    rewrite (run_brne _ _ _ _ 7) by reflexivity. getz s1 Z1. rewrite Z1. getr s1 21 G21.
    rewrite Z.mod_small in Z1, G21 by lia. replace (Z.of_nat (S k) - 1) with (Z.of_nat k) in * by lia.
    rewrite Z.mod_small by lia.
    destruct (Z.eqb_spec (Z.of_nat k) 0) as [Ek|Ek].
    - destruct fuel as [|fuel]; [lia|]. rewrite run_ret by reflexivity. exists s1. split; [reflexivity|].
      rewrite Ek in *. change (2 ^ 0) with 1 in *. rewrite Z.div_1_r, Z.mod_1_r in *.
      split; [lia|]. split; lia.
    - apply IH; auto; lia. }
  clear IH.
  do 7 (destruct fuel as [|fuel]; [lia|]).
  pose proof (shl16 l h false ltac:(lia) ltac:(lia)) as SX. cbv zeta in SX. cbn [b2z] in SX. rewrite Z.add_0_r, <- EX0, Z.add_0_r in SX.
  go s1 ltac:(fun a b c => hi_facts a b c).
  go s2 ltac:(fun a b c => hi_facts a b c).
  destruct SX as (S1 & S2 & S3 & S4).
  getr s2 22 G22. getr s2 23 G23. getc s2 C2. rewrite S4 in C2, S3. fold bit in S3. rewrite Eg in S3.
  remember ((2 * l) mod 256) as l'. remember ((2 * h + b2z (256 <=? 2 * l)) mod 256) as h'.
  pose proof (shl16 rl rh (65536 <=? 2 * X) ltac:(lia) ltac:(lia)) as SR. cbv zeta in SR. fold bit in SR.
  go s3 ltac:(fun a b c => hi_facts a b c).
  go s4 ltac:(fun a b c => hi_facts a b c).
  destruct SR as (R1 & R2 & R3 & R4). rewrite HR in R3, R4.
  getr s4 24 G24. getr s4 25 G25. fold bit in G24, G25.
  remember ((2 * rl + bit) mod 256) as rl'. remember ((2 * rh + b2z (256 <=? 2 * rl + bit)) mod 256) as rh'.
  assert (b2z (256 <=? 2 * rh + b2z (256 <=? 2 * rl + bit)) = 0) as R5.
  { rewrite R4. replace (65536 <=? 2 * (P mod d) + bit) with false by lia. reflexivity. }
  rewrite R5, Z.mul_0_l, Z.sub_0_r in R3.
  go s5 ltac:(fun a b c => hi_facts a b c).
  go s6 ltac:(fun a b c => hi_facts a b c).
  rewrite (run_brlo _ _ _ _ 17) by reflexivity. getc s6 C6. rewrite C6.
  rewrite sub16 by lia. rewrite R3, <- Ed.
  destruct (Z.leb_spec d (2 * (P mod d) + bit)) as [Hc|Hc].
  - destruct LS as [LS1 LS2].
    replace (2 * (P mod d) + bit <? d) with false by lia.
    do 3 (destruct fuel as [|fuel]; [lia|]).
    pose proof (sub16v rl' rh' x y ltac:(lia) ltac:(lia) Hx Hy ltac:(lia)) as SV. cbv zeta in SV.
    go s7 ltac:(fun a b c => hi_facts a b c).
    go s8 ltac:(fun a b c => hi_facts a b c).
    destruct SV as (V1 & V2 & V3).
    getr s8 24 G24. getr s8 25 G25.
    remember ((rl' - x - b2z false) mod 256) as rl2. remember ((rh' - y - b2z (rl' - x - b2z false <? 0)) mod 256) as rh2.
    assert (exists g', 0 <= g' /\ l' = 2 * g') as (g' & Hg' & Eg').
    { exists (g - 128 * h'). lia. }
    go s9 ltac:(fun a b c => hi_facts a b c). getr s9 22 G22. rewrite Eg', even_2 in G22 by lia.
    clear Heqrl2 Heqrh2 Heqrl' Heqrh' Heql' Heqh'.
    repeat match goal with K : az _ = _ |- _ => clear K | K : ac _ = _ |- _ => clear K end.
    getr s9 23 G23. getr s9 24 G24. getr s9 25 G25.
    apply Hend; try lia.
  - destruct LS as [LS1 LS2].
    replace (2 * (P mod d) + bit <? d) with true by lia.
    clear Heqrl' Heqrh' Heql' Heqh'.
    repeat match goal with K : az _ = _ |- _ => clear K | K : ac _ = _ |- _ => clear K end.
    getr s6 22 G22. getr s6 23 G23. getr s6 24 G24. getr s6 25 G25.
    apply Hend; try lia.
Qed.

Lemma udivmodhi4_ok n d s : 0 <= n < 65536 -> 0 < d < 65536 ->
  (forall j, 0 <= ar s j < 256) -> ar s 24 + 256 * ar s 25 = n -> ar s 22 + 256 * ar s 23 = d ->
  exists s', avr_run udivmodhi4_prog 200 0 s = Ok s' /\
    (0 <= ar s' 22 < 256 /\ 0 <= ar s' 23 < 256 /\ 0 <= ar s' 24 < 256 /\ 0 <= ar s' 25 < 256) /\
    ar s' 22 + 256 * ar s' 23 = n / d /\ ar s' 24 + 256 * ar s' 25 = n mod d.
Proof.
  intros Hn Hd Hb En Ed.
  pose proof (Hb 22). pose proof (Hb 23). pose proof (Hb 24). pose proof (Hb 25).
  assert (exists l, ar s 22 = l) as (l & H22) by eauto. assert (exists h, ar s 23 = h) as (h & H23) by eauto.
  assert (exists rl, ar s 24 = rl) as (rl & H24) by eauto. assert (exists rh, ar s 25 = rh) as (rh & H25) by eauto.
  assert (exists a, ar s 21 = a) as (a & H21) by eauto. 
  assert (exists b, ar s 26 = b) as (b & H26) by eauto. assert (exists c, ar s 27 = c) as (c & H27) by eauto.
  rewrite H22, H23, H24, H25 in *. clear Hb.
  do 7 (match goal with |- context[avr_run _ _ _ ?s] => let s1 := fresh "s" in go s1 ltac:(fun a b c => hi_facts a b c) end).
  apply (hi_loop n d l h Hn Hd ltac:(lia) ltac:(lia) ltac:(lia) 16); auto; try lia.
  - change (2 ^ Z.of_nat 16) with 65536. rewrite (Z.div_small n 65536) by lia. rewrite Z.mod_0_l by lia. lia.
  - change (2 ^ Z.of_nat 16) with 65536. rewrite (Z.div_small n 65536), (Z.mod_small n 65536) by lia. rewrite Z.div_0_l by lia.
    change (2 ^ (16 - Z.of_nat 16)) with 1. lia.
  - change (2 ^ Z.of_nat 16) with 65536. rewrite (Z.div_small n 65536) by lia. rewrite Z.div_0_l by lia. reflexivity.
Qed.
