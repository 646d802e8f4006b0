(** The two digit loops of parse_hex. *)
From Coq Require Import ZArith Bool List Lia Psatz.
From Verif Require Import Base BaseLemmas HexModel HexSpec.
Open Scope Z_scope.
Import ListNotations.

(** * Digits *)
Lemma hex_digit_some c d : hex_digit c = Some d <-> hexd c d.
Proof.
  unfold hex_digit, hexd.
  destruct (Z.leb_spec 48 c), (Z.leb_spec c 57), (Z.leb_spec 97 c), (Z.leb_spec c 102), (Z.leb_spec 65 c), (Z.leb_spec c 70); cbn [andb];
    try lia; (split; [intros E; try discriminate E; injection E as <-; lia|intros; try (f_equal; lia)]); exfalso; lia.
Qed.
Lemma dec_digit_some c d : dec_digit c = Some d <-> decd c d.
Proof.
  unfold dec_digit, decd.
  destruct (Z.leb_spec 48 c), (Z.leb_spec c 57); cbn [andb];
    (split; [intros E; try discriminate E; injection E as <-; lia|intros; try (f_equal; lia)]); exfalso; lia.
Qed.
Lemma hexd_facts c d : hexd c d -> 0 <= d < 16 /\ c <> 46 /\ c <> 112 /\ c <> 80.
Proof. unfold hexd. lia. Qed.
Lemma decd_facts c d : decd c d -> 0 <= d < 10 /\ c <> 45 /\ c <> 43.
Proof. unfold decd. lia. Qed.
Lemma num_app base ds d : num base (ds ++ [d]) = num base ds * base + d.
Proof. unfold num. rewrite fold_left_app. reflexivity. Qed.
Lemma num_fold base ds : forall n, fold_left (fun n d => n * base + d) ds n = n * base ^ Z.of_nat (length ds) + num base ds.
Proof.
  induction ds as [|d ds IH]; intros n.
  - cbn. lia.
  - unfold num. cbn [fold_left length]. rewrite (IH (n * base + d)), (IH (0 * base + d)).
    rewrite Nat2Z.inj_succ, Z.pow_succ_r by lia. ring.
Qed.
Lemma num_cons base d ds : num base (d :: ds) = d * base ^ Z.of_nat (length ds) + num base ds.
Proof. unfold num at 1. cbn [fold_left]. rewrite num_fold. ring. Qed.

Lemma Forall2_length {A B} (P : A -> B -> Prop) l l' : Forall2 P l l' -> length l = length l'.
Proof. induction 1; cbn [length]; congruence. Qed.

(** * The first loop *)
(** The state after the digits of [N], [k] of them after the point, [t] in all. *)
Definition st_ok (N k t sig exp : Z) (inex : bool) : Prop :=
  exists d, 0 <= d /\ 0 <= sig < 2 ^ 128 /\ sig * 16 ^ d <= N < (sig + 1) * 16 ^ d /\
    inex = negb (N =? sig * 16 ^ d) /\ exp = 4 * d - 4 * k /\ (d = 0 \/ 2 ^ 124 <= sig) /\ d <= t.

Definition after (seen : bool) (k : Z) (n : nat) : Z := if seen then k + Z.of_nat n else k.

Lemma step_ok N k t sig exp inex dg (seen : bool) : st_ok N k t sig exp inex -> 0 <= N -> 0 <= dg < 16 ->
  0 <= k <= t -> t < 2 ^ 26 ->
  exists sig' exp' inex',
    (let* (s, e, i) :=
       (if Z.shiftr sig 124 =? 0 then
          let* s := cshl (UI 128) sig 4 in Ok (Z.lor s dg, exp, inex)
        else
          let* e := cadd (SI 32) exp 4 in Ok (sig, e, inex || negb (dg =? 0))) in
     let* e := (if seen then csub (SI 32) e 4 else Ok e) in Ok (s, e, i)) = Ok (sig', exp', inex') /\
    st_ok (N * 16 + dg) (if seen then k + 1 else k) (t + 1) sig' exp' inex'.
Proof.
  intros (d & Hd & Hs & HN & Hi & He & Hb & Ht) HN0 Hdg Hk Htb.
  rewrite shiftr_div by lia.
  assert (-2 ^ 31 <= exp - 8 /\ exp + 8 < 2 ^ 31) as EB by (change (2 ^ 31) with (32 * 2 ^ 26); lia).
  assert (forall x, - 2 ^ 31 <= x < 2 ^ 31 -> fits (SI 32) x) as CF by (intros; apply fits_s; assumption).
  destruct (Z.eqb_spec (sig / 2 ^ 124) 0) as [S0|S0].
  - assert (sig < 2 ^ 124).
    { apply Z.div_small_iff in S0; [|lia]. lia. }
    assert (d = 0) as -> by (destruct Hb; lia). change (16 ^ 0) with 1 in *.
    rewrite cshl_u_exact; [|lia|lia|change (2 ^ 128) with (2 ^ 124 * 2 ^ 4); lia]. cbn [bind].
    rewrite Z.lor_comm, lor_add_low by (change (2 ^ 4) with 16; lia). change (2 ^ 4) with 16.
    exists (dg + sig * 16), (if seen then exp - 4 else exp), inex. split.
    + destruct seen; [unfold csub; rewrite chk_ok by (apply CF; lia)|]; reflexivity.
    + exists 0. change (16 ^ 0) with 1. change (2 ^ 128) with (16 * 2 ^ 124).
      split; [lia|]. split; [lia|]. split; [lia|]. split.
      { rewrite Hi. f_equal. destruct (Z.eqb_spec N (sig * 1)), (Z.eqb_spec (N * 16 + dg) ((dg + sig * 16) * 1)); lia. }
      split; [destruct seen; lia|]. lia.
  - assert (2 ^ 124 <= sig).
    { destruct (Z_lt_ge_dec sig (2 ^ 124)); [|lia]. exfalso. apply S0. apply Z.div_small. lia. }
    unfold cadd. rewrite chk_ok by (apply CF; lia). cbn [bind].
    exists sig, (if seen then exp + 4 - 4 else exp + 4), (inex || negb (dg =? 0)). split.
    + destruct seen; [unfold csub; rewrite chk_ok by (apply CF; lia)|]; reflexivity.
    + exists (d + 1). rewrite Z.pow_add_r by lia. change (16 ^ 1) with 16.
      assert (0 < 16 ^ d) by (apply Z.pow_pos_nonneg; lia). set (p := 16 ^ d) in *. clearbody p.
      split; [lia|]. split; [lia|]. split; [nia|]. split.
      { rewrite Hi. destruct (Z.eqb_spec N (sig * p)), (Z.eqb_spec dg 0), (Z.eqb_spec (N * 16 + dg) (sig * (p * 16))); cbn [negb orb]; nia || reflexivity. }
      split; [destruct seen; lia|]. lia.
Qed.

Definition step (sig exp : Z) (inex seen : bool) (dg : Z) : res (Z * Z * bool) :=
  let* (s, e, i) :=
    (if Z.shiftr sig 124 =? 0 then
       let* s := cshl (UI 128) sig 4 in Ok (Z.lor s dg, exp, inex)
     else
       let* e := cadd (SI 32) exp 4 in Ok (sig, e, inex || negb (dg =? 0))) in
  let* e := (if seen then csub (SI 32) e 4 else Ok e) in Ok (s, e, i).
Lemma hex_digits_digit c rest sig exp seen some inex dg : hexd c dg ->
  hex_digits (c :: rest) sig exp seen some inex =
  let* (s, e, i) := step sig exp inex seen dg in hex_digits rest s e seen true i.
Proof.
  intros H. pose proof (hexd_facts c dg H). apply hex_digit_some in H. cbn [hex_digits]. rewrite H.
  destruct (Z.eqb_spec c 46), (Z.eqb_spec c 112), (Z.eqb_spec c 80); try lia. cbn [orb]. unfold step.
  destruct (Z.shiftr sig 124 =? 0).
  - destruct (cshl (UI 128) sig 4); cbn [bind]; [|reflexivity]. destruct seen; cbn [bind]; [|reflexivity]. destruct (csub (SI 32) exp 4); reflexivity.
  - destruct (cadd (SI 32) exp 4) as [e|]; cbn [bind]; [|reflexivity]. destruct seen; cbn [bind]; [|reflexivity]. destruct (csub (SI 32) e 4); reflexivity.
Qed.

Definition nonempty {A} (l : list A) : bool := match l with [] => false | _ => true end.

Lemma digits_run ip ds : Forall2 hexd ip ds -> forall N k t sig exp inex seen some rest,
  st_ok N k t sig exp inex -> 0 <= N -> 0 <= k <= t -> t + Z.of_nat (length ip) < 2 ^ 26 ->
  exists sig' exp' inex',
    hex_digits (ip ++ rest) sig exp seen some inex = hex_digits rest sig' exp' seen (some || nonempty ip) inex' /\
    st_ok (N * 16 ^ Z.of_nat (length ip) + num 16 ds) (after seen k (length ip)) (t + Z.of_nat (length ip)) sig' exp' inex'.
Proof.
  induction 1 as [|c dg ip ds Hc HF IH]; intros N k t sig exp inex seen some rest St HN Hk Ht.
  - exists sig, exp, inex. cbn [length app nonempty Z.of_nat]. rewrite orb_false_r, Z.pow_0_r, Z.add_0_r, Z.mul_1_r.
    split; [reflexivity|]. unfold after. cbn [Z.of_nat]. rewrite Z.add_0_r. change (num 16 []) with 0. rewrite Z.add_0_r. destruct seen; exact St.
  - cbn [length] in *. rewrite Nat2Z.inj_succ in *. pose proof (hexd_facts c dg Hc) as (Hdg & _).
    destruct (step_ok N k t sig exp inex dg seen St HN Hdg Hk ltac:(lia)) as (s1 & e1 & i1 & E1 & St1).
    fold (step sig exp inex seen dg) in E1.
    destruct (IH (N * 16 + dg) (if seen then k + 1 else k) (t + 1) s1 e1 i1 seen true rest St1 ltac:(lia) ltac:(destruct seen; lia) ltac:(lia))
      as (s2 & e2 & i2 & E2 & St2).
    exists s2, e2, i2. split.
    + cbn [app]. rewrite (hex_digits_digit c _ _ _ _ _ _ dg Hc), E1. cbn [bind]. rewrite E2. cbn [nonempty orb]. rewrite orb_true_r. reflexivity.
    + rewrite num_cons, Z.pow_succ_r by lia. rewrite (Forall2_length _ _ _ HF) in *.
      replace (N * (16 * 16 ^ Z.of_nat (length ds)) + (dg * 16 ^ Z.of_nat (length ds) + num 16 ds))
        with ((N * 16 + dg) * 16 ^ Z.of_nat (length ds) + num 16 ds) by ring.
      replace (after seen k (S (length ds))) with (after seen (if seen then k + 1 else k) (length ds)).
      2:{ unfold after. destruct seen; lia. }
      replace (t + Z.succ (Z.of_nat (length ds))) with (t + 1 + Z.of_nat (length ds)) by lia. exact St2.
Qed.

Lemma letter_p c : (c =? 112) || (c =? 80) = true <-> letter 80 c.
Proof. unfold letter. destruct (Z.eqb_spec c 112), (Z.eqb_spec c 80); cbn [orb]; intuition (try discriminate; lia). Qed.

(** A well-formed mantissa is read completely. *)
Lemma hex_digits_complete ip point fp ds p rest :
  Forall2 hexd (ip ++ fp) ds -> (point = [46] \/ point = [] /\ fp = []) -> letter 80 p ->
  Z.of_nat (length (ip ++ fp)) < 2 ^ 26 ->
  exists sig exp inex,
    hex_digits (ip ++ point ++ fp ++ p :: rest) 0 0 false false false =
      Ok (inr (sig, exp, nonempty (ip ++ fp), inex, rest)) /\
    st_ok (num 16 ds) (Z.of_nat (length fp)) (Z.of_nat (length (ip ++ fp))) sig exp inex.
Proof.
  intros HF Hpt Hp Hlen. apply Forall2_app_inv_l in HF as (d1 & d2 & F1 & F2 & ->). rewrite app_length, Nat2Z.inj_add in *.
  assert (st_ok 0 0 0 0 0 false) as St0 by (exists 0; cbn; lia).
  destruct (digits_run ip d1 F1 0 0 0 0 0 false false false (point ++ fp ++ p :: rest) St0 ltac:(lia) ltac:(lia) ltac:(lia)) as (s1 & e1 & i1 & -> & St1).
  cbn [after orb] in St1 |- *.
  replace (0 * 16 ^ Z.of_nat (length ip) + num 16 d1) with (num 16 d1) in St1 by ring. rewrite Z.add_0_l in St1.
  assert (forall s e sn sm i, hex_digits (p :: rest) s e sn sm i = Ok (inr (s, e, sm, i, rest))) as HP.
  { intros. cbn [hex_digits]. apply letter_p in Hp. rewrite Hp. destruct (Z.eqb_spec p 46); [|reflexivity].
    exfalso. subst p. discriminate Hp. }
  assert (0 <= num 16 d1) as N1.
  { clear - F1. induction F1 as [|c d l l' Hc HF IH]; [cbn; lia|]. rewrite num_cons. pose proof (hexd_facts c d Hc).
    assert (0 < 16 ^ Z.of_nat (length l')) by (apply Z.pow_pos_nonneg; lia). nia. }
  assert (num 16 (d1 ++ d2) = num 16 d1 * 16 ^ Z.of_nat (length fp) + num 16 d2) as EN.
  { unfold num at 1. rewrite fold_left_app, num_fold. rewrite (Forall2_length _ _ _ F2). reflexivity. }
  destruct Hpt as [->|[-> ->]].
  - cbn [app hex_digits Z.eqb Pos.eqb].
    destruct (digits_run fp d2 F2 (num 16 d1) 0 (Z.of_nat (length ip)) s1 e1 i1 true (nonempty ip) (p :: rest) St1 N1 ltac:(lia) ltac:(lia)) as (s2 & e2 & i2 & -> & St2).
    rewrite HP. exists s2, e2, i2. split.
    + do 5 f_equal. destruct ip; reflexivity.
    + cbn [after] in St2. rewrite Z.add_0_l in St2. rewrite EN. exact St2.
  - inversion F2; subst. cbn [app]. rewrite HP. rewrite !app_nil_r. exists s1, e1, i1. split; [reflexivity|].
    cbn [length]. rewrite Z.add_0_r. exact St1.
Qed.

(** Only well-formed mantissas are accepted. *)
Lemma hex_digits_sound b : forall sig exp seen some inex sig' exp' some' inex' rest,
  hex_digits b sig exp seen some inex = Ok (inr (sig', exp', some', inex', rest)) ->
  exists ip point fp ds tl, b = ip ++ point ++ fp ++ tl /\ Forall2 hexd (ip ++ fp) ds /\
    (if seen then point = [] /\ ip = [] else point = [46] \/ point = [] /\ fp = []) /\
    (tl = [] /\ rest = [] \/ exists p, letter 80 p /\ tl = p :: rest) /\ some' = some || nonempty ds.
Proof.
  induction b as [|c b IH]; intros sig exp seen some inex sig' exp' some' inex' rest H.
  - cbn [hex_digits] in H. injection H as -> -> -> -> <-. exists [], [], [], [], []. cbn [app]. rewrite orb_false_r.
    repeat split; auto. destruct seen; auto.
  - destruct (Z.eq_dec c 46) as [->|N46].
    { cbn [hex_digits Z.eqb Pos.eqb] in H. destruct seen; [discriminate|].
      destruct (IH _ _ _ _ _ _ _ _ _ _ H) as (ip & point & fp & ds & tl & -> & HF & [-> ->] & Ht & Hs).
      exists [], [46], fp, ds, tl. cbn [app] in *. auto. }
    destruct ((c =? 112) || (c =? 80)) eqn:EP.
    { cbn [hex_digits] in H. rewrite EP in H. destruct (Z.eqb_spec c 46); [lia|]. injection H as -> -> -> -> ->.
      exists [], [], [], [], (c :: rest). cbn [app]. rewrite orb_false_r. apply letter_p in EP.
      repeat split; auto. { destruct seen; auto. } right. exists c. auto. }
    destruct (hex_digit c) as [d|] eqn:ED.
    2:{ cbn [hex_digits] in H. rewrite EP, ED in H. destruct (Z.eqb_spec c 46); [lia|discriminate]. }
    apply hex_digit_some in ED. rewrite (hex_digits_digit c _ _ _ _ _ _ d ED) in H.
    destruct (step sig exp inex seen d) as [[[s e] i]|]; cbn [bind] in H; [|discriminate].
    destruct (IH _ _ _ _ _ _ _ _ _ _ H) as (ip & point & fp & ds & tl & -> & HF & Hpt & Ht & Hs).
    assert (some' = some || nonempty (d :: ds)) as Hs' by (rewrite Hs; cbn [nonempty orb]; rewrite orb_true_r; reflexivity).
    destruct seen.
    + destruct Hpt as [-> ->]. exists [], [], (c :: fp), (d :: ds), tl. cbn [app] in *. auto.
    + exists (c :: ip), point, fp, (d :: ds), tl. cbn [app]. auto 7.
Qed.

Lemma hex_digits_no_panic b : forall sig exp seen some inex, 0 <= sig < 2 ^ 128 ->
  - 2 ^ 30 <= exp - 4 * Z.of_nat (length b) -> exp + 4 * Z.of_nat (length b) <= 2 ^ 30 ->
  exists r, hex_digits b sig exp seen some inex = Ok r.
Proof.
  induction b as [|c b IH]; intros sig exp seen some inex Hs H1 H2.
  - cbn [hex_digits]. eauto.
  - cbn [length] in *. rewrite Nat2Z.inj_succ in *.
    cbn [hex_digits]. destruct (c =? 46); [destruct seen; [eauto|apply IH; lia]|].
    destruct ((c =? 112) || (c =? 80)); [eauto|].
    destruct (hex_digit c) as [d|] eqn:ED; [|eauto]. apply hex_digit_some in ED. pose proof (hexd_facts c d ED) as (Hd & _).
    assert (forall x, - 2 ^ 31 <= x < 2 ^ 31 -> fits (SI 32) x) as CF by (intros; apply fits_s; assumption).
    assert (forall s e i, 0 <= s < 2 ^ 128 -> exp <= e <= exp + 4 ->
      exists r, (let* e := (if seen then csub (SI 32) e 4 else Ok e) in hex_digits b s e seen true i) = Ok r) as K.
    { intros s e i Hs' He. destruct seen.
      - unfold csub. rewrite chk_ok by (apply CF; lia). cbn [bind]. apply IH; lia.
      - cbn [bind]. apply IH; lia. }
    rewrite shiftr_div by lia. destruct (Z.eqb_spec (sig / 2 ^ 124) 0) as [S0|S0].
    + apply Z.div_small_iff in S0; [|lia]. rewrite cshl_u_exact; [|lia|lia|change (2 ^ 128) with (2 ^ 124 * 2 ^ 4); lia]. cbn [bind].
      rewrite Z.lor_comm, lor_add_low by (change (2 ^ 4) with 16; lia). apply K; [|lia].
      change (2 ^ 128) with (2 ^ 124 * 16). change (2 ^ 4) with 16. lia.
    + unfold cadd. rewrite chk_ok by (apply CF; lia). cbn [bind]. apply K; lia.
Qed.

(** * The second loop *)
Lemma num_nonneg ed : forall eds, Forall2 decd eds ed -> 0 <= num 10 ed.
Proof.
  intros eds HF. induction HF as [|c d l l' Hc HF IH]; [cbn; lia|]. rewrite num_cons. pose proof (decd_facts c d Hc).
  assert (0 < 10 ^ Z.of_nat (length l')) by (apply Z.pow_pos_nonneg; lia). nia.
Qed.
Lemma dec_digits_run eds ed : Forall2 decd eds ed -> forall P some, 0 <= P ->
  P * 10 ^ Z.of_nat (length ed) + num 10 ed < 2 ^ 32 ->
  dec_digits eds P some = Ok (inr (P * 10 ^ Z.of_nat (length ed) + num 10 ed, some || nonempty ed)).
Proof.
  induction 1 as [|c d eds ed Hc HF IH]; intros P some HP Hb.
  - cbn [dec_digits length Z.of_nat nonempty]. change (num 10 []) with 0. rewrite Z.pow_0_r, orb_false_r, Z.mul_1_r, Z.add_0_r. reflexivity.
  - cbn [dec_digits]. pose proof (decd_facts c d Hc) as (Hd & _). apply dec_digit_some in Hc. rewrite Hc.
    rewrite num_cons in *. cbn [length] in *. rewrite Nat2Z.inj_succ, Z.pow_succ_r in * by lia.
    assert (0 < 10 ^ Z.of_nat (length ed)) by (apply Z.pow_pos_nonneg; lia).
    pose proof (num_nonneg ed eds HF).
    assert (P * 10 + d < 2 ^ 32) by nia.
    change (imax (UI 32)) with (2 ^ 32 - 1). rewrite Z.min_l by lia. rewrite cadd_u by lia. cbn [bind].
    rewrite IH by nia. cbn [nonempty orb]. rewrite orb_true_r. do 3 f_equal. ring.
Qed.
Lemma dec_digits_sound eds : forall P some P' some', dec_digits eds P some = Ok (inr (P', some')) ->
  exists ed, Forall2 decd eds ed /\ some' = some || nonempty ed.
Proof.
  induction eds as [|c eds IH]; intros P some P' some' H; cbn [dec_digits] in H.
  - injection H as -> ->. exists []. rewrite orb_false_r. auto.
  - destruct (dec_digit c) as [d|] eqn:ED; [|discriminate]. apply dec_digit_some in ED.
    destruct (cadd _ _ _); cbn [bind] in H; [|discriminate]. destruct (IH _ _ _ _ H) as (ed & HF & ->).
    exists (d :: ed). split; [auto|]. cbn [nonempty orb]. rewrite orb_true_r. reflexivity.
Qed.
Lemma dec_digits_no_panic eds : forall P some, 0 <= P -> (P + 1) * 10 ^ Z.of_nat (length eds) < 2 ^ 32 ->
  exists r, dec_digits eds P some = Ok r.
Proof.
  induction eds as [|c eds IH]; intros P some HP Hb; cbn [dec_digits]; [eauto|].
  destruct (dec_digit c) as [d|] eqn:ED; [|eauto]. apply dec_digit_some in ED. pose proof (decd_facts c d ED) as (Hd & _).
  cbn [length] in *. rewrite Nat2Z.inj_succ, Z.pow_succ_r in * by lia.
  assert (0 < 10 ^ Z.of_nat (length eds)) by (apply Z.pow_pos_nonneg; lia).
  change (imax (UI 32)) with (2 ^ 32 - 1). rewrite Z.min_l by nia. rewrite cadd_u by nia. cbn [bind]. apply IH; nia.
Qed.

(** * Signs *)
Lemma take_sign_opt sg neg c rest : opt_sign sg neg -> c <> 45 -> c <> 43 -> take_sign (sg ++ c :: rest) = (neg, c :: rest).
Proof.
  unfold opt_sign. intros H N1 N2. destruct neg.
  - rewrite H. reflexivity.
  - destruct H as [-> | ->]; [|reflexivity]. cbn [app take_sign]. destruct (Z.eqb_spec c 45), (Z.eqb_spec c 43); try lia. reflexivity.
Qed.
Lemma take_sign_sound b neg rest : take_sign b = (neg, rest) -> exists sg, opt_sign sg neg /\ b = sg ++ rest.
Proof.
  unfold take_sign, opt_sign. destruct b as [|c b]; intros H; injection H as <- <-.
  - exists []. auto.
  - destruct (Z.eqb_spec c 45) as [->|]; [exists [45]; auto|]. cbn [orb]. destruct (Z.eqb_spec c 43) as [->|]; [exists [43]|exists []]; auto.
Qed.

(** * parse_hex *)
Lemma parse_hex_ok ip point fp ds p es en eds ed :
  Forall2 hexd (ip ++ fp) ds -> ds <> [] -> (point = [46] \/ point = [] /\ fp = []) -> letter 80 p ->
  opt_sign es en -> Forall2 decd eds ed -> ed <> [] ->
  Z.of_nat (length (ip ++ fp)) < 2 ^ 26 -> num 10 ed < 2 ^ 32 ->
  exists sig0 exp0 inex,
    st_ok (num 16 ds) (Z.of_nat (length fp)) (Z.of_nat (length (ip ++ fp))) sig0 exp0 inex /\
    parse_hex (ip ++ point ++ fp ++ p :: es ++ eds) =
    Ok (inr (Z.lor sig0 (b2z inex),
             if en then Z.max (exp0 - num 10 ed) (- 2 ^ 31) else Z.min (exp0 + num 10 ed) (2 ^ 31 - 1))).
Proof.
  intros HF Hds Hpt Hp He HD Hed Hlen HP.
  destruct (hex_digits_complete ip point fp ds p (es ++ eds) HF Hpt Hp Hlen) as (sig & exp & inex & E & St).
  exists sig, exp, inex. split; [exact St|]. unfold parse_hex. rewrite E. cbn [bind].
  assert (nonempty (ip ++ fp) = true) as ->. { inversion HF; subst; [congruence|reflexivity]. }
  cbn [negb]. inversion HD as [|c d eds' ed' Hc HD' E1 E2]; subst; [congruence|].
  rewrite (take_sign_opt es en c eds'); [|assumption|apply (decd_facts c d Hc)..].
  rewrite (dec_digits_run _ _ HD) by lia. rewrite Z.mul_0_l, Z.add_0_l. cbn [bind nonempty orb negb].
  destruct en; reflexivity.
Qed.
Lemma parse_hex_sound b sig exp : parse_hex b = Ok (inr (sig, exp)) ->
  exists ip point fp ds p es en eds ed, b = ip ++ point ++ fp ++ p :: es ++ eds /\
    Forall2 hexd (ip ++ fp) ds /\ ds <> [] /\ (point = [46] \/ point = [] /\ fp = []) /\ letter 80 p /\
    opt_sign es en /\ Forall2 decd eds ed /\ ed <> [].
Proof.
  unfold parse_hex. destruct (hex_digits b 0 0 false false false) as [[e|[[[[s e] sm] i] rest]]|] eqn:E1; cbn [bind]; try discriminate.
  destruct (hex_digits_sound _ _ _ _ _ _ _ _ _ _ _ E1) as (ip & point & fp & ds & tl & -> & HF & Hpt & Ht & Hs).
  destruct sm; cbn [negb]; [|discriminate].
  destruct (take_sign rest) as [ng rest'] eqn:E2. destruct (take_sign_sound _ _ _ E2) as (sg & Hsg & ->).
  destruct (dec_digits rest' 0 false) as [[e'|[P sm]]|] eqn:E3; cbn [bind]; try discriminate.
  destruct (dec_digits_sound _ _ _ _ _ E3) as (ed & HD & ->). destruct ed as [|d ed]; [discriminate|]. intros _.
  destruct Ht as [[_ Hr]|(p & Hp & ->)].
  - exfalso. apply app_eq_nil in Hr as [_ ->]. inversion HD.
  - exists ip, point, fp, ds, p, sg, ng, rest', (d :: ed). split; [reflexivity|]. split; [exact HF|]. split; [destruct ds; [discriminate|congruence]|].
    split; [exact Hpt|]. split; [exact Hp|]. split; [exact Hsg|]. split; [exact HD|congruence].
Qed.
