(** Proofs about DivModel.v, part 2: the delegate and asymmetric algorithms. *)
From Coq Require Import ZArith Bool List Lia ZifyBool.
From Verif Require Import Base BaseLemmas IntProofs IntProofs2 DivModel DivProofs.
Open Scope Z_scope.

(** Sign test of a wrapping difference. *)
Lemma sub_sign m x y : 0 < m -> 0 <= x < 2 ^ m -> 0 <= y < 2 ^ m -> - 2 ^ (m - 1) <= x - y < 2 ^ (m - 1) ->
  (0 <=? norm (SI m) (wrapping_sub (UI m) x y)) = (y <=? x) /\
  (y <= x -> wrapping_sub (UI m) x y = x - y).
Proof.
  intros Hm Hx Hy Hd. pose proof (pow2_S m Hm). unfold wrapping_sub. rewrite norm_u.
  set (s := (x - y) mod 2 ^ m). assert (0 <= s < 2 ^ m) as Hs by (apply Z.mod_pos_bound; lia).
  pose proof (norm_s_lt0 m s Hm Hs) as E.
  destruct (Z.leb_spec y x).
  - assert (s = x - y) by (unfold s; rewrite Z.mod_small; lia). split; lia.
  - assert (s = x - y + 2 ^ m) by (unfold s; symmetry; apply Z.mod_unique with (q := -1); lia). split; lia.
Qed.

Lemma dlg_loop_ok stop n d : 0 < n -> 0 < d ->
  (forall x, 0 <= x < d -> stop x = true) -> (forall x, 0 <= x < 2 ^ (2 * n) -> stop x = false -> d <= x) ->
  forall fuel j duo Q, (Z.to_nat j < fuel)%nat -> 0 <= j < n ->
  d <= duo < 2 * (d * 2 ^ j) -> duo < 2 ^ (2 * n) -> d * 2 ^ j < 2 ^ (2 * n) ->
  - 2 ^ (2 * n - 1) <= duo - d * 2 ^ j < 2 ^ (2 * n - 1) -> 0 <= Q ->
  exists q r k, dlg_loop stop fuel n duo (d * 2 ^ j) (2 ^ j) (Q * 2 ^ (j + 1)) = Ok (Q * 2 ^ (j + 1) + q * 2 ^ k, r) /\
    0 <= k <= j /\ 0 <= q /\ q * 2 ^ k < 2 ^ (j + 1) /\ 0 <= r < d * 2 ^ k /\ duo = q * 2 ^ k * d + r /\ stop r = true.
Proof.
  intros Hn Hd Hst1 Hst2. induction fuel as [|fuel IH]; intros j duo Q Hf Hj Hduo HduoD HvD Hsg HQ; [lia|].
  cbn [dlg_loop].
  assert (0 < 2 ^ j) as HP by (apply pow2_pos; lia).
  assert (2 ^ (j + 1) = 2 * 2 ^ j) as EP1 by (rewrite pow2_add by lia; change (2 ^ 1) with 2; ring).
  destruct (sub_sign (2 * n) duo (d * 2 ^ j)) as [E1 E2]; try lia. rewrite E1.
  assert (Z.lor (Q * 2 ^ (j + 1)) (2 ^ j) = (2 * Q + 1) * 2 ^ j) as EQ.
  { rewrite Z.lor_comm, lor_add_low by lia. rewrite EP1. ring. }
  assert (1 <= j -> Z.shiftr (d * 2 ^ j) 1 = d * 2 ^ (j - 1) /\ Z.shiftr (2 ^ j) 1 = 2 ^ (j - 1)) as Esh.
  { intros Hj1. rewrite !shiftr_div by lia. change (2 ^ 1) with 2. rewrite (pow2_S j) by lia.
    split; [replace (d * (2 * 2 ^ (j - 1))) with (d * 2 ^ (j - 1) * 2) by ring|rewrite Z.mul_comm]; apply Z.div_mul; lia. }
  assert (2 ^ (2 * n) = 2 * 2 ^ (2 * n - 1)) as ED by (apply pow2_S; lia).
  destruct (Z.leb_spec (d * 2 ^ j) duo) as [Hle|Hlt].
  - rewrite E2 by lia. rewrite EQ. destruct (stop (duo - d * 2 ^ j)) eqn:Est.
    + exists 1, (duo - d * 2 ^ j), j. split; [f_equal; f_equal; rewrite EP1; ring|].
      repeat split; try lia.
    + assert (d <= duo - d * 2 ^ j) as Hge by (apply Hst2; auto; lia).
      assert (1 <= j) as Hj1.
      { destruct (Z.eq_dec j 0) as [->|]; [|lia]. change (2 ^ 0) with 1 in *. lia. }
      destruct (Esh Hj1) as [-> ->].
      rewrite (pow2_S j) in * by lia. set (P := 2 ^ (j - 1)) in *.
      destruct (IH (j - 1) (duo - d * (2 * P)) (2 * Q + 1)) as (q & r & k & E & H1 & H2 & H3 & H4 & H5 & H6);
        try (fold P; lia).
      replace (j - 1 + 1) with j in * by lia. rewrite (pow2_S j) in * by lia. fold P in E, H3.
      rewrite E. exists (2 ^ (j - k) + q), r, k.
      assert (2 ^ (j - k) * 2 ^ k = 2 * P) as E3.
      { rewrite <- pow2_add by lia. replace (j - k + k) with j by lia. apply pow2_S. lia. }
      assert (0 < 2 ^ (j - k)) by (apply pow2_pos; lia).
      split; [f_equal; f_equal; nia|]. repeat split; lia.
  - assert (1 <= j) as Hj1.
    { destruct (Z.eq_dec j 0) as [->|]; [|lia]. change (2 ^ 0) with 1 in *. lia. }
    destruct (Esh Hj1) as [-> ->].
    rewrite (pow2_S j) in * by lia. set (P := 2 ^ (j - 1)) in *.
    destruct (IH (j - 1) duo (2 * Q)) as (q & r & k & E & H1 & H2 & H3 & H4 & H5 & H6); try (fold P; lia).
    replace (j - 1 + 1) with j in * by lia. rewrite (pow2_S j) in * by lia. fold P in E, H3.
    replace (Q * 2 ^ (j + 1)) with (2 * Q * (2 * P)) by (rewrite EP1; ring).
    rewrite E. exists q, r, k. split; [reflexivity|]. repeat split; try lia.
Qed.

Definition norm_shift_spec (n : Z) (ns : Z -> Z -> res Z) : Prop :=
  forall a b, 0 < b <= a -> a < 2 ^ n -> exists s, ns a b = Ok s /\ 0 <= s < n /\
    a < b * 2 ^ (s + 1) /\ (b + 1) * 2 ^ s <= 2 ^ n /\ (b + 1) * 2 ^ s <= 2 * a.

Section Wide.
Variable n_h : Z.
Hypothesis Hnh : 1 <= n_h <= 64.
Variable hd : Z -> Z -> res (Z * Z).
Notation n := (n_h * 2).
Hypothesis Hhd : correct_div n hd.

(** Short division by a divisor of [n_h] bits (three half divisions). *)
Lemma short_div duo div_0 : 0 <= duo < 2 ^ (2 * n) -> 0 < div_0 < 2 ^ n_h ->
  (let* st := hd ((duo / 2 ^ n) mod 2 ^ n) div_0 in
   let '(quo_hi, rem_3) := st in
   let* a := cshr (UI (2 * n)) duo n_h in
   let* b := cshl (UI n) rem_3 n_h in
   let duo_mid := Z.lor (norm (UI n_h) a) b in
   let* st := hd duo_mid div_0 in
   let '(quo_1, rem_2) := st in
   let* b := cshl (UI n) rem_2 n_h in
   let duo_lo := Z.lor (norm (UI n_h) duo) b in
   let* st := hd duo_lo div_0 in
   let '(quo_0, rem_1) := st in
   let* q1 := cshl (UI (2 * n)) quo_1 n_h in
   let* qh := cshl (UI (2 * n)) quo_hi n in
   Ok (Z.lor (Z.lor quo_0 q1) qh, rem_1)) = Ok (duo / div_0, duo mod div_0).
Proof using Hnh Hhd.
  intros Hduo Hd.
  set (H := 2 ^ n_h) in *. assert (0 < H) as HH by (apply pow2_pos; lia).
  assert (2 ^ n = H * H) as En by (replace n with (2 * n_h) by lia; apply pow2_dbl; lia).
  assert (2 ^ (2 * n) = H * H * (H * H)) as E2n by (rewrite pow2_dbl by lia; rewrite En; ring).
  rewrite En, E2n in *. set (A := duo / (H * H)).
  assert (0 <= A < H * H) as HA.
  { unfold A. split; [apply Z.div_pos; nia|]. apply Z.div_lt_upper_bound; nia. }
  rewrite Z.mod_small by lia.
  rewrite Hhd by (rewrite ?En; nia). cbn [bind].
  rewrite cshr_ok by (rewrite bits_u; lia). cbn [bind].
  pose proof (Z.mod_pos_bound A div_0 ltac:(lia)) as HR3. set (R3 := A mod div_0) in *.
  rewrite cshl_u_exact by (fold H; try rewrite En; nia). cbn [bind]. fold H.
  rewrite !norm_u. fold H.
  set (B := (duo / H) mod H). assert (0 <= B < H) as HB by (apply Z.mod_pos_bound; lia).
  set (C := duo mod H). assert (0 <= C < H) as HC by (apply Z.mod_pos_bound; lia).
  assert (duo = A * (H * H) + B * H + C) as Eduo.
  { unfold A, B, C. rewrite <- Z.div_div by lia.
    pose proof (Z.div_mod duo H ltac:(lia)). pose proof (Z.div_mod (duo / H) H ltac:(lia)). nia. }
  unfold H at 1. rewrite lor_add_low by (fold H; lia). fold H.
  rewrite Hhd by (rewrite ?En; nia). cbn [bind].
  set (M := B + R3 * H) in *.
  pose proof (Z.mod_pos_bound M div_0 ltac:(lia)) as HR2. set (R2 := M mod div_0) in *.
  rewrite cshl_u_exact by (fold H; try rewrite En; nia). cbn [bind]. fold H.
  unfold H at 1. rewrite lor_add_low by (fold H; lia). fold H.
  rewrite Hhd by (rewrite ?En; nia). cbn [bind].
  set (L := C + R2 * H) in *.
  pose proof (Z.mod_pos_bound L div_0 ltac:(lia)) as HR1. set (R1 := L mod div_0) in *.
  pose proof (Z.div_mod A div_0 ltac:(lia)) as EA. fold R3 in EA. set (QA := A / div_0) in *.
  pose proof (Z.div_mod M div_0 ltac:(lia)) as EM. fold R2 in EM. set (QM := M / div_0) in *.
  pose proof (Z.div_mod L div_0 ltac:(lia)) as EL. fold R1 in EL. set (QL := L / div_0) in *.
  assert (0 <= QA < H * H) by (split; [apply Z.div_pos; lia|apply Z.div_lt_upper_bound; nia]).
  assert (0 <= QM < H) by (split; [apply Z.div_pos; unfold M; nia|apply Z.div_lt_upper_bound; unfold M; nia]).
  assert (0 <= QL < H) by (split; [apply Z.div_pos; unfold L; nia|apply Z.div_lt_upper_bound; unfold L; nia]).
  rewrite cshl_u_exact by (fold H; try rewrite E2n; nia). cbn [bind]. fold H.
  rewrite cshl_u_exact by (try rewrite E2n; try rewrite En; nia). cbn [bind].
  change (QM * H) with (QM * 2 ^ n_h). rewrite (lor_add_low QL QM n_h) by (fold H; lia). fold H.
  rewrite lor_add_low by (try rewrite En; nia). rewrite En.
  f_equal. apply divmod_ok; [lia|].
  assert (B = div_0 * QM + R2 - R3 * H) as EB by (unfold M in EM; lia).
  assert (C = div_0 * QL + R1 - R2 * H) as EC by (unfold L in EL; lia).
  rewrite Eduo, EB, EC. rewrite EA at 1. ring.
Qed.


Definition hiz (d : Z) : bool := norm (UI n) (Z.shiftr d n) =? 0.
Lemma hiz_spec N x : 2 ^ n = N -> 0 <= x < N * N -> hiz x = (x <? N).
Proof using Hnh.
  intros EN Hx. unfold hiz. rewrite shiftr_div, norm_u by lia. rewrite EN.
  assert (0 < N) by (rewrite <- EN; apply pow2_pos; lia).
  assert (0 <= x / N < N).
  { split; [apply Z.div_pos; lia|]. apply Z.div_lt_upper_bound; lia. }
  rewrite Z.mod_small by auto. destruct (Z.ltb_spec x N).
  - rewrite Z.div_small by lia. reflexivity.
  - assert (1 <= x / N) by (apply Z.div_le_lower_bound; lia). lia.
Qed.

(** The loops at delegate.rs:81-96 and 138-156, followed by the final half
    division. *)
Lemma dlg_case N d duo shl : 2 ^ n = N -> 0 < d < N -> 0 <= shl < n -> d <= duo < 2 * (d * 2 ^ shl) ->
  exists q r, dlg_loop hiz (S (Z.to_nat n)) n duo (d * 2 ^ shl) (2 ^ shl) 0 = Ok (q, r) /\
    0 <= r < N /\ 0 <= q /\ q + r / d < 2 * 2 ^ shl /\ 0 <= r / d /\
    Z.lor q (r / d) = q + r / d /\ duo / d = q + r / d /\ duo mod d = r mod d.
Proof using Hnh.
  intros EN Hd Hs Hduo.
  assert (2 ^ n = 2 * 2 ^ (n - 1)) as ESn by (apply pow2_S; lia). rewrite EN in ESn.
  assert (2 ^ (2 * n) = N * N) as E2n by (rewrite <- EN; apply pow2_dbl; lia).
  assert (2 ^ (2 * n - 1) = N * 2 ^ (n - 1)) as ES1.
  { rewrite <- EN, <- pow2_add by lia. f_equal. lia. }
  assert (2 ^ shl <= 2 ^ (n - 1)) as Hp by (apply pow2_le; lia).
  assert (0 < 2 ^ shl) as Hp0 by (apply pow2_pos; lia).
  set (M := 2 ^ (n - 1)) in *. set (P := 2 ^ shl) in *.
  assert (d * P <= d * M) as H1 by (apply Z.mul_le_mono_nonneg_l; lia).
  assert (d * M < N * M) as H2 by (apply Z.mul_lt_mono_pos_r; lia).
  assert (N * N = 2 * (N * M)) as H3 by (rewrite ESn at 2; ring).
  destruct (dlg_loop_ok hiz n d) with (fuel := S (Z.to_nat n)) (j := shl) (duo := duo) (Q := 0)
    as (q & r & k & E & K1 & K2 & K3 & K4 & K5 & K6); fold P; try lia.
  { intros x Hx. rewrite (hiz_spec N) by lia. lia. }
  { intros x Hx Hf. rewrite (hiz_spec N) in Hf by lia. lia. }
  rewrite Z.mul_0_l, Z.add_0_l in E. fold P in E.
  exists (q * 2 ^ k), r. split; [exact E|].
  assert (0 < 2 ^ k) by (apply pow2_pos; lia).
  assert (0 <= q * 2 ^ k) by (apply Z.mul_nonneg_nonneg; lia).
  assert (0 <= q * 2 ^ k * d) by (apply Z.mul_nonneg_nonneg; lia).
  rewrite (hiz_spec N) in K6 by lia.
  pose proof (Z.div_mod r d ltac:(lia)) as Er. pose proof (Z.mod_pos_bound r d ltac:(lia)).
  assert (0 <= r / d < 2 ^ k).
  { split; [apply Z.div_pos; lia|apply Z.div_lt_upper_bound; lia]. }
  destruct (div_mod_unique duo d (q * 2 ^ k + r / d) (r mod d)) as [E1 E2]; [lia| |].
  { rewrite K5. rewrite Er at 1. ring. }
  rewrite E1, E2. repeat split; try lia.
  - rewrite pow2_add in K3 by lia. fold P in K3. change (2 ^ 1) with 2 in K3.
    assert (exists m, 2 * P = m * 2 ^ k) as (m & Em).
    { exists (2 * 2 ^ (shl - k)). unfold P. rewrite <- Z.mul_assoc, <- pow2_add by lia. do 2 f_equal. lia. }
    assert (q < m) by (apply (Z.mul_lt_mono_pos_r (2 ^ k)); lia). assert ((q + 1) * 2 ^ k <= m * 2 ^ k) by (apply Z.mul_le_mono_nonneg_r; lia). lia.
  - rewrite Z.lor_comm, lor_add_low by lia. ring.
Qed.

(** delegate.rs:159-182: both top halves non-zero. *)
Lemma dlg_case_hi N dh dl vh vl ns : 2 ^ n = N -> norm_shift_spec n ns ->
  0 <= dh < N -> 0 <= dl < N -> 0 < vh < N -> 0 <= vl < N -> vh * N + vl <= dh * N + dl ->
  (let* shl := ns dh vh in
   let* div0 := cshl (UI (2 * n)) (vh * N + vl) shl in
   let* pow_lo := cshl (UI n) 1 shl in
   dlg_loop (fun d => d <? vh * N + vl) (S (Z.to_nat n)) n (dh * N + dl) div0 pow_lo 0)
  = Ok ((dh * N + dl) / (vh * N + vl), (dh * N + dl) mod (vh * N + vl)).
Proof using Hnh.
  intros EN Hns Hdh Hdl Hvh Hvl Hle.
  assert (vh <= dh) as Hh. { destruct (Z_le_gt_dec vh dh); [auto|]. assert ((dh + 1) * N <= vh * N) by (apply Z.mul_le_mono_nonneg_r; lia). lia. }
  destruct (Hns dh vh ltac:(lia) ltac:(lia)) as (s & -> & Hs & S1 & S2 & S3). cbn [bind].
  assert (2 ^ n = 2 * 2 ^ (n - 1)) as ESn by (apply pow2_S; lia). rewrite EN in *.
  assert (2 ^ (2 * n) = N * N) as E2n by (rewrite <- EN; apply pow2_dbl; lia).
  assert (2 ^ (2 * n - 1) = N * 2 ^ (n - 1)) as ES1.
  { rewrite <- EN, <- pow2_add by lia. f_equal. lia. }
  assert (2 ^ s <= 2 ^ (n - 1)) as Hp by (apply pow2_le; lia).
  assert (0 < 2 ^ s) as Hp0 by (apply pow2_pos; lia).
  rewrite pow2_add in S1 by lia. change (2 ^ 1) with 2 in S1.
  set (div := vh * N + vl) in *. set (duo := dh * N + dl) in *.
  assert (0 < div). { unfold div. assert (1 * N <= vh * N) by (apply Z.mul_le_mono_nonneg_r; lia). lia. }
  set (M := 2 ^ (n - 1)) in *. set (P := 2 ^ s) in *.
  assert (N * N = 2 * (N * M)) as HNN by (rewrite ESn at 2; ring).
  assert (div * P = vh * P * N + vl * P) as Ediv by (unfold div; ring).
  assert (vl * P < N * P) as H1 by (apply Z.mul_lt_mono_pos_r; lia).
  assert (N * P <= N * M) as H2 by (apply Z.mul_le_mono_nonneg_l; lia).
  assert ((vh + 1) * P * N <= N * N) as H3 by (apply Z.mul_le_mono_nonneg_r; lia).
  assert ((vh + 1) * P * N <= 2 * dh * N) as H4 by (apply Z.mul_le_mono_nonneg_r; lia).
  assert ((dh + 1) * N <= vh * (P * 2) * N) as H5 by (apply Z.mul_le_mono_nonneg_r; lia).
  assert (0 <= vl * P) by (apply Z.mul_nonneg_nonneg; lia).
  assert (dh * N < N * N) by (apply Z.mul_lt_mono_pos_r; lia).
  assert ((dh + 1) * N <= N * N) by (apply Z.mul_le_mono_nonneg_r; lia).
  rewrite cshl_u_exact by lia. cbn [bind].
  rewrite cshl_u_exact by lia. cbn [bind]. rewrite Z.mul_1_l. fold P.
  destruct (dlg_loop_ok (fun d => d <? div) n div) with (fuel := S (Z.to_nat n)) (j := s) (duo := duo) (Q := 0)
    as (q & r & k & E & K1 & K2 & K3 & K4 & K5 & K6); fold P; try lia.
  rewrite Z.mul_0_l in E. fold P in E. rewrite E, Z.add_0_l. f_equal. apply divmod_ok; [lia|]. rewrite K5. ring.
Qed.

Theorem delegate_correct ns : norm_shift_spec n ns -> correct_div (2 * n) (delegate ns hd n_h).
Proof using Hnh Hhd.
  intros Hns duo div Hduo Hdiv. unfold delegate.
  rewrite !cshr_ok by (rewrite bits_u; lia). cbn [bind]. rewrite !norm_u.
  remember (2 ^ n) as N eqn:EN0. assert (2 ^ n = N) as EN by auto. clear EN0.
  assert (0 < N) as HN by (rewrite <- EN; apply pow2_pos; lia).
  assert (2 ^ (2 * n) = N * N) as E2n by (rewrite <- EN; apply pow2_dbl; lia).
  assert (forall x, 0 <= x < N * N -> 0 <= x / N < N) as Hq.
  { intros x Hx. split; [apply Z.div_pos; lia|]. apply Z.div_lt_upper_bound; lia. }
  rewrite E2n in Hduo, Hdiv.
  pose proof (Hq duo Hduo) as Hdh. pose proof (Hq div ltac:(lia)) as Hvh.
  rewrite (Z.mod_small (duo / N)), (Z.mod_small (div / N)) by lia.
  pose proof (Z.div_mod duo N ltac:(lia)) as Eduo. pose proof (Z.mod_pos_bound duo N ltac:(lia)) as Hdl.
  pose proof (Z.div_mod div N ltac:(lia)) as Ediv. pose proof (Z.mod_pos_bound div N ltac:(lia)) as Hvl.
  fold hiz.
  destruct (Z.eqb_spec (div / N) 0) as [Evh|Evh].
  - (* divisor fits in half *)
    assert (div mod N = div) as Edl by lia. rewrite Edl in *. clear Ediv Hvh.
    replace (div =? 0) with false by lia.
    destruct (Z.eqb_spec (duo / N) 0) as [Edh|Edh].
    + rewrite Hhd by lia. replace (duo mod N) with duo by lia. reflexivity.
    + destruct (Z.ltb_spec (duo / N) div) as [Hlt|Hge].
      * (* binary long until the top half is clear *)
        remember (duo / N) as duo_hi eqn:Edhi.
        destruct (Hns div duo_hi ltac:(lia) ltac:(lia)) as (s & -> & Hs & S1 & S2 & S3). cbn [bind].
        assert (2 ^ 32 = 4294967296) as E32 by reflexivity.
        assert (0 < 2 ^ s) as Hps by (apply pow2_pos; lia).
        assert (2 ^ n = 2 * 2 ^ (n - 1)) as ESn by (apply pow2_S; lia). rewrite EN in ESn.
        assert (exists shl, (if s =? 0 then csub (UI 32) n 1 else csub (UI 32) n s) = Ok shl /\ 0 <= shl < n /\
           duo < 2 * (div * 2 ^ shl)) as (shl & -> & Hshl & Hd2).
        { assert ((duo_hi + 1) * N <= div * N) by (apply Z.mul_le_mono_nonneg_r; lia).
          destruct (Z.eqb_spec s 0) as [Es|Es].
          - rewrite csub_u by lia. exists (n - 1). split; [reflexivity|]. split; [lia|].
            assert (2 * (div * 2 ^ (n - 1)) = div * N) as -> by (rewrite ESn; ring). lia.
          - rewrite csub_u by lia. exists (n - s). split; [reflexivity|]. split; [lia|].
            assert (2 ^ (n - s) * 2 ^ s = N) as Ens by (rewrite <- pow2_add by lia; rewrite <- EN; f_equal; lia).
            assert (0 < 2 ^ (n - s)) by (apply pow2_pos; lia).
            assert ((duo_hi + 1) * N = (duo_hi + 1) * 2 ^ s * 2 ^ (n - s)) as E3 by (rewrite <- Ens; ring).
            assert ((duo_hi + 1) * 2 ^ s * 2 ^ (n - s) <= 2 * div * 2 ^ (n - s)) by (apply Z.mul_le_mono_nonneg_r; lia).
            lia. }
        cbn [bind].
        assert (2 ^ shl <= 2 ^ (n - 1)) as Hp1 by (apply pow2_le; lia).
        assert (0 < 2 ^ shl) by (apply pow2_pos; lia).
        assert (div * 2 ^ shl < N * 2 ^ shl) by (apply Z.mul_lt_mono_pos_r; lia).
        assert (N * 2 ^ shl <= N * N) by (apply Z.mul_le_mono_nonneg_l; lia).
        rewrite cshl_u_exact by lia. cbn [bind].
        rewrite cshl_u_exact by lia. cbn [bind]. rewrite Z.mul_1_l.
        assert (N * 1 <= N * duo_hi) by (apply Z.mul_le_mono_nonneg_l; lia).
        destruct (dlg_case N div duo shl EN) as (q & r & -> & K1 & K2 & K3 & K4 & K5 & K6 & K7); try lia. cbn [bind].
        rewrite norm_u, EN, (Z.mod_small r) by lia.
        rewrite Hhd by lia. cbn [bind fst snd]. rewrite K5, K6, K7. reflexivity.
      * destruct (Z.eqb_spec (duo / N) div) as [Eeq|Eeq].
        -- rewrite Hhd by lia. cbn [bind].
           assert (1 * N <= N * N) by (apply Z.mul_le_mono_nonneg_r; lia).
           assert (N <> 1) by (intros ->; lia).
           rewrite cshl_u_exact by nia. cbn [bind fst snd]. rewrite EN.
           remember (duo mod N) as dl. remember (duo / N) as dh.
           pose proof (Z.div_mod dl div ltac:(lia)). pose proof (Z.mod_pos_bound dl div ltac:(lia)).
           assert (0 <= dl / div < N).
           { split; [apply Z.div_pos; lia|apply Z.div_lt_upper_bound; nia]. }
           rewrite <- EN at 1. rewrite Z.lor_comm, lor_add_low by lia. rewrite EN.
           f_equal. apply divmod_ok; [lia|]. rewrite Eduo, Eeq. lia.
        -- cbn [bind].
           destruct (Z.eqb_spec (div / 2 ^ n_h) 0) as [Etop|Etop].
           ++ assert (0 < 2 ^ n_h) by (apply pow2_pos; lia).
              assert (div < 2 ^ n_h) by (apply Z.div_small_iff in Etop; lia).
              rewrite (Z.mod_small div) by lia.
              pose proof (short_div duo div ltac:(rewrite E2n; lia) ltac:(lia)) as HS.
              rewrite EN in HS. rewrite (Z.mod_small (duo / N)) in HS by lia.
              rewrite cshr_ok in HS by (rewrite bits_u; lia). cbn [bind] in HS. cbv zeta in HS. exact HS.
           ++ clear Etop. remember (duo mod N) as dl. remember (duo / N) as dh.
              rewrite Hhd by lia. cbn [bind fst snd].
              pose proof (Z.div_mod dh div ltac:(lia)) as Eh. pose proof (Z.mod_pos_bound dh div ltac:(lia)) as Hr.
              assert (0 <= dh / div < N) as Hqh by (split; [apply Z.div_pos; lia|apply Z.div_lt_upper_bound; nia]).
              remember (dh / div) as qh. remember (dh mod div) as rh.
              assert (rh * N < N * N) by (apply Z.mul_lt_mono_pos_r; lia).
              assert (qh * N < N * N) by (apply Z.mul_lt_mono_pos_r; lia).
              rewrite (cshl_u_exact (2 * n) rh) by lia. cbn [bind].
              rewrite (cshl_u_exact (2 * n) qh) by lia. cbn [bind].
              rewrite lor_add_low by lia. rewrite EN.
              remember (dl + rh * N) as d2 eqn:Ed2.
              assert (duo = div * (qh * N) + d2) as Ed by (rewrite Eduo, Eh, Ed2; ring).
              assert (0 <= rh * N) by (apply Z.mul_nonneg_nonneg; lia).
              assert ((rh + 1) * N <= div * N) by (apply Z.mul_le_mono_nonneg_r; lia).
              destruct (Z.ltb_spec d2 div).
              { f_equal. apply divmod_ok; lia. }
              assert (2 ^ n = 2 * 2 ^ (n - 1)) as ESn by (apply pow2_S; lia). rewrite EN in ESn.
              assert (0 < 2 ^ (n - 1)) by (apply pow2_pos; lia).
              assert (div * 2 ^ (n - 1) < N * 2 ^ (n - 1)) by (apply Z.mul_lt_mono_pos_r; lia).
              assert (N * N = 2 * (N * 2 ^ (n - 1))) by (rewrite ESn at 2; ring).
              assert (div * N = 2 * (div * 2 ^ (n - 1))) by (rewrite ESn; ring).
              rewrite (cshl_u_exact (2 * n) div) by lia. cbn [bind].
              rewrite cshl_u_exact by lia. cbn [bind]. rewrite Z.mul_1_l.
              destruct (dlg_case N div d2 (n - 1) EN) as (q & r & -> & K1 & K2 & K3 & K4 & K5 & K6 & K7); try lia. cbn [bind].
              rewrite norm_u, EN, (Z.mod_small r) by lia.
              rewrite Hhd by lia. cbn [bind fst snd].
              rewrite (Z.lor_comm (r / div)), K5. rewrite <- EN, lor_add_low by lia. rewrite EN.
              f_equal. rewrite <- K6, <- K7.
              pose proof (Z.div_mod d2 div ltac:(lia)). pose proof (Z.mod_pos_bound d2 div ltac:(lia)).
              apply divmod_ok; [lia|]. rewrite Ed. lia.
  - (* divisor has a non-zero top half *)
    remember (duo mod N) as dl. remember (duo / N) as dh. remember (div mod N) as vl. remember (div / N) as vh.
    assert (N * 1 <= N * vh) by (apply Z.mul_le_mono_nonneg_l; lia).
    assert (forall R : res (Z * Z), R = Ok (duo / div, duo mod div) ->
      (if vl =? 0 then if dh =? 0 then Ok (0, duo) else R else if dh =? 0 then Ok (0, duo) else R) =
       Ok (duo / div, duo mod div)) as Hsp.
    { intros R ->. destruct (Z.eqb_spec dh 0) as [Edh|Edh].
      - rewrite (Z.div_small duo div), (Z.mod_small duo div) by lia. destruct (vl =? 0); reflexivity.
      - destruct (vl =? 0); reflexivity. }
    apply Hsp. destruct (Z.ltb_spec duo div).
    { rewrite (Z.div_small duo div), (Z.mod_small duo div) by lia. reflexivity. }
    pose proof (dlg_case_hi N dh dl vh vl ns EN Hns ltac:(lia) ltac:(lia) ltac:(lia) ltac:(lia) ltac:(lia)) as HC.
    replace (vh * N + vl) with div in HC by lia. replace (dh * N + dl) with duo in HC by lia. exact HC.
Qed.
End Wide.
