(** Proofs about the asymmetric and trifecta division algorithms (DivModel.v). *)

From Coq Require Import ZArith Bool List Lia Zquot.
From Verif Require Import Base BaseLemmas IntProofs IntProofs2 DivModel DivProofs DivProofs2.
Open Scope Z_scope.

Lemma est_bound duo div S E L q0 : div = S * E + L -> 0 <= L < E -> 0 < S -> 0 <= duo ->
  q0 = duo / (S * E) -> (q0 - 1) * L <= S * E ->
  0 <= q0 /\ duo < (q0 + 1) * div /\ (0 < q0 -> (q0 - 1) * div <= duo).
Proof.
  intros Ed HL HS Hduo Eq HB.
  assert (0 < S * E) as HSE by (apply Z.mul_pos_pos; lia).
  pose proof (Z.div_mod duo (S * E) ltac:(lia)) as Edm. rewrite <- Eq in Edm.
  pose proof (Z.mod_pos_bound duo (S * E) HSE).
  assert (0 <= q0) by (rewrite Eq; apply Z.div_pos; lia).
  split; [auto|]. split.
  - assert (0 <= q0 * L) by (apply Z.mul_nonneg_nonneg; lia).
    replace ((q0 + 1) * div) with (S * E * q0 + S * E + q0 * L + L) by (rewrite Ed; ring). lia.
  - intros Hq. replace ((q0 - 1) * div) with (S * E * q0 - S * E + (q0 - 1) * L) by (rewrite Ed; ring). lia.
Qed.

Section Wide.
Variable n_h : Z.
Hypothesis Hnh : 4 <= n_h <= 64.
Notation n := (n_h * 2).
Variable hd : Z -> Z -> res (Z * Z).
Hypothesis Hhd : correct_div n hd.

Lemma p32 : 2 ^ 32 = 4294967296. Proof. reflexivity. Qed.

Lemma asym_div_ok a b : 0 < b -> 0 <= a < 2 ^ n * b -> asym_div_rem n a b = Ok (a / b, a mod b).
Proof.
  intros Hb Ha. unfold asym_div_rem. replace (b =? 0) with false by lia.
  assert (a / b < 2 ^ n) by (apply Z.div_lt_upper_bound; lia).
  replace (2 ^ n <=? a / b) with false by lia. reflexivity.
Qed.

Theorem asymmetric_correct : correct_div (2 * n) (asymmetric hd (asym_div_rem n) n_h).
Proof using Hnh Hhd.
  intros duo div Hduo Hdiv. unfold asymmetric. pose proof p32 as P32.
  rewrite !cshr_ok by (rewrite bits_u; lia). cbn [bind]. rewrite !norm_u.
  remember (2 ^ n) as N eqn:EN0. assert (2 ^ n = N) as EN by auto. clear EN0.
  assert (0 < N) as HN by (rewrite <- EN; apply pow2_pos; lia).
  assert (2 ^ (2 * n) = N * N) as E2n by (rewrite <- EN; apply pow2_dbl; lia).
  assert (forall x, 0 <= x < N * N -> 0 <= x / N < N) as Hq.
  { intros x Hx. split; [apply Z.div_pos; lia|]. apply Z.div_lt_upper_bound; lia. }
  rewrite E2n in Hduo, Hdiv.
  pose proof (Hq duo Hduo) as Hdh. pose proof (Hq div ltac:(lia)) as Hvh.
  rewrite (Z.mod_small (duo / N)), (Z.mod_small (div / N)) by lia.
  pose proof (Z.div_mod duo N ltac:(lia)) as Eduo. pose proof (Z.mod_pos_bound duo N ltac:(lia)) as Hdl.
  pose proof (Z.div_mod div N ltac:(lia)) as Ediv. pose proof (Z.mod_pos_bound div N ltac:(lia)) as Hvl.
  destruct (Z.eqb_spec (div / N) 0) as [Evh|Evh].
  - assert (div mod N = div) as Edl by lia. rewrite Edl in *. clear Ediv Hvh.
    replace (div =? 0) with false by lia.
    remember (duo mod N) as dl. remember (duo / N) as dh.
    destruct (Z.ltb_spec dh div) as [Hlt|Hge].
    + assert (N * (dh + 1) <= N * div) by (apply Z.mul_le_mono_nonneg_l; lia).
      rewrite asym_div_ok by (try rewrite EN; lia). reflexivity.
    + rewrite Hhd by lia. cbn [bind fst snd].
      pose proof (Z.div_mod dh div ltac:(lia)) as Eh. pose proof (Z.mod_pos_bound dh div ltac:(lia)) as Hr.
      assert (0 <= dh / div < N) as Hqh.
      { split; [apply Z.div_pos; lia|]. apply Z.le_lt_trans with dh; [|lia]. apply Z.div_le_upper_bound; nia. }
      remember (dh / div) as qh. remember (dh mod div) as rh.
      assert (rh * N < N * N) by (apply Z.mul_lt_mono_pos_r; lia).
      assert (qh * N < N * N) by (apply Z.mul_lt_mono_pos_r; lia).
      rewrite (cshl_u_exact (2 * n) rh) by lia. cbn [bind].
      rewrite lor_add_low by lia. rewrite EN.
      assert (0 <= rh * N) by (apply Z.mul_nonneg_nonneg; lia).
      assert ((rh + 1) * N <= div * N) by (apply Z.mul_le_mono_nonneg_r; lia).
      rewrite asym_div_ok by (try rewrite EN; lia). cbn [bind fst snd].
      rewrite (cshl_u_exact (2 * n) qh) by lia. cbn [bind]. rewrite EN.
      remember (dl + rh * N) as d2 eqn:Ed2.
      pose proof (Z.div_mod d2 div ltac:(lia)) as E2. pose proof (Z.mod_pos_bound d2 div ltac:(lia)).
      assert (0 <= d2 / div < N) by (split; [apply Z.div_pos; lia|apply Z.div_lt_upper_bound; lia]).
      rewrite <- EN, lor_add_low by lia. rewrite EN. f_equal. apply divmod_ok; [lia|].
      assert (duo = div * (qh * N) + d2) as -> by (rewrite Eduo, Eh, Ed2; ring). lia.
  - remember (div / N) as vh.
    pose proof (nlz_spec n vh ltac:(lia)) as [Hlz1 Hlz2].
    remember (nlz n vh) as lz.
    rewrite csub_u by lia. cbn [bind].
    remember (n - lz) as e eqn:Ee.
    rewrite cshr_ok by (rewrite bits_u; lia). cbn [bind].
    assert (0 < 2 ^ e) as HpE by (apply pow2_pos; lia).
    assert (2 ^ n = 2 * 2 ^ (n - 1)) as ESn by (apply pow2_S; lia). rewrite EN in ESn.
    remember (2 ^ (n - 1)) as M.
    assert (0 < M) by lia.
    (* div in [M * 2^e, N * 2^e) *)
    assert (M * 2 ^ e = 2 ^ (n - 1 - lz) * N) as E1.
    { rewrite HeqM, <- EN, <- !pow2_add by lia. f_equal. lia. }
    assert (2 ^ (n - 1 - lz) * N <= vh * N) by (apply Z.mul_le_mono_nonneg_r; lia).
    assert ((vh + 1) * N <= 2 ^ e * N) by (apply Z.mul_le_mono_nonneg_r; lia).
    pose proof (Z.div_mod div (2 ^ e) ltac:(lia)) as Ed. pose proof (Z.mod_pos_bound div (2 ^ e) HpE) as HL.
    assert (M <= div / 2 ^ e) as HS1 by (apply Z.div_le_lower_bound; lia).
    assert (div / 2 ^ e < N) as HS2 by (apply Z.div_lt_upper_bound; lia).
    remember (div / 2 ^ e) as S. remember (div mod 2 ^ e) as L.
    rewrite norm_u, EN, (Z.mod_small S) by lia. change (2 ^ 1) with 2.
    assert (N * S <= N * N) by (apply Z.mul_le_mono_nonneg_l; lia).
    assert (N * M <= N * S) by (apply Z.mul_le_mono_nonneg_l; lia).
    assert (N * N = 2 * (N * M)) as ENN by (rewrite ESn at 2; ring).
    assert (0 <= duo / 2 < N * S).
    { split; [apply Z.div_pos; lia|]. apply Z.div_lt_upper_bound; lia. }
    rewrite asym_div_ok by (try rewrite EN; lia). cbn [bind fst snd].
    rewrite csub_u by lia. cbn [bind].
    rewrite cshr_ok by (rewrite bits_u; lia). cbn [bind].
    assert (duo / 2 / S / 2 ^ (n - 1 - lz) = duo / (S * 2 ^ e)) as Eq0.
    { rewrite !Z.div_div by (try apply Z.mul_pos_pos; try apply pow2_pos; lia). f_equal.
      replace (2 ^ e) with (2 * 2 ^ (n - 1 - lz)). ring.
      replace e with (1 + (n - 1 - lz)) by lia. rewrite pow2_add by lia. reflexivity. }
    rewrite Eq0. remember (duo / (S * 2 ^ e)) as q0 eqn:Eq.
    (* q0 < 2^(n+1-e) *)
    assert (q0 < 2 ^ (n + 1 - e)) as Hq0.
    { rewrite Eq. apply Z.div_lt_upper_bound; [apply Z.mul_pos_pos; lia|].
      replace (S * 2 ^ e * 2 ^ (n + 1 - e)) with (S * (2 * N)).
      - lia.
      - rewrite <- Z.mul_assoc, <- pow2_add by lia. replace (e + (n + 1 - e)) with (1 + n) by lia.
        rewrite pow2_add by lia. rewrite EN. reflexivity. }
    assert (0 <= q0) by (rewrite Eq; apply Z.div_pos; [lia|apply Z.mul_pos_pos; lia]).
    assert (M * 2 ^ e <= S * 2 ^ e) as HSe by (apply Z.mul_le_mono_nonneg_r; lia).
    assert ((q0 - 1) * L <= S * 2 ^ e) as HB.
    { destruct (Z.eq_dec e 1) as [E|E].
      - rewrite E in *. change (2 ^ 1) with 2 in *. replace (n + 1 - 1) with n in Hq0 by lia. rewrite EN in Hq0.
        assert (L = 0 \/ L = 1) as [-> | ->] by lia; lia.
      - destruct (Z.eq_dec q0 0) as [->|Hn0]; [lia|].
        apply Z.le_trans with (2 ^ (n + 1 - e) * 2 ^ e).
        + apply Z.mul_le_mono_nonneg; lia.
        + apply Z.le_trans with (M * 2 ^ e); [|lia].
          rewrite HeqM, <- !pow2_add by lia. apply pow2_le. lia. }
    destruct (est_bound duo div S (2 ^ e) L q0) as (_ & B1 & B2); try lia.
    assert (2 ^ (n + 1 - e) <= 2 ^ n) by (apply pow2_le; lia).
    rewrite EN in *.
    assert (exists Q, (if negb (q0 =? 0) then csub (UI n) q0 1 else Ok q0) = Ok Q /\ 0 <= Q /\ Q <= q0 /\ Q < N - 1 /\ Q * div <= duo < (Q + 2) * div)
      as (Q & -> & HQ0 & HQ1 & HQ2 & HQ3).
    { destruct (Z.eqb_spec q0 0) as [E0|E0]; cbn [negb].
      - exists q0. split; [reflexivity|]. rewrite E0 in *. lia.
      - exists (q0 - 1). rewrite csub_u by lia. split; [reflexivity|].
        replace (q0 - 1 + 2) with (q0 + 1) by ring. lia. }
    cbn [bind]. unfold wrapping_mul. rewrite norm_u, E2n.
    assert (0 <= Q * div) by (apply Z.mul_nonneg_nonneg; lia).
    rewrite (Z.mod_small (Q * div)) by lia.
    rewrite csub_u by lia. cbn [bind].
    destruct (Z.leb_spec div (duo - Q * div)).
    + rewrite cadd_u by lia. cbn [bind]. rewrite csub_u by lia. cbn [bind].
      f_equal. apply divmod_ok; lia.
    + f_equal. apply divmod_ok; lia.
Qed.

Lemma carrying_ok q div lo hi : 0 <= q < 2 ^ n -> 0 <= lo < 2 ^ n -> 0 <= hi < 2 ^ n -> div = lo + hi * 2 ^ n ->
  exists t0 t1 c ov, carrying_mul n q lo = (t0, c) /\ carrying_mul_add n q hi c = (t1, ov) /\
    0 <= t0 < 2 ^ n /\ 0 <= t1 < 2 ^ n /\ 0 <= ov /\ q * div = t0 + t1 * 2 ^ n + ov * 2 ^ (2 * n).
Proof using Hnh.
  intros Hq Hlo Hhi Ed.
  assert (2 ^ (2 * n) = 2 ^ n * 2 ^ n) as P2 by (apply pow2_dbl; lia).
  assert (0 < 2 ^ n) as HN by (apply pow2_pos; lia). remember (2 ^ n) as N eqn:EN.
  assert (0 <= q * lo <= (N - 1) * (N - 1)) as H1 by (split; [apply Z.mul_nonneg_nonneg; lia|apply Z.mul_le_mono_nonneg; lia]).
  assert (0 <= q * hi <= (N - 1) * (N - 1)) as H2 by (split; [apply Z.mul_nonneg_nonneg; lia|apply Z.mul_le_mono_nonneg; lia]).
  pose proof (Z.div_mod (q * lo) N ltac:(lia)) as E1. pose proof (Z.mod_pos_bound (q * lo) N HN).
  assert (0 <= q * lo / N < N).
  { split; [apply Z.div_pos; lia|apply Z.div_lt_upper_bound; lia]. }
  set (c := q * lo / N) in *.
  pose proof (Z.div_mod (q * hi + c) N ltac:(lia)) as E2. pose proof (Z.mod_pos_bound (q * hi + c) N HN).
  assert (0 <= (q * hi + c) / N < N).
  { split; [apply Z.div_pos; lia|apply Z.div_lt_upper_bound; lia]. }
  exists ((q * lo) mod N), ((q * hi + c) mod N), c, ((q * hi + c) / N).
  unfold carrying_mul, carrying_mul_add, wrapping_mul, wrapping_add.
  rewrite !norm_u, !shiftr_div by lia. rewrite P2, <- EN.
  rewrite (Z.mod_small (q * lo)) by lia. rewrite (Z.mod_small (q * hi)) by lia.
  rewrite (Z.mod_small (q * hi + c)) by lia. fold c.
  rewrite (Z.mod_small c), (Z.mod_small ((q * hi + c) / N)) by lia.
  repeat split; try lia.
Qed.

(** The two-possibility estimate shared by trifecta.rs:203-245 and 357-382. *)
Lemma two_poss duo div : 0 < div -> 0 <= duo < 2 ^ (2 * n) ->
  nlz (2 * n) div < n + n_h -> nlz (2 * n) duo < n -> nlz (2 * n) duo < nlz (2 * n) div < nlz (2 * n) duo + n_h ->
  let e := n - nlz (2 * n) duo in
  exists q, 1 <= e <= n /\ 0 <= duo / 2 ^ e < 2 ^ n /\ 0 < div / 2 ^ e < 2 ^ n /\
    q = (duo / 2 ^ e) / (div / 2 ^ e) /\
    0 < q < 2 ^ n /\ (q - 1) * div <= duo < (q + 1) * div.
Proof using Hnh.
  intros Hd Hduo H1 H2 H3 e.
  set (dz := nlz (2 * n) duo) in *. set (vz := nlz (2 * n) div) in *.
  assert (0 < duo) as Hp.
  { destruct (Z.eq_dec duo 0) as [E|E]; [|lia]. unfold dz in H2. rewrite E, nlz_0 in H2. lia. }
  assert (div < 2 ^ (2 * n)) as Hdm.
  { destruct (Z_lt_le_dec div (2 ^ (2 * n))); [auto|].
    unfold vz, nlz in H3. replace (div <=? 0) with false in H3 by lia.
    assert (2 * n <= Z.log2 div) by (apply Z.log2_le_pow2; lia).
    assert (0 <= dz) by (apply (nlz_spec (2 * n) duo); lia). lia. }
  pose proof (nlz_spec (2 * n) duo ltac:(lia)) as [Z1 Z2]. pose proof (nlz_spec (2 * n) div ltac:(lia)) as [Z3 Z4].
  fold dz in Z1, Z2. fold vz in Z3, Z4.
  assert (0 < 2 ^ e) as HE by (apply pow2_pos; lia).
  assert (2 ^ (2 * n - dz) = 2 ^ n * 2 ^ e) as P1 by (rewrite <- pow2_add by lia; f_equal; lia).
  assert (2 ^ (2 * n - 1 - dz) = 2 ^ (n - 1) * 2 ^ e) as P2 by (rewrite <- pow2_add by lia; f_equal; lia).
  assert (2 ^ n_h * 2 ^ e <= 2 ^ (2 * n - 1 - vz)) as P3 by (rewrite <- pow2_add by lia; apply pow2_le; lia).
  assert (2 ^ (2 * n - vz) <= 2 ^ (n - 1) * 2 ^ e) as P4 by (rewrite <- pow2_add by lia; apply pow2_le; lia).
  assert (2 ^ n = 2 ^ n_h * 2 ^ n_h) as P5 by (rewrite <- pow2_add by lia; f_equal; lia).
  assert (2 ^ n = 2 * 2 ^ (n - 1)) as P6 by (apply pow2_S; lia).
  assert (0 < 2 ^ n_h) as HH by (apply pow2_pos; lia).
  assert (0 < 2 ^ (n - 1)) as HM by (apply pow2_pos; lia).
  set (H := 2 ^ n_h) in *. set (E := 2 ^ e) in *. set (N := 2 ^ n) in *. set (M := 2 ^ (n - 1)) in *.
  assert (M <= duo / E) as S1 by (apply Z.div_le_lower_bound; lia).
  assert (duo / E < N) as S2 by (apply Z.div_lt_upper_bound; lia).
  assert (H <= div / E) as S3 by (apply Z.div_le_lower_bound; lia).
  assert (div / E < M) as S4 by (apply Z.div_lt_upper_bound; lia).
  pose proof (Z.div_mod div E ltac:(lia)) as Ed. pose proof (Z.mod_pos_bound div E HE) as HL.
  set (S := div / E) in *. set (L := div mod E) in *.
  exists (duo / E / S).
  assert (duo / E / S = duo / (S * E)) as EQ by (rewrite Z.div_div by lia; f_equal; ring).
  set (q := duo / E / S) in *.
  assert (1 <= q) by (apply Z.div_le_lower_bound; lia).
  assert (H * H <= S * H) by (apply Z.mul_le_mono_nonneg_r; lia).
  assert (q < H) by (apply Z.div_lt_upper_bound; lia).
  assert (1 * H <= H * H) by (apply Z.mul_le_mono_nonneg_r; lia).
  assert ((q - 1) * L <= S * E) as HB.
  { apply Z.le_trans with (H * E); [apply Z.mul_le_mono_nonneg; lia|apply Z.mul_le_mono_nonneg_r; lia]. }
  destruct (est_bound duo div S E L q) as (_ & B1 & B2); try lia.
Qed.

Lemma wsub_ok duo div tmp q : 0 <= duo - (q - 1) * div < 2 ^ (2 * n) -> (exists k, tmp = q * div + k * 2 ^ (2 * n)) ->
  wrapping_sub (UI (2 * n)) (wrapping_add (UI (2 * n)) duo div) tmp = duo - (q - 1) * div.
Proof using Hnh.
  intros H (k & E). unfold wrapping_sub, wrapping_add. rewrite !norm_u.
  rewrite Zminus_mod_idemp_l. symmetry. apply Z.mod_unique_pos with (- k); [auto|]. rewrite E. ring.
Qed.

Lemma tri_loop_ok div duo0 : 0 < div < 2 ^ (2 * n) -> 0 <= duo0 < 2 ^ (2 * n) -> nlz (2 * n) div < n + n_h ->
  forall fuel duo quo, 
  0 <= duo -> 0 <= quo -> duo0 = quo * div + duo ->
  nlz (2 * n) duo < nlz (2 * n) div -> nlz (2 * n) duo < n ->
  (1 <= nlz (2 * n) duo \/ n_h <= nlz (2 * n) div - nlz (2 * n) duo) ->
  n - nlz (2 * n) duo < Z.of_nat fuel ->
  tri_loop hd fuel n_h div (nlz (2 * n) div) (n + n_h - nlz (2 * n) div)
    (div / 2 ^ (n + n_h - nlz (2 * n) div) + 1) duo (nlz (2 * n) duo) quo = Ok (duo0 / div, duo0 mod div).
Proof using Hnh Hhd.
  intros Hdiv Hduo0 Hvz.
  pose proof p32 as P32.
  pose proof (nlz_spec (2 * n) div ltac:(lia)) as [V1 V2].
  set (vz := nlz (2 * n) div) in *.
  set (ve := n + n_h - vz). set (sig := div / 2 ^ ve).
  assert (0 < 2 ^ ve) as HE by (apply pow2_pos; lia).
  assert (2 ^ (2 * n - vz) = 2 ^ n_h * 2 ^ ve) as P1 by (rewrite <- pow2_add by lia; f_equal; lia).
  assert (2 ^ (2 * n - 1 - vz) = 2 ^ (n_h - 1) * 2 ^ ve) as P2 by (rewrite <- pow2_add by lia; f_equal; lia).
  assert (2 ^ (n_h - 1) <= sig) as S1 by (apply Z.div_le_lower_bound; lia).
  assert (sig < 2 ^ n_h) as S2 by (apply Z.div_lt_upper_bound; lia).
  assert (div < (sig + 1) * 2 ^ ve) as S3.
  { pose proof (Z.div_mod div (2 ^ ve) ltac:(lia)) as Ed. pose proof (Z.mod_pos_bound div (2 ^ ve) HE).
    fold sig in Ed. lia. }
  assert (sig * 2 ^ ve <= div) as S4.
  { pose proof (Z.div_mod div (2 ^ ve) ltac:(lia)) as Ed. pose proof (Z.mod_pos_bound div (2 ^ ve) HE).
    fold sig in Ed. lia. }
  assert (2 ^ n = 2 ^ n_h * 2 ^ n_h) as P5 by (rewrite <- pow2_add by lia; f_equal; lia).
  assert (2 ^ n = 2 * 2 ^ (n - 1)) as P6 by (apply pow2_S; lia).
  assert (2 ^ n_h = 2 * 2 ^ (n_h - 1)) as P7 by (apply pow2_S; lia).
  assert (2 ^ n_h = 8 * 2 ^ (n_h - 3)) as P8 by (change 8 with (2 ^ 3); rewrite <- pow2_add by lia; f_equal; lia).
  assert (0 < 2 ^ (n_h - 3)) by (apply pow2_pos; lia).
  assert (2 ^ (2 * n) = 2 ^ n * 2 ^ n) as P9 by (apply pow2_dbl; lia).
  assert (2 ^ n_h * 2 <= 2 ^ n) as P10.
  { rewrite P5. apply Z.mul_le_mono_nonneg_l; lia. }
  induction fuel as [|fuel IH]; intros duo quo Hd Hq E0 Hlt Hn Hinv Hf; [lia|].
  cbn [tri_loop]. cbv zeta.
  assert (0 <= quo * div) as Hqd by (apply Z.mul_nonneg_nonneg; lia).
  assert (quo * 1 <= quo * div) as Hqd1 by (apply Z.mul_le_mono_nonneg_l; lia).
  assert (0 < duo) as Hp.
  { destruct (Z.eq_dec duo 0) as [E|E]; [|lia]. rewrite E, nlz_0 in Hn. lia. }
  pose proof (nlz_spec (2 * n) duo ltac:(lia)) as [Z1 Z2].
  set (dz := nlz (2 * n) duo) in *.
  rewrite csub_u by lia. cbn [bind]. set (de := n - dz).
  rewrite cshr_ok by (rewrite bits_u; lia). cbn [bind].
  assert (0 < 2 ^ de) as HdE by (apply pow2_pos; lia).
  assert (2 ^ (2 * n - dz) = 2 ^ n * 2 ^ de) as D1 by (rewrite <- pow2_add by lia; f_equal; lia).
  assert (2 ^ (2 * n - 1 - dz) = 2 ^ (n - 1) * 2 ^ de) as D2 by (rewrite <- pow2_add by lia; f_equal; lia).
  assert (2 ^ (n - 1) <= duo / 2 ^ de) as DS1 by (apply Z.div_le_lower_bound; lia).
  assert (duo / 2 ^ de < 2 ^ n) as DS2 by (apply Z.div_lt_upper_bound; lia).
  rewrite norm_u, (Z.mod_small (duo / 2 ^ de)) by lia.
  assert (0 < 2 ^ (n - 1)) by (apply pow2_pos; lia).
  assert (0 < 2 ^ (n_h - 1)) by (apply pow2_pos; lia).
  pose proof (Z.div_mod duo (2 ^ de) ltac:(lia)) as Edu. pose proof (Z.mod_pos_bound duo (2 ^ de) HdE) as Hdr.
  destruct (Z.leb_spec ve de) as [Hve|Hve].
  - rewrite Hhd by lia. cbn [bind fst snd].
    rewrite csub_u by lia. cbn [bind].
    set (dsig := duo / 2 ^ de) in *.
    pose proof (Z.div_mod dsig (sig + 1) ltac:(lia)) as Eqp. pose proof (Z.mod_pos_bound dsig (sig + 1) ltac:(lia)) as Hqr.
    assert (0 <= dsig / (sig + 1)) as Hqp0 by (apply Z.div_pos; lia).
    assert (dsig / (sig + 1) < 2 * 2 ^ n_h) as Hqp1.
    { apply Z.div_lt_upper_bound; [lia|].
      assert (2 ^ (n_h - 1) * (2 * 2 ^ n_h) <= (sig + 1) * (2 * 2 ^ n_h)) by (apply Z.mul_le_mono_nonneg_r; lia).
      lia. }
    set (qp := dsig / (sig + 1)) in *. set (qr := dsig mod (sig + 1)) in *.
    assert (2 ^ ve * 2 ^ (de - ve) = 2 ^ de) as Esh by (rewrite <- pow2_add by lia; f_equal; lia).
    assert (0 < 2 ^ (de - ve)) as Hsh by (apply pow2_pos; lia).
    set (sh := 2 ^ (de - ve)) in *.
    assert (div * (qp * sh) <= duo) as Hm.
    { apply Z.le_trans with ((sig + 1) * 2 ^ ve * (qp * sh)).
      - apply Z.mul_le_mono_nonneg_r; [apply Z.mul_nonneg_nonneg; lia|lia].
      - replace ((sig + 1) * 2 ^ ve * (qp * sh)) with ((sig + 1) * qp * (2 ^ ve * sh)) by ring. rewrite Esh.
        assert ((sig + 1) * qp * 2 ^ de <= dsig * 2 ^ de) by (apply Z.mul_le_mono_nonneg_r; lia). lia. }
    assert (duo - div * (qp * sh) < 2 ^ (2 * n - 1 - dz)) as Hdec.
    { assert (sig * 2 ^ ve * (qp * sh) <= div * (qp * sh)).
      { apply Z.mul_le_mono_nonneg_r; [apply Z.mul_nonneg_nonneg; lia|lia]. }
      replace (sig * 2 ^ ve * (qp * sh)) with (sig * qp * (2 ^ ve * sh)) in * by ring. rewrite Esh in *.
      assert ((qp + qr + 1) * 2 ^ de <= 2 ^ (n - 1) * 2 ^ de).
      { apply Z.mul_le_mono_nonneg_r; [lia|].
        assert (8 * 2 ^ (n_h - 3) * (8 * 2 ^ (n_h - 3)) <= 2 * 2 ^ (n - 1)) by (rewrite <- P8, <- P5; lia).
        assert (2 <= 2 ^ (n_h - 3)) by (change 2 with (2 ^ 1) at 1; apply pow2_le; lia).
        assert (2 * 2 ^ (n_h - 3) <= 2 ^ (n_h - 3) * 2 ^ (n_h - 3)) by (apply Z.mul_le_mono_nonneg_r; lia).
        lia. }
      assert (2 ^ de * dsig = sig * qp * 2 ^ de + (qp + qr) * 2 ^ de) by (rewrite Eqp; ring).
      lia. }
    assert (0 <= qp * sh) by (apply Z.mul_nonneg_nonneg; lia).
    assert (1 * (qp * sh) <= div * (qp * sh)) by (apply Z.mul_le_mono_nonneg_r; lia).
    rewrite cshl_u_exact by (try (fold sh); lia). cbn [bind]. fold sh.
    rewrite cadd_u by lia. cbn [bind]. unfold wrapping_mul. rewrite (norm_u (2 * n)).
    assert (div * qp <= div * (qp * sh)).
    { apply Z.mul_le_mono_nonneg_l; [lia|]. assert (qp * 1 <= qp * sh) by (apply Z.mul_le_mono_nonneg_l; lia). lia. }
    assert (0 <= div * qp) by (apply Z.mul_nonneg_nonneg; lia).
    rewrite (Z.mod_small (div * qp)) by lia.
    rewrite cshl_u_exact by (try (fold sh); lia). cbn [bind]. fold sh.
    replace (div * qp * sh) with (div * (qp * sh)) by ring.
    rewrite csub_u by lia. cbn [bind].
    set (duo' := duo - div * (qp * sh)) in *. set (quo' := quo + qp * sh) in *.
    assert (duo0 = quo' * div + duo') as E0'.
    { rewrite E0. unfold quo', duo'. ring. }
    assert (0 <= duo') by lia. assert (0 <= quo') by lia.
    clearbody duo' quo'.
    assert (dz + 1 <= nlz (2 * n) duo') as Hdz'.
    { destruct (Z.eq_dec duo' 0) as [->|Hn0]; [rewrite nlz_0; lia|].
      pose proof (nlz_spec (2 * n) duo' ltac:(lia)) as [Y1 Y2].
      destruct (Z_le_gt_dec (dz + 1) (nlz (2 * n) duo')); [auto|].
      assert (2 ^ (2 * n - 1 - dz) <= 2 ^ (2 * n - 1 - nlz (2 * n) duo')) by (apply pow2_le; lia). lia. }
    assert (0 <= quo' * div) by (apply Z.mul_nonneg_nonneg; lia).
    assert (quo' * 1 <= quo' * div) by (apply Z.mul_le_mono_nonneg_l; lia).
    destruct (Z.leb_spec vz (nlz (2 * n) duo')) as [Hle|Hgt].
    + assert (duo' < 2 ^ (2 * n - vz)).
      { destruct (Z.eq_dec duo' 0) as [->|Hn0]; [apply pow2_pos; lia|].
        pose proof (nlz_spec (2 * n) duo' ltac:(lia)) as [Y1 Y2].
        assert (2 ^ (2 * n - nlz (2 * n) duo') <= 2 ^ (2 * n - vz)) by (apply pow2_le; lia). lia. }
      destruct (Z.leb_spec div duo').
      * rewrite cadd_u by lia. cbn [bind]. rewrite csub_u by lia. cbn [bind].
        f_equal. apply divmod_ok; lia.
      * f_equal. apply divmod_ok; lia.
    + destruct (Z.leb_spec n (nlz (2 * n) duo')) as [Hnle|Hnlt].
      * assert (2 ^ (2 * n - vz) <= 2 ^ n) by (apply pow2_le; lia).
        assert (duo' < 2 ^ n).
        { destruct (Z.eq_dec duo' 0) as [->|Hn0]; [apply pow2_pos; lia|].
          pose proof (nlz_spec (2 * n) duo' ltac:(lia)) as [Y1 Y2].
          assert (2 ^ (2 * n - nlz (2 * n) duo') <= 2 ^ n) by (apply pow2_le; lia). lia. }
        rewrite !norm_u, !Z.mod_small by lia.
        rewrite Hhd by lia. cbn [bind fst snd].
        pose proof (Z.div_mod duo' div ltac:(lia)) as Ex. pose proof (Z.mod_pos_bound duo' div ltac:(lia)).
        assert (0 <= duo' / div) by (apply Z.div_pos; lia).
        assert (1 * (duo' / div) <= div * (duo' / div)) by (apply Z.mul_le_mono_nonneg_r; lia).
        rewrite cadd_u by lia. cbn [bind]. f_equal. apply divmod_ok; lia.
      * apply IH; auto; lia.
  - (* two-possibility *)
    cbn [bind].
    destruct (two_poss duo div) as (q & T1 & T2 & T3 & T4 & T5 & T6); fold vz; fold dz; try lia.
    fold dz in T1, T2, T3, T4. fold de in T1, T2, T3, T4. fold de.
    rewrite cshr_ok by (rewrite bits_u; lia). cbn [bind].
    rewrite !norm_u, (Z.mod_small (div / 2 ^ de)) by lia.
    rewrite Hhd by lia. cbn [bind fst snd]. rewrite <- T4.
    rewrite cshr_ok by (rewrite bits_u; lia). cbn [bind].
    assert (0 < 2 ^ n) as HN by lia.
    assert (0 <= div / 2 ^ n < 2 ^ n).
    { split; [apply Z.div_pos; lia|apply Z.div_lt_upper_bound; lia]. }
    rewrite ?norm_u, (Z.mod_small (div / 2 ^ n)) by lia.
    destruct (carrying_ok q div (div mod 2 ^ n) (div / 2 ^ n)) as (t0 & t1 & c & ov & C1 & C2 & C3 & C4 & C5 & C6);
      try lia; [apply Z.mod_pos_bound; lia|pose proof (Z.div_mod div (2 ^ n) ltac:(lia)); lia|].
    rewrite C1, C2.
    assert (div < 2 ^ (2 * n - 1) /\ duo < 2 ^ (2 * n - 1)) as [X1 X2].
    { assert (2 ^ (2 * n - vz) <= 2 ^ (2 * n - 1)) by (apply pow2_le; lia).
      assert (2 ^ (2 * n - dz) <= 2 ^ (2 * n - 1)) by (apply pow2_le; lia). lia. }
    assert (2 ^ (2 * n) = 2 * 2 ^ (2 * n - 1)) as X3 by (apply pow2_S; lia).
    assert (ov = 0) as Eov.
    { assert (q * div < 2 ^ (2 * n)) by lia.
      destruct (Z.eq_dec ov 0) as [|Hov]; [auto|].
      assert (1 * 2 ^ (2 * n) <= ov * 2 ^ (2 * n)) by (apply Z.mul_le_mono_nonneg_r; lia).
      assert (0 <= t1 * 2 ^ n) by (apply Z.mul_nonneg_nonneg; lia). lia. }
    assert (t1 * 2 ^ n < 2 ^ n * 2 ^ n) by (apply Z.mul_lt_mono_pos_r; lia).
    rewrite cshl_u_exact by lia. cbn [bind]. rewrite lor_add_low by lia.
    rewrite Eov, Z.mul_0_l, Z.add_0_r in C6. rewrite <- C6.
    replace ((q - 1) * div) with (q * div - div) in T6 by ring.
    replace ((q + 1) * div) with (q * div + div) in T6 by ring.
    assert (q * 1 <= q * div) by (apply Z.mul_le_mono_nonneg_l; lia).
    assert (q * 1 <= div * q) by lia.
    assert ((q - 1) * 1 <= (q - 1) * div) by (apply Z.mul_le_mono_nonneg_l; lia).
    destruct (Z.ltb_spec duo (q * div)).
    + rewrite csub_u by lia. cbn [bind]. rewrite cadd_u by lia. cbn [bind].
      rewrite (wsub_ok duo div (q * div) q) by (try (exists 0); lia).
      f_equal. apply divmod_ok; lia.
    + rewrite cadd_u by lia. cbn [bind]. rewrite csub_u by lia. cbn [bind].
      f_equal. apply divmod_ok; lia.
Qed.

Theorem trifecta_correct : correct_div (2 * n) (trifecta hd n_h).
Proof using Hnh Hhd.
  intros duo div Hduo Hdiv. unfold trifecta. pose proof p32 as P32.
  replace (div =? 0) with false by lia.
  assert (2 ^ (2 * n) = 2 ^ n * 2 ^ n) as P9 by (apply pow2_dbl; lia).
  assert (0 < 2 ^ n) as HN by (apply pow2_pos; lia).
  pose proof (nlz_spec (2 * n) div ltac:(lia)) as [V1 V2].
  assert (0 <= nlz (2 * n) duo /\ (duo = 0 \/ 2 ^ (2 * n - 1 - nlz (2 * n) duo) <= duo) /\ duo < 2 ^ (2 * n - nlz (2 * n) duo)) as (Z0 & Z1 & Z2).
  { destruct (Z.eq_dec duo 0) as [->|Hn0]; [rewrite nlz_0; split; [lia|]; split; [auto|apply pow2_pos; lia]|].
    pose proof (nlz_spec (2 * n) duo ltac:(lia)). lia. }
  destruct (Z.leb_spec (nlz (2 * n) div) (nlz (2 * n) duo)) as [Hle|Hlt].
  { assert (2 ^ (2 * n - nlz (2 * n) duo) <= 2 ^ (2 * n - nlz (2 * n) div)) by (apply pow2_le; lia).
    assert (2 ^ (2 * n - nlz (2 * n) div) = 2 * 2 ^ (2 * n - 1 - nlz (2 * n) div)).
    { rewrite pow2_S by lia. do 2 f_equal. lia. }
    destruct (Z.leb_spec div duo).
    - rewrite csub_u by lia. cbn [bind]. f_equal. apply divmod_ok; lia.
    - f_equal. apply divmod_ok; lia. }
  destruct (Z.leb_spec n (nlz (2 * n) duo)) as [Hn|Hn].
  { assert (2 ^ (2 * n - nlz (2 * n) duo) <= 2 ^ n) by (apply pow2_le; lia).
    assert (2 ^ (2 * n - nlz (2 * n) div) <= 2 ^ n) by (apply pow2_le; lia).
    rewrite !norm_u, !Z.mod_small by lia. apply Hhd; lia. }
  destruct (Z.leb_spec (n + n_h) (nlz (2 * n) div)) as [Hsh|Hsh].
  { assert (2 ^ (2 * n - nlz (2 * n) div) <= 2 ^ n_h) by (apply pow2_le; lia).
    rewrite (norm_u n_h), (Z.mod_small div) by lia.
    pose proof (short_div n_h ltac:(lia) hd Hhd duo div Hduo ltac:(lia)) as HS.
    rewrite cshr_ok by (rewrite bits_u; lia). cbn [bind]. rewrite norm_u. exact HS. }
  rewrite csub_u by lia. cbn [bind].
  destruct (Z.ltb_spec (nlz (2 * n) div - nlz (2 * n) duo) n_h) as [Htp|Htp].
  - rewrite csub_u by lia. cbn [bind].
    destruct (two_poss duo div) as (q & T1 & T2 & T3 & T4 & T5 & T6); try lia.
    set (de := n - nlz (2 * n) duo) in *.
    rewrite cshr_ok by (rewrite bits_u; lia). cbn [bind].
    rewrite cshr_ok by (rewrite bits_u; lia). cbn [bind].
    rewrite !norm_u, (Z.mod_small (duo / 2 ^ de)), (Z.mod_small (div / 2 ^ de)) by lia.
    rewrite Hhd by lia. cbn [bind fst snd]. rewrite <- T4.
    rewrite cshr_ok by (rewrite bits_u; lia). cbn [bind].
    assert (0 <= div / 2 ^ n < 2 ^ n).
    { split; [apply Z.div_pos; lia|apply Z.div_lt_upper_bound; lia]. }
    rewrite ?norm_u, (Z.mod_small (div / 2 ^ n)) by lia.
    destruct (carrying_ok q div (div mod 2 ^ n) (div / 2 ^ n)) as (t0 & t1 & c & ov & C1 & C2 & C3 & C4 & C5 & C6);
      try lia; [apply Z.mod_pos_bound; lia|pose proof (Z.div_mod div (2 ^ n) ltac:(lia)); lia|].
    rewrite C1, C2.
    assert (t1 * 2 ^ n < 2 ^ n * 2 ^ n) by (apply Z.mul_lt_mono_pos_r; lia).
    assert ((t1 + 1) * 2 ^ n <= 2 ^ n * 2 ^ n) by (apply Z.mul_le_mono_nonneg_r; lia).
    assert (0 <= t1 * 2 ^ n) by (apply Z.mul_nonneg_nonneg; lia).
    rewrite cshl_u_exact by lia. cbn [bind]. rewrite lor_add_low by lia.
    replace ((q - 1) * div) with (q * div - div) in T6 by ring.
    replace ((q + 1) * div) with (q * div + div) in T6 by ring.
    assert (negb (ov =? 0) || (duo <? t0 + t1 * 2 ^ n) = (duo <? q * div)) as ->.
    { destruct (Z.eqb_spec ov 0) as [->|Ho]; cbn [negb orb].
      - rewrite Z.mul_0_l, Z.add_0_r in C6. rewrite <- C6. reflexivity.
      - assert (1 * 2 ^ (2 * n) <= ov * 2 ^ (2 * n)) by (apply Z.mul_le_mono_nonneg_r; lia). lia. }
    destruct (Z.ltb_spec duo (q * div)).
    + rewrite csub_u by lia. cbn [bind].
      rewrite (wsub_ok duo div (t0 + t1 * 2 ^ n) q) by (try (exists (- ov)); lia).
      f_equal. apply divmod_ok; lia.
    + assert (ov = 0) as Eov.
      { destruct (Z.eq_dec ov 0) as [|Hov]; [auto|].
        assert (1 * 2 ^ (2 * n) <= ov * 2 ^ (2 * n)) by (apply Z.mul_le_mono_nonneg_r; lia). lia. }
      rewrite Eov, Z.mul_0_l, Z.add_0_r in C6. rewrite <- C6.
      rewrite csub_u by lia. cbn [bind]. f_equal. apply divmod_ok; lia.
  - rewrite csub_u by lia. cbn [bind].
    set (ve := n + n_h - nlz (2 * n) div).
    rewrite cshr_ok by (rewrite bits_u; lia). cbn [bind].
    assert (2 ^ (2 * n - nlz (2 * n) div) = 2 ^ n_h * 2 ^ ve) as P1 by (rewrite <- pow2_add by lia; f_equal; lia).
    assert (0 < 2 ^ ve) by (apply pow2_pos; lia).
    assert (0 <= div / 2 ^ ve < 2 ^ n_h).
    { split; [apply Z.div_pos; lia|apply Z.div_lt_upper_bound; lia]. }
    assert (2 ^ n_h < 2 ^ n) by (apply pow2_lt; lia).
    rewrite norm_u, Z.mod_small by lia. rewrite cadd_u by lia. cbn [bind].
    unfold ve. apply tri_loop_ok; lia.
Qed.
End Wide.
