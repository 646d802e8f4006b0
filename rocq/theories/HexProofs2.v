(** Rounding in parse_finite. *)
From Coq Require Import ZArith Reals Bool Lia Lra Psatz.
From Flocq Require Import Core.
From Verif Require Import Base BaseLemmas FloatModel FloatSpec FloatProofs2 HexModel HexSpec HexProofs.
From Verif Require IntProofs3 FloatProofs.
Open Scope Z_scope.

(** [s] stands for the nonnegative real [T]: equal to it, or odd and within 1 of it. *)
Definition sticky (T : R) (s : Z) : Prop :=
  T = IZR s \/ (s mod 2 = 1 /\ (IZR s - 1 < T < IZR s + 1)%R).
Definition to_dir (m : mode) : dir :=
  match m with Nearest => ToNearest | Negative => Down | Positive => Up | Zero => ToZero end.

Lemma ntz_mod x k : 0 < x -> 0 <= k -> (ntz 128 x <? k) = negb (x mod 2 ^ k =? 0).
Proof.
  intros Hx Hk. destruct (IntProofs3.ntz_spec 128 x Hx) as (Z0 & m & E).
  set (r := ntz 128 x) in *. clearbody r.
  destruct (Z.ltb_spec r k) as [L|L].
  - destruct (Z.eqb_spec (x mod 2 ^ k) 0) as [M|M]; [|reflexivity]. exfalso.
    apply Z.mod_divide in M; [|pose proof (pow2_pos k Hk); lia]. destruct M as (c & C).
    replace k with (r + (1 + (k - r - 1))) in C by lia. rewrite !pow2_add in C by lia. change (2 ^ 1) with 2 in C.
    pose proof (pow2_pos r Z0). assert (2 * m + 1 = c * (2 * 2 ^ (k - r - 1))) by nia. lia.
  - destruct (Z.eqb_spec (x mod 2 ^ k) 0) as [M|M]; [reflexivity|]. exfalso. apply M.
    rewrite E. replace r with ((r - k) + k) by lia. rewrite pow2_add by lia. rewrite Z.mul_assoc. apply Z.mod_mul.
    pose proof (pow2_pos k Hk). lia.
Qed.
Lemma bpow_pow2 k : 0 <= k -> bpow radix2 k = IZR (2 ^ k).
Proof. intros. symmetry. apply (IZR_Zpower radix2). assumption. Qed.
Lemma lor_b2z x b : 0 <= x -> Z.lor x (b2z b) = if b then x + 1 - x mod 2 else x.
Proof. intros. destruct b; cbn [b2z]; [apply lor_1; lia|apply Z.lor_0_r]. Qed.

(** Dropping [k] bits keeps the relation. *)
Lemma shr_odd_ok T s k : 0 < s < 2 ^ 128 -> sticky T s -> 1 <= k < 128 ->
  exists s', shr_odd_rounding s k = Ok s' /\ sticky (T / bpow radix2 k) s' /\ 0 <= s' < 2 ^ 128.
Proof.
  intros Hs St Hk. unfold shr_odd_rounding. destruct (Z.ltb_spec k 128); [|lia].
  rewrite cshr_ok by (rewrite bits_u; lia). cbn [bind]. rewrite ntz_mod by lia.
  pose proof (pow2_pos k ltac:(lia)) as P.
  pose proof (Z.div_mod s (2 ^ k) ltac:(lia)) as D. pose proof (Z.mod_pos_bound s (2 ^ k) P) as M.
  assert (0 <= s / 2 ^ k) as Q0 by (apply Z.div_pos; lia).
  assert (2 * (s / 2 ^ k) <= s) as QB by (pose proof (pow2_le 1 k ltac:(lia)) as Q2; change (2 ^ 1) with 2 in Q2; nia).
  rewrite lor_b2z by lia. eexists. split; [reflexivity|].
  rewrite bpow_pow2 by lia. set (Pk := 2 ^ k) in *. set (q := s / Pk) in *. set (r := s mod Pk) in *.
  assert (Pk mod 2 = 0) as PE.
  { subst Pk. rewrite (pow2_S k) by lia. rewrite Z.mul_comm. apply Z.mod_mul. lia. }
  clearbody Pk q r.
  assert (0 < IZR Pk)%R as PR by (apply IZR_lt; lia).
  assert (forall A : R, A = (A / IZR Pk * IZR Pk)%R) as DV by (intros; field; lra).
  assert (IZR s = IZR Pk * IZR q + IZR r)%R as SR by (rewrite D, plus_IZR, mult_IZR; reflexivity).
  destruct (Z.eqb_spec r 0) as [R0|R0]; cbn [negb].
  - split; [|lia]. left. destruct St as [->|[Od _]].
    + rewrite SR, R0. field. lra.
    + exfalso. rewrite D, R0, Z.add_0_r in Od. rewrite Z.mul_mod, PE, Z.mul_0_l in Od by lia. cbn in Od. lia.
  - pose proof (Z.mod_pos_bound q 2 ltac:(lia)) as B2.
    split; [|lia]. right. split.
    { pose proof (Z.div_mod q 2 ltac:(lia)). replace (q + 1 - q mod 2) with (1 + (q / 2) * 2) by lia. rewrite Z.mod_add by lia. reflexivity. }
    assert (IZR q < T / IZR Pk < IZR q + 1)%R as TB.
    { assert (IZR Pk * IZR q < T < IZR Pk * (IZR q + 1))%R as TB.
      { assert (1 <= IZR r <= IZR Pk - 1)%R as RB.
        { split; [apply (IZR_le 1); lia|]. rewrite <- minus_IZR. apply IZR_le. lia. }
        destruct St as [->|[Od TB]].
        - lra.
        - rewrite SR in TB. assert (r <> Pk -> 1 <= r) by lia.
          lra. }
      rewrite (DV T) in TB. split; apply Rmult_lt_reg_r with (IZR Pk); lra. }
    rewrite minus_IZR, plus_IZR. assert (q mod 2 = 0 \/ q mod 2 = 1) as [-> | ->] by lia; lra.
Qed.
Lemma shr_odd_big T s k : 0 < s -> 128 <= k -> (0 < T < bpow radix2 128)%R ->
  exists s', shr_odd_rounding s k = Ok s' /\ sticky (T / bpow radix2 k) s' /\ 0 <= s' < 2 ^ 128.
Proof.
  intros Hs Hk HT. unfold shr_odd_rounding. destruct (Z.ltb_spec k 128); [lia|].
  exists 1. split; [|split; [|lia]].
  - destruct (Z.eqb_spec s 0); [lia|reflexivity].
  - right. split; [reflexivity|]. pose proof (bpow_gt_0 radix2 k).
    assert (bpow radix2 128 <= bpow radix2 k)%R by (apply bpow_le; lia).
    assert (0 < / bpow radix2 k)%R by (apply Rinv_0_lt_compat; lra).
    unfold Rdiv. split; [nra|]. apply Rmult_lt_reg_r with (bpow radix2 k); [lra|]. rewrite Rmult_assoc, Rinv_l by lra. lra.
Qed.

(** The last two bits decide the rounding. *)
Lemma shr2_ok Y s m : 0 <= s < 2 ^ 128 -> sticky Y s ->
  shr2_round s m = Ok (rnd (to_dir m) (Y / 4)) /\
  (if Z.land s 3 =? 0 then IZR (rnd (to_dir m) (Y / 4)) = (Y / 4)%R else IZR (rnd (to_dir m) (Y / 4)) <> (Y / 4)%R).
Proof.
  intros Hs St.
  assert (exists a r, s = 4 * a + r /\ 0 <= r < 4 /\ 0 <= a) as (a & r & E & Hr & Ha).
  { exists (s / 4), (s mod 4). pose proof (Z.div_mod s 4 ltac:(lia)). pose proof (Z.mod_pos_bound s 4 ltac:(lia)).
    assert (0 <= s / 4) by (apply Z.div_pos; lia). lia. }
  assert (Z.land s 3 = r) as -> by (change 3 with (2 ^ 2 - 1); rewrite land_ones_mod by lia; change (2 ^ 2) with 4; rewrite E; symmetry; apply Z.mod_unique with a; lia).
  assert (s / 2 ^ 2 = a) as EA by (change (2 ^ 2) with 4; rewrite E; symmetry; apply Z.div_unique with r; lia).
  assert (Z.land (norm (UI 32) s) 7 = 4 * (a mod 2) + r) as ET.
  { change 7 with (2 ^ 3 - 1). rewrite norm_u, land_ones_mod by lia.
    assert ((s mod 2 ^ 32) mod 2 ^ 3 = s mod 2 ^ 3) as ->.
    { change (2 ^ 32) with (2 ^ 3 * 536870912). rewrite Z.rem_mul_r by lia. rewrite Z.mul_comm, Z.mod_add by lia. apply Z.mod_mod. lia. }
    change (2 ^ 3) with 8. pose proof (Z.div_mod a 2 ltac:(lia)). pose proof (Z.mod_pos_bound a 2 ltac:(lia)).
    symmetry. apply Z.mod_unique with (a / 2); lia. }
  assert (IZR s = 4 * IZR a + IZR r)%R as ER by (rewrite E, plus_IZR, mult_IZR; reflexivity).
  assert (r = 0 /\ (Y = 4 * IZR a)%R \/ r = 2 /\ (Y = 4 * IZR a + 2)%R \/ r = 1 /\ (4 * IZR a < Y < 4 * IZR a + 2)%R \/
          r = 3 /\ (4 * IZR a + 2 < Y < 4 * IZR a + 4)%R) as C.
  { assert (r = 0 \/ r = 1 \/ r = 2 \/ r = 3) as [e|[e|[e|e]]] by lia; rewrite e in ER; destruct St as [Q|[Od Q]].
    - left. split; [exact e|lra].
    - exfalso. rewrite E, e in Od. replace (4 * a + 0) with (0 + (2 * a) * 2) in Od by ring. rewrite Z.mod_add in Od by lia. discriminate.
    - right; right; left. split; [exact e|lra].
    - right; right; left. split; [exact e|lra].
    - right; left. split; [exact e|lra].
    - exfalso. rewrite E, e in Od. replace (4 * a + 2) with (0 + (2 * a + 1) * 2) in Od by ring. rewrite Z.mod_add in Od by lia. discriminate.
    - right; right; right. split; [exact e|lra].
    - right; right; right. split; [exact e|lra]. }
  assert (Zfloor (Y / 4) = a) as FL by (apply Zfloor_imp; rewrite plus_IZR; lra).
  assert (Ztrunc (Y / 4) = a) as TR.
  { rewrite Ztrunc_floor; [assumption|]. assert (0 <= IZR a)%R by (apply (IZR_le 0); lia). lra. }
  assert (Zceil (Y / 4) = a + b2z (negb (r =? 0))) as CE.
  { apply Zceil_imp. rewrite minus_IZR, plus_IZR. destruct C as [[-> C]|[[-> C]|[[-> C]|[-> C]]]]; cbn [Z.eqb negb b2z]; lra. }
  assert (ZnearestE (Y / 4) = a + (if r =? 3 then 1 else if r =? 2 then a mod 2 else 0)) as NE.
  { destruct C as [[-> C]|[[-> C]|[[-> C]|[-> C]]]]; cbn [Z.eqb Pos.eqb].
    - rewrite Z.add_0_r. apply Znearest_imp. rewrite C. replace (4 * IZR a / 4 - IZR a)%R with 0%R by field. rewrite Rabs_R0. lra.
    - replace (Y / 4)%R with (IZR (4 * a + 2) / IZR 4)%R by (rewrite C, plus_IZR, mult_IZR; reflexivity).
      rewrite FloatProofs.ZnearestE_div by lia. unfold FloatProofs.rup.
      assert ((4 * a + 2) / 4 = a /\ (4 * a + 2) mod 4 = 2) as [-> ->] by (apply div_mod_unique; lia). reflexivity.
    - rewrite Z.add_0_r. apply Znearest_imp. apply Rabs_def1; lra.
    - apply Znearest_imp. rewrite plus_IZR. apply Rabs_def1; lra. }
  pose proof (Z.mod_pos_bound a 2 ltac:(lia)) as A2.
  assert (a < 2 ^ 127) as AB by (clear - E Hs Hr Ha; lia).
  split.
  - unfold shr2_round. rewrite cshr_ok, EA, ET by (rewrite bits_u; lia). cbn [bind].
    destruct m; cbn [to_dir rnd]; rewrite ?FL, ?TR, ?CE, ?NE; try reflexivity.
    + rewrite cshr_ok by (rewrite bits_u; lia). cbn [bind].
      assert (Z.land (200 / 2 ^ (4 * (a mod 2) + r)) 1 = (if r =? 3 then 1 else if r =? 2 then a mod 2 else 0)) as ->.
      { assert (a mod 2 = 0 \/ a mod 2 = 1) as [-> | ->] by lia;
        assert (r = 0 \/ r = 1 \/ r = 2 \/ r = 3) as [->|[->|[-> | ->]]] by lia; reflexivity. }
      apply cadd_u. destruct (r =? 3); [lia|]. destruct (r =? 2); lia.
    + assert (Z.land (4 * (a mod 2) + r) 3 = r) as ->.
      { change 3 with (2 ^ 2 - 1). rewrite land_ones_mod by lia. change (2 ^ 2) with 4. symmetry. apply Z.mod_unique with (a mod 2); lia. }
      apply cadd_u. destruct (r =? 0); cbn [negb b2z]; lia.
  - assert (forall n : Z, IZR n = (Y / 4)%R -> r = 0) as NX.
    { intros n Hn. destruct C as [[e _]|C]; [exact e|exfalso].
      assert (IZR a < IZR n < IZR (a + 1))%R as B by (rewrite plus_IZR; lra).
      destruct B as [B1 B2]. apply lt_IZR in B1, B2. lia. }
    destruct (Z.eqb_spec r 0) as [e|e].
    + destruct C as [[_ C]|[[e' _]|[[e' _]|[e' _]]]]; try lia.
      assert ((Y / 4)%R = IZR a) as -> by (rewrite C; field). apply f_equal. apply (@Zrnd_IZR (rnd (to_dir m)) (HexProofs.valid_rnd _)).
    + intros Q. apply e, (NX _ Q).
Qed.

(** hex_float.rs:137-152. *)
Lemma div_bpow_add (T : R) a b : (T / bpow radix2 (a + b) = T / bpow radix2 a / bpow radix2 b)%R.
Proof. rewrite bpow_plus. pose proof (bpow_gt_0 radix2 a). pose proof (bpow_gt_0 radix2 b). field. lra. Qed.
Lemma round_sig_ok T sig rb m : 0 < sig < 2 ^ 128 -> (0 < T < bpow radix2 128)%R ->
  (sticky T sig \/ 130 <= rb) -> (T = IZR sig \/ 2 <= rb) -> -127 <= rb < 2 ^ 31 -> (rb <= 1 -> sig * 2 ^ (2 - rb) < 2 ^ 128) ->
  let q := rnd (to_dir m) (T / bpow radix2 rb) in
  exists st, round_sig sig rb m = Ok (q, st) /\
    (st = OK /\ IZR q = (T / bpow radix2 rb)%R \/ st = INEXACT /\ IZR q <> (T / bpow radix2 rb)%R).
Proof.
  intros Hs HT St Ex Hrb Hsh q. unfold round_sig.
  destruct (Z.ltb_spec 0 rb) as [Lr|Lr].
  - assert (exists s, (if rb =? 1 then cshl (UI 128) sig 1
                else if 2 <? rb then let* k := csub (SI 32) rb 2 in shr_odd_rounding sig (norm (UI 32) k)
                else Ok sig) = Ok s /\ sticky (4 * (T / bpow radix2 rb)) s /\ 0 <= s < 2 ^ 128) as (s & -> & St2 & Hs2).
    { destruct (Z.eqb_spec rb 1) as [e|e].
      - specialize (Hsh ltac:(lia)). rewrite e in *. change (2 ^ (2 - 1)) with 2 in Hsh.
        rewrite cshl_u_exact; [|lia|lia|change (2 ^ 1) with 2; lia]. exists (sig * 2 ^ 1). split; [reflexivity|].
        change (2 ^ 1) with 2. split; [|lia]. left. destruct Ex as [->|]; [|lia]. rewrite mult_IZR.
        change (bpow radix2 1) with 2%R. field.
      - destruct (Z.ltb_spec 2 rb) as [L2|L2].
        + unfold csub. rewrite chk_ok by (apply fits_s; change (2 ^ (32 - 1)) with (2 ^ 31); lia). cbn [bind].
          rewrite norm_u, Z.mod_small by (change (2 ^ 32) with (2 * 2 ^ 31); lia).
          replace (4 * (T / bpow radix2 rb))%R with (T / bpow radix2 (rb - 2))%R.
          2:{ replace rb with ((rb - 2) + 2) at 2 by lia. rewrite div_bpow_add. change (bpow radix2 2) with 4%R.
              pose proof (bpow_gt_0 radix2 (rb - 2)). field. lra. }
          destruct (Z_lt_ge_dec (rb - 2) 128).
          * destruct St as [St|]; [|lia]. apply shr_odd_ok; [lia|exact St|lia].
          * apply shr_odd_big; [lia|lia|exact HT].
        + assert (rb = 2) as -> by lia. exists sig. split; [reflexivity|]. split; [|lia].
          destruct St as [St|]; [|lia]. change (bpow radix2 2) with 4%R. replace (4 * (T / 4))%R with T by field. exact St. }
    cbn [bind]. destruct (shr2_ok _ s m Hs2 St2) as [-> X]. cbn [bind].
    replace (4 * (T / bpow radix2 rb) / 4)%R with (T / bpow radix2 rb)%R in * by (pose proof (bpow_gt_0 radix2 rb); field; lra).
    fold q in X |- *. destruct (Z.land s 3 =? 0); cbn [negb]; eexists; (split; [reflexivity|]); tauto.
  - destruct Ex as [ET|]; [|lia]. assert (rb <= 1) as Hsh0 by lia. specialize (Hsh Hsh0).
    replace (2 - rb) with (2 + - rb) in Hsh by lia. rewrite pow2_add in Hsh by lia. change (2 ^ 2) with 4 in Hsh.
    assert (T / bpow radix2 rb = IZR (sig * 2 ^ (- rb)))%R as EQ.
    { rewrite mult_IZR, <- bpow_pow2, bpow_opp, ET by lia. reflexivity. }
    assert (q = sig * 2 ^ (- rb)) as Eq by (unfold q; rewrite EQ; apply (@Zrnd_IZR (rnd (to_dir m)) (HexProofs.valid_rnd _))).
    pose proof (pow2_pos (- rb) ltac:(lia)).
    exists OK. rewrite EQ, Eq. split; [|left; split; reflexivity].
    destruct (Z.ltb_spec rb 0).
    + unfold cneg. rewrite chk_ok by (apply fits_s; change (2 ^ (32 - 1)) with (2 ^ 31); lia). cbn [bind].
      rewrite cshl_u_exact; [reflexivity|lia|lia|lia].
    + assert (rb = 0) as -> by lia. change (2 ^ (- 0)) with 1. rewrite Z.mul_1_r. reflexivity.
Qed.
