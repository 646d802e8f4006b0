(** The quotient, its residual and its rounding (no modelling here). *)
From Coq Require Import ZArith Reals Bool Lia Lra Psatz Znumtheory Zpow_facts.
From Flocq Require Import Core.
From Verif Require Import Base BaseLemmas FloatModel FloatSpec FloatDivModel FloatProofs FloatProofs2 FloatProofs3 FloatProofs4 FloatProofs5 FloatProofs6 FloatProofs7 FloatDivProofs2.
Open Scope Z_scope.

(** The part of div_finish after the quotient. *)
Definition div_tail (f : fmt) (half quotient_sign b_sig residual_lo quotient a_sig e : Z) : res Z :=
  let I := fI f in
  let inf_rep := EXP_MASK f in
  if EXP_SAT f <=? e then Ok (Z.lor inf_rep quotient_sign)
  else
    let* st := (if 0 <? e then
                  let* ee := cshl I (norm (UI 32) e) (fs f) in
                  let* r := cshl I residual_lo 1 in
                  Ok (Some (Z.lor (Z.land quotient (SIG_MASK f)) ee, r))
                else
                  let* d := cadd (SI 32) (fs f) e in
                  if d <? 0 then Ok None
                  else
                    let* s := ccast (UI 32) (wrapping_neg (SI 32) e) in
                    let* s := cadd (UI 32) s 1 in
                    let ret := wrapping_shr I quotient s in
                    let x := wrapping_shl I a_sig (wrapping_add (UI 32) (fs f) (norm (UI 32) e)) in
                    let* y := cshl I (wrapping_mul I ret b_sig) 1 in
                    Ok (Some (ret, wrapping_sub I x y))) in
    match st with
    | None => Ok quotient_sign
    | Some (abs_result, residual_lo) =>
        let* residual_lo := cadd I residual_lo (Z.land abs_result 1) in
        let* abs_result := cadd I abs_result (b2z (b_sig <? residual_lo)) in
        let* abs_result :=
          (if (fb f =? 128) || (fb f =? 32) && (0 <? half) then
             let* b3 := cmul I 3 b_sig in
             cadd I abs_result (b2z ((abs_result <? inf_rep) && (b3 <? residual_lo)))
           else Ok abs_result) in
        let* abs_result :=
          (if fb f =? 128 then
             let* b5 := cmul I 5 b_sig in
             cadd I abs_result (b2z ((abs_result <? inf_rep) && (b5 <? residual_lo)))
           else Ok abs_result) in
        Ok (Z.lor abs_result quotient_sign)
    end.

(** Rounding a quotient estimate [q] with residual [R]/2 of [D] that may be short by one unit. *)
Lemma rup_est A D q rho : 0 < D -> A = q * D + rho -> 0 <= rho < 2 * D -> (2 * rho = 3 * D -> False) ->
  A / D + rup A D = q + (b2z (D <? 2 * rho + q mod 2)) + b2z (3 * D <? 2 * rho).
Proof.
  intros HD E HR NT. pose proof (Z.mod_pos_bound q 2 ltac:(lia)) as Q2. destruct (Z_lt_le_dec rho D) as [L|G].
  - destruct (div_mod_unique A D q rho ltac:(lia) ltac:(lia)) as [E1 E2]. unfold rup. rewrite E1, E2.
    replace (3 * D <? 2 * rho) with false by (symmetry; apply Z.ltb_ge; lia). cbn [b2z].
    destruct (Z.compare_spec (2 * rho) D); destruct (Z.ltb_spec D (2 * rho + q mod 2)); cbn [b2z]; lia.
  - destruct (div_mod_unique A D (q + 1) (rho - D) ltac:(lia) ltac:(lia)) as [E1 E2]. unfold rup. rewrite E1, E2.
    replace (D <? 2 * rho + q mod 2) with true by (symmetry; apply Z.ltb_lt; lia). cbn [b2z].
    destruct (Z.compare_spec (2 * (rho - D)) D); destruct (Z.ltb_spec (3 * D) (2 * rho)); cbn [b2z]; lia.
Qed.

Section Fmt.
Context (f : fmt) (W : wf f).
Notation S := (2 ^ fs f).
Notation B := (2 ^ (fb f - 1)).
Notation u := (bpow radix2 (emin f)).

(** [pack] extended to the right end of the binade. *)
Lemma pack_le E A D : 1 <= E < 2 ^ eb f - 1 -> 0 < D -> 0 <= A <= 2 * S * D -> (E = 1 \/ S * D <= A) ->
  rmag f (IZR A / IZR D * bpow radix2 (E - 1) * u) (enc f E (A / D + rup A D)).
Proof using W.
  intros HE HD HA Hn. pose proof (S_pos f W) as SP. assert (0 < IZR D)%R by (apply IZR_lt; lia).
  replace (enc f E (A / D + rup A D)) with (enc f E (A / D) + rup A D) by (unfold enc; ring).
  destruct (Z.eq_dec A (2 * S * D)) as [->|]; [|apply pack; [assumption|lia|lia|lia|assumption]].
  rewrite Z.div_mul by lia. unfold rup. rewrite Z.mod_mul by lia. replace (2 * 0 ?= D) with Lt by (symmetry; apply Z.compare_lt_iff; lia).
  assert (IZR (2 * S * D) / IZR D * bpow radix2 (E - 1) * u = IZR (S * D) / IZR D * bpow radix2 (E + 1 - 1) * u)%R as ->.
  { replace (E + 1 - 1) with (1 + (E - 1)) by lia. rewrite bpow_plus, !mult_IZR. change (bpow radix2 1) with 2%R. field. lra. }
  destruct (Z.eq_dec E (2 ^ eb f - 2)) as [e|ne].
  - replace (enc f E (2 * S) + 0) with (inf f) by (rewrite inf_eq by assumption; unfold enc; subst E; ring).
    apply pack_over; [assumption|lia|lia|lia].
  - pose proof (pack f W (E + 1) (S * D) D ltac:(lia) HD ltac:(nia) ltac:(lia)) as P.
    rewrite Z.div_mul in P by lia. unfold rup in P. rewrite Z.mod_mul in P by lia. replace (2 * 0 ?= D) with Lt in P by (symmetry; apply Z.compare_lt_iff; lia).
    replace (enc f E (2 * S) + 0) with (enc f (E + 1) S + 0) by (unfold enc; ring). exact P.
Qed.

(** The increments, on either path. *)
Lemma div_inc half sg b ar rho2 m second : 0 <= ar -> 0 < b < 2 * S -> 0 <= rho2 -> rho2 < 4 * b ->
  second = ((fb f =? 128) || (fb f =? 32) && (0 <? half)) ->
  (second = false -> rho2 < 3 * b) -> (rho2 <> 3 * b) ->
  (3 * b < rho2 -> ar + 1 < inf f) -> ar + 1 <= inf f ->
  m = ar + b2z (b <? rho2 + ar mod 2) + b2z (3 * b <? rho2) ->
  (let I := fI f in
   let* residual_lo := cadd I rho2 (Z.land ar 1) in
        let* abs_result := cadd I ar (b2z (b <? residual_lo)) in
        let* abs_result :=
          (if (fb f =? 128) || (fb f =? 32) && (0 <? half) then
             let* b3 := cmul I 3 b in
             cadd I abs_result (b2z ((abs_result <? EXP_MASK f) && (b3 <? residual_lo)))
           else Ok abs_result) in
        let* abs_result :=
          (if fb f =? 128 then
             let* b5 := cmul I 5 b in
             cadd I abs_result (b2z ((abs_result <? EXP_MASK f) && (b5 <? residual_lo)))
           else Ok abs_result) in
        Ok (Z.lor abs_result sg)) = Ok (Z.lor m sg).
Proof using W.
  intros Ha Hb Hr Hr4 Hs Hns Hne Hinf Hinf2 ->. pose proof (inf_pos f W). pose proof (fb_eq f W) as FE. pose proof (S_big f W). pose proof (EB_big f W) as EBg. pose proof (B_eq f W) as BE.
  assert (64 * S <= 2 ^ fb f) as NB by (rewrite FE, BE; pose proof (Z.mul_le_mono_nonneg_l 32 (2 ^ eb f) S); lia).
  assert (Z.land ar 1 = ar mod 2) as -> by (change 1 with (2 ^ 1 - 1) at 1; rewrite land_ones_mod by lia; reflexivity).
  pose proof (Z.mod_pos_bound ar 2 ltac:(lia)) as A2. cbv zeta. unfold fI. rewrite (EXP_MASK_eq f W).
  assert (forall c, 0 <= b2z c <= 1) as BB by (intros []; cbn; lia).
  rewrite (cadd_u (fb f) rho2) by lia. cbn [bind]. pose proof (BB (b <? rho2 + ar mod 2)).
  rewrite (cadd_u (fb f) ar) by lia. cbn [bind]. rewrite <- Hs.
  assert (second = true -> ((ar + b2z (b <? rho2 + ar mod 2) <? inf f) && (3 * b <? rho2 + ar mod 2)) = (3 * b <? rho2)) as T.
  { intros _. destruct (Z.ltb_spec (3 * b) rho2) as [L|G].
    - specialize (Hinf L). replace (3 * b <? rho2 + ar mod 2) with true by (symmetry; apply Z.ltb_lt; lia). rewrite andb_true_r. apply Z.ltb_lt. lia.
    - replace (3 * b <? rho2 + ar mod 2) with false by (symmetry; apply Z.ltb_ge; lia). apply andb_false_r. }
  assert ((if second then let* b3 := cmul (UI (fb f)) 3 b in cadd (UI (fb f)) (ar + b2z (b <? rho2 + ar mod 2)) (b2z ((ar + b2z (b <? rho2 + ar mod 2) <? inf f) && (b3 <? rho2 + ar mod 2)))
     else Ok (ar + b2z (b <? rho2 + ar mod 2))) = Ok (ar + b2z (b <? rho2 + ar mod 2) + b2z (3 * b <? rho2))) as ->.
  { destruct second.
    - rewrite cmul_u by lia. cbn [bind]. rewrite T by reflexivity. pose proof (BB (3 * b <? rho2)). apply cadd_u. lia.
    - replace (3 * b <? rho2) with false by (symmetry; apply Z.ltb_ge; specialize (Hns eq_refl); lia). cbn [b2z]. f_equal. lia. }
  cbn [bind]. pose proof (BB (3 * b <? rho2)).
  destruct (fb f =? 128); [|reflexivity]. rewrite cmul_u by lia. cbn [bind].
  replace (5 * b <? rho2 + ar mod 2) with false by (symmetry; apply Z.ltb_ge; lia). rewrite andb_false_r. cbn [b2z]. rewrite cadd_u by lia. cbn [bind]. do 2 f_equal. lia.
Qed.

(** No exact halfway case between normal results. *)
Lemma no_tie a b Q : 0 < b < 2 * S -> 2 * (a * S - Q * b) = 3 * b -> False.
Proof using W.
  intros Hb E. assert (2 * S * a = (2 * Q + 3) * b) as E2 by lia. pose proof (wf_s f W).
  assert (rel_prime (2 * S) (2 * Q + 3)) as RP.
  { replace (2 * S) with (2 ^ (fs f + 1)) by (rewrite pow2_add by lia; lia).
    apply rel_prime_sym. apply rel_prime_Zpower_r; [lia|]. apply rel_prime_sym. apply prime_rel_prime; [apply prime_2|]. intros [k Hk]. lia. }
  assert ((2 * S | b)) as D by (apply Gauss with (2 * Q + 3); [exists a; lia|assumption]).
  apply Z.divide_pos_le in D; lia.
Qed.

Lemma div_tail_ok half s a b Q r e : 0 < a -> a <= 2 * b -> S <= b < 2 * S -> S <= Q < 2 * S -> r = a * S - Q * b -> 0 < r < 2 * b ->
  (((fb f =? 128) || (fb f =? 32) && (0 <? half)) = false -> 2 * r < 3 * b) -> - 100000 < e < 100000 ->
  exists m, div_tail f half (b2z s * B) b r Q a e = Ok (b2z s * B + m) /\ rmag f (IZR (a * S) / IZR b * bpow radix2 (e - 1) * u) m.
Proof using W.
  intros Ha Hab Hb HQ Er Hr Hns He. pose proof (inf_pos f W) as IP. pose proof (fb_eq f W) as FE. pose proof (S_big f W) as SB. pose proof (EB_big f W) as EBg. pose proof (B_eq f W) as BE.
  pose proof (wf_s f W) as w1. pose proof (wf_b f W) as w2. pose proof (wf_e f W) as w3. pose proof (wf_128 f W) as w4. pose proof (S_even f W) as SE.
  pose proof (fb_big f W) as (F1 & F2 & F3).
  assert (64 * S <= 2 ^ fb f) as NB by (rewrite FE, BE; pose proof (Z.mul_le_mono_nonneg_l 32 (2 ^ eb f) S); lia). assert (0 < 2 ^ (fs f - 1)) as h0 by lia.
  assert (a * S = Q * b + r) as EA by lia. assert (a * S <= 2 * S * b) as LA by (pose proof (Z.mul_le_mono_nonneg_r a (2 * b) S); lia). assert (S * b <= a * S) as GA by (pose proof (Z.mul_le_mono_nonneg_r S Q b); lia).
  assert (forall m, 0 <= m <= inf f -> Z.lor m (b2z s * B) = b2z s * B + m) as LO by (intros m Hm; rewrite lor_add_low; lia).
  unfold div_tail. cbv zeta. rewrite (EXP_SAT_eq f W), (SIG_MASK_eq f W).
  destruct (Z.leb_spec (2 ^ eb f - 1) e) as [OV|OV].
  { rewrite (EXP_MASK_eq f W), LO by lia. eexists. split; [reflexivity|]. apply pack_over; [assumption|lia|lia|lia]. }
  destruct (Z.ltb_spec 0 e) as [NO|SU].
  - unfold fI at 1 2. rewrite (norm_u_id 32 e) by (change (2 ^ 32) with 4294967296; lia).
    assert (0 <= e * S < 2 ^ fb f) as ES by (rewrite FE, BE; pose proof (Z.mul_le_mono_nonneg_r e (2 ^ eb f) S); pose proof (Z.mul_nonneg_nonneg e S); lia).
    assert (0 <= (e - 1) * S) as ES1 by (apply Z.mul_nonneg_nonneg; lia). assert ((e + 1) * S <= (2 ^ eb f - 1) * S) as ES2 by (apply Z.mul_le_mono_nonneg_r; lia).
    rewrite cshl_u_exact by lia. cbn [bind]. rewrite cshl_u_exact by (change (2 ^ 1) with 2; lia). cbn [bind].
    rewrite land_ones_mod by lia. assert (Q mod S = Q - S) as -> by (symmetry; apply Z.mod_unique with 1; lia).
    rewrite lor_add_low by lia. change (2 ^ 1) with 2. replace (Q - S + e * S) with (enc f e Q) by (unfold enc; ring).
    assert (enc f e Q mod 2 = Q mod 2) as PAR by (unfold enc; rewrite SE; replace ((e - 1) * (2 * 2 ^ (fs f - 1)) + Q) with (Q + ((e - 1) * 2 ^ (fs f - 1)) * 2) by ring; apply Z_mod_plus_full).
    pose proof (rup_est (a * S) b Q r ltac:(lia) EA ltac:(lia)) as RE.
    assert (2 * r <> 3 * b) as NT by (intros T; apply (no_tie a b Q); [lia|]; rewrite <- Er; exact T).
    specialize (RE ltac:(lia)).
    set (m := enc f e (a * S / b + rup (a * S) b)).
    pose proof (pack_le e (a * S) b ltac:(lia) ltac:(lia) ltac:(lia) ltac:(lia)) as P. fold m in P.
    assert (enc f e Q + 1 <= inf f) as I1 by (rewrite (inf_eq f W); unfold enc; lia).
    exists m. split; [|exact P].
    rewrite <- (LO m) by apply P.
    replace (r * 2) with (2 * r) by ring.
    assert (3 * b < 2 * r -> enc f e Q + 1 < inf f) as I2.
    { intros H3. assert (Q + 2 <= 2 * S) by (destruct (Z_le_gt_dec (Q + 2) (2 * S)); [assumption|]; pose proof (Z.mul_le_mono_nonneg_r (2 * S - 1) Q b); lia). rewrite (inf_eq f W). unfold enc. lia. }
    assert (m = enc f e Q + b2z (b <? 2 * r + enc f e Q mod 2) + b2z (3 * b <? 2 * r)) as Em.
    { unfold m. rewrite RE, PAR. unfold enc. ring. }
    assert (0 <= enc f e Q) as I3 by (unfold enc; lia).
    exact (div_inc half (b2z s * B) b (enc f e Q) (2 * r) m _ I3 ltac:(lia) ltac:(lia) ltac:(lia) eq_refl Hns NT I2 I1 Em).
  - unfold cadd at 1. rewrite chk_s32 by (change (2 ^ 31) with 2147483648; lia). cbn [bind].
    pose proof (pow2_pos (1 - e) ltac:(lia)) as P1.
    set (D := b * 2 ^ (1 - e)). assert (0 < D) as D0 by (apply Z.mul_pos_pos; lia).
    assert (forall m, rmag f (IZR (a * S) / IZR D * bpow radix2 (1 - 1) * u) m -> rmag f (IZR (a * S) / IZR b * bpow radix2 (e - 1) * u) m) as RM.
    { intros m. replace (IZR (a * S) / IZR b * bpow radix2 (e - 1) * u)%R with (IZR (a * S) / IZR D * bpow radix2 (1 - 1) * u)%R; [auto|].
      f_equal. unfold D. rewrite (mult_IZR b). change (2 ^ (1 - e)) with (Zpower radix2 (1 - e)). rewrite (IZR_Zpower radix2 (1 - e)) by lia. replace (e - 1) with (- (1 - e)) by lia. rewrite bpow_opp. change (bpow radix2 (1 - 1)) with 1%R.
      assert (0 < IZR b)%R by (apply IZR_lt; lia). pose proof (bpow_gt_0 radix2 (1 - e)). field. split; lra. }
    assert (2 <= 2 ^ (1 - e)) as P2 by (change 2 with (2 ^ 1) at 1; apply pow2_le; lia).
    assert (2 * b <= D) as Db by (unfold D; pose proof (Z.mul_le_mono_nonneg_l 2 (2 ^ (1 - e)) b); lia).
    assert (0 <= a * S <= 2 * S * D) as AD by (pose proof (Z.mul_le_mono_nonneg_l b D (2 * S)); pose proof (Z.mul_nonneg_nonneg a S); lia).
    pose proof (pack_le 1 (a * S) D ltac:(lia) D0 AD ltac:(lia)) as P. apply RM in P. clear RM.
    replace (enc f 1 (a * S / D + rup (a * S) D)) with (a * S / D + rup (a * S) D) in P by (unfold enc; ring).
    destruct (Z.ltb_spec (fs f + e) 0) as [TI|SU2].
    + cbn [bind]. exists 0. split; [f_equal; lia|].
      assert (4 * S * b <= D) as DB.
      { unfold D. assert (2 ^ (fs f + 2) <= 2 ^ (1 - e)) as L by (apply pow2_le; lia). rewrite pow2_add in L by lia. change (2 ^ 2) with 4 in L. pose proof (Z.mul_le_mono_nonneg_l (S * 4) (2 ^ (1 - e)) b). lia. }
      assert (a * S / D + rup (a * S) D = 0) as Z0.
      { unfold rup. rewrite Z.div_small, Z.mod_small by lia. 
        destruct (Z.compare_spec (2 * (a * S)) D); cbn; lia. }
      rewrite Z0 in P. exact P.
    + unfold wrapping_neg. rewrite norm_s32 by (change (2 ^ 31) with 2147483648; lia).
      unfold ccast. rewrite chk_u by (change (2 ^ 32) with 4294967296; lia). cbn [bind].
      rewrite (cadd_u 32) by (change (2 ^ 32) with 4294967296; lia). cbn [bind].
      unfold wrapping_shr, wrapping_shl, wrapping_add, wrapping_mul, wrapping_sub, fI. cbn [bits UI].
      rewrite (Z.mod_small (- e + 1)) by lia. rewrite shiftr_div by lia. replace (- e + 1) with (1 - e) by lia.
      set (ret := Q / 2 ^ (1 - e)).
      assert (norm (UI 32) (fs f + norm (UI 32) e) = fs f + e) as ->.
      { rewrite !norm_u, Zplus_mod_idemp_r. apply Z.mod_small. change (2 ^ 32) with 4294967296. lia. }
      rewrite (Z.mod_small (fs f + e)) by lia. rewrite shiftl_mul by lia.
      rewrite cshl_ok by (cbn [bits UI]; lia). cbn [bind]. change (2 ^ 1) with 2.
      pose proof (Z.div_mod Q (2 ^ (1 - e)) ltac:(lia)) as DQ. pose proof (Z.mod_pos_bound Q (2 ^ (1 - e)) ltac:(lia)) as RQ. fold ret in DQ.
      set (mm := Q mod 2 ^ (1 - e)) in *.
      assert (0 <= ret < S) as Hret. { unfold ret. split; [apply Z.div_pos; lia|]. apply Z.div_lt_upper_bound; [lia|]. pose proof (Z.mul_le_mono_nonneg_r 2 (2 ^ (1 - e)) S). lia. }
      set (R := a * 2 ^ (fs f + e) - ret * b * 2).
      set (rho := a * S - ret * D).
      assert (S * 2 = 2 ^ (fs f + e) * 2 ^ (1 - e)) as SS by (rewrite <- pow2_add by lia; rewrite Z.mul_comm, <- (pow2_add 1) by lia; f_equal; lia).
      assert (R * 2 ^ (1 - e) = 2 * rho) as ER.
      { unfold R, rho, D. replace (2 * (a * S - ret * (b * 2 ^ (1 - e)))) with (a * (S * 2) - ret * b * 2 * 2 ^ (1 - e)) by ring. rewrite SS. ring. }
      assert (rho = mm * b + r) as Erho by (unfold rho, D; rewrite EA, DQ; ring).
      assert (0 <= rho < D + b) as Hrho by (rewrite Erho; unfold D; pose proof (Z.mul_le_mono_nonneg_r (mm + 1) (2 ^ (1 - e)) b); pose proof (Z.mul_nonneg_nonneg mm b); lia).
      assert (0 <= R < 3 * b) as HR. { assert (2 * rho < 3 * D) as A by lia. rewrite <- ER in A. unfold D in A. split.
        - apply Z.mul_le_mono_pos_r with (p := 2 ^ (1 - e)); lia.
        - apply Z.mul_lt_mono_pos_r with (p := 2 ^ (1 - e)); lia. }
      assert (norm (UI (fb f)) (norm (UI (fb f)) (a * 2 ^ (fs f + e)) - norm (UI (fb f)) (norm (UI (fb f)) (ret * b) * 2)) = R) as ->.
      { rewrite !norm_u. rewrite Zmult_mod_idemp_l, <- Zminus_mod. fold R. apply Z.mod_small. lia. }
      pose proof (rup_est (a * S) D ret rho D0 ltac:(unfold rho; ring) ltac:(lia) ltac:(lia)) as RE.
      assert ((D <? 2 * rho + ret mod 2) = (b <? R + ret mod 2)) as C1.
      { pose proof (Z.mod_pos_bound ret 2 ltac:(lia)). rewrite <- ER. unfold D. set (J := 2 ^ (1 - e)) in *. set (par := ret mod 2) in *. clearbody J par.
        destruct (Ztrichotomy R b) as [L|[EQ|G]].
        - assert ((R + 1) * J <= b * J) by (apply Z.mul_le_mono_nonneg_r; lia). rewrite (proj2 (Z.ltb_ge b (R + par))) by lia. apply Z.ltb_ge. lia.
        - rewrite EQ. destruct (Z.ltb_spec b (b + par)); [apply Z.ltb_lt|apply Z.ltb_ge]; lia.
        - assert ((b + 1) * J <= R * J) by (apply Z.mul_le_mono_nonneg_r; lia). rewrite (proj2 (Z.ltb_lt b (R + par))) by lia. apply Z.ltb_lt. lia. }
      assert ((3 * D <? 2 * rho) = (3 * b <? R)) as C2.
      { rewrite (proj2 (Z.ltb_ge (3 * b) R)) by lia. apply Z.ltb_ge. lia. }
      rewrite C1, C2 in RE.
      eexists. split; [|exact P]. rewrite <- LO by apply P.
      exact (div_inc half (b2z s * B) b ret R _ _ ltac:(lia) ltac:(lia) ltac:(lia) ltac:(lia) eq_refl ltac:(lia) ltac:(lia) ltac:(lia) ltac:(lia) RE).
Qed.
End Fmt.
