(** Proofs about IntModel.v: overflow-checked multiplication, the shift-and-add
    loop, bit counting, byte swapping. *)
From Coq Require Import ZArith Bool List Lia ZifyBool.
From Verif Require Import Base BaseLemmas IntModel IntProofs IntProofs2.
Import ListNotations.
Open Scope Z_scope.

(** ** umulo *)
Lemma widen_mul_u h a b : 0 < h -> 0 <= a < 2 ^ h -> 0 <= b < 2 ^ h -> widen_mul (UI h) a b = a * b.
Proof.
  intros. unfold widen_mul, wrapping_mul, widen. change (dbl (UI h)) with (UI (2 * h)).
  rewrite !norm_u, pow2_dbl by lia. pose proof (pow2_pos h).
  assert (2 ^ h <= 2 ^ h * 2 ^ h) by nia.
  rewrite (Z.mod_small a), (Z.mod_small b), Z.mod_small by nia. reflexivity.
Qed.

Lemma umulo_correct h a b : 0 < h -> 0 <= a < 2 ^ (2 * h) -> 0 <= b < 2 ^ (2 * h) ->
  umulo (UI (2 * h)) a b = ((a * b) mod 2 ^ (2 * h), 2 ^ (2 * h) <=? a * b).
Proof.
  intros Hh Ha Hb. unfold umulo. rewrite !hi_u by auto. rewrite half_u by auto.
  rewrite !lo_u by auto.
  pose proof (pow2_pos h ltac:(lia)) as HP. bnd a h. bnd b h.
  assert (forall x, widen_hi (UI h) x = (x * 2 ^ h) mod 2 ^ (2 * h)) as EWH.
  { intros. rewrite <- (half_u h) by lia. now apply (widen_hi_eq (UI (2 * h)) h). }
  assert (2 ^ (2 * h) = 2 ^ h * 2 ^ h) as EP by (apply pow2_dbl; lia).
  assert (forall l x y, 0 <= l < 2 ^ h -> 0 <= x < 2 ^ h -> 0 <= y < 2 ^ h ->
    (let '(m, o) := overflowing_add (UI (2 * h)) (widen_mul (UI h) l x)
        (widen_hi (UI h) (widen_mul (UI h) l y mod 2 ^ h)) in
     (m, o || negb (hi (UI (2 * h)) (widen_mul (UI h) l y) =? 0)))
    = ((l * (x + y * 2 ^ h)) mod 2 ^ (2 * h), 2 ^ (2 * h) <=? l * (x + y * 2 ^ h))) as Hcase.
  { intros l x y Hl Hx Hy. rewrite !widen_mul_u by auto. rewrite EWH.
    rewrite hi_u by (auto; rewrite EP; nia).
    unfold overflowing_add. rewrite norm_u.
    set (m := l * y). assert (0 <= m < 2 ^ h * 2 ^ h) by (unfold m; nia).
    assert ((m mod 2 ^ h * 2 ^ h) mod 2 ^ (2 * h) = m mod 2 ^ h * 2 ^ h) as ->.
    { apply Z.mod_small. bnd m h. nia. }
    f_equal.
    - apply mod_congr. exists (- (m / 2 ^ h)). rewrite (Z.mod_eq m) by lia.
      rewrite EP. unfold m. ring.
    - unfold fitsb, imin, imax, UI; cbn [signed bits]. rewrite EP.
      pose proof (Z.div_mod m (2 ^ h) ltac:(lia)) as Dm. bnd m h.
      assert (0 <= m / 2 ^ h) by (apply Z.div_pos; lia).
      replace (l * (x + y * 2 ^ h)) with (l * x + m * 2 ^ h) by (unfold m; ring).
      assert (0 <= l * x) by nia.
      destruct (Z.eqb_spec (m / 2 ^ h) 0) as [E0|E0].
      + assert (m mod 2 ^ h = m) by lia. rewrite H5 in *. cbn [negb]. rewrite orb_false_r.
        assert (0 <= l * x + m * 2 ^ h) by nia. lia.
      + cbn [negb]. rewrite orb_true_r. symmetry. apply Z.leb_le. nia. }
  destruct (Z.eqb_spec (a / 2 ^ h) 0) as [Ea|Ea]; destruct (Z.eqb_spec (b / 2 ^ h) 0) as [Eb|Eb];
    pose proof (Z.div_mod a (2 ^ h) ltac:(lia)) as Da; pose proof (Z.div_mod b (2 ^ h) ltac:(lia)) as Db.
  - rewrite Ea in Da. rewrite Eb in Db. rewrite widen_mul_u by auto.
    assert (a = a mod 2 ^ h) as Ea' by lia. assert (b = b mod 2 ^ h) as Eb' by lia.
    rewrite <- Ea', <- Eb'. f_equal; [rewrite Z.mod_small; [reflexivity|]; nia|]. symmetry. apply Z.leb_gt. nia.
  - rewrite Ea in Da. assert (a mod 2 ^ h = a) as Ea' by lia. rewrite Ea'.
    rewrite Hcase; try lia.
    + replace (b mod 2 ^ h + b / 2 ^ h * 2 ^ h) with b by lia. reflexivity.
    + split; [apply Z.div_pos; lia|]. apply Z.div_lt_upper_bound; lia.
  - rewrite Eb in Db. assert (b mod 2 ^ h = b) as Eb' by lia. rewrite Eb'.
    rewrite Hcase; try lia.
    + replace (a mod 2 ^ h + a / 2 ^ h * 2 ^ h) with a by lia. now rewrite Z.mul_comm.
    + split; [apply Z.div_pos; lia|]. apply Z.div_lt_upper_bound; lia.
  - unfold wrapping_mul. rewrite norm_u. f_equal. symmetry. apply Z.leb_le.
    assert (1 <= a / 2 ^ h) by (assert (0 <= a / 2 ^ h) by (apply Z.div_pos; lia); lia).
    assert (1 <= b / 2 ^ h) by (assert (0 <= b / 2 ^ h) by (apply Z.div_pos; lia); lia).
    assert (2 ^ h <= a) by nia. assert (2 ^ h <= b) by nia. nia.
Qed.

Lemma signed_mulo_correct h a b : 0 < h -> fits (SI (2 * h)) a -> fits (SI (2 * h)) b ->
  signed_mulo (2 * h) a b = (norm (SI (2 * h)) (a * b), negb (fitsb (SI (2 * h)) (a * b))).
Proof.
  intros Hh Ha Hb. set (n := 2 * h) in *.
  assert (0 < n) as Hn by lia.
  pose proof (pow2_S n Hn) as EP. pose proof (pow2_pos (n - 1) ltac:(lia)) as HP.
  set (P := 2 ^ (n - 1)) in *.
  rewrite fits_s in Ha, Hb. fold P in Ha, Hb.
  assert (0 < bits (SI n)) as Hbn by exact Hn.
  unfold signed_mulo.
  destruct (Z.eqb_spec a 0); [subst a; cbn [orb]; rewrite Z.mul_0_l|].
  { rewrite norm_id by (auto; apply fits_s; fold P; lia).
    f_equal. unfold fitsb, imin, imax; cbn [bits signed SI]. fold P. lia. }
  destruct (Z.eqb_spec b 0); [subst b; cbn [orb]; rewrite Z.mul_0_r|].
  { rewrite norm_id by (auto; apply fits_s; fold P; lia).
    f_equal. unfold fitsb, imin, imax; cbn [bits signed SI]. fold P. lia. }
  cbn [orb].
  assert (forall x, - P <= x < P -> x <> 0 ->
     norm (UI n) (if x <? 0 then wrapping_neg (SI n) x else x) = Z.abs x) as Habs.
  { intros x Hx Hx0. rewrite norm_u. destruct (Z.ltb_spec x 0).
    - unfold wrapping_neg. destruct (norm_eq_mod (SI n) Hbn (- x)) as [k ->].
      rewrite bits_s, Z_mod_plus_full. rewrite Z.mod_small by lia. lia.
    - rewrite Z.mod_small by lia. lia. }
  rewrite !Habs by auto.
  unfold n at 1. rewrite umulo_correct by (auto; fold n; lia). fold n.
  set (A := Z.abs a) in *. set (B := Z.abs b) in *.
  assert (A * B = Z.abs (a * b)) as EAB by (unfold A, B; rewrite Z.abs_mul; reflexivity).
  assert (1 <= A * B) as HAB by (unfold A, B; nia).
  assert (A * B <= P * P) as HABu by (unfold A, B; nia).
  set (neg := negb (eqb (a <? 0) (b <? 0))).
  assert (a * b = if neg then - (A * B) else A * B) as Eab.
  { unfold neg, A, B. destruct (Z.ltb_spec a 0); destruct (Z.ltb_spec b 0); cbn [eqb negb]; nia. }
  set (m := A * B) in *. clearbody m. rewrite EP in *.
  rewrite Eab. clear Eab EAB Habs. clearbody neg A B.
  set (r := if neg then wrapping_neg (SI n) (norm (SI n) (m mod (2 * P))) else norm (SI n) (m mod (2 * P))).
  assert (r = norm (SI n) (if neg then - m else m)) as Er.
  { unfold r, wrapping_neg. destruct neg.
    - rewrite <- !(Z.sub_0_l). rewrite norm_sub_r by exact Hn.
      apply norm_congr. rewrite bits_s, EP. exists (m / (2 * P)). rewrite Z.mod_eq by lia. ring.
    - apply norm_congr. rewrite bits_s, EP. exists (- (m / (2 * P))). rewrite Z.mod_eq by lia. ring. }
  rewrite <- Er.
  destruct (norm_eq_mod (SI n) Hbn (if neg then - m else m)) as [k Hk].
  pose proof (norm_fits (SI n) Hbn (if neg then - m else m)) as Hf.
  rewrite <- Er in Hk, Hf. rewrite bits_s, EP in Hk. apply fits_s in Hf. fold P in Hf.
  unfold fitsb, imin, imax; cbn [bits signed SI]. fold P.
  destruct (Z.leb_spec (2 * P) m).
  - (* unsigned overflow *)
    destruct (eqb (r <? 0) neg); cbn [negb]; f_equal; destruct neg; lia.
  - assert (k = -1 \/ k = 0 \/ k = 1) as [-> | [-> | ->]] by (destruct neg; nia);
    destruct neg; destruct (Z.ltb_spec r 0); cbn [eqb negb]; f_equal; lia.
Qed.

(** ** shift-and-add loop *)
Lemma peasant_loop_correct n fuel a b r :
  1 < n -> 0 <= a < 2 ^ Z.of_nat fuel -> 0 <= r < 2 ^ n ->
  peasant_loop (S fuel) n a b r = Ok ((r + a * b) mod 2 ^ n).
Proof.
  intros Hn. revert a b r. induction fuel as [|fuel IH]; intros a b r Ha Hr.
  - change (2 ^ Z.of_nat 0) with 1 in Ha. assert (a = 0) as -> by lia.
    cbn. rewrite Z.add_0_r, Z.mod_small by lia. reflexivity.
  - remember (S fuel) as f. cbn [peasant_loop]. subst f.
    destruct (Z.ltb_spec 0 a).
    2:{ assert (a = 0) as -> by lia. rewrite Z.mul_0_l, Z.add_0_r, Z.mod_small by lia. reflexivity. }
    rewrite cshr_ok, cshl_ok by (rewrite bits_u; lia). cbn [bind].
    change (2 ^ 1) with 2. rewrite norm_u.
    rewrite Nat2Z.inj_succ, Z.pow_succ_r in Ha by lia.
    assert (0 < 2 ^ n) by (apply pow2_pos; lia).
    rewrite IH.
    2:{ split; [apply Z.div_pos; lia|]. apply Z.div_lt_upper_bound; lia. }
    2:{ unfold wrapping_add; rewrite norm_u. destruct (0 <? Z.land a 1); [apply Z.mod_pos_bound; lia|lia]. }
    f_equal. change 1 with (2 ^ 1 - 1) at 1. rewrite land_ones_mod by lia. change (2 ^ 1) with 2.
    pose proof (Z.div_mod a 2). pose proof (Z.mod_pos_bound a 2).
    unfold wrapping_add; rewrite norm_u.
    rewrite <- Zplus_mod_idemp_r, Zmult_mod_idemp_r, Zplus_mod_idemp_r.
    destruct (Z.ltb_spec 0 (a mod 2)).
    + rewrite Zplus_mod_idemp_l. f_equal. assert (a mod 2 = 1) by lia.
      replace a with (2 * (a / 2) + 1) at 2 by lia. ring.
    + f_equal. replace a with (2 * (a / 2)) at 2 by lia. ring.
Qed.
Lemma peasant_mul_correct n a b : 1 < n -> 0 <= a < 2 ^ n -> peasant_mul n a b = Ok ((a * b) mod 2 ^ n).
Proof.
  intros. unfold peasant_mul. rewrite peasant_loop_correct; try lia.
  - now rewrite Z.add_0_l.
  - rewrite Z2Nat.id by lia. lia.
Qed.

(** ** leading zeros *)
Definition bitlen (x : Z) : Z := if x <=? 0 then 0 else Z.log2 x + 1.
Lemma bitlen_nlz n x : nlz n x = n - bitlen x.
Proof. unfold nlz, bitlen. destruct (x <=? 0); lia. Qed.
Lemma bitlen_shift x k : 0 <= k -> 0 <= x -> x / 2 ^ k <> 0 -> bitlen (x / 2 ^ k) = bitlen x - k.
Proof.
  intros Hk Hx Hne. pose proof (pow2_pos k Hk).
  assert (0 < x / 2 ^ k) by (assert (0 <= x / 2 ^ k) by (apply Z.div_pos; lia); lia).
  assert (0 < x). { destruct (Z.eq_dec x 0); [subst; rewrite Z.div_0_l in *; lia|lia]. }
  unfold bitlen. replace (x <=? 0) with false by lia. replace (x / 2 ^ k <=? 0) with false by lia.
  rewrite <- shiftr_div by lia. rewrite Z.log2_shiftr by lia.
  assert (k <= Z.log2 x). { apply Z.log2_le_pow2; [lia|].
    destruct (Z_lt_le_dec x (2 ^ k)); [|lia]. rewrite Z.div_small in * by lia. lia. }
  lia.
Qed.
Lemma bitlen_bounds x n : 0 <= n -> 0 <= x < 2 ^ n -> 0 <= bitlen x <= n.
Proof.
  intros Hn Hx. unfold bitlen. destruct (Z.leb_spec x 0); [lia|].
  assert (Z.log2 x < n) by (apply Z.log2_lt_pow2; lia). pose proof (Z.log2_nonneg x). lia.
Qed.

Lemma div_zero_lt x k : 0 <= k -> 0 <= x -> x / 2 ^ k = 0 -> x < 2 ^ k.
Proof. intros Hk Hx E. pose proof (pow2_pos k Hk). apply Z.div_small_iff in E; lia. Qed.

Lemma clz_step_ok usz k x z : 16 <= usz -> 0 < k -> 0 <= x < 2 ^ (2 * k) -> bitlen x <= z <= 64 ->
  exists x' z', clz_step usz k (x, z) = Ok (x', z') /\ 0 <= x' < 2 ^ k /\ z' - bitlen x' = z - bitlen x
     /\ bitlen x' <= z' <= 64.
Proof.
  intros Hu Hk Hx Hz. unfold clz_step. rewrite shiftr_div by lia.
  pose proof (pow2_pos k ltac:(lia)). rewrite pow2_dbl in Hx by lia.
  assert (64 < 2 ^ usz). { assert (2 ^ 16 <= 2 ^ usz) by (apply pow2_le; lia). change (2 ^ 16) with 65536 in *. lia. }
  destruct (Z.eqb_spec (x / 2 ^ k) 0); cbn [negb].
  - exists x, z. split; [reflexivity|]. pose proof (div_zero_lt x k). lia.
  - pose proof (bitlen_shift x k ltac:(lia) ltac:(lia) n).
    assert (0 <= x / 2 ^ k < 2 ^ k). { split; [apply Z.div_pos; lia|]. apply Z.div_lt_upper_bound; lia. }
    pose proof (bitlen_bounds (x / 2 ^ k) k ltac:(lia) ltac:(lia)).
    rewrite csub_u by lia. cbn [bind]. exists (x / 2 ^ k), (z - k). split; [reflexivity|]. lia.
Qed.

Ltac use_clz L :=
  match goal with |- context[L ?u ?k (?x, ?z)] =>
    let x' := fresh "x" in let z' := fresh "z" in let E := fresh "E" in
    destruct (clz_step_ok u k x z) as (x' & z' & E & ? & ? & ?); [lia|lia|lia|lia|]; rewrite E; clear E; cbn [bind]
  end.

Lemma leading_zeros_default_correct usz n x : 16 <= usz -> n = 16 \/ n = 32 \/ n = 64 -> 0 <= x < 2 ^ n ->
  leading_zeros_default usz n x = Ok (nlz n x).
Proof.
  intros Hu Hn Hx. rewrite bitlen_nlz.
  assert (64 < 2 ^ usz). { assert (2 ^ 16 <= 2 ^ usz) by (apply pow2_le; lia). change (2 ^ 16) with 65536 in *. lia. }
  pose proof (bitlen_bounds x n ltac:(lia) Hx).
  unfold leading_zeros_default.
  assert (forall x z, 0 <= x < 2 ^ 16 -> bitlen x <= z <= 64 ->
    (let* st := clz_step usz 8 (x, z) in
     let* st := clz_step usz 4 st in
     let* st := clz_step usz 2 st in
     let '(x, z) := st in
     let t := Z.shiftr x 1 in
     if negb (t =? 0) then csub (UI usz) z 2
     else let* c := ccast (UI usz) x in csub (UI usz) z c) = Ok (z - bitlen x)) as Htail.
  { clear x Hx H0. intros x z Hx Hz.
    destruct (clz_step_ok usz 8 x z) as (x1 & z1 & -> & H1 & H2 & H3); try lia. cbn [bind].
    destruct (clz_step_ok usz 4 x1 z1) as (x2 & z2 & -> & H4 & H5 & H6); try lia. cbn [bind].
    destruct (clz_step_ok usz 2 x2 z2) as (x3 & z3 & -> & H7 & H8 & H9); try lia. cbn [bind].
    change (2 ^ 2) with 4 in *.
    assert (x3 = 0 \/ x3 = 1 \/ x3 = 2 \/ x3 = 3) as [-> | [-> | [-> | ->]]] by lia;
      cbn [Z.shiftr Z.shiftl Z.opp Z.eqb negb] in *; cbn in H8, H9;
      unfold ccast; rewrite ?chk_ok by (apply fits_u; lia); cbn [bind];
      cbn - [csub]; rewrite csub_u by lia; f_equal; lia. }
  destruct Hn as [-> | [-> | ->]]; cbn [Z.leb Z.compare Pos.compare Pos.compare_cont bind].
  - apply Htail; lia.
  - change (32 <=? 32) with true; change (64 <=? 32) with false; cbn [bind].
    destruct (clz_step_ok usz 16 x 32) as (x1 & z1 & -> & H1 & H2 & H3); try lia. cbn [bind].
    rewrite Htail by lia. f_equal. lia.
  - change (32 <=? 64) with true; change (64 <=? 64) with true; cbn [bind].
    destruct (clz_step_ok usz 32 x 64) as (x1 & z1 & -> & H1 & H2 & H3); try lia. cbn [bind].
    destruct (clz_step_ok usz 16 x1 z1) as (x2 & z2 & -> & H4 & H5 & H6); try lia. cbn [bind].
    rewrite Htail by lia. f_equal. lia.
Qed.

Lemma clz_condset_step_ok n lg k x z : 0 <= lg < 6 -> k = 2 ^ lg -> k < n ->
  0 <= x < 2 ^ (2 * k) -> x < 2 ^ n -> bitlen x <= z <= 64 ->
  exists x' z', clz_condset_step n k lg (x, z) = Ok (x', z') /\ 0 <= x' < 2 ^ k /\ z' - bitlen x' = z - bitlen x
     /\ bitlen x' <= z' <= 64 /\ x' < 2 ^ n.
Proof.
  intros Hlg Ek Hk Hx Hxn Hz. unfold clz_condset_step.
  assert (0 < k <= 32). { subst k. split; [apply pow2_pos; lia|]. change 32 with (2 ^ 5). apply pow2_le; lia. }
  pose proof (pow2_pos k ltac:(lia)).
  rewrite cshl_u_exact by (try lia; rewrite Z.mul_1_l; apply pow2_lt; lia). cbn [bind].
  rewrite Z.mul_1_l.
  assert (2 ^ 5 = 32) by reflexivity. assert (2 ^ 32 = 4294967296) by reflexivity.
  rewrite cshl_u_exact; try lia.
  2:{ unfold b2z; destruct (_ <=? _); lia. }
  2:{ rewrite <- Ek. unfold b2z; destruct (_ <=? _); lia. }
  cbn [bind]. rewrite <- Ek.
  rewrite pow2_dbl in Hx by lia.
  assert (x / 2 ^ k <= x) as Hle by (apply Z.div_le_upper_bound; nia).
  unfold b2z. destruct (Z.leb_spec (2 ^ k) x).
  - rewrite Z.mul_1_l. rewrite cshr_ok by (rewrite bits_u; lia). cbn [bind].
    assert (0 < x / 2 ^ k < 2 ^ k).
    { split; [apply Z.div_str_pos; lia|]. apply Z.div_lt_upper_bound; lia. }
    pose proof (bitlen_shift x k ltac:(lia) ltac:(lia) ltac:(lia)).
    pose proof (bitlen_bounds (x / 2 ^ k) k ltac:(lia) ltac:(lia)).
    rewrite csub_u by lia. cbn [bind].
    exists (x / 2 ^ k), (z - k). split; [reflexivity|]. lia.
  - rewrite Z.mul_0_l. rewrite cshr_ok by (rewrite bits_u; lia). cbn [bind].
    change (2 ^ 0) with 1. rewrite Z.div_1_r.
    pose proof (bitlen_bounds x k ltac:(lia) ltac:(lia)).
    rewrite csub_u by lia. cbn [bind].
    exists x, (z - 0). split; [reflexivity|]. lia.
Qed.

Lemma leading_zeros_condset_correct usz n x : 16 <= usz -> n = 16 \/ n = 32 \/ n = 64 -> 0 <= x < 2 ^ n ->
  leading_zeros_condset usz n x = Ok (nlz n x).
Proof.
  intros Hu Hn Hx. rewrite bitlen_nlz.
  assert (64 < 2 ^ usz). { assert (2 ^ 16 <= 2 ^ usz) by (apply pow2_le; lia). change (2 ^ 16) with 65536 in *. lia. }
  pose proof (bitlen_bounds x n ltac:(lia) Hx).
  unfold leading_zeros_condset.
  assert (forall x z, 0 <= x < 2 ^ 16 -> x < 2 ^ n -> bitlen x <= z <= 64 ->
    (let* st := clz_condset_step n 8 3 (x, z) in
     let* st := clz_condset_step n 4 2 st in
     let* st := clz_condset_step n 2 1 st in
     let* st := clz_condset_step n 1 0 st in
     let '(x, z) := st in
     let* c := ccast (UI usz) x in
     csub (UI usz) (norm (UI usz) z) c) = Ok (z - bitlen x)) as Htail.
  { clear x Hx H0. intros x z Hx Hxn Hz.
    destruct (clz_condset_step_ok n 3 8 x z) as (x1 & z1 & -> & H1 & H2 & H3 & HX1); try (reflexivity || lia). cbn [bind].
    destruct (clz_condset_step_ok n 2 4 x1 z1) as (x2 & z2 & -> & H4 & H5 & H6 & HX2); try (reflexivity || lia). cbn [bind].
    destruct (clz_condset_step_ok n 1 2 x2 z2) as (x3 & z3 & -> & H7 & H8 & H9 & HX3); try (reflexivity || lia). cbn [bind].
    destruct (clz_condset_step_ok n 0 1 x3 z3) as (x4 & z4 & -> & H10 & H11 & H12 & HX4); try (reflexivity || lia). cbn [bind].
    change (2 ^ 1) with 2 in *.
    assert (x4 = 0 \/ x4 = 1) as [-> | ->] by lia; unfold ccast; rewrite chk_ok by (apply fits_u; lia); cbn [bind];
     cbn in H11, H12; rewrite norm_u; rewrite Z.mod_small by lia; rewrite csub_u by lia; f_equal; lia. }
  destruct Hn as [-> | [-> | ->]]; cbn [bind].
  - change (32 <=? 16) with false; change (64 <=? 16) with false; cbn [bind]. apply Htail; lia.
  - change (32 <=? 32) with true; change (64 <=? 32) with false; cbn [bind].
    destruct (clz_condset_step_ok 32 4 16 x 32) as (x1 & z1 & -> & H1 & H2 & H3 & HX5); try (reflexivity || lia). cbn [bind].
    rewrite Htail by lia. f_equal. lia.
  - change (32 <=? 64) with true; change (64 <=? 64) with true; cbn [bind].
    destruct (clz_condset_step_ok 64 5 32 x 64) as (x1 & z1 & -> & H1 & H2 & H3 & HX6); try (reflexivity || lia). cbn [bind].
    destruct (clz_condset_step_ok 64 4 16 x1 z1) as (x2 & z2 & -> & H4 & H5 & H6 & HX7); try (reflexivity || lia). cbn [bind].
    rewrite Htail by lia. f_equal. lia.
Qed.

Lemma clzsi2_correct usz c x : 16 <= usz -> 0 <= x < 2 ^ 32 -> clzsi2 usz c x = Ok (nlz 32 x).
Proof. intros. unfold clzsi2. destruct c; [apply leading_zeros_condset_correct|apply leading_zeros_default_correct]; auto. Qed.
Lemma clzdi2_correct usz c x : 16 <= usz -> 0 <= x < 2 ^ 64 -> clzdi2 usz c x = Ok (nlz 64 x).
Proof. intros. unfold clzdi2. destruct c; [apply leading_zeros_condset_correct|apply leading_zeros_default_correct]; auto. Qed.
Lemma clzti2_correct usz c x : 16 <= usz -> 0 <= x < 2 ^ 128 -> clzti2 usz c x = Ok (nlz 128 x).
Proof.
  intros Hu Hx. unfold clzti2. rewrite shiftr_div, !norm_u by lia.
  assert (128 < 2 ^ usz). { assert (2 ^ 16 <= 2 ^ usz) by (apply pow2_le; lia). change (2 ^ 16) with 65536 in *. lia. }
  assert (2 ^ 128 = 2 ^ 64 * 2 ^ 64) as E by reflexivity.
  assert (0 <= x / 2 ^ 64 < 2 ^ 64). { split; [apply Z.div_pos; lia|]. apply Z.div_lt_upper_bound; lia. }
  rewrite (Z.mod_small (x / 2 ^ 64)) by lia.
  destruct (Z.eqb_spec (x / 2 ^ 64) 0).
  - pose proof (div_zero_lt x 64). rewrite Z.mod_small by lia. rewrite clzdi2_correct by lia. cbn [bind].
    rewrite !bitlen_nlz. pose proof (bitlen_bounds x 64 ltac:(lia) ltac:(lia)).
    rewrite cadd_u by lia. f_equal. lia.
  - rewrite clzdi2_correct by lia. rewrite !bitlen_nlz.
    rewrite bitlen_shift by lia. f_equal. lia.
Qed.

(** ** trailing zeros *)
Lemma ctz_step j x : 0 < j -> x mod 2 ^ (2 * j) <> 0 ->
  let t := if x mod 2 ^ j =? 0 then j else 0 in
  x = x / 2 ^ t * 2 ^ t /\ (x / 2 ^ t) mod 2 ^ j <> 0.
Proof.
  intros Hj Hx. cbv zeta. pose proof (pow2_pos j ltac:(lia)).
  rewrite pow2_dbl in Hx by lia.
  destruct (Z.eqb_spec (x mod 2 ^ j) 0) as [E|E].
  - pose proof (Z.div_mod x (2 ^ j) ltac:(lia)). split; [lia|].
    intros E2. apply Hx. pose proof (Z.div_mod (x / 2 ^ j) (2 ^ j) ltac:(lia)).
    apply Z.mod_divide; [nia|]. exists (x / 2 ^ j / 2 ^ j). nia.
  - change (2 ^ 0) with 1. rewrite Z.div_1_r. split; [lia|auto].
Qed.

(** [k] is the number of trailing zeros of the non-zero [x]. *)
Definition tz_spec (x k : Z) : Prop := 0 <= k /\ exists m, x = (2 * m + 1) * 2 ^ k.

Lemma ptz_spec p : exists m, Zpos p = (2 * m + 1) * 2 ^ ptz p /\ 0 <= ptz p.
Proof.
  induction p as [p IH|p IH|].
  - exists (Zpos p). cbn [ptz]. change (2 ^ 0) with 1. lia.
  - destruct IH as (m & E & H). exists m. cbn [ptz]. rewrite pow2_add by lia.
    rewrite Pos2Z.inj_xO, E. change (2 ^ 1) with 2. split; [ring|lia].
  - exists 0. cbn. lia.
Qed.

Lemma tz_unique x k1 k2 : tz_spec x k1 -> tz_spec x k2 -> k1 = k2.
Proof.
  intros (H1 & m1 & E1) (H2 & m2 & E2). rewrite E1 in E2.
  destruct (Z.lt_trichotomy k1 k2) as [L|[L|L]]; auto; exfalso.
  - replace k2 with (k1 + (1 + (k2 - k1 - 1))) in E2 by lia.
    rewrite !pow2_add in E2 by lia. change (2 ^ 1) with 2 in E2.
    pose proof (pow2_pos k1 H1). assert (2 * m1 + 1 = (2 * m2 + 1) * (2 * 2 ^ (k2 - k1 - 1))) by nia. lia.
  - replace k1 with (k2 + (1 + (k1 - k2 - 1))) in E2 by lia.
    rewrite !pow2_add in E2 by lia. change (2 ^ 1) with 2 in E2.
    pose proof (pow2_pos k2 H2). assert (2 * m2 + 1 = (2 * m1 + 1) * (2 * 2 ^ (k1 - k2 - 1))) by nia. lia.
Qed.

Lemma ntz_spec n x : 0 < x -> tz_spec x (ntz n x).
Proof.
  intros Hx. destruct x as [|p|p]; try lia. cbn [ntz].
  destruct (ptz_spec p) as (m & E & H). split; [lia|]. now exists m.
Qed.

Lemma tz_shift x t k : 0 <= t -> x = x / 2 ^ t * 2 ^ t -> tz_spec (x / 2 ^ t) k -> tz_spec x (t + k).
Proof.
  intros Ht E (Hk & m & Em). split; [lia|]. exists m. rewrite pow2_add by lia. rewrite E, Em. ring.
Qed.

Lemma tz_mod x j k : 0 <= j -> 0 <= x -> x mod 2 ^ j <> 0 -> tz_spec (x mod 2 ^ j) k -> tz_spec x k.
Proof.
  intros Hj Hx Hne (Hk & m & Em). split; [lia|].
  pose proof (pow2_pos j Hj). pose proof (pow2_pos k Hk). bnd x j.
  assert (k < j).
  { destruct (Z_lt_le_dec k j); auto. assert (2 ^ j <= 2 ^ k) by (apply pow2_le; lia).
    assert (0 < x mod 2 ^ j) by lia.
    rewrite Em in *. assert (0 < 2 * m + 1) by nia.
    assert (1 * 2 ^ k <= (2 * m + 1) * 2 ^ k) by (apply Z.mul_le_mono_nonneg_r; lia). lia. }
  pose proof (Z.div_mod x (2 ^ j) ltac:(lia)).
  exists (m + x / 2 ^ j * 2 ^ (j - k - 1)).
  assert (2 ^ j = 2 * 2 ^ (j - k - 1) * 2 ^ k) as Ej.
  { replace j with (1 + (j - k - 1) + k) at 1 by lia. rewrite !pow2_add by lia. reflexivity. }
  rewrite Em in *. nia.
Qed.

Lemma ctz_cond usz b k : 0 <= k < 32 -> k <= usz -> b2z b * 2 ^ k < 2 ^ 32 ->
  cshl (UI 32) (b2z b) k = Ok (if b then 2 ^ k else 0).
Proof.
  intros. rewrite cshl_u_exact; try lia.
  - destruct b; unfold b2z; f_equal; lia.
  - destruct b; unfold b2z; lia.
Qed.

Lemma trailing_zeros_tail usz n x r : 16 <= usz -> 16 <= n -> 0 <= x -> 0 <= r <= 48 ->
  (let* t := cshl (UI 32) (b2z (norm (UI 8) x =? 0)) 3 in
  let* x := cshr (UI n) x t in
  let* r := cadd (UI 32) r t in
  let x := norm (UI 8) x in
  let* t := cshl (UI 32) (b2z (Z.land x 15 =? 0)) 2 in
  let* x := cshr (UI 8) x t in
  let* r := cadd (UI 32) r t in
  let* t := cshl (UI 32) (b2z (Z.land x 3 =? 0)) 1 in
  let* x := cshr (UI 8) x t in
  let* r := cadd (UI 32) r t in
  let x := Z.land x 3 in
  let* d := csub (UI usz) 2 (Z.shiftr x 1) in
  let m := Z.land d (wrapping_neg (UI usz) (b2z (Z.land x 1 =? 0))) in
  cadd (UI usz) (norm (UI usz) r) m) =
  Ok (if x mod 2 ^ 16 =? 0 then r + 16 else r + ntz 16 (x mod 2 ^ 16)).
Proof.
  intros Hu Hn Hx Hr.
  assert (128 < 2 ^ usz). { assert (2 ^ 16 <= 2 ^ usz) by (apply pow2_le; lia). change (2 ^ 16) with 65536 in *. lia. }
  rewrite norm_u.
  assert (forall (b : bool) k, 0 <= k <= 3 -> cshl (UI 32) (b2z b) k = Ok (if b then 2 ^ k else 0)) as Ecs.
  { intros b k Hk. apply (ctz_cond 64); try lia. assert (2 ^ k <= 2 ^ 3) by (apply pow2_le; lia).
    change (2 ^ 3) with 8 in *. change (2 ^ 32) with 4294967296. unfold b2z; destruct b; lia. }
  rewrite Ecs by lia. cbn [bind].
  change (2 ^ 3) with 8.
  set (t1 := if x mod 2 ^ 8 =? 0 then 8 else 0).
  assert (t1 = 8 \/ t1 = 0) by (unfold t1; destruct (_ =? _); auto).
  assert (2 ^ 32 = 4294967296) by reflexivity.
  rewrite cshr_ok by (rewrite bits_u; lia). cbn [bind].
  rewrite cadd_u by lia. cbn [bind]. rewrite norm_u.
  set (y := (x / 2 ^ t1) mod 2 ^ 8).
  assert (0 <= y < 2 ^ 8) as Hy by (apply Z.mod_pos_bound; reflexivity).
  (* reduce to the byte *)
  assert ((if x mod 2 ^ 16 =? 0 then r + 16 else r + ntz 16 (x mod 2 ^ 16)) = r + t1 + ntz 8 y) as ->.
  { unfold y, t1. clear.
    change (2 ^ 16) with (2 ^ (8 + 8)). set (z := x mod 2 ^ (8 + 8)).
    assert (x mod 2 ^ 8 = z mod 2 ^ 8) as E1.
    { unfold z. change (2 ^ (8 + 8)) with (2 ^ 8 * 2 ^ 8). rewrite Z.rem_mul_r by (cbv; congruence || lia).
      rewrite (Z.mul_comm (2 ^ 8)), Z_mod_plus_full. now rewrite Zmod_mod. }
    assert ((x / 2 ^ 8) mod 2 ^ 8 = z / 2 ^ 8) as E2.
    { unfold z. change (2 ^ (8 + 8)) with (2 ^ 8 * 2 ^ 8). rewrite Z.rem_mul_r by (cbv; congruence || lia).
      pose proof (Z.mod_pos_bound x (2 ^ 8) ltac:(reflexivity)).
      apply Z.div_unique with (r := x mod 2 ^ 8); lia. }
    rewrite E1.
    assert (0 <= z < 2 ^ 16) as Hz by (apply Z.mod_pos_bound; reflexivity).
    assert ((x / 2 ^ (if z mod 2 ^ 8 =? 0 then 8 else 0)) mod 2 ^ 8 = if z mod 2 ^ 8 =? 0 then z / 2 ^ 8 else z mod 2 ^ 8) as ->.
    { destruct (_ =? _); [exact E2|]. change (2 ^ 0) with 1. rewrite Z.div_1_r. exact E1. }
    clearbody z. clear E1 E2 x.
    change (2 ^ 16) with (2 ^ 8 * 2 ^ 8) in Hz.
    pose proof (Z.div_mod z (2 ^ 8) ltac:(lia)). bnd z 8.
    destruct (Z.eqb_spec z 0) as [->|Hz0]; [cbn; lia|].
    destruct (Z.eqb_spec (z mod 2 ^ 8) 0) as [E|E].
    - assert (0 < z / 2 ^ 8) by lia.
      assert (ntz 16 z = 8 + ntz 8 (z / 2 ^ 8)); [|lia].
      apply (tz_unique z); [apply ntz_spec; lia|].
      apply tz_shift; [lia|lia|apply ntz_spec; lia].
    - assert (ntz 16 z = ntz 8 (z mod 2 ^ 8)); [|lia].
      apply (tz_unique z); [apply ntz_spec; lia|].
      apply tz_mod with (j := 8); [lia|lia|auto|apply ntz_spec; lia]. }
  clearbody y t1. clear x Hx. set (r1 := r + t1) in *. assert (0 <= r1 <= 56) as Hr1 by lia.
  clearbody r1.
  (* the byte: both sides by cases on y *)
  rewrite Ecs by lia. cbn [bind]. change (2 ^ 2) with 4.
  set (t2 := if Z.land y 15 =? 0 then 4 else 0).
  assert (t2 = 4 \/ t2 = 0) by (unfold t2; destruct (_ =? _); auto).
  rewrite cshr_ok by (rewrite bits_u; lia). cbn [bind]. rewrite cadd_u by lia. cbn [bind].
  rewrite Ecs by lia. cbn [bind]. change (2 ^ 1) with 2.
  set (t3 := if Z.land (y / 2 ^ t2) 3 =? 0 then 2 else 0).
  assert (t3 = 2 \/ t3 = 0) by (unfold t3; case (Z.land (y / 2 ^ t2) 3 =? 0); auto).
  rewrite cshr_ok by (rewrite bits_u; lia). cbn [bind]. rewrite cadd_u by lia. cbn [bind].
  set (w := Z.land (y / 2 ^ t2 / 2 ^ t3) 3).
  assert (0 <= w < 4) as Hw. { unfold w. change 3 with (2 ^ 2 - 1). rewrite land_ones_mod by lia. apply Z.mod_pos_bound; lia. }
  assert (ntz 8 y = t2 + t3 + (if w =? 0 then 2 else if w =? 2 then 1 else 0)) as ->.
  { unfold w, t3, t2.
    assert (forallb (fun i => let y := Z.of_nat i in
       let t2 := if Z.land y 15 =? 0 then 4 else 0 in
       let t3 := if Z.land (y / 2 ^ t2) 3 =? 0 then 2 else 0 in
       let w := Z.land (y / 2 ^ t2 / 2 ^ t3) 3 in
       ntz 8 y =? t2 + t3 + (if w =? 0 then 2 else if w =? 2 then 1 else 0)) (seq 0 (2 ^ 8)) = true) as Hall by (vm_compute; reflexivity).
    rewrite forallb_forall in Hall. specialize (Hall (Z.to_nat y)).
    rewrite in_seq in Hall. rewrite Z2Nat.id in Hall by lia.
    assert (Z.of_nat (2 ^ 8) = 2 ^ 8) as E8 by (vm_compute; reflexivity).
    assert (0 <= Z.to_nat y < 0 + 2 ^ 8)%nat as Hin by lia.
    specialize (Hall Hin). cbv zeta in Hall. now apply Z.eqb_eq in Hall. }
  clearbody w. rewrite norm_u. unfold wrapping_neg; rewrite norm_u.
  assert (w = 0 \/ w = 1 \/ w = 2 \/ w = 3) as Hw4 by lia.
  assert (Hones : forall d, 0 <= d < 4 -> Z.land d ((- (1)) mod 2 ^ usz) = d).
  { intros d Hd. replace ((- (1)) mod 2 ^ usz) with (2 ^ usz - 1) by (apply Z.mod_unique with (q := -1); lia).
    rewrite land_ones_mod by lia. apply Z.mod_small. lia. }
  destruct Hw4 as [-> | [-> | [-> | ->]]]; cbn [Z.shiftr Z.shiftl Z.opp Z.div2 Pos.div2 Z.land Pos.land b2z Z.eqb Pos.eqb Pos.iter Z.of_N];
    rewrite csub_u by lia; cbn [bind];
    rewrite ?Hones by lia; rewrite ?Z.land_0_r; try rewrite (Z.mod_0_l (2 ^ usz)) by lia; rewrite ?Z.land_0_r;
    (rewrite (Z.mod_small (_ + _)) by lia); rewrite cadd_u by lia; f_equal; lia.
Qed.

Lemma trailing_zeros_zero usz n : 16 <= usz -> n = 16 \/ n = 32 \/ n = 64 -> trailing_zeros usz n 0 = Ok n.
Proof.
  intros Hu [-> | [-> | ->]]; unfold trailing_zeros.
  - change (64 <=? 16) with false. change (32 <=? 16) with false. cbn [bind].
    rewrite trailing_zeros_tail by lia. reflexivity.
  - change (64 <=? 32) with false. change (32 <=? 32) with true. cbn [bind].
    etransitivity; [|exact (trailing_zeros_tail usz 32 0 16 Hu ltac:(lia) ltac:(lia) ltac:(lia))]. reflexivity.
  - change (64 <=? 64) with true. change (32 <=? 64) with true. cbn [bind].
    etransitivity; [|exact (trailing_zeros_tail usz 64 0 48 Hu ltac:(lia) ltac:(lia) ltac:(lia))]. reflexivity.
Qed.

Lemma trailing_zeros_correct usz n x : 16 <= usz -> n = 16 \/ n = 32 \/ n = 64 -> 0 < x < 2 ^ n ->
  exists k, trailing_zeros usz n x = Ok k /\ tz_spec x k /\ k < n.
Proof.
  intros Hu Hn Hx.
  enough (exists k, trailing_zeros usz n x = Ok k /\ tz_spec x k) as (k & E & Hk).
  { exists k. split; [auto|]. split; [auto|]. destruct Hk as (H1 & m & Em).
    destruct (Z_lt_le_dec k n); auto. assert (2 ^ n <= 2 ^ k) by (apply pow2_le; lia).
    pose proof (pow2_pos k H1). assert (0 < 2 * m + 1) by nia.
    assert (1 * 2 ^ k <= (2 * m + 1) * 2 ^ k) by (apply Z.mul_le_mono_nonneg_r; lia). lia. }
  assert (2 ^ 32 = 4294967296) by reflexivity.
  assert (Htail : forall y r, 0 <= y -> y mod 2 ^ 16 <> 0 -> 0 <= r <= 48 -> tz_spec (y mod 2 ^ 16) (ntz 16 (y mod 2 ^ 16)) /\
     (if y mod 2 ^ 16 =? 0 then r + 16 else r + ntz 16 (y mod 2 ^ 16)) = r + ntz 16 (y mod 2 ^ 16)).
  { intros y r Hy Hy0 Hr. split.
    - apply ntz_spec. bnd y 16. lia.
    - destruct (Z.eqb_spec (y mod 2 ^ 16) 0); [lia|reflexivity]. }
  unfold trailing_zeros. destruct Hn as [-> | [-> | ->]].
  - change (64 <=? 16) with false. change (32 <=? 16) with false. cbn [bind].
    rewrite trailing_zeros_tail by lia.
    assert (x mod 2 ^ 16 <> 0) by (rewrite Z.mod_small; lia).
    destruct (Htail x 0) as [H1 H2]; try lia. rewrite H2. eexists; split; [reflexivity|].
    rewrite Z.add_0_l. now apply tz_mod with (j := 16); try lia.
  - change (64 <=? 32) with false. change (32 <=? 32) with true. cbn [bind].
    rewrite norm_u.
    destruct (ctz_step 16 x ltac:(lia)) as [S1 S2]. { change (2 * 16) with 32. rewrite Z.mod_small; lia. }
    set (t := if x mod 2 ^ 16 =? 0 then 16 else 0) in *.
    assert (t = 16 \/ t = 0) by (unfold t; destruct (_ =? _); auto).
    rewrite (ctz_cond 64) by (try lia; unfold b2z; match goal with |- context[if ?b then 1 else 0] => case b end; reflexivity). change (2 ^ 4) with 16. fold t. cbn [bind].
    rewrite cadd_u by lia. cbn [bind]. rewrite cshr_ok by (rewrite bits_u; lia). cbn [bind].
    assert (0 <= x / 2 ^ t) by (apply Z.div_pos; [lia|apply pow2_pos; lia]).
    rewrite trailing_zeros_tail by lia.
    destruct (Htail (x / 2 ^ t) (0 + t)) as [H3 H4]; try lia. rewrite H4. eexists; split; [reflexivity|].
    rewrite Z.add_0_l. apply tz_shift; [lia|auto|]. now apply tz_mod with (j := 16); try lia.
  - change (64 <=? 64) with true. change (32 <=? 64) with true. cbn [bind].
    rewrite norm_u.
    destruct (ctz_step 32 x ltac:(lia)) as [S1 S2]. { change (2 * 32) with 64. rewrite Z.mod_small; lia. }
    set (t := if x mod 2 ^ 32 =? 0 then 32 else 0) in *.
    assert (t = 32 \/ t = 0) by (unfold t; destruct (_ =? _); auto).
    rewrite (ctz_cond 64) by (try lia; unfold b2z; match goal with |- context[if ?b then 1 else 0] => case b end; reflexivity). change (2 ^ 5) with 32. fold t. cbn [bind].
    rewrite cadd_u by lia. cbn [bind]. rewrite Z.add_0_l. rewrite cshr_ok by (rewrite bits_u; lia). cbn [bind].
    assert (0 <= x / 2 ^ t) by (apply Z.div_pos; [lia|apply pow2_pos; lia]).
    set (y := x / 2 ^ t) in *. rewrite norm_u.
    destruct (ctz_step 16 y ltac:(lia)) as [S3 S4]. { exact S2. }
    set (t2 := if y mod 2 ^ 16 =? 0 then 16 else 0) in *.
    assert (t2 = 16 \/ t2 = 0) by (unfold t2; case (y mod 2 ^ 16 =? 0); auto).
    rewrite (ctz_cond 64) by (try lia; unfold b2z; match goal with |- context[if ?b then 1 else 0] => case b end; reflexivity). change (2 ^ 4) with 16. fold t2. cbn [bind].
    rewrite cadd_u by lia. cbn [bind]. rewrite cshr_ok by (rewrite bits_u; lia). cbn [bind].
    assert (0 <= y / 2 ^ t2) by (apply Z.div_pos; [lia|apply pow2_pos; lia]).
    rewrite trailing_zeros_tail by lia.
    destruct (Htail (y / 2 ^ t2) (t + t2)) as [H5 H6]; try lia. rewrite H6. eexists; split; [reflexivity|].
    rewrite <- Z.add_assoc. apply tz_shift; [lia|auto|]. fold y. apply tz_shift; [lia|auto|].
    now apply tz_mod with (j := 16); try lia.
Qed.

Lemma ctzti2_correct usz x : 16 <= usz -> 0 < x < 2 ^ 128 -> exists k, ctzti2 usz x = Ok k /\ tz_spec x k.
Proof.
  intros Hu Hx. unfold ctzti2, ctzdi2. rewrite shiftr_div, !norm_u by lia.
  assert (128 < 2 ^ usz). { assert (2 ^ 16 <= 2 ^ usz) by (apply pow2_le; lia). change (2 ^ 16) with 65536 in *. lia. }
  bnd x 64.
  destruct (Z.eqb_spec (x mod 2 ^ 64) 0) as [E|E].
  - pose proof (Z.div_mod x (2 ^ 64) ltac:(lia)).
    assert (0 < x / 2 ^ 64 < 2 ^ 64).
    { split; [assert (0 <= x / 2 ^ 64) by (apply Z.div_pos; lia); lia|].
      apply Z.div_lt_upper_bound; [lia|]. change (2 ^ 64 * 2 ^ 64) with (2 ^ 128). lia. }
    rewrite Z.mod_small by lia.
    destruct (trailing_zeros_correct usz 64 (x / 2 ^ 64)) as (k & -> & Hk & Hk64); auto. cbn [bind].
    assert (0 <= k) by apply Hk.
    rewrite cadd_u by lia. eexists; split; [reflexivity|]. apply tz_shift; auto; lia.
  - destruct (trailing_zeros_correct usz 64 (x mod 2 ^ 64)) as (k & -> & Hk & Hk64); auto; [lia|].
    eexists; split; [reflexivity|]. apply tz_mod with (j := 64); auto; lia.
Qed.
Lemma ctzti2_zero usz : 16 <= usz -> ctzti2 usz 0 = Ok 128.
Proof.
  intros Hu. assert (128 < 2 ^ usz). { assert (2 ^ 16 <= 2 ^ usz) by (apply pow2_le; lia). change (2 ^ 16) with 65536 in *. lia. }
  unfold ctzti2, ctzdi2. cbn [Z.shiftr Z.shiftl Z.opp norm Z.modulo]. change (norm (UI 64) 0) with 0. cbn [Z.eqb].
  rewrite trailing_zeros_zero by auto. cbn [bind]. now rewrite cadd_u by lia.
Qed.

(** ** byte swap *)
Definition byte (x i : Z) : Z := (x / 2 ^ (8 * i)) mod 256.

Lemma swap_loop_spec k : forall x acc, 0 <= acc ->
  let r := swap_bytes_loop k x acc in
  0 <= r /\ r / 2 ^ (8 * Z.of_nat k) = acc /\
  (forall i, 0 <= i < Z.of_nat k -> byte r i = byte x (Z.of_nat k - 1 - i)).
Proof.
  induction k as [|k IH]; intros x acc Hacc; cbv zeta.
  - cbn [swap_bytes_loop]. split; [auto|]. split; [cbn; now rewrite Z.div_1_r|]. intros; lia.
  - cbn [swap_bytes_loop].
    assert (Z.lor (Z.shiftl acc 8) (Z.land x 255) = acc * 256 + x mod 256) as E.
    { rewrite Z.lor_comm, shiftl_mul by lia. change 255 with (2 ^ 8 - 1). rewrite land_ones_mod by lia.
      rewrite lor_add_low; [change (2 ^ 8) with 256; ring|lia|apply Z.mod_pos_bound; reflexivity]. }
    rewrite E. pose proof (Z.mod_pos_bound x 256 ltac:(lia)).
    destruct (IH (Z.shiftr x 8) (acc * 256 + x mod 256) ltac:(lia)) as (H1 & H2 & H3).
    set (r := swap_bytes_loop k _ _) in *.
    assert (8 * Z.of_nat (S k) = 8 * Z.of_nat k + 8) as E8 by lia.
    split; [auto|]. split.
    + rewrite E8, pow2_add by lia. rewrite <- Z.div_div by (try apply pow2_pos; lia). rewrite H2.
      change (2 ^ 8) with 256. symmetry. apply Z.div_unique with (r := x mod 256); lia.
    + intros i Hi. destruct (Z.eq_dec i (Z.of_nat k)).
      * subst i. unfold byte. rewrite H2. replace (Z.of_nat (S k) - 1 - Z.of_nat k) with 0 by lia.
        cbn [Z.mul]. change (2 ^ 0) with 1. rewrite Z.div_1_r.
        rewrite Z.add_comm, Z_mod_plus_full. now rewrite Zmod_mod.
      * rewrite H3 by lia. unfold byte. rewrite shiftr_div by lia.
        rewrite Z.div_div by (try apply pow2_pos; lia). rewrite <- pow2_add by lia.
        do 3 f_equal. lia.
Qed.

Lemma bytes_ext k : forall x y, 0 <= x < 2 ^ (8 * Z.of_nat k) -> 0 <= y < 2 ^ (8 * Z.of_nat k) ->
  (forall i, 0 <= i < Z.of_nat k -> byte x i = byte y i) -> x = y.
Proof.
  induction k as [|k IH]; intros x y Hx Hy Hb.
  - cbn in *. lia.
  - assert (8 * Z.of_nat (S k) = 8 * Z.of_nat k + 8) as E8 by lia.
    rewrite E8, pow2_add in * by lia. change (2 ^ 8) with 256 in *.
    pose proof (pow2_pos (8 * Z.of_nat k) ltac:(lia)).
    assert (x mod 256 = y mod 256) as E0.
    { specialize (Hb 0 ltac:(lia)). unfold byte in Hb. cbn [Z.mul] in Hb. change (2 ^ 0) with 1 in Hb.
      now rewrite !Z.div_1_r in Hb. }
    assert (x / 256 = y / 256) as E1.
    { apply IH.
      - split; [apply Z.div_pos; lia|apply Z.div_lt_upper_bound; lia].
      - split; [apply Z.div_pos; lia|apply Z.div_lt_upper_bound; lia].
      - intros i Hi. specialize (Hb (i + 1) ltac:(lia)). unfold byte in *.
        rewrite !Z.div_div by (try apply pow2_pos; lia).
        change 256 with (2 ^ 8) at 1 3. rewrite <- !pow2_add by lia.
        replace (8 + 8 * i) with (8 * (i + 1)) by lia. exact Hb. }
    pose proof (Z.div_mod x 256). pose proof (Z.div_mod y 256). lia.
Qed.

Lemma swap_range k x : 0 <= swap_bytes_loop k x 0 < 2 ^ (8 * Z.of_nat k).
Proof.
  destruct (swap_loop_spec k x 0 ltac:(lia)) as (H1 & H2 & _).
  split; [auto|]. apply div_zero_lt; auto; lia.
Qed.
Lemma swap_bytes_rev k x i : 0 <= i < Z.of_nat k -> byte (swap_bytes_loop k x 0) i = byte x (Z.of_nat k - 1 - i).
Proof. apply (swap_loop_spec k x 0 ltac:(lia)). Qed.
Lemma swap_involutive k x : 0 <= x < 2 ^ (8 * Z.of_nat k) -> swap_bytes_loop k (swap_bytes_loop k x 0) 0 = x.
Proof.
  intros Hx. apply (bytes_ext k); auto using swap_range.
  intros i Hi. rewrite !swap_bytes_rev by lia. f_equal. lia.
Qed.
