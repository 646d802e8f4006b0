(** Theorems about the elementary functions of libm. *)
From Coq Require Import ZArith Reals Bool List Lia Lra.
From Flocq Require Import Core.
From Verif Require Import Base BaseLemmas FloatModel FloatSpec FloatProps FloatConvModel FloatConvSpec FloatConvProps LibmModel LibmSpec LibmProps
  ElemModel ElemSpec F64Lib ExpProofs3 ExpProofs8.
Open Scope Z_scope.

(** The casts of a soft-float target meet [icast_ok]. *)
Theorem C53_soft_icast : icast_ok soft_icast.
Proof.
  split.
  - intros x Hx. destruct (C27_fix 32 F64 x ltac:(unfold int_width; tauto) ltac:(unfold conv_fmt; tauto) Hx) as (_ & r & E & S).
    cbn [c_toi soft_icast]. rewrite E. exact S.
  - intros i Hi. destruct (C26_signed 32 F64 i ltac:(unfold int_width; tauto) ltac:(unfold conv_fmt; tauto)) as (r & E & S); [apply fits_s; exact Hi|].
    cbn [c_ofi soft_icast]. rewrite E. exact S.
Qed.

(** exp does not panic, and is accurate to 17/16 units in the last place of the exact value. *)
Theorem C53_exp : forall o c x, ieee_ops F64 o -> icast_ok c -> is_float F64 x ->
  exists r, libm_exp o c x = Ok r /\ is_float F64 r /\
  (is_nan F64 x -> is_nan F64 r) /\
  (is_inf F64 x -> r = if sign_of F64 x then 0 else 0x7ff0000000000000) /\
  (is_zero F64 x -> r = 0x3ff0000000000000) /\
  (is_finite F64 x -> (exp (value F64 x) < bpow radix2 1024)%R -> within (17 / 16) r (exp (value F64 x))) /\
  (is_finite F64 x -> (bpow radix2 1024 <= exp (value F64 x))%R -> r = 0x7ff0000000000000).
Proof.
  intros o c x Ho Hc F. destruct (split64 x F) as (s & n & E & Hn).
  destruct (Z_lt_ge_dec n INF) as [L|G].
  - assert (Gx : good x) by (split; [exact F|rewrite E; apply finite64; assumption]).
    destruct (exp_finite o Ho c Hc x Gx) as (r & E1 & Fr & A & B & C). exists r. split; [exact E1|]. split; [exact Fr|].
    rewrite E. rewrite nan64, isinf64, zero64 by exact Hn. rewrite <- E. split; [lia|]. split; [lia|].
    split; [intros ->; apply C; rewrite E, value64, mag0_64 by exact Hn; destruct s; lra|]. split; intros _; assumption.
  - assert (NF : ~ is_finite F64 x) by (rewrite E; rewrite finite64 by exact Hn; lia).
    assert (H : exists r, libm_exp o c x = Ok r /\ is_float F64 r /\ (INF < n -> r = x) /\ (n = INF -> r = if s then 0 else INF)).
    { unfold libm_exp. cbv zeta. replace (high_word x) with (high_word (mk64 s n)) by (rewrite E; reflexivity). rewrite high_sign, high_abs by exact Hn.
      unfold exp_special. rewrite hx_leb. replace (is_nanb F64 x) with (INF <? n) by (rewrite E, is_nanb64 by exact Hn; reflexivity).
      replace (0x4086232b * 2 ^ 32 <=? n) with true by (symmetry; apply Z.leb_le; lia).
      destruct (Z.ltb_spec INF n) as [N|N]; [exists x; split; [reflexivity|split; [exact F|split; [reflexivity|lia]]]|]. assert (n = INF) by lia. subst n.
      assert (I : is_inf F64 x) by (rewrite E; apply isinf64; [exact Hn|reflexivity]).
      assert (LT : forall t m, 0 <= m < INF -> o_lt o (mk64 t m) x = negb s /\ o_lt o x (mk64 t m) = s).
      { intros t m Hm. rewrite E, !(lt_key o Ho) by lia. destruct s, t; cbn [negb]; split;
        repeat match goal with |- context[?a <=? ?b] => destruct (Z.leb_spec a b); try lia | |- context[?a <? ?b] => destruct (Z.ltb_spec a b); try lia end; reflexivity. }
      change exp_over with (mk64 false 0x40862e42fefa39ef). change exp_sub with (mk64 true 0x4086232bdd7abcd2). change exp_under with (mk64 true 0x40874910d52d3051).
      rewrite (proj1 (LT false 0x40862e42fefa39ef ltac:(lia))), (proj2 (LT true 0x4086232bdd7abcd2 ltac:(lia))), (proj2 (LT true 0x40874910d52d3051 ltac:(lia))).
      destruct s; cbn [negb].
      - exists 0. split; [reflexivity|split; [apply good_zero|split; [lia|reflexivity]]].
      - eexists. split; [reflexivity|]. destruct (ops_mul F64 o Ho x x1p1023 F (proj1 good_x1p1023)) as (Fr & _ & _ & R & _). split; [exact Fr|]. split; [lia|]. intros _.
        assert (S : is_inf F64 (o_mul o x x1p1023) /\ sign_of F64 (o_mul o x x1p1023) = xorb (sign_of F64 x) (sign_of F64 x1p1023)).
        { apply R. left. split; [exact I|]. change x1p1023 with (mk64 false 0x7fe0000000000000). rewrite zero64, nan64 by lia. lia. }
        destruct S as [S1 S2]. apply pos_inf_bits; [exact Fr|exact S1|]. rewrite S2, E, sign64 by exact Hn. reflexivity. }
    destruct H as (r & E1 & Fr & A & B). exists r. split; [exact E1|]. split; [exact Fr|]. rewrite E, nan64, isinf64, zero64, sign64 by exact Hn. rewrite <- E.
    split; [intros N; rewrite (A N), E; apply nan64; assumption|]. split; [exact B|]. split; [lia|]. tauto.
Qed.
(** exp 1, exp 0.1, exp (-1.5), a subnormal result, the largest finite result, overflow, underflow. *)
Example C53_cases : let e := libm_exp (soft_ops F64 8) soft_icast in
  ieee_ops F64 (soft_ops F64 8) /\
  e 0x3ff0000000000000 = Ok 0x4005bf0a8b14576a /\ e 0x3fb999999999999a = Ok 0x3ff1aec7b35a00d4 /\ e 0xbff8000000000000 = Ok 0x3fcc8f87724b5c1d /\
  e 0xc0874385446d71c3 = Ok 1 /\ e 0x40862e42fefa39ef = Ok 0x7fefffffffffff2a /\ e 0x40862e42fefa39f0 = Ok 0x7ff0000000000000 /\
  e 0xc0874910d52d3053 = Ok 0 /\ e 0xfff0000000000000 = Ok 0.
Proof. split; [apply soft_ops_ieee; [tauto|lia]|]. vm_compute. repeat split. Qed.

Definition elem_theorems := (C53_soft_icast, C53_exp).
Print Assumptions elem_theorems.
