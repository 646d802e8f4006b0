(** Theorems about the symmetry of functions of libm: changing the sign of the argument changes the
    sign bit of the result and no other bit. *)
From Coq Require Import ZArith Reals Bool Lia Lra.
From Flocq Require Import Core.
From Verif Require Import Base FloatModel FloatSpec FloatProps LibmModel LibmSpec LibmProps FloatConvModel FloatConvSpec ElemModel ElemSpec ElemProps TrigModel F64Lib ExpProofs3 AtanModel AtanProofs3 Atan2Model Atan2Proofs3 AsinModel AsinProofs5 HypotModel AreaModel AreaProofs2 AreaProofs3 TrigRed5 OddProofs.
Open Scope Z_scope.

Lemma odd_of (f : Z -> res Z) s n : 0 <= n < 2 ^ 63 -> (exists r, f (mk64 s n) = Ok r /\ is_float F64 r) -> (exists r, f (mk64 (negb s) n) = Ok r /\ is_float F64 r) ->
  f (mk64 true n) = (let* r := f (mk64 false n) in Ok (fneg r)) -> exists r, f (mk64 s n) = Ok r /\ f (negate F64 (mk64 s n)) = Ok (negate F64 r).
Proof.
  intros Hn (r & Er & Fr) (q & Eq & Fq) H. rewrite negate_mk by exact Hn. exists r. split; [exact Er|]. destruct s; cbn [negb] in *.
  - rewrite Eq in *. cbn [bind] in H. rewrite Er in H. injection H as ->. rewrite negate_fneg by exact Fr. rewrite fneg_twice by exact Fq. reflexivity.
  - rewrite Er in H. cbn [bind] in H. rewrite H, negate_fneg by exact Fr. reflexivity.
Qed.

(** * C69 *)
(** atan: for every argument, NaNs included. *)
Theorem C69_atan_odd : forall o x, ieee_ops F64 o -> is_float F64 x -> exists r, libm_atan o x = Ok r /\ libm_atan o (negate F64 x) = Ok (negate F64 r).
Proof.
  intros o x Ho F. destruct (split64 x F) as (s & n & -> & Hn). apply (odd_of (libm_atan o)); [exact Hn| | |apply atan_odd; assumption].
  - destruct (atan_mk_all o Ho s n Hn) as (r & E & Fr & _). exists r. split; assumption.
  - destruct (atan_mk_all o Ho (negb s) n Hn) as (r & E & Fr & _). exists r. split; assumption.
Qed.
(** asin: for every argument of its domain. *)
Theorem C69_asin_odd : forall o x, ieee_ops F64 o -> is_float F64 x -> is_finite F64 x -> (Rabs (value F64 x) <= 1)%R ->
  exists r, libm_asin o x = Ok r /\ libm_asin o (negate F64 x) = Ok (negate F64 r).
Proof.
  intros o x Ho F N B. destruct (split64 x F) as (s & n & -> & Hn). apply (upto_one s n Hn N) in B. apply (odd_of (libm_asin o)); [exact Hn| | |apply asin_odd; [exact Ho|lia]].
  - destruct (asin_mk_all o Ho s n Hn) as (r & E & Fr & _). exists r. split; assumption.
  - destruct (asin_mk_all o Ho (negb s) n Hn) as (r & E & Fr & _). exists r. split; assumption.
Qed.
(** atanh and asinh: for every argument; where atanh is a NaN the two NaNs differ in the sign bit. *)
Theorem C69_atanh_odd : forall o c x, ieee_ops F64 o -> icast_ok c -> is_float F64 x -> exists r, libm_atanh o c x = Ok r /\ libm_atanh o c (negate F64 x) = Ok (negate F64 r).
Proof.
  intros o c x Ho Hc F. destruct (split64 x F) as (s & n & -> & Hn). apply (odd_of (libm_atanh o c)); [exact Hn| | |].
  - destruct (atanh_all o Ho c Hc (mk64 s n) F) as (r & E & Fr & _). exists r. split; assumption.
  - destruct (atanh_all o Ho c Hc (mk64 (negb s) n)) as (r & E & Fr & _); [apply float64; exact Hn|]. exists r. split; assumption.
  - unfold libm_atanh. cbv zeta. destruct (area_fields true n Hn) as (-> & -> & ->). destruct (area_fields false n Hn) as (-> & -> & ->). destruct (if n / 2 ^ 52 <? 0x3ff - 1 then _ else _) as [r|]; reflexivity.
Qed.
Theorem C69_asinh_odd : forall o c x, ieee_ops F64 o -> icast_ok c -> is_float F64 x -> exists r, libm_asinh o c x = Ok r /\ libm_asinh o c (negate F64 x) = Ok (negate F64 r).
Proof.
  intros o c x Ho Hc F. destruct (split64 x F) as (s & n & -> & Hn). apply (odd_of (libm_asinh o c)); [exact Hn| | |].
  - destruct (asinh_all o Ho c Hc (mk64 s n) F) as (r & E & Fr & _). exists r. split; assumption.
  - destruct (asinh_all o Ho c Hc (mk64 (negb s) n)) as (r & E & Fr & _); [apply float64; exact Hn|]. exists r. split; assumption.
  - unfold libm_asinh. cbv zeta. change (Z.shiftr (2 ^ 64 - 1) 1) with 0x7fffffffffffffff. destruct (area_fields true n Hn) as (-> & -> & ->). destruct (area_fields false n Hn) as (-> & -> & ->). destruct (if 0x3ff + 26 <=? n / 2 ^ 52 then _ else _) as [r|]; reflexivity.
Qed.
(** atan2 in its first argument, for all pairs without a NaN. *)
Theorem C69_atan2_odd : forall o y x, ieee_ops F64 o -> is_float F64 y -> is_float F64 x -> ~ is_nan F64 y -> ~ is_nan F64 x ->
  exists r, libm_atan2 o y x = Ok r /\ libm_atan2 o (negate F64 y) x = Ok (negate F64 r).
Proof.
  intros o y x Ho Fy Fx Ny Nx. destruct (split64 y Fy) as (t & k & -> & Hk). destruct (split64 x Fx) as (s & n & -> & Hn). rewrite nan64 in Ny, Nx by assumption.
  assert (forall u, exists r, libm_atan2 o (mk64 u k) (mk64 s n) = Ok r /\ is_float F64 r) as T.
  { intros u. destruct (atan2_special o Ho s n u k Hn Hk) as (_ & A1 & A2 & A3 & A4 & A5). assert (forall z, is_float F64 z -> is_float F64 (AtanProofs3.flip u z)) as FF by (intros z Fz; destruct u; [apply fneg_float; exact Fz|exact Fz]).
    destruct (Z.eq_dec k 0) as [K0|K0]; [destruct (A1 ltac:(lia) K0) as (r & E & ->); eexists; split; [exact E|]; apply FF; destruct s; vm_compute; intuition discriminate|].
    destruct (Z.eq_dec n 0) as [N0|N0]; [eexists; split; [exact (A2 N0 ltac:(lia))|]; apply FF; vm_compute; intuition discriminate|].
    destruct (Z.eq_dec n INF) as [NI|NI]; destruct (Z.eq_dec k INF) as [KI|KI].
    - eexists. split; [exact (A5 NI KI)|]. apply FF; destruct s; vm_compute; intuition discriminate.
    - eexists. split; [exact (A4 NI ltac:(lia))|]. apply FF; destruct s; vm_compute; intuition discriminate.
    - eexists. split; [exact (A3 ltac:(lia) KI)|]. apply FF; vm_compute; intuition discriminate.
    - destruct (atan2_finite o Ho s n u k ltac:(lia) ltac:(lia)) as (r & E & W). exists r. split; [exact E|apply W]. }
  apply (odd_of (fun y => libm_atan2 o y (mk64 s n))); [exact Hk|apply T|apply T|]. apply atan2_odd; [exact Ho|lia|lia].
Qed.
(** 0.4 and asin of 0.4, the least subnormal and 1; atan of minus infinity; atan2(1, -3) and atan2(-0, -0);
    asinh(1) and atanh(0.75). *)
Example C69_cases : let o := soft_ops F64 8 in let m := negate F64 in ieee_ops F64 o /\
  libm_atan o 0x3fd999999999999a = Ok 0x3fd85a376b677dc0 /\ libm_atan o (m 0x3fd999999999999a) = Ok (m 0x3fd85a376b677dc0) /\
  libm_asin o 0x3fd999999999999a = Ok 0x3fda564ac0e73a34 /\ libm_asin o (m 0x3fd999999999999a) = Ok (m 0x3fda564ac0e73a34) /\
  libm_asin o (m 1) = Ok (m 1) /\ libm_asin o (m 0x3ff0000000000000) = Ok (m 0x3ff921fb54442d18) /\ libm_atan o 0xfff0000000000000 = Ok 0xbff921fb54442d18 /\
  libm_atan2 o 0x3ff0000000000000 0xc008000000000000 = Ok 0x40068f095fdf593c /\ libm_atan2 o (m 0x3ff0000000000000) 0xc008000000000000 = Ok (m 0x40068f095fdf593c) /\ libm_atan2 o (m 0) (m 0) = Ok 0xc00921fb54442d18 /\
  libm_asinh o soft_icast (m 0x3ff0000000000000) = Ok (m 0x3fec34366179d427) /\ libm_atanh o soft_icast (m 0x3fe8000000000000) = Ok (m 0x3fef2272ae325a57).
Proof. split; [apply soft_ops_ieee; [tauto|lia]|]. vm_compute. repeat split. Qed.
Definition odd_theorems := (C69_atan_odd, C69_asin_odd, C69_atanh_odd, C69_asinh_odd, C69_atan2_odd).
Print Assumptions odd_theorems.
