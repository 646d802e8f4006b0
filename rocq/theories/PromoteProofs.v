(** Proofs about arithmetic carried out in a wider format. *)
From Coq Require Import ZArith Reals Bool Lia Lra.
From Flocq Require Import Core Double_rounding.
From Verif Require Import Base BaseLemmas FloatModel FloatSpec FloatConvSpec FloatConvModel FloatProofs FloatProofs2 FloatProofs3 FloatConvProofs FloatLib FloatConvProps LibmProofs LibmProofs2 LibmProofs3 FmaProofs FmaProofs6.
Open Scope Z_scope.

Lemma value_format f (W : wf f) a : is_float f a -> is_finite f a -> FLT_format radix2 (emin f) (prec f) (value f a).
Proof.
  intros Fa Ha. assert (Prec_gt_0 (prec f)) by (unfold Prec_gt_0, prec; destruct W; lia). apply FLT_format_generic; [assumption|].
  assert (rne f (value f a) = value f a) as <-.
  { destruct (rounds_exact f W a Fa Ha) as (_ & _ & K). destruct (Rlt_bool _ _); [symmetry; apply K|]. apply (finite_iff f W a Fa) in Ha. tauto. }
  unfold rne. assert (Valid_exp (FLT_exp (emin f) (prec f))) by (apply FLT_exp_valid; assumption). apply generic_format_round; auto with typeclass_instances.
Qed.

Lemma negate_mk f (W : wf f) s n : 0 <= n < 2 ^ (fb f - 1) -> negate f (b2z s * 2 ^ (fb f - 1) + n) = b2z (negb s) * 2 ^ (fb f - 1) + n.
Proof. intros Hn. unfold negate. rewrite (sign_of_mk f W) by assumption. destruct s; cbn [b2z negb]; lia. Qed.
Lemma negate_inf f (W : wf f) a : is_float f a -> is_inf f a -> is_float f (negate f a) /\ is_inf f (negate f a) /\ sign_of f (negate f a) = negb (sign_of f a).
Proof.
  intros Fa. destruct (split_float f W a Fa) as (s & n & -> & Hn). rewrite (negate_mk f W) by assumption. rewrite !(is_inf_mk f W), !(sign_of_mk f W) by assumption.
  intros ->. split; [apply is_float_mk; assumption|]. split; reflexivity.
Qed.

Definition wide_enough (f g : fmt) : Prop := wf f /\ wf g /\ emin g <= emin f - prec f - 2 /\ emin g <= 2 * emin f /\ 2 * prec f + 1 <= prec g /\ emax f <= emax g.
Lemma pair_wide f g : conv_pair f g -> wide_enough f g.
Proof.
  intros H. unfold wide_enough. assert (std f /\ std g) as [Sf Sg].
  { unfold conv_pair in H. cbn [List.In] in H. unfold std. repeat (destruct H as [H|H]; [injection H as <- <-; tauto|]). destruct H. }
  split; [apply std_wf, Sf|]. split; [apply std_wf, Sg|]. unfold conv_pair in H. cbn [List.In] in H.
  repeat (destruct H as [H|H]; [injection H as <- <-; vm_compute; repeat split; congruence|]). destruct H.
Qed.

Section P.
Context (f g : fmt) (CP : conv_pair f g).
Let WD : wide_enough f g := pair_wide f g CP.
Let Wf : wf f := proj1 WD.
Let Wg : wf g := proj1 (proj2 WD).

Lemma widen_class a : is_float f a -> exists u, extend f g a = Ok u /\ is_float g u /\ sign_of g u = sign_of f a /\
  (is_nan g u <-> is_nan f a) /\ (is_inf g u <-> is_inf f a) /\ (is_finite g u <-> is_finite f a) /\ (is_zero g u <-> is_zero f a) /\
  (is_finite f a -> value g u = value f a).
Proof using CP.
  intros Fa. destruct (C24_extend f g a CP Fa) as (u & E & Fu & S & N & I & F). exists u. split; [exact E|]. split; [exact Fu|]. split; [exact S|].
  pose proof (finite_iff f Wf a Fa) as Cf. pose proof (finite_iff g Wg u Fu) as Cg. destruct (is_nan_dec f a) as [Na|Na]; [|destruct (is_inf_dec f Wf a Fa) as [Ia|Ia]].
  - destruct (N Na) as (Nu & _). assert (~ is_inf f a /\ ~ is_inf g u) as (K1 & K2) by (clear - Na Nu; unfold is_nan, is_inf in *; intuition congruence).
    assert (~ is_zero f a /\ ~ is_zero g u) as (K3 & K4) by (split; intros K; [apply (zero_finite f a Wf Fa) in K|apply (zero_finite g u Wg Fu) in K]; tauto). tauto.
  - pose proof (I Ia) as Iu. assert (~ is_nan f a /\ ~ is_nan g u) as (K1 & K2) by (clear - Ia Iu; unfold is_nan, is_inf in *; intuition congruence).
    assert (~ is_zero f a /\ ~ is_zero g u) as (K3 & K4) by (split; intros K; [apply (zero_finite f a Wf Fa) in K|apply (zero_finite g u Wg Fu) in K]; tauto). tauto.
  - assert (is_finite f a) as Ha by tauto. destruct (F Ha) as (Hu & V). assert (~ is_nan g u /\ ~ is_inf g u) as (K1 & K2) by tauto.
    rewrite (value_zero g u Wg Fu Hu), (value_zero f a Wf Fa Ha), V. tauto.
Qed.

Lemma qnan_nan h w : is_qnan h w -> is_nan h w.
Proof using. unfold is_qnan. tauto. Qed.

Lemma narrow_class w : is_float g w -> exists r, trunc g f w = Ok r /\ is_float f r /\ sign_of f r = sign_of g w /\
  (is_nan g w -> is_qnan f r) /\ (is_inf g w -> is_inf f r) /\ (is_zero g w -> is_zero f r) /\
  (forall zs x, rounds_to g zs x w -> rne f (rne g x) = rne f x -> rounds_to f zs x r).
Proof using CP.
  intros Fw. destruct (C25_narrow g f w CP Fw) as (r & E & Fr & S & N & I & F). exists r. split; [exact E|]. split; [exact Fr|]. split; [exact S|].
  split; [intros K; apply N, K|]. split; [exact I|]. split.
  - intros K. pose proof (zero_finite g w Wg Fw K) as Kf. specialize (F Kf). apply (value_zero g w Wg Fw Kf) in K. rewrite K in F. destruct F as (_ & _ & F).
    rewrite (rne_0 f), Rabs_R0, Rlt_bool_true in F by apply bpow_gt_0. apply (value_zero f r Wf Fr); [apply F|apply F].
  - intros zs x (_ & Sw & Kw) RR. split; [exact Fr|]. split; [congruence|]. destruct (Rlt_bool (Rabs (rne g x)) (bpow radix2 (emax g))) eqn:B.
    + destruct Kw as (Kf & V). destruct (F Kf) as (_ & _ & K). rewrite V, RR in K. exact K.
    + rewrite Rlt_bool_false; [apply I, Kw|]. rewrite <- RR.
      assert (bpow radix2 (emax f) <= Rabs (rne g x))%R as L.
      { apply Rle_trans with (bpow radix2 (emax g)); [apply bpow_le; apply WD|]. revert B. case Rlt_bool_spec; [discriminate|intros; assumption]. }
      assert (rne f (bpow radix2 (emax f)) = bpow radix2 (emax f)) as EM.
      { pose proof (rne_int f Wf 1 (emax f)) as K. rewrite Rmult_1_l in K. apply K; [|unfold emax, emin, prec; pose proof (eb_bias f Wf); destruct Wf; lia].
        cbn [Z.abs]. assert (0 < 2 ^ prec f) by (apply pow2_pos; unfold prec; destruct Wf; lia). lia. }
      assert (Valid_exp (FLT_exp (emin f) (prec f))) as VE by (apply FLT_exp_valid; unfold Prec_gt_0, prec; destruct Wf; lia).
      rewrite <- EM. unfold Rabs in L. destruct (Rcase_abs (rne g x)) as [K|K].
      * apply (rne_mono f Wf) in L. rewrite (rne_opp f) in L. apply Rle_trans with (1 := L). rewrite <- Rabs_Ropp. apply RRle_abs.
      * apply (rne_mono f Wf) in L. apply Rle_trans with (1 := L). apply RRle_abs.
Qed.
End P.
