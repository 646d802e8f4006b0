(** rem_pio2_large: the products of the argument with the digits of 2 / pi, and their distillation. *)
From Coq Require Import ZArith Reals Bool List Lia Lra Psatz.
From Flocq Require Import Core.
From Verif Require Import Base BaseLemmas FloatModel FloatSpec FloatProofs5 LibmModel LibmSpec LibmProps FloatConvSpec FloatErr PolyBound Elem ElemModel ElemSpec TrigModel F64Lib ExpProofs3 ExpProofs4 ExpProofs7 TrigRed TrigRed4 TrigLg.
Import ListNotations.
Open Scope Z_scope.

(** The digits of 2 / pi in base 2^24 *)
Definition tt (j : Z) : Z := if j <? 0 then 0 else el IPIO2_32 j.
Lemma tt_all : forallb (fun d => (0 <=? d) && (d <? 2 ^ 24)) IPIO2_32 = true. Proof. vm_compute. reflexivity. Qed.
Lemma tt_range j : 0 <= tt j < 2 ^ 24.
Proof.
  unfold tt. destruct (j <? 0); [lia|]. unfold el. destruct (nth_in_or_default (Z.to_nat j) IPIO2_32 0) as [I|E]; [|rewrite E; lia].
  pose proof (proj1 (forallb_forall _ _) tt_all _ I) as Q. cbn beta in Q. lia.
Qed.

Fixpoint sumz (n : nat) (j : Z) (g : Z -> Z) : Z := match n with O => 0 | S n => g j + sumz n (j + 1) g end.

Section Trig.
Context (o : fops) (Ho : ieee_ops F64 o) (c : icast) (Hc : icast_ok c) (tbl : list Z) (Ht : forall j, 0 <= j < 66 -> tab tbl j = Ok (tt j)).
Context (x : list Z) (jx jv : Z) (xv : Z -> Z) (Hjx : 0 <= jx <= 2) (Hjv : 0 <= jv <= 41) (Hlen : len x = jx + 1)
  (Hx : forall j, 0 <= j <= jx -> sc (el x j) (xv j) 0) (Hxr : forall j, 0 <= xv j < 2 ^ 24) (Hx0 : forall j, jx < j -> xv j = 0).

Lemma fill_ok n : forall i j f, 0 <= i -> i + Z.of_nat n <= len f -> -3 <= j -> j + Z.of_nat n <= 66 ->
  exists f', lg_fill c tbl n i j f = Ok f' /\ len f' = len f /\ forall k, 0 <= k -> if (i <=? k) && (k <? i + Z.of_nat n) then sc (el f' k) (tt (j + k - i)) 0 else el f' k = el f k.
Proof using Hc Ht.
  induction n as [|n IH]; intros i j f Hi Hl Hj Hn.
  - exists f. split; [reflexivity|]. split; [reflexivity|]. intros k Hk. replace ((i <=? k) && (k <? i + Z.of_nat 0)) with false by lia. reflexivity.
  - cbn [lg_fill]. assert (E : exists v, (if j <? 0 then Ok 0 else (let* t := tab tbl j in Ok (c_ofi c t))) = Ok v /\ sc v (tt j) 0).
    { destruct (Z.ltb_spec j 0) as [L|L]; [exists 0; split; [reflexivity|]; unfold tt; replace (j <? 0) with true by lia; apply sc_zero|].
      rewrite Ht by lia. cbn [bind]. eexists. split; [reflexivity|]. pose proof (tt_range j). apply sc_ofi; [exact Hc|lia]. }
    destruct E as (v & -> & Sv). cbn [bind]. destruct (put_el f i v ltac:(lia)) as (f1 & -> & L1 & E1). cbn [bind].
    replace (cadd (SI 32) j 1) with (Ok (j + 1)) by (symmetry; apply chk_ok, fits_s; lia). cbn [bind].
    destruct (IH (i + 1) (j + 1) f1) as (f' & -> & L' & E'); try lia. exists f'. split; [reflexivity|]. split; [lia|]. intros k Hk. specialize (E' k Hk). rewrite E1 in E' by exact Hk.
    destruct (Z.eqb_spec k i) as [D|D].
    + subst k. replace ((i + 1 <=? i) && (i <? i + 1 + Z.of_nat n)) with false in E' by lia. replace ((i <=? i) && (i <? i + Z.of_nat (S n))) with true by lia. rewrite E'. replace (j + i - i) with j by lia. exact Sv.
    + replace ((i <=? k) && (k <? i + Z.of_nat (S n))) with ((i + 1 <=? k) && (k <? i + 1 + Z.of_nat n)) by lia.
      destruct ((i + 1 <=? k) && (k <? i + 1 + Z.of_nat n)); [|exact E']. replace (j + k - i) with (j + 1 + k - (i + 1)) by lia. exact E'.
Qed.

Definition fok (f : list Z) (m : Z) : Prop := len f = 20 /\ forall d, 0 <= d <= m -> sc (el f d) (tt (jv - jx + d)) 0.
(** The coefficient of 2^(-24 s) in the product *)
Definition CC (s : Z) : Z := xv 0 * tt s + xv 1 * tt (s - 1) + xv 2 * tt (s - 2).
Definition qok (q : list Z) (m : Z) : Prop := len q = 20 /\ forall i, 0 <= i <= m -> sc (el q i) (CC (jv + i)) 0.
Lemma prod_range a b : 0 <= a < 2 ^ 24 -> 0 <= b < 2 ^ 24 -> 0 <= a * b <= 2 ^ 48.
Proof using. intros Ha Hb. split; [apply Z.mul_nonneg_nonneg; lia|]. apply Z.le_trans with (2 ^ 24 * 2 ^ 24); [apply Z.mul_le_mono_nonneg; lia|lia]. Qed.
Lemma CC_range s : 0 <= CC s <= 3 * 2 ^ 48.
Proof using Hxr. unfold CC. pose proof (prod_range _ _ (Hxr 0) (tt_range s)). pose proof (prod_range _ _ (Hxr 1) (tt_range (s - 1))). pose proof (prod_range _ _ (Hxr 2) (tt_range (s - 2))). lia. Qed.

Lemma dot_gen f k : fok f k -> k < 20 -> forall n j fw a, 0 <= j -> j + Z.of_nat n <= jx + 1 -> jx <= k -> sc fw a 0 -> 0 <= a <= j * 2 ^ 48 ->
  exists r, lg_dot o n j k x f fw = Ok r /\ sc r (a + sumz n j (fun t => xv t * tt (jv - jx + (k - t)))) 0.
Proof using Ho Hx Hxr Hlen Hjx.
  intros (Lf & Ff) Hk. induction n as [|n IH]; intros j fw a Hj Hn Hjk Sf Ha.
  - exists fw. split; [reflexivity|]. cbn [sumz]. rewrite Z.add_0_r. exact Sf.
  - cbn [lg_dot]. rewrite tab_el by lia. cbn [bind]. rewrite usub_ok by lia. cbn [bind]. rewrite tab_el by lia. cbn [bind].
    pose proof (prod_range _ _ (Hxr j) (tt_range (jv - jx + (k - j)))) as Pr.
    destruct (IH (j + 1) (o_add o fw (o_mul o (el x j) (el f (k - j)))) (a + xv j * tt (jv - jx + (k - j)))) as (r & E & S); try lia.
    + apply (sc_add o Ho); [exact Sf| |lia|lia]. apply (sc_mul o Ho _ _ _ _ 0 0); [apply Hx; lia|apply Ff; lia|lia|lia].
    + exists r. split; [exact E|]. cbn [sumz]. rewrite Z.add_assoc. exact S.
Qed.
Lemma dot_ok f i : fok f (jx + i) -> 0 <= i -> jx + i < 20 -> exists r, lg_dot o (S (Z.to_nat jx)) 0 (jx + i) x f 0 = Ok r /\ sc r (CC (jv + i)) 0.
Proof using Ho Hx Hxr Hx0 Hlen Hjx.
  intros Hf Hi Hk. destruct (dot_gen f (jx + i) Hf Hk (S (Z.to_nat jx)) 0 0 0) as (r & E & S1); try lia; [apply sc_zero|]. exists r. split; [exact E|].
  rewrite Z.add_0_l in S1. replace (CC (jv + i)) with (sumz (S (Z.to_nat jx)) 0 (fun t => xv t * tt (jv - jx + (jx + i - t)))); [exact S1|].
  assert (J : jx = 0 \/ jx = 1 \/ jx = 2) by lia. unfold CC. pose proof (Hx0 1). pose proof (Hx0 2).
  destruct J as [J|[J|J]]; rewrite J in *; [change (Z.to_nat 0) with 0%nat|change (Z.to_nat 1) with 1%nat|change (Z.to_nat 2) with 2%nat]; cbn [sumz]; change (0 + 1) with 1; change (1 + 1) with 2.
  - rewrite (Hx0 1), (Hx0 2) by lia. replace (jv - 0 + (0 + i - 0)) with (jv + i) by lia. lia.
  - rewrite (Hx0 2) by lia. replace (jv - 1 + (1 + i - 0)) with (jv + i) by lia. replace (jv - 1 + (1 + i - 1)) with (jv + i - 1) by lia. lia.
  - replace (jv - 2 + (2 + i - 0)) with (jv + i) by lia. replace (jv - 2 + (2 + i - 1)) with (jv + i - 1) by lia. replace (jv - 2 + (2 + i - 2)) with (jv + i - 2) by lia. lia.
Qed.
Lemma q_ok f n : forall i q, 0 <= i -> fok f (jx + i + Z.of_nat n - 1) -> jx + i + Z.of_nat n <= 20 -> qok q (i - 1) ->
  exists q', lg_q o n i jx x f q = Ok q' /\ qok q' (i + Z.of_nat n - 1).
Proof using Ho Hx Hxr Hx0 Hlen Hjx.
  induction n as [|n IH]; intros i q Hi Hf Hl Hq.
  - exists q. split; [reflexivity|]. replace (i + Z.of_nat 0 - 1) with (i - 1) by lia. exact Hq.
  - cbn [lg_q]. destruct (dot_ok f i) as (r & -> & Sr); [|lia|lia|]. { destruct Hf as (A & B). split; [exact A|]. intros d Hd. apply B. lia. }
    cbn [bind]. destruct Hq as (Lq & Fq). destruct (put_el q i r ltac:(lia)) as (q1 & -> & L1 & E1). cbn [bind].
    destruct (IH (i + 1) q1) as (q' & -> & Q'); [lia| |lia| |].
    + replace (jx + (i + 1) + Z.of_nat n - 1) with (jx + i + Z.of_nat (S n) - 1) by lia. exact Hf.
    + split; [lia|]. intros k Hk. rewrite E1 by lia. destruct (Z.eqb_spec k i) as [->|D]; [exact Sr|apply Fq; lia].
    + exists q'. split; [reflexivity|]. replace (i + Z.of_nat (S n) - 1) with (i + 1 + Z.of_nat n - 1) by lia. exact Q'.
Qed.
Lemma extend_ok n : forall i f q, 0 <= i -> fok f (jx + i - 1) -> qok q (i - 1) -> jx + i + Z.of_nat n <= 20 -> jv + i + Z.of_nat n <= 66 ->
  exists f' q', lg_extend o c tbl n i jx jv x f q = Ok (f', q') /\ fok f' (jx + i + Z.of_nat n - 1) /\ qok q' (i + Z.of_nat n - 1).
Proof using Ho Hc Ht Hx Hxr Hx0 Hlen Hjx Hjv.
  induction n as [|n IH]; intros i f q Hi Hf Hq Hl Hv.
  - exists f, q. split; [reflexivity|]. replace (i + Z.of_nat 0 - 1) with (i - 1) by lia. replace (jx + i + Z.of_nat 0 - 1) with (jx + i - 1) by lia. split; assumption.
  - cbn [lg_extend]. rewrite Ht by lia. cbn [bind]. destruct Hf as (Lf & Ff). destruct (put_el f (jx + i) (c_ofi c (tt (jv + i))) ltac:(lia)) as (f1 & -> & L1 & E1). cbn [bind].
    assert (F1 : fok f1 (jx + i)).
    { split; [lia|]. intros d Hd. rewrite E1 by lia. destruct (Z.eqb_spec d (jx + i)) as [->|D]; [|apply Ff; lia]. replace (jv - jx + (jx + i)) with (jv + i) by lia. pose proof (tt_range (jv + i)). apply sc_ofi; [exact Hc|lia]. }
    destruct (dot_ok f1 i F1) as (r & -> & Sr); [lia|lia|]. cbn [bind]. destruct Hq as (Lq & Fq). destruct (put_el q i r ltac:(lia)) as (q1 & -> & L1' & E1'). cbn [bind].
    destruct (IH (i + 1) f1 q1) as (f' & q' & -> & F' & Q'); try lia.
    + replace (jx + (i + 1) - 1) with (jx + i) by lia. exact F1.
    + split; [lia|]. intros k Hk. rewrite E1' by lia. destruct (Z.eqb_spec k i) as [->|D]; [exact Sr|apply Fq; lia].
    + exists f', q'. split; [reflexivity|]. replace (i + Z.of_nat (S n) - 1) with (i + 1 + Z.of_nat n - 1) by lia. replace (jx + i + Z.of_nat (S n) - 1) with (jx + (i + 1) + Z.of_nat n - 1) by lia. split; assumption.
Qed.
End Trig.
