From Coq Require Import ZArith Lia Bool List.
From Verif Require Import Base BaseLemmas MemModel MemProofs MemProofs2.
Import ListNotations.
Open Scope Z_scope.

(** * Partial loads *)

Lemma load_chunk_skip e m src T base sz s : Z.land sz T = 0 -> load_chunk e m src T base sz s = Ok s.
Proof. intros H. unfold load_chunk. destruct s as [out off]. rewrite H. reflexivity. Qed.
Lemma load_chunk_do e m src T base sz out off : Z.land sz T <> 0 -> 0 < T ->
  0 <= src + off < 2 ^ abits e -> (src + off) mod T = 0 -> can_read e (src + off) T ->
  (base + off) mod T = 0 -> 0 <= base + off -> base + off + T <= W e ->
  load_chunk e m src T base sz (out, off) =
    Ok (fun x => if (base + off <=? x) && (x <? base + off + T) then m (src + off + (x - (base + off))) else out x, Z.lor off T).
Proof.
  intros H HT Hs Hmod Hr Hb1 Hb2 Hb3. unfold load_chunk.
  destruct (Z.eqb_spec (Z.land sz T) 0) as [|_]; [contradiction|]. cbn [negb].
  rewrite padd_id by lia. rewrite Hmod, Hb1.
  rewrite (proj2 (range_ok_spec (rd e) (src + off) T ltac:(lia))) by exact Hr.
  rewrite (proj2 (Z.leb_le 0 (base + off))) by lia.
  rewrite (proj2 (Z.leb_le (base + off + T) (W e))) by lia. reflexivity.
Qed.

Ltac chunk :=
  match goal with
  | |- context [load_chunk ?e ?m ?src ?T ?base ?sz ?s] =>
      let v := eval vm_compute in (Z.land sz T) in
      match v with
      | 0 => rewrite (load_chunk_skip e m src T base sz s) by reflexivity
      | _ => rewrite (load_chunk_do e m src T base sz);
             [ | vm_compute; discriminate | lia | lia
             | try (Z.to_euclidean_division_equations; lia) | intros ?x ?Hx; match goal with H : can_read _ _ _ |- _ => apply H end; lia
             | reflexivity | lia | lia ]
      end; cbn [bind];
      repeat match goal with |- context [Z.lor ?a ?b] => let v := eval vm_compute in (Z.lor a b) in change (Z.lor a b) with v end
  end.


Lemma load_aligned_partial_ok e m src o : env_ok e -> bytes_ok m -> 0 < o < W e -> src mod W e = 0 ->
  in_space e src o -> can_read e src o ->
  exists w, load_aligned_partial e m src o = Ok w /\ 0 <= w < 2 ^ abits e /\
    forall i, 0 <= i < o -> byte w (idx (be e) (W e) i) = m (src + i).
Proof.
  intros He Hm Ho Hs [Hs1 Hs2] Hr. unfold load_aligned_partial.
  rewrite (proj2 (Z.ltb_lt o (W e))) by lia. cbn [assert bind].
  pose proof (mul_exact src (W e) ltac:(lia) Hs) as Eq. set (q := src / W e) in *. clearbody q.
  assert (HA : forall f : mem, bytes_ok f -> 0 <= word_at (be e) (W e) f 0 < 2 ^ abits e)
    by (intros f Hf; apply word_at_range; [exact Hf|lia]).
  destruct He as [HW|[HW|HW]]; rewrite HW in Ho, Eq.
  all: assert (Ho' : o = 1 \/ o = 2 \/ o = 3 \/ o = 4 \/ o = 5 \/ o = 6 \/ o = 7) by lia;
    repeat match type of Ho' with _ \/ _ => destruct Ho' as [Ho'|Ho'] end;
    subst o; try lia;
    do 3 chunk; cbn [snd assert bind Z.lor];
    match goal with |- exists w, (let* _ := assert (?a =? ?b) in _) = _ /\ _ => replace (a =? b) with true by reflexivity end;
    cbn [assert bind fst]; eexists; (split; [reflexivity|]); (split;
      [ apply HA; intros a; zb; first [apply Hm | lia]
      | intros i Hi; rewrite word_at_byte;
        [ zb; first [lia | f_equal; lia] | intros a; zb; first [apply Hm | lia] | lia ] ]).
Qed.

Lemma load_aligned_end_partial_ok e m src o : env_ok e -> bytes_ok m -> 0 < o < W e -> src mod W e = 0 ->
  0 <= src -> src + W e - 1 < 2 ^ abits e -> can_read e (src + o) (W e - o) ->
  exists w, load_aligned_end_partial e m src (W e - o) = Ok w /\ 0 <= w < 2 ^ abits e /\
    forall i, o <= i < W e -> byte w (idx (be e) (W e) i) = m (src + i).
Proof.
  intros He Hm Ho Hs Hs1 Hs2 Hr. unfold load_aligned_end_partial.
  rewrite (proj2 (Z.ltb_lt (W e - o) (W e))) by lia. cbn [assert bind].
  pose proof (mul_exact src (W e) ltac:(lia) Hs) as Eq. set (q := src / W e) in *. clearbody q.
  assert (HA : forall f : mem, bytes_ok f -> 0 <= word_at (be e) (W e) f 0 < 2 ^ abits e)
    by (intros f Hf; apply word_at_range; [exact Hf|lia]).
  replace (W e - (W e - o)) with o by lia. rewrite padd_id by lia.
  destruct He as [HW|[HW|HW]]; rewrite HW in Ho, Eq, Hr, Hs2, HA |- *.
  all: assert (Ho' : o = 1 \/ o = 2 \/ o = 3 \/ o = 4 \/ o = 5 \/ o = 6 \/ o = 7) by lia;
    repeat match type of Ho' with _ \/ _ => destruct Ho' as [Ho'|Ho'] end;
    subst o; try lia;
    do 3 chunk; cbn [snd assert bind Z.lor];
    match goal with |- exists w, (let* _ := assert (?a =? ?b) in _) = _ /\ _ => replace (a =? b) with true by reflexivity end;
    cbn [assert bind fst]; eexists; (split; [reflexivity|]); (split;
      [ apply HA; intros a; zb; first [apply Hm | lia]
      | intros i Hi; rewrite word_at_byte;
        [ zb; first [lia | f_equal; lia] | intros a; zb; first [apply Hm | lia] | lia ] ]).
Qed.
