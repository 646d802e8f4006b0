(** An executable scheduler for the aarch64 machine, to exhibit concrete executions. *)
From Coq Require Import ZArith Bool List Lia.
From Verif Require Import Base AtomicSpec AtomicModel AtomicProofs AtomicA64Model.
Open Scope Z_scope.
Import ListNotations.

(** One instruction; [k] chooses among its outcomes. *)
Definition choose (big whole : bool) (code : list instr) (t : nat) (k : Z) (s : shared) (l : local) : option (shared * local) :=
  match half l with
  | Some (d, a) => Some (s, next (set_half None (set d (get big (sh_mem s) a 8) l)))
  | None =>
    match nth_error code (pc l) with
    | None | Some Ret_ => None
    | Some (Lbl _) => Some (s, next l)
    | Some (Adrp d) => if (0 <=? k) && (k <? 2 ^ 64) then Some (s, next (set d k l)) else None
    | Some (LdrbLse d) => if (0 <=? k) && (k <? 256) then Some (s, next (set d k l)) else None
    | Some (Cbz r j) => Some (s, if rd 4 l r =? 0 then goto (label code j) l else next l)
    | Some (Cbnz r j) => Some (s, if rd 4 l r =? 0 then next l else goto (label code j) l)
    | Some (Bne j) => Some (s, if zf l then next l else goto (label code j) l)
    | Some (Uxt n d r) => Some (s, next (set d (if n =? 1 then rd 4 l r mod 2 ^ 8 else if n =? 2 then rd 4 l r mod 2 ^ 16 else rd n l r) l))
    | Some (Mov n d r) => Some (s, next (set d (rd n l r) l))
    | Some (Alu o n d r q) => Some (s, next (set d (alu_op o (rd n l r) (rd n l q) mod 2 ^ width n) l))
    | Some (Cmp n r q) => Some (s, next (setz (rd n l r =? rd n l q) l))
    | Some (CcmpEq n r q) => Some (s, next (setz (if zf l then rd n l r =? rd n l q else false) l))
    | Some (Ldxr n d p) => Some (set_mon t (Some (reg l p, n)) s, next (set d (get big (sh_mem s) (reg l p) n) l))
    | Some (Stxr n st r p) =>
        if k =? 0 then Some (set_mon t None s, next (set st 1 l))
        else match sh_mon s t with
             | Some (a, m) => if (a =? reg l p) && (m =? n) then Some (set_mon t None (write big t s (reg l p) n (reg l r)), next (set st 0 l)) else None
             | None => None
             end
    | Some (Ldxp d d' p) =>
        let a := reg l p in
        Some (set_mon t (Some (a, 16)) s,
              if whole then next (set d' (get big (sh_mem s) (a + 8) 8) (set d (get big (sh_mem s) a 8) l))
              else if k =? 0 then set_half (Some (d', a + 8)) (set d (get big (sh_mem s) a 8) l)
              else set_half (Some (d, a)) (set d' (get big (sh_mem s) (a + 8) 8) l))
    | Some (Stxp st r r' p) =>
        if k =? 0 then Some (set_mon t None s, next (set st 1 l))
        else match sh_mon s t with
             | Some (a, m) => if (a =? reg l p) && (m =? 16) then Some (set_mon t None (write big t s (reg l p) 16 (pair big (reg l r) (reg l r'))), next (set st 0 l)) else None
             | None => None
             end
    | Some (LseCas n r q p) =>
        let x := get big (sh_mem s) (reg l p) n in
        Some (if x =? reg l r mod 256 ^ n then write big t s (reg l p) n (reg l q) else s, next (set r x l))
    | Some (LseCasp r r' q q' p) =>
        let a := reg l p in
        Some (if get big (sh_mem s) a 16 =? pair big (reg l r) (reg l r') then write big t s a 16 (pair big (reg l q) (reg l q')) else s,
              next (set r' (get big (sh_mem s) (a + 8) 8) (set r (get big (sh_mem s) a 8) l)))
    | Some (LseSwp n r d p) => Some (write big t s (reg l p) n (reg l r), next (set d (get big (sh_mem s) (reg l p) n) l))
    | Some (LseOp o n r d p) =>
        let x := get big (sh_mem s) (reg l p) n in
        Some (write big t s (reg l p) n (alu_op o x (reg l r mod 256 ^ n)), next (set d x l))
    | Some (Ldr n d p) => Some (s, next (set d (get big (sh_mem s) (reg l p) n) l))
    | Some (Str n r p) => Some (write big t s (reg l p) n (reg l r), next l)
    end
  end.
Lemma choose_step big whole code t k s l s' l' : choose big whole code t k s l = Some (s', l') -> astep big whole code t s l s' l'.
Proof.
  unfold choose, astep. destruct (half l) as [[d a]|]; [intros [= <- <-]; auto|].
  destruct (nth_error code (pc l)) as [i|]; [|discriminate].
  destruct i; cbn [istep]; intros H; try (injection H as <- <-; auto; fail); try discriminate H.
  - destruct (Z.leb_spec 0 k), (Z.ltb_spec k (2 ^ 64)); cbn [andb] in H; try discriminate H. injection H as <- <-. split; [reflexivity|]. exists k. auto.
  - destruct (Z.leb_spec 0 k), (Z.ltb_spec k 256); cbn [andb] in H; try discriminate H. injection H as <- <-. split; [reflexivity|]. exists k. auto.
  - destruct (k =? 0); [injection H as <- <-; auto|]. destruct (sh_mon s t) as [[a w]|]; [|discriminate H].
    destruct (_ && _) eqn:E in H; [|discriminate H]. apply andb_true_iff in E as [E1 E2]. apply Z.eqb_eq in E1, E2. subst a w. injection H as <- <-. auto.
  - injection H as <- <-. split; [reflexivity|]. destruct whole; [reflexivity|]. destruct (k =? 0); auto.
  - destruct (k =? 0); [injection H as <- <-; auto|]. destruct (sh_mon s t) as [[a w]|]; [|discriminate H].
    destruct (_ && _) eqn:E in H; [|discriminate H]. apply andb_true_iff in E as [E1 E2]. apply Z.eqb_eq in E1, E2. subst a w. injection H as <- <-. auto.
Qed.

(** A schedule: an instruction of a thread with a choice, or a return. *)
Inductive move := Go (t : nat) (k : Z) | Back (t : nat).
Definition state := (list event * shared * (nat -> option (call * local)))%type.
Fixpoint play (big whole : bool) (ms : list move) (x : state) : option state :=
  match ms with
  | [] => Some x
  | mv :: ms =>
    let '(h, s, ts) := x in
    match match mv with
          | Go t k => match ts t with
                      | Some (c, l) => match choose big whole (a64_code c) t k s l with
                                       | Some (s', l') => Some (h, s', upd ts t (Some (c, l')))
                                       | None => None
                                       end
                      | None => None
                      end
          | Back t => match ts t with
                      | Some (c, l) => match a64_result big c l with
                                       | Some v => Some (h ++ [Ret t v], s, upd ts t None)
                                       | None => None
                                       end
                      | None => None
                      end
          end with
    | Some y => play big whole ms y
    | None => None
    end
  end.
Lemma play_exec big whole m0 ms : forall h s ts h' s' ts', a64_exec big whole m0 h s ts ->
  play big whole ms (h, s, ts) = Some (h', s', ts') -> a64_exec big whole m0 h' s' ts'.
Proof.
  induction ms as [|mv ms IH]; intros h s ts h' s' ts' H E; cbn [play] in E.
  - injection E as <- <- <-. exact H.
  - destruct mv as [t k|t].
    + destruct (ts t) as [[c l]|] eqn:Ht; [|discriminate E].
      destruct (choose big whole (a64_code c) t k s l) as [[s1 l1]|] eqn:C; [|discriminate E].
      eapply IH; [|exact E]. eapply ex_step; [exact H|exact Ht|]. eapply choose_step. exact C.
    + destruct (ts t) as [[c l]|] eqn:Ht; [|discriminate E].
      destruct (a64_result big c l) as [v|] eqn:C; [|discriminate E].
      eapply IH; [|exact E]. eapply ex_return; [exact H|exact Ht|exact C].
Qed.
(** What there is to see of a final state: its history, some bytes, and whether the given
    threads are idle. *)
Definition seen (ms : list Z) (us : list nat) (x : option state) : option (list event * list Z * list bool) :=
  match x with
  | Some (h, s, ts) => Some (h, map (sh_mem s) ms, map (fun t => match ts t with None => true | _ => false end) us)
  | None => None
  end.
Lemma seen_play big whole m0 ms h s ts bs us h' vs is : a64_exec big whole m0 h s ts ->
  seen bs us (play big whole ms (h, s, ts)) = Some (h', vs, is) ->
  exists s' ts', a64_exec big whole m0 h' s' ts' /\ map (sh_mem s') bs = vs /\ map (fun t => match ts' t with None => true | _ => false end) us = is.
Proof.
  intros H E. destruct (play big whole ms (h, s, ts)) as [[[h1 s1] ts1]|] eqn:P; [|discriminate E].
  cbn in E. injection E as <- <- <-. exists s1, ts1. split; [eapply play_exec; eauto|auto].
Qed.
