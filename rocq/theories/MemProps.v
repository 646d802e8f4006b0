(** Properties C13-C19. *)
From Coq Require Import ZArith Lia Bool List.
From Verif Require Import Base BaseLemmas MemModel MemSpec MemProofs MemProofs2 MemProofs3 MemProofs4
  MemProofs5 MemProofs6 MemProofs7 MemProofs8 MemProofs9.
Import ListNotations.
Open Scope Z_scope.

(** The configurations: the portable implementation on targets with 16-, 32- or 64-bit
    pointers, either byte order, with or without unaligned accesses; the x86_64 one
    with any combination of its cpu features. *)
Definition target (i : impl) (e : env) : Prop :=
  match i with
  | Generic => W e = 2 \/ W e = 4 \/ W e = 8
  | X86 _ _ => W e = 8 /\ be e = false
  end.
Definition readable (e : env) (a n : Z) : Prop := forall x, inside a n x -> rd e x = true.
Definition writable (e : env) (a n : Z) : Prop := forall x, inside a n x -> wr e x = true.
(** The caller grants nothing but these bytes; every other access makes the model
    return [Err UB]. *)
Definition reads_only (e : env) (P : Z -> Prop) : Prop := forall x, rd e x = true <-> P x.
Definition writes_only (e : env) (P : Z -> Prop) : Prop := forall x, wr e x = true <-> P x.

Lemma target_ok i e : target i e -> impl_ok i e.
Proof. destruct i; auto. Qed.
Lemma mem_ok m : is_memory m -> bytes_ok m.
Proof. intros H a. specialize (H a). lia. Qed.
Lemma region_sp e a n : region (W e) a n -> in_space e a n /\ 0 <= n.
Proof. unfold region, in_space, abits. lia. Qed.
Lemma copied_moved m m' d s n : copied m m' d s n -> bytes_moved m m' d s n.
Proof.
  intros H. split.
  - intros i Hi. rewrite H. rewrite (proj2 (Z.leb_le _ _)), (proj2 (Z.ltb_lt _ _)) by lia.
    cbn [andb]. f_equal. lia.
  - intros x Hx. rewrite H. unfold inside in Hx. zb; try lia; reflexivity.
Qed.
Lemma filled_set m m' d c n : filled m m' d (c mod 256) n -> bytes_set m m' d c n.
Proof.
  intros H. split.
  - intros i Hi. rewrite H. rewrite (proj2 (Z.leb_le _ _)), (proj2 (Z.ltb_lt _ _)) by lia. reflexivity.
  - intros x Hx. rewrite H. unfold inside in Hx. zb; try lia; reflexivity.
Qed.

(** A concrete memory, and environments granting exactly two regions. *)
Definition mem0 : mem := fun a => (a * 7 + a / 256) mod 256.
Definition env0 (w : Z) (b u : bool) (ra rn wa wn : Z) : env :=
  Env w b u (fun x => (ra <=? x) && (x <? ra + rn)) (fun x => (wa <=? x) && (x <? wa + wn)) (fun _ => false).
Definition check_moved (m m' : mem) (lo hi dst src n : Z) : bool :=
  forallb (fun k => let x := lo + Z.of_nat k in
    m' x =? (if (dst <=? x) && (x <? dst + n) then m (src + (x - dst)) else m x)) (seq 0 (Z.to_nat (hi - lo))).

(** ** C13. Non-overlap is needed only when the destination starts after the source. *)
Theorem C13_memcpy : forall i e m dst src n, target i e -> is_memory m ->
  region (W e) dst n -> region (W e) src n -> readable e src n -> writable e dst n ->
  dst <= src \/ src + n <= dst ->
  exists m', memcpy i e m dst src n = Ok (m', dst) /\ bytes_moved m m' dst src n.
Proof.
  intros i e m d s n Ht Hm HD HS HR HW HF.
  destruct (region_sp e d n HD), (region_sp e s n HS).
  destruct (memcpy_ok i e m d s n) as (m' & E & C); auto using target_ok, mem_ok.
  exists m'. split; [exact E|]. apply copied_moved. exact C.
Qed.
Example C13_ex :
  forallb (fun p : Z * (bool * bool) * (Z * Z * Z) =>
    let '(w, (b, u), (d, s, n)) := p in
    match memcpy Generic (env0 w b u s n d n) mem0 d s n with
    | Ok (m', r) => (r =? d) && check_moved mem0 m' 900 1200 d s n | _ => false end)
  (list_prod (list_prod [2; 4; 8] [(true, true); (true, false); (false, true); (false, false)])
     [(1000, 1100, 17); (1001, 1103, 40); (1003, 1101, 33); (1000, 1104, 16); (1007, 1106, 0); (950, 1111, 7)]) = true /\
  match memcpy (X86 false true) (env0 8 false false 1101 50 1003 50) mem0 1003 1101 50 with
  | Ok (m', r) => (r =? 1003) && check_moved mem0 m' 900 1200 1003 1101 50 | _ => false end = true.
Proof. split; vm_compute; reflexivity. Qed.

(** ** C14 *)
Theorem C14_memmove : forall i e m dst src n, target i e -> is_memory m ->
  region (W e) dst n -> region (W e) src n -> readable e src n -> writable e dst n ->
  exists m', memmove i e m dst src n = Ok (m', dst) /\ bytes_moved m m' dst src n.
Proof.
  intros i e m d s n Ht Hm HD HS HR HW.
  destruct (region_sp e d n HD), (region_sp e s n HS).
  destruct (memmove_ok i e m d s n) as (m' & E & C); auto using target_ok, mem_ok.
  exists m'. split; [exact E|]. apply copied_moved. exact C.
Qed.
Example C14_ex :
  forallb (fun p : Z * (bool * bool) * (Z * Z * Z) =>
    let '(w, (b, u), (d, s, n)) := p in
    match memmove Generic (env0 w b u s n d n) mem0 d s n with
    | Ok (m', r) => (r =? d) && check_moved mem0 m' 900 1200 d s n | _ => false end)
  (list_prod (list_prod [2; 4; 8] [(true, true); (true, false); (false, true); (false, false)])
     [(1000, 1005, 37); (1005, 1000, 37); (1003, 1002, 33); (1002, 1003, 16); (1016, 1000, 40); (950, 950, 20)]) = true /\
  match memmove (X86 true true) (env0 8 false false 1001 50 1003 50) mem0 1003 1001 50 with
  | Ok (m', r) => (r =? 1003) && check_moved mem0 m' 900 1200 1003 1001 50 | _ => false end = true.
Proof. split; vm_compute; reflexivity. Qed.

(** ** C15 *)
Theorem C15_memset : forall i e m dst c n, target i e ->
  region (W e) dst n -> writable e dst n ->
  exists m', memset i e m dst c n = Ok (m', dst) /\ bytes_set m m' dst c n.
Proof.
  intros i e m d c n Ht HD HW. destruct (region_sp e d n HD).
  destruct (memset_ok i e m d c n) as (m' & E & C); auto using target_ok.
  exists m'. split; [exact E|]. apply filled_set. exact C.
Qed.
Example C15_ex : forallb (fun i => forallb (fun d =>
    match memset i (env0 8 false false 0 0 d 45) mem0 d (-3) 45 with
    | Ok (m', r) => (r =? d) && forallb (fun k => let x := 950 + Z.of_nat k in
        m' x =? if (d <=? x) && (x <? d + 45) then 253 else mem0 x) (seq 0 200)
    | _ => false end) [1000; 1001; 1007]) [Generic; X86 false false; X86 true false] = true.
Proof. vm_compute. reflexivity. Qed.

(** ** C16. The functions return a value only: memory is not modified. *)
Lemma cmp_rel_order m a b n r : cmp_rel m a b n r -> byte_order m a b n r.
Proof.
  intros [[Hall ->]|(j & Hj & Hpre & Hne & ->)].
  - split; [tauto|]. intros k Hk _. rewrite (Hall k Hk). lia.
  - split.
    + split; [lia|]. intros Hall. exfalso. apply Hne, Hall. exact Hj.
    + intros k Hk Hpk. destruct (Z.lt_trichotomy k j) as [L|[->|G]].
      * rewrite (Hpre k ltac:(lia)). lia.
      * lia.
      * exfalso. apply Hne, Hpk. lia.
Qed.
Theorem C16_memcmp : forall i e m a b n, target i e -> is_memory m ->
  region (W e) a n -> region (W e) b n -> readable e a n -> readable e b n ->
  exists r, memcmp i e m a b n = Ok r /\ byte_order m a b n r.
Proof.
  intros i e m a b n Ht Hm HA HB HRa HRb.
  destruct (region_sp e a n HA), (region_sp e b n HB). pose proof (mem_ok m Hm).
  assert (exists r, memcmp i e m a b n = Ok r /\ cmp_rel m a b n r) as (r & E & C).
  { destruct i; [apply compare_bytes_ok|apply x86_compare_bytes_ok]; assumption. }
  exists r. split; [exact E|]. apply cmp_rel_order. exact C.
Qed.
Theorem C16_bcmp : forall i e m a b n, target i e -> is_memory m ->
  region (W e) a n -> region (W e) b n -> readable e a n -> readable e b n ->
  exists r, bcmp i e m a b n = Ok r /\ (r = 0 <-> forall k, 0 <= k < n -> m (a + k) = m (b + k)).
Proof.
  intros i e m a b n Ht Hm HA HB HRa HRb.
  destruct (C16_memcmp i e m a b n) as (r & E & C & _); auto. exists r. split; [exact E|exact C].
Qed.
Example C16_ex :
  let m := fun a => if a =? 1037 then 200 else if a =? 2037 then 100 else 5 in
  forallb (fun i => match memcmp i (env0 8 false false 0 4000 0 0) m 1000 2000 100, memcmp i (env0 8 false false 0 4000 0 0) m 2000 1000 38,
      bcmp i (env0 8 false false 0 4000 0 0) m 1000 2000 37 with
    | Ok x, Ok y, Ok z => (x =? 100) && (y =? -100) && (z =? 0) | _, _, _ => false end)
  [Generic; X86 false true] = true.
Proof. vm_compute. reflexivity. Qed.

(** ** C17. [blk] is the size of the aligned blocks a variant may load outside the
    string: a block is loaded only if it contains a byte of the string. *)
Definition strlen_block (i : impl) : Z :=
  match i with Generic => 1 | X86 _ true => 16 | X86 _ false => 8 end.
Theorem C17_strlen : forall i e m s len fuel, target i e -> is_memory m ->
  c_string m s len -> region (W e) s len -> readable e s (len + 1) ->
  (forall x y, inside s (len + 1) x -> y / strlen_block i = x / strlen_block i -> pg e y = true) ->
  (Z.to_nat len < fuel)%nat -> strlen i fuel e m s = Ok len.
Proof.
  intros i e m s len fuel Ht Hm (HL & Hz & Hnz) HR Hr Hpg Hf. pose proof (mem_ok m Hm) as Hb.
  destruct (region_sp e s len HR) as [[Hs1 Hs2] _].
  assert (Hc : cstr m s len) by (split; [exact HL|split; assumption]).
  destruct i as [|ermsb [|]]; cbn [strlen].
  - pose proof (strlen_loop_ok e m s len Hb Hc Hs1 Hs2 Hr fuel 0 ltac:(lia) ltac:(lia)) as H. rewrite Z.add_0_r in H. exact H.
  - apply sse_strlen_ok; auto. intros x y Hx Hy. apply (Hpg x y); [unfold inside; lia|exact Hy].
  - apply w8_strlen_ok; auto. intros x y Hx Hy. apply (Hpg x y); [unfold inside; lia|exact Hy].
Qed.
Example C17_ex : forallb (fun i => forallb (fun s => forallb (fun len =>
    let m := fun a => if (s <=? a) && (a <? s + len) then 128 else 0 in
    let blk := strlen_block i in
    let e := Env 8 false false (fun x => (s <=? x) && (x <=? s + len)) (fun _ => false)
               (fun y => (s / blk <=? y / blk) && (y / blk <=? (s + len) / blk)) in
    match strlen i 200 e m s with Ok n => n =? len | _ => false end)
  [0; 1; 3; 4; 5; 15; 16; 40]) [1000; 1003; 1008; 1015]) [Generic; X86 false false; X86 false true] = true.
Proof. vm_compute. reflexivity. Qed.

(** ** C18. When the caller grants exactly the regions of the call, no access fails:
    loads stay in the source region(s), stores in the destination region, and every
    access that needs alignment is aligned (see [ld], [st] in the model). *)
Theorem C18_memcpy : forall i e m dst src n, target i e -> is_memory m ->
  region (W e) dst n -> region (W e) src n -> dst <= src \/ src + n <= dst ->
  reads_only e (inside src n) -> writes_only e (inside dst n) ->
  exists r, memcpy i e m dst src n = Ok r.
Proof.
  intros i e m d s n Ht Hm HD HS HF HR HW.
  destruct (C13_memcpy i e m d s n) as (m' & E & _); auto; [intros x Hx; apply HR, Hx|intros x Hx; apply HW, Hx|eauto].
Qed.
Theorem C18_memmove : forall i e m dst src n, target i e -> is_memory m ->
  region (W e) dst n -> region (W e) src n ->
  reads_only e (inside src n) -> writes_only e (inside dst n) ->
  exists r, memmove i e m dst src n = Ok r.
Proof.
  intros i e m d s n Ht Hm HD HS HR HW.
  destruct (C14_memmove i e m d s n) as (m' & E & _); auto; [intros x Hx; apply HR, Hx|intros x Hx; apply HW, Hx|eauto].
Qed.
Theorem C18_memset : forall i e m dst c n, target i e -> region (W e) dst n ->
  reads_only e (fun _ => False) -> writes_only e (inside dst n) ->
  exists r, memset i e m dst c n = Ok r.
Proof.
  intros i e m d c n Ht HD HR HW.
  destruct (C15_memset i e m d c n) as (m' & E & _); auto; [intros x Hx; apply HW, Hx|eauto].
Qed.
Theorem C18_memcmp : forall i e m a b n, target i e -> is_memory m ->
  region (W e) a n -> region (W e) b n ->
  reads_only e (fun x => inside a n x \/ inside b n x) -> writes_only e (fun _ => False) ->
  exists r, memcmp i e m a b n = Ok r.
Proof.
  intros i e m a b n Ht Hm HA HB HR HW.
  destruct (C16_memcmp i e m a b n) as (r & E & _); auto; [intros x Hx; apply HR; auto|intros x Hx; apply HR; auto|eauto].
Qed.
(** Accesses outside the grant, or misaligned, are errors in the model. *)
Example C18_ex :
  memcpy Generic (env0 8 false false 1101 39 1003 40) mem0 1003 1101 40 = Err UB /\
  memcpy Generic (env0 8 false false 1101 40 1003 39) mem0 1003 1101 40 = Err UB /\
  memset Generic (env0 4 false false 0 0 1003 39) mem0 1002 0 40 = Err UB /\
  memmove (X86 false true) (env0 8 false false 1001 40 1003 39) mem0 1003 1001 40 = Err UB /\
  ld (env0 8 false false 0 5000 0 0) 8 mem0 1003 = Err UB.
Proof. repeat split; vm_compute; reflexivity. Qed.

(** ** C19. ARM: 32-bit pointers, either byte order. Argument order of the memset
    family: (dst, n, c). *)
Definition arm (e : env) : Prop := W e = 4.
Definition aligned (k a : Z) : Prop := exists q, a = k * q.
Lemma aligned_mod k a : 0 < k -> aligned k a -> a mod k = 0.
Proof. intros Hk (q & ->). rewrite Z.mul_comm. apply Z.mod_mul. lia. Qed.
Lemma aligned_84 a : aligned 8 a -> aligned 4 a.
Proof. intros (q & ->). exists (2 * q). lia. Qed.
Lemma arm_ok e : arm e -> env_ok e.
Proof. right. left. assumption. Qed.

Ltac arm_regions := repeat match goal with H : region _ _ _ |- _ => apply region_sp in H; destruct H end.

Theorem C19_memcpy : forall e m dst src n, arm e -> is_memory m ->
  region (W e) dst n -> region (W e) src n -> readable e src n -> writable e dst n -> dst <= src \/ src + n <= dst ->
  (exists m', aeabi_memcpy e m dst src n = Ok m' /\ bytes_moved m m' dst src n) /\
  (aligned 4 dst -> aligned 4 src -> exists m', aeabi_memcpy4 e m dst src n = Ok m' /\ bytes_moved m m' dst src n) /\
  (aligned 8 dst -> aligned 8 src -> exists m', aeabi_memcpy8 e m dst src n = Ok m' /\ bytes_moved m m' dst src n).
Proof.
  intros e m d s n He Hm HD HS HR HW HF. arm_regions. pose proof (arm_ok e He). pose proof (mem_ok m Hm).
  assert (A4 : aligned 4 d -> aligned 4 s -> exists m', aeabi_memcpy4 e m d s n = Ok m' /\ bytes_moved m m' d s n).
  { intros Hd Hs. destruct (aeabi_memcpy4_ok e m d s n) as (m' & E & C); auto using aligned_mod with zarith;
      try (apply aligned_mod; [lia|assumption]). eauto using copied_moved. }
  repeat split.
  - destruct (aeabi_memcpy_ok e m d s n) as (m' & E & C); auto. eauto using copied_moved.
  - exact A4.
  - intros Hd Hs. unfold aeabi_memcpy8. rewrite !aligned_mod by (lia || assumption). cbn [Z.eqb assert bind].
    apply A4; apply aligned_84; assumption.
Qed.
Theorem C19_memmove : forall e m dst src n, arm e -> is_memory m ->
  region (W e) dst n -> region (W e) src n -> readable e src n -> writable e dst n ->
  (exists m', aeabi_memmove e m dst src n = Ok m' /\ bytes_moved m m' dst src n) /\
  (aligned 4 dst -> aligned 4 src -> exists m', aeabi_memmove4 e m dst src n = Ok m' /\ bytes_moved m m' dst src n) /\
  (aligned 8 dst -> aligned 8 src -> exists m', aeabi_memmove8 e m dst src n = Ok m' /\ bytes_moved m m' dst src n).
Proof.
  intros e m d s n He Hm HD HS HR HW. arm_regions. pose proof (arm_ok e He). pose proof (mem_ok m Hm).
  assert (A1 : exists m', aeabi_memmove e m d s n = Ok m' /\ bytes_moved m m' d s n).
  { destruct (aeabi_memmove_ok e m d s n) as (m' & E & C); auto. eauto using copied_moved. }
  repeat split; [exact A1| |]; intros Hd Hs; unfold aeabi_memmove4, aeabi_memmove8;
    rewrite !aligned_mod by (lia || assumption); cbn [Z.eqb assert bind]; exact A1.
Qed.
Theorem C19_memset : forall e m dst c n, arm e -> region (W e) dst n -> writable e dst n ->
  (exists m', aeabi_memset e m dst n c = Ok m' /\ bytes_set m m' dst c n) /\
  (aligned 4 dst -> exists m', aeabi_memset4 e m dst n c = Ok m' /\ bytes_set m m' dst c n) /\
  (aligned 8 dst -> exists m', aeabi_memset8 e m dst n c = Ok m' /\ bytes_set m m' dst c n).
Proof.
  intros e m d c n He HD HW. arm_regions. pose proof (arm_ok e He).
  assert (A4 : aligned 4 d -> exists m', aeabi_memset4 e m d n c = Ok m' /\ bytes_set m m' d c n).
  { intros Hd. destruct (aeabi_memset4_ok e m d c n) as (m' & E & C); auto;
      try (apply aligned_mod; [lia|assumption]). eauto using filled_set. }
  repeat split.
  - destruct (aeabi_memset_ok e m d c n) as (m' & E & C); auto. eauto using filled_set.
  - exact A4.
  - intros Hd. unfold aeabi_memset8. rewrite !aligned_mod by (lia || assumption). cbn [Z.eqb assert bind].
    apply A4, aligned_84, Hd.
Qed.
Theorem C19_memclr : forall e m dst n, arm e -> region (W e) dst n -> writable e dst n ->
  (exists m', aeabi_memclr e m dst n = Ok m' /\ bytes_set m m' dst 0 n) /\
  (aligned 4 dst -> exists m', aeabi_memclr4 e m dst n = Ok m' /\ bytes_set m m' dst 0 n) /\
  (aligned 8 dst -> exists m', aeabi_memclr8 e m dst n = Ok m' /\ bytes_set m m' dst 0 n).
Proof.
  intros e m d n He HD HW. destruct (C19_memset e m d 0 n He HD HW) as (A1 & A4 & A8).
  repeat split; [exact A1| |]; intros Hd; unfold aeabi_memclr4, aeabi_memclr8;
    rewrite !aligned_mod by (lia || assumption); cbn [Z.eqb assert bind]; [apply A4, Hd|apply A4, aligned_84, Hd].
Qed.
Example C19_ex :
  match aeabi_memcpy8 (env0 4 false false 1104 19 1000 19) mem0 1000 1104 19 with
  | Ok m' => check_moved mem0 m' 900 1200 1000 1104 19 | _ => false end = true /\
  match aeabi_memmove4 (env0 4 true false 1000 39 1004 39) mem0 1004 1000 39 with
  | Ok m' => check_moved mem0 m' 900 1200 1004 1000 39 | _ => false end = true /\
  match aeabi_memset4 (env0 4 true false 0 0 1004 39) mem0 1004 39 511 with
  | Ok m' => (m' 1004 =? 255) && (m' 1042 =? 255) && (m' 1043 =? mem0 1043) | _ => false end = true /\
  match aeabi_memclr8 (env0 4 false false 0 0 1008 3) mem0 1008 3 with
  | Ok m' => (m' 1008 =? 0) && (m' 1010 =? 0) && (m' 1011 =? mem0 1011) | _ => false end = true.
Proof. repeat split; vm_compute; reflexivity. Qed.

Definition C13_C19_all := (C13_memcpy, C14_memmove, C15_memset, C16_memcmp, C16_bcmp, C17_strlen,
  C18_memcpy, C18_memmove, C18_memset, C18_memcmp, C19_memcpy, C19_memmove, C19_memset, C19_memclr).
Print Assumptions C13_C19_all.
