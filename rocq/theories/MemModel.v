(** Model of the memory routines:
    compiler-builtins/src/mem/{mod,impls,x86_64}.rs and the __aeabi_mem* functions
    of compiler-builtins/src/arm.rs. Definitions only. *)
From Coq Require Import ZArith Bool List.
From Verif Require Import Base.
Import ListNotations.
Open Scope Z_scope.

(** * The machine's memory *)

(** A byte for every address. *)
Definition mem := Z -> Z.

(** The target and what the caller allows the callee to access. [W]: size_of::<usize>()
    (2, 4 or 8); [be]: big-endian; [unal]: cfg(mem_unaligned) (build.rs:45-49);
    [rd]/[wr]: the bytes the routine may read/write; [pg]: the bytes mapped readable by
    the processor, which bounds the loads made through inline assembly. *)
Record env := Env { W : Z; be : bool; unal : bool; rd : Z -> bool; wr : Z -> bool; pg : Z -> bool }.

Definition abits (e : env) : Z := 8 * W e.
(** Pointer arithmetic with wrapping_add / wrapping_sub / wrapping_byte_add. *)
Definition padd (e : env) (p k : Z) : Z := (p + k) mod 2 ^ abits e.

(** The bytes [a, a+n) all satisfy [P]. *)
Definition range_ok (P : Z -> bool) (a : Z) (n : Z) : bool :=
  forallb (fun i => P (a + Z.of_nat i)) (seq 0 (Z.to_nat n)).

(** Position, in order of significance, of the byte at offset [i] of an [sz]-byte integer. *)
Definition idx (b : bool) (sz i : Z) : Z := if b then sz - 1 - i else i.
Definition byte (x i : Z) : Z := Z.land (Z.shiftr x (8 * i)) 255.
(** The integer with bytes f 0 (least significant), f 1, ... *)
Fixpoint le_word (n : nat) (f : Z -> Z) : Z :=
  match n with O => 0 | S n => f 0 + 256 * le_word n (fun i => f (i + 1)) end.
Definition word_at (b : bool) (sz : Z) (m : mem) (a : Z) : Z :=
  le_word (Z.to_nat sz) (fun i => m (a + idx b sz i)).

(** A typed load: undefined when misaligned or not readable. *)
Definition ld (e : env) (sz : Z) (m : mem) (a : Z) : res Z :=
  if (a mod sz =? 0) && range_ok (rd e) a sz then Ok (word_at (be e) sz m a) else Err UB.
(** A load without alignment requirement. *)
Definition ldu (e : env) (sz : Z) (m : mem) (a : Z) : res Z :=
  if range_ok (rd e) a sz then Ok (word_at (be e) sz m a) else Err UB.
Definition upd (e : env) (sz : Z) (m : mem) (a v : Z) : mem :=
  fun x => if (a <=? x) && (x <? a + sz) then byte v (idx (be e) sz (x - a)) else m x.
Definition st (e : env) (sz : Z) (m : mem) (a v : Z) : res mem :=
  if (a mod sz =? 0) && range_ok (wr e) a sz then Ok (upd e sz m a v) else Err UB.
Definition stu (e : env) (sz : Z) (m : mem) (a v : Z) : res mem :=
  if range_ok (wr e) a sz then Ok (upd e sz m a v) else Err UB.

(** * impls.rs *)

(** WORD_COPY_THRESHOLD, impls.rs:32-36 *)
Definition word_copy_threshold (e : env) : Z := if 16 <? 2 * W e then 2 * W e else 16.

(** load_chunk_aligned, impls.rs:51-64. [T]: chunk size. The destination is the local
    variable [out] of the caller, modelled as its bytes in memory order; [base] is the
    offset of the pointer [dst] in it. Copying a T through a register moves its bytes. *)
Definition load_chunk (e : env) (m : mem) (src : Z) (T : Z) (base load_sz : Z) (st : mem * Z) : res (mem * Z) :=
  let '(out, off) := st in
  if negb (Z.land load_sz T =? 0) then
    let s := padd e src off in
    let d := base + off in
    if (s mod T =? 0) && range_ok (rd e) s T && (d mod T =? 0) && (0 <=? d) && (d + T <=? W e) then
      Ok (fun x => if (d <=? x) && (x <? d + T) then m (s + (x - d)) else out x, Z.lor off T)
    else Err UB
  else Ok (out, off).

(** load_aligned_partial, impls.rs:71-85 *)
Definition load_aligned_partial (e : env) (m : mem) (src load_sz : Z) : res Z :=
  let* _ := assert (load_sz <? W e) in
  let* s := load_chunk e m src 4 0 load_sz (fun _ => 0, 0) in
  let* s := load_chunk e m src 2 0 load_sz s in
  let* s := load_chunk e m src 1 0 load_sz s in
  let* _ := assert (snd s =? load_sz) in
  Ok (word_at (be e) (W e) (fst s) 0).
(** load_aligned_end_partial, impls.rs:93-110 *)
Definition load_aligned_end_partial (e : env) (m : mem) (src load_sz : Z) : res Z :=
  let* _ := assert (load_sz <? W e) in
  let src_shifted := padd e src (W e - load_sz) in
  let b := W e - load_sz in
  let* s := load_chunk e m src_shifted 1 b load_sz (fun _ => 0, 0) in
  let* s := load_chunk e m src_shifted 2 b load_sz s in
  let* s := load_chunk e m src_shifted 4 b load_sz s in
  let* _ := assert (snd s =? load_sz) in
  Ok (word_at (be e) (W e) (fst s) 0).

(** copy_forward_bytes (sz = 1), impls.rs:115-122; copy_forward_aligned_words (sz = W),
    impls.rs:125-135: the same loop over elements of size [sz]. *)
Fixpoint copy_forward_loop (fuel : nat) (e : env) (sz : Z) (m : mem) (dest src dest_end : Z) : res mem :=
  if dest <? dest_end then
    match fuel with
    | O => Err OutOfFuel
    | S fuel =>
        let* v := ld e sz m src in
        let* m := st e sz m dest v in
        copy_forward_loop fuel e sz m (padd e dest sz) (padd e src sz) dest_end
    end
  else Ok m.
Definition copy_forward_bytes (e : env) (m : mem) (dest src n : Z) : res mem :=
  copy_forward_loop (Z.to_nat n) e 1 m dest src (padd e dest n).
Definition copy_forward_aligned_words (e : env) (m : mem) (dest src n : Z) : res mem :=
  copy_forward_loop (Z.to_nat n) e (W e) m dest src (padd e dest n).

(** Reassembly of a word from two aligned ones, impls.rs:160-164, 175-179; shifts of
    usize values. *)
Definition reassemble_fwd (e : env) (prev cur shift : Z) : res Z :=
  let U := UI (abits e) in
  if be e then
    let* x := cshl U prev shift in let* y := cshr U cur (W e * 8 - shift) in Ok (Z.lor x y)
  else
    let* x := cshr U prev shift in let* y := cshl U cur (W e * 8 - shift) in Ok (Z.lor x y).
(** The loop of copy_forward_misaligned_words, impls.rs:157-169; returns memory,
    dest_usize, src_aligned, prev_word. *)
Fixpoint cfm_loop (fuel : nat) (e : env) (shift : Z) (m : mem) (dest src_al prev dest_end : Z) : res (mem * Z * Z * Z) :=
  if padd e dest (W e) <? dest_end then
    match fuel with
    | O => Err OutOfFuel
    | S fuel =>
        let src_al := padd e src_al (W e) in
        let* cur := ld e (W e) m src_al in
        let* r := reassemble_fwd e prev cur shift in
        let* m := st e (W e) m dest r in
        cfm_loop fuel e shift m (padd e dest (W e)) src_al cur dest_end
    end
  else Ok (m, dest, src_al, prev).
(** copy_forward_misaligned_words without mem_unaligned, impls.rs:141-184 *)
Definition copy_forward_misaligned (e : env) (m : mem) (dest src n : Z) : res mem :=
  let* _ := assert ((0 <? n) && (n mod W e =? 0)) in
  let* _ := assert (negb (src mod W e =? 0)) in
  let dest_end := padd e dest n in
  let offset := Z.land src (W e - 1) in
  let* shift := cmul (UI (abits e)) offset 8 in
  let src_al := padd e src (- offset) in
  let* prev := load_aligned_end_partial e m src_al (W e - offset) in
  let* st1 := cfm_loop (Z.to_nat n) e shift m dest src_al prev dest_end in
  let '(m, dest, src_al, prev) := st1 in
  let src_al := padd e src_al (W e) in
  let* cur := load_aligned_partial e m src_al offset in
  let* r := reassemble_fwd e prev cur shift in
  st e (W e) m dest r.
(** copy_forward_misaligned_words with mem_unaligned, impls.rs:190-201;
    read_usize_unaligned, impls.rs:39-44 *)
Fixpoint copy_forward_unal_loop (fuel : nat) (e : env) (m : mem) (dest src dest_end : Z) : res mem :=
  if dest <? dest_end then
    match fuel with
    | O => Err OutOfFuel
    | S fuel =>
        let* v := ldu e (W e) m src in
        let* m := st e (W e) m dest v in
        copy_forward_unal_loop fuel e m (padd e dest (W e)) (padd e src (W e)) dest_end
    end
  else Ok m.
(** copy_forward, impls.rs:113-224 (body from line 203) *)
Definition copy_forward (e : env) (m : mem) (dest src n : Z) : res mem :=
  let U := UI (abits e) in
  let word_mask := W e - 1 in
  let* s := (if word_copy_threshold e <=? n then
    let dest_mis := Z.land (wrapping_neg U dest) word_mask in
    let* m := copy_forward_bytes e m dest src dest_mis in
    let dest := padd e dest dest_mis in
    let src := padd e src dest_mis in
    let* n := csub U n dest_mis in
    let n_words := Z.land n (inot U word_mask) in
    let src_mis := Z.land src word_mask in
    let* m := (if src_mis =? 0 then copy_forward_aligned_words e m dest src n_words
               else if unal e then copy_forward_unal_loop (Z.to_nat n_words) e m dest src (padd e dest n_words)
               else copy_forward_misaligned e m dest src n_words) in
    let dest := padd e dest n_words in
    let src := padd e src n_words in
    let* n := csub U n n_words in
    Ok (m, dest, src, n)
  else Ok (m, dest, src, n)) in
  let '(m, dest, src, n) := s in
  copy_forward_bytes e m dest src n.

(** copy_backward_bytes, impls.rs:231-238, and copy_backward_aligned_words,
    impls.rs:241-251; the pointers are one past the end. *)
Fixpoint copy_backward_loop (fuel : nat) (e : env) (sz : Z) (m : mem) (dest src dest_start : Z) : res mem :=
  if dest_start <? dest then
    match fuel with
    | O => Err OutOfFuel
    | S fuel =>
        let dest := padd e dest (- sz) in
        let src := padd e src (- sz) in
        let* v := ld e sz m src in
        let* m := st e sz m dest v in
        copy_backward_loop fuel e sz m dest src dest_start
    end
  else Ok m.
Definition copy_backward_bytes (e : env) (m : mem) (dest src n : Z) : res mem :=
  copy_backward_loop (Z.to_nat n) e 1 m dest src (padd e dest (- n)).
Definition copy_backward_aligned_words (e : env) (m : mem) (dest src n : Z) : res mem :=
  copy_backward_loop (Z.to_nat n) e (W e) m dest src (padd e dest (- n)).
(** impls.rs:276-280, 291-295 *)
Definition reassemble_bwd (e : env) (prev cur shift : Z) : res Z :=
  let U := UI (abits e) in
  if be e then
    let* x := cshr U prev (W e * 8 - shift) in let* y := cshl U cur shift in Ok (Z.lor x y)
  else
    let* x := cshl U prev (W e * 8 - shift) in let* y := cshr U cur shift in Ok (Z.lor x y).
(** impls.rs:273-285 *)
Fixpoint cbm_loop (fuel : nat) (e : env) (shift : Z) (m : mem) (dest src_al prev dest_start : Z) : res (mem * Z * Z * Z) :=
  if padd e dest_start (W e) <? dest then
    match fuel with
    | O => Err OutOfFuel
    | S fuel =>
        let src_al := padd e src_al (- W e) in
        let* cur := ld e (W e) m src_al in
        let* r := reassemble_bwd e prev cur shift in
        let dest := padd e dest (- W e) in
        let* m := st e (W e) m dest r in
        cbm_loop fuel e shift m dest src_al cur dest_start
    end
  else Ok (m, dest, src_al, prev).
(** copy_backward_misaligned_words without mem_unaligned, impls.rs:257-300 *)
Definition copy_backward_misaligned (e : env) (m : mem) (dest src n : Z) : res mem :=
  let* _ := assert ((0 <? n) && (n mod W e =? 0)) in
  let* _ := assert (negb (src mod W e =? 0)) in
  let dest_start := padd e dest (- n) in
  let offset := Z.land src (W e - 1) in
  let* shift := cmul (UI (abits e)) offset 8 in
  let src_al := padd e src (- offset) in
  let* prev := load_aligned_partial e m src_al offset in
  let* st1 := cbm_loop (Z.to_nat n) e shift m dest src_al prev dest_start in
  let '(m, dest, src_al, prev) := st1 in
  let src_al := padd e src_al (- W e) in
  let* cur := load_aligned_end_partial e m src_al (W e - offset) in
  let* r := reassemble_bwd e prev cur shift in
  let dest := padd e dest (- W e) in
  st e (W e) m dest r.
(** with mem_unaligned, impls.rs:306-317 *)
Fixpoint copy_backward_unal_loop (fuel : nat) (e : env) (m : mem) (dest src dest_start : Z) : res mem :=
  if dest_start <? dest then
    match fuel with
    | O => Err OutOfFuel
    | S fuel =>
        let dest := padd e dest (- W e) in
        let src := padd e src (- W e) in
        let* v := ldu e (W e) m src in
        let* m := st e (W e) m dest v in
        copy_backward_unal_loop fuel e m dest src dest_start
    end
  else Ok m.
(** copy_backward, impls.rs:227-343 (body from line 319) *)
Definition copy_backward (e : env) (m : mem) (dest src n : Z) : res mem :=
  let U := UI (abits e) in
  let word_mask := W e - 1 in
  let dest := padd e dest n in
  let src := padd e src n in
  let* s := (if word_copy_threshold e <=? n then
    let dest_mis := Z.land dest word_mask in
    let* m := copy_backward_bytes e m dest src dest_mis in
    let dest := padd e dest (- dest_mis) in
    let src := padd e src (- dest_mis) in
    let* n := csub U n dest_mis in
    let n_words := Z.land n (inot U word_mask) in
    let src_mis := Z.land src word_mask in
    let* m := (if src_mis =? 0 then copy_backward_aligned_words e m dest src n_words
               else if unal e then copy_backward_unal_loop (Z.to_nat n_words) e m dest src (padd e dest (- n_words))
               else copy_backward_misaligned e m dest src n_words) in
    let dest := padd e dest (- n_words) in
    let src := padd e src (- n_words) in
    let* n := csub U n n_words in
    Ok (m, dest, src, n)
  else Ok (m, dest, src, n)) in
  let '(m, dest, src, n) := s in
  copy_backward_bytes e m dest src n.

(** set_bytes_bytes (sz = 1), impls.rs:348-354, and the store loop of set_bytes_words
    (sz = W), impls.rs:365-371 *)
Fixpoint set_loop (fuel : nat) (e : env) (sz : Z) (m : mem) (s v s_end : Z) : res mem :=
  if s <? s_end then
    match fuel with
    | O => Err OutOfFuel
    | S fuel =>
        let* m := st e sz m s v in
        set_loop fuel e sz m (padd e s sz) v s_end
    end
  else Ok m.
(** the broadcast loop, impls.rs:358-363; at most three doublings *)
Fixpoint broadcast_loop (fuel : nat) (e : env) (x bits : Z) : res Z :=
  if bits <? W e * 8 then
    match fuel with
    | O => Err OutOfFuel
    | S fuel =>
        let* y := cshl (UI (abits e)) x bits in
        let* bits := cmul (UI (abits e)) bits 2 in
        broadcast_loop fuel e (Z.lor x y) bits
    end
  else Ok x.
Definition set_bytes_words (e : env) (m : mem) (s c n : Z) : res mem :=
  let* b := broadcast_loop 3 e c 8 in
  set_loop (Z.to_nat n) e (W e) m s b (padd e s n).
Definition set_bytes_bytes (e : env) (m : mem) (s c n : Z) : res mem :=
  set_loop (Z.to_nat n) e 1 m s c (padd e s n).
(** set_bytes, impls.rs:346-390 *)
Definition set_bytes (e : env) (m : mem) (s c n : Z) : res mem :=
  let U := UI (abits e) in
  let word_mask := W e - 1 in
  let* st1 := (if word_copy_threshold e <=? n then
    let mis := Z.land (wrapping_neg U s) word_mask in
    let* m := set_bytes_bytes e m s c mis in
    let s := padd e s mis in
    let* n := csub U n mis in
    let n_words := Z.land n (inot U word_mask) in
    let* m := set_bytes_words e m s c n_words in
    let s := padd e s n_words in
    let* n := csub U n n_words in
    Ok (m, s, n)
  else Ok (m, s, n)) in
  let '(m, s, n) := st1 in
  set_bytes_bytes e m s c n.

(** compare_bytes, impls.rs:393-404; c_int is 32 bits (16 on AVR/MSP430: the
    difference of two bytes fits either). *)
Fixpoint compare_loop (fuel : nat) (e : env) (m : mem) (s1 s2 n i : Z) : res Z :=
  if i <? n then
    match fuel with
    | O => Err OutOfFuel
    | S fuel =>
        let* a := ld e 1 m (padd e s1 i) in
        let* b := ld e 1 m (padd e s2 i) in
        if negb (a =? b) then csub (SI 16) a b
        else let* i := cadd (UI (abits e)) i 1 in compare_loop fuel e m s1 s2 n i
    end
  else Ok 0.
Definition compare_bytes (e : env) (m : mem) (s1 s2 n : Z) : res Z :=
  compare_loop (Z.to_nat n) e m s1 s2 n 0.

(** c_string_length, impls.rs:407-414. The bound is the size of the address space. *)
Fixpoint strlen_loop (fuel : nat) (e : env) (m : mem) (s n : Z) : res Z :=
  match fuel with
  | O => Err OutOfFuel
  | S fuel =>
      let* c := ld e 1 m s in
      if negb (c =? 0) then
        let* n := cadd (UI (abits e)) n 1 in strlen_loop fuel e m (padd e s 1) n
      else Ok n
  end.

(** * x86_64.rs *)

(** [rep movsb]/[rep movsq] with [rcx = k]; [sz] = 1 or 8, [df]: direction flag. The
    processor moves one element per count, without alignment requirement. *)
Fixpoint rep_movs (k : nat) (e : env) (sz : Z) (df : bool) (m : mem) (rdi rsi : Z) : res (mem * Z * Z) :=
  match k with
  | O => Ok (m, rdi, rsi)
  | S k =>
      let* v := ldu e sz m rsi in
      let* m := stu e sz m rdi v in
      let d := if df then - sz else sz in
      rep_movs k e sz df m (padd e rdi d) (padd e rsi d)
  end.
Fixpoint rep_stos (k : nat) (e : env) (sz : Z) (m : mem) (rdi v : Z) : res (mem * Z) :=
  match k with
  | O => Ok (m, rdi)
  | S k => let* m := stu e sz m rdi v in rep_stos k e sz m (padd e rdi sz) v
  end.
(** rep_param, x86_64.rs:302-309 *)
Definition rep_param (e : env) (dest count : Z) : res (Z * Z * Z) :=
  let U := UI (abits e) in
  let* x := csub U 8 (Z.land dest 7) in
  let pre := Z.min (Z.land x 7) count in
  let* count := csub U count pre in
  Ok (pre, Z.shiftr count 3, Z.land count 7).
(** copy_forward, x86_64.rs:24-60; [ermsb]: cfg(target_feature = "ermsb") *)
Definition x86_copy_forward (ermsb : bool) (e : env) (m : mem) (dest src count : Z) : res mem :=
  if ermsb then
    let* s := rep_movs (Z.to_nat count) e 1 false m dest src in Ok (fst (fst s))
  else
    let* p := rep_param e dest count in
    let '(pre, qw, bc) := p in
    let* s := rep_movs (Z.to_nat pre) e 1 false m dest src in
    let '(m, dest, src) := s in
    let* s := rep_movs (Z.to_nat qw) e 8 false m dest src in
    let '(m, dest, src) := s in
    let* s := rep_movs (Z.to_nat bc) e 1 false m dest src in
    Ok (fst (fst s)).
(** copy_backward, x86_64.rs:63-86 *)
Definition x86_copy_backward (e : env) (m : mem) (dest src count : Z) : res mem :=
  let* p := rep_param e dest count in
  let '(pre, qw, bc) := p in
  let* c1 := csub (UI (abits e)) count 1 in
  let* s := rep_movs (Z.to_nat bc) e 1 true m (padd e dest c1) (padd e src c1) in
  let '(m, rdi, rsi) := s in
  let* s := rep_movs (Z.to_nat qw) e 8 true m (padd e rdi (-7)) (padd e rsi (-7)) in
  let '(m, rdi, rsi) := s in
  let* s := rep_movs (Z.to_nat pre) e 1 true m (padd e rdi 7) (padd e rsi 7) in
  Ok (fst (fst s)).
(** set_bytes, x86_64.rs:89-126; [rep stosb] stores al, the low byte. *)
Definition x86_set_bytes (ermsb : bool) (e : env) (m : mem) (dest c count : Z) : res mem :=
  if ermsb then
    let* s := rep_stos (Z.to_nat count) e 1 m dest c in Ok (fst s)
  else
    let* c := cmul (UI 64) c 0x0101010101010101 in
    let* p := rep_param e dest count in
    let '(pre, qw, bc) := p in
    let* s := rep_stos (Z.to_nat pre) e 1 m dest c in
    let '(m, dest) := s in
    let* s := rep_stos (Z.to_nat qw) e 8 m dest c in
    let '(m, dest) := s in
    let* s := rep_stos (Z.to_nat bc) e 1 m dest c in
    Ok (fst s).

(** compare_bytes, x86_64.rs:129-171. [x86_c1]: the closure c1. *)
Fixpoint x86_c1 (k : nat) (e : env) (m : mem) (a b : Z) : res Z :=
  match k with
  | O => Ok 0
  | S k =>
      let* x := ld e 1 m a in
      let* y := ld e 1 m b in
      if negb (x =? y) then csub (SI 32) x y
      else x86_c1 k e m (padd e a 1) (padd e b 1)
  end.
(** the while loop of [cmp], x86_64.rs:141-147, with [f] the next smaller comparison *)
Fixpoint x86_cmp_loop (fuel : nat) (e : env) (m : mem) (T : Z) (f : Z -> Z -> Z -> res Z) (a b a_end rest : Z) : res Z :=
  if negb (a =? a_end) then
    match fuel with
    | O => Err OutOfFuel
    | S fuel =>
        let* x := ldu e T m a in
        let* y := ldu e T m b in
        if negb (x =? y) then f a b T
        else x86_cmp_loop fuel e m T f (padd e a T) (padd e b T) a_end rest
    end
  else f a b rest.
Definition x86_cmp (e : env) (m : mem) (T : Z) (f : Z -> Z -> Z -> res Z) (a b n : Z) : res Z :=
  x86_cmp_loop (Z.to_nat (n / T)) e m T f a b (padd e a (n / T * T)) (n mod T).
Definition x86_compare_bytes (e : env) (m : mem) (a b n : Z) : res Z :=
  let c1 := fun a b n => x86_c1 (Z.to_nat n) e m a b in
  let c2 := x86_cmp e m 2 c1 in
  let c4 := x86_cmp e m 4 c2 in
  let c8 := x86_cmp e m 8 c4 in
  x86_cmp e m 16 c8 a b n.

(** An aligned load made by inline assembly: only the processor's page mapping
    matters. *)
Definition ld_asm (e : env) (sz : Z) (m : mem) (a : Z) : res Z :=
  if (a mod sz =? 0) && range_ok (pg e) a sz then Ok (word_at (be e) sz m a) else Err UB.
(** _mm_movemask_epi8(_mm_cmpeq_epi8(x, 0)): bit i is set iff byte i of x is zero. *)
Definition zero_mask (n : nat) (x : Z) : Z :=
  fold_right (fun i acc => b2z (byte x (Z.of_nat i) =? 0) + 2 * acc) 0 (seq 0 n).
(** c_string_length with sse2, x86_64.rs:183-246. The first four bytes: *)
Fixpoint sse_prefix (k : nat) (e : env) (m : mem) (s n : Z) : res (Z + Z * Z) :=
  match k with
  | O => Ok (inr (s, n))
  | S k =>
      let* c := ld e 1 m s in
      if c =? 0 then Ok (inl n)
      else let* n := cadd (UI (abits e)) n 1 in sse_prefix k e m (padd e s 1) n
  end.
(** the loop, x86_64.rs:227-245 *)
Fixpoint sse_loop (fuel : nat) (e : env) (m : mem) (s n : Z) : res Z :=
  match fuel with
  | O => Err OutOfFuel
  | S fuel =>
      let* x := ld_asm e 16 m s in
      let cmp := zero_mask 16 x in
      if cmp =? 0 then
        let* n := cadd (UI (abits e)) n 16 in sse_loop fuel e m (padd e s 16) n
      else cadd (UI (abits e)) n (ntz 32 cmp)
  end.
Definition sse_strlen (fuel : nat) (e : env) (m : mem) (s : Z) : res Z :=
  let* p := sse_prefix 4 e m s 0 in
  match p with
  | inl n => Ok n
  | inr (s, n) =>
      let align := Z.land s 15 in
      let* s := csub (UI (abits e)) s align in
      let* x := ld_asm e 16 m s in
      let* cmp := cshr (SI 32) (zero_mask 16 x) align in
      if negb (cmp =? 0) then cadd (UI (abits e)) n (ntz 32 cmp)
      else
        let* k := csub (UI (abits e)) 16 align in
        let* n := cadd (UI (abits e)) n k in
        sse_loop fuel e m (padd e s 16) n
  end.

(** c_string_length without sse2, x86_64.rs:252-299. Byte steps up to an 8-byte
    boundary: *)
Fixpoint w8_prefix (fuel : nat) (e : env) (m : mem) (s n : Z) : res (Z + Z * Z) :=
  if negb (Z.land s 7 =? 0) then
    match fuel with
    | O => Err OutOfFuel
    | S fuel =>
        let* c := ld e 1 m s in
        if c =? 0 then Ok (inl n)
        else let* n := cadd (UI (abits e)) n 1 in w8_prefix fuel e m (padd e s 1) n
    end
  else Ok (inr (s, n)).
(** locating the zero byte in the word, x86_64.rs:286-293 *)
Fixpoint w8_find (fuel : nat) (e : env) (cs n : Z) : res Z :=
  match fuel with
  | O => Err OutOfFuel
  | S fuel =>
      if Z.land cs 255 =? 0 then Ok n
      else let* n := cadd (UI (abits e)) n 1 in w8_find fuel e (Z.shiftr cs 8) n
  end.
Fixpoint w8_loop (fuel : nat) (e : env) (m : mem) (s n : Z) : res Z :=
  match fuel with
  | O => Err OutOfFuel
  | S fuel =>
      let* cs := ld_asm e 8 m s in
      if negb (Z.land (Z.land (wrapping_sub (UI 64) cs 0x0101010101010101) (inot (UI 64) cs)) 0x8080808080808080 =? 0)
      then w8_find 9 e cs n
      else let* n := cadd (UI (abits e)) n 8 in w8_loop fuel e m (padd e s 8) n
  end.
Definition w8_strlen (fuel : nat) (e : env) (m : mem) (s : Z) : res Z :=
  let* p := w8_prefix 8 e m s 0 in
  match p with
  | inl n => Ok n
  | inr (s, n) => w8_loop fuel e m s n
  end.

(** * mod.rs *)

(** Which implementation module is compiled in, mod.rs:9-10, and its cfg switches. *)
Inductive impl := Generic | X86 (ermsb sse2 : bool).

Definition impl_copy_forward (i : impl) := match i with Generic => copy_forward | X86 erms _ => x86_copy_forward erms end.
Definition impl_copy_backward (i : impl) := match i with Generic => copy_backward | X86 _ _ => x86_copy_backward end.
Definition impl_set_bytes (i : impl) := match i with Generic => set_bytes | X86 erms _ => x86_set_bytes erms end.

(** memcpy, mod.rs:15-18; the result is the final memory and the returned pointer *)
Definition memcpy (i : impl) (e : env) (m : mem) (dest src n : Z) : res (mem * Z) :=
  let* m := impl_copy_forward i e m dest src n in Ok (m, dest).
(** memmove, mod.rs:22-32 *)
Definition memmove (i : impl) (e : env) (m : mem) (dest src n : Z) : res (mem * Z) :=
  let delta := wrapping_sub (UI (abits e)) dest src in
  let* m := (if n <=? delta then impl_copy_forward i e m dest src n
             else impl_copy_backward i e m dest src n) in
  Ok (m, dest).
(** memset, mod.rs:36-39; [c] is the c_int argument, cast to u8 *)
Definition memset (i : impl) (e : env) (m : mem) (s c n : Z) : res (mem * Z) :=
  let* m := impl_set_bytes i e m s (norm (UI 8) c) n in Ok (m, s).
(** memcmp, mod.rs:43-45; bcmp, mod.rs:49-51 *)
Definition memcmp (i : impl) (e : env) (m : mem) (s1 s2 n : Z) : res Z :=
  match i with Generic => compare_bytes e m s1 s2 n | X86 _ _ => x86_compare_bytes e m s1 s2 n end.
Definition bcmp := memcmp.
(** strlen, mod.rs:54-56; [fuel] bounds the scan *)
Definition strlen (i : impl) (fuel : nat) (e : env) (m : mem) (s : Z) : res Z :=
  match i with
  | Generic => strlen_loop fuel e m s 0
  | X86 _ true => sse_strlen fuel e m s
  | X86 _ false => w8_strlen fuel e m s
  end.

(** * arm.rs: the EABI helpers. mem::memcpy etc. are the generic ones there. *)

(** __aeabi_memcpy, arm.rs:87-90 *)
Definition aeabi_memcpy (e : env) (m : mem) (dst src n : Z) : res mem :=
  let* r := memcpy Generic e m dst src n in Ok (fst r).
(** the word loop of __aeabi_memcpy4, arm.rs:107-121 *)
Fixpoint aeabi_memcpy4_loop (fuel : nat) (e : env) (m : mem) (dst src n : Z) : res (mem * Z * Z * Z) :=
  if 4 <=? n then
    match fuel with
    | O => Err OutOfFuel
    | S fuel =>
        let* v := ld e 4 m src in
        let* m := st e 4 m dst v in
        let* n := csub (UI (abits e)) n 4 in
        aeabi_memcpy4_loop fuel e m (padd e dst 4) (padd e src 4) n
    end
  else Ok (m, dst, src, n).
(** arm.rs:99-125 *)
Definition aeabi_memcpy4 (e : env) (m : mem) (dst src n : Z) : res mem :=
  let* _ := assert (dst mod 4 =? 0) in
  let* _ := assert (src mod 4 =? 0) in
  let* s := aeabi_memcpy4_loop (Z.to_nat n) e m dst src n in
  let '(m, dst, src, n) := s in
  aeabi_memcpy e m dst src n.
(** arm.rs:134-140 *)
Definition aeabi_memcpy8 (e : env) (m : mem) (dst src n : Z) : res mem :=
  let* _ := assert (dst mod 8 =? 0) in
  let* _ := assert (src mod 8 =? 0) in
  aeabi_memcpy4 e m dst src n.
(** arm.rs:148-151, 160-166, 175-181 *)
Definition aeabi_memmove (e : env) (m : mem) (dst src n : Z) : res mem :=
  let* r := memmove Generic e m dst src n in Ok (fst r).
Definition aeabi_memmove4 (e : env) (m : mem) (dst src n : Z) : res mem :=
  let* _ := assert (dst mod 4 =? 0) in
  let* _ := assert (src mod 4 =? 0) in
  aeabi_memmove e m dst src n.
Definition aeabi_memmove8 (e : env) (m : mem) (dst src n : Z) : res mem :=
  let* _ := assert (dst mod 8 =? 0) in
  let* _ := assert (src mod 8 =? 0) in
  aeabi_memmove e m dst src n.
(** arm.rs:189-193; note the argument order *)
Definition aeabi_memset (e : env) (m : mem) (dst n c : Z) : res mem :=
  let* r := memset Generic e m dst c n in Ok (fst r).
(** the loop of __aeabi_memset4, arm.rs:210-222 *)
Fixpoint aeabi_memset4_loop (fuel : nat) (e : env) (m : mem) (dst c n : Z) : res (mem * Z * Z) :=
  if 4 <=? n then
    match fuel with
    | O => Err OutOfFuel
    | S fuel =>
        let* m := st e 4 m dst c in
        let* n := csub (UI (abits e)) n 4 in
        aeabi_memset4_loop fuel e m (padd e dst 4) c n
    end
  else Ok (m, dst, n).
(** arm.rs:202-226 *)
Definition aeabi_memset4 (e : env) (m : mem) (dst n c : Z) : res mem :=
  let* _ := assert (dst mod 4 =? 0) in
  let b := Z.land (norm (UI 32) c) 255 in
  let* x := cshl (UI 32) b 24 in
  let* y := cshl (UI 32) b 16 in
  let* z := cshl (UI 32) b 8 in
  let c := Z.lor (Z.lor (Z.lor x y) z) b in
  let* s := aeabi_memset4_loop (Z.to_nat n) e m dst c n in
  let '(m, dst, n) := s in
  aeabi_memset e m dst n (norm (SI 32) b).
(** arm.rs:235-240 *)
Definition aeabi_memset8 (e : env) (m : mem) (dst n c : Z) : res mem :=
  let* _ := assert (dst mod 8 =? 0) in aeabi_memset4 e m dst n c.
(** arm.rs:248-251, 260-265, 274-279 *)
Definition aeabi_memclr (e : env) (m : mem) (dst n : Z) : res mem := aeabi_memset e m dst n 0.
Definition aeabi_memclr4 (e : env) (m : mem) (dst n : Z) : res mem :=
  let* _ := assert (dst mod 4 =? 0) in aeabi_memset4 e m dst n 0.
Definition aeabi_memclr8 (e : env) (m : mem) (dst n : Z) : res mem :=
  let* _ := assert (dst mod 8 =? 0) in aeabi_memset4 e m dst n 0.
