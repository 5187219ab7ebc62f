(** The AES-based generator. [algebra/src/utils/prg.rs]. *)
From Coq Require Import ZArith List Bool Arith.
From Verif Require Import Spec.Aes Spec.Stream Model.Base Model.Block Model.Aes.
Import ListNotations.
Local Open Scope Z_scope.

(** [PrgCore], [prg.rs:10-15]. *)
Record prg_core := mk_prg_core { pc_aes : list (list Z); pc_state : Z }.

(** [prg.rs:24-31]: the eight counter blocks; [self.state += 1] is checked. *)
Fixpoint counters (n : nat) (state : Z) : option (list (list Z) * Z) :=
  match n with
  | O => Some ([], state)
  | S n' =>
      let* next := uadd 64 state 1 in
      let* '(l, s) := counters n' next in
      Some (of_u64s state 0 :: l, s)
  end.
(** The bytes of a buffer read as 32-bit little-endian words ([bytemuck::cast], [prg.rs:32]). *)
Fixpoint cast_words (n : nat) (bs : list Z) : list Z :=
  match n with O => [] | S n' => le_value (firstn 4 bs) :: cast_words n' (skipn 4 bs) end.
(** [PrgCore::generate], [prg.rs:22-33]. *)
Definition generate (A : arch) (c : prg_core) : option (list Z * prg_core) :=
  let* '(states, s) := counters 8 (pc_state c) in
  let* out := encrypt_many_blocks A (pc_aes c) states in
  Some (cast_words 32 (concat out), mk_prg_core (pc_aes c) s).
(** [PrgCore::from_seed], [prg.rs:36-44]. *)
Definition core_from_seed (A : arch) (seed : list Z) : option prg_core :=
  let* aes := aes_new A seed in Some (mk_prg_core aes 0).

(** ** [rand_core::block::BlockRng] (external crate, version 0.6): documented behaviour

    [bg_results] is the buffer of 32 words, [bg_index] the next word to hand out.  [prg.rs:50]. *)
Record block_rng := mk_block_rng { bg_core : prg_core; bg_results : list Z; bg_index : nat }.

(** [Prg::from_seed], [prg.rs:77-80]; a new [BlockRng] has an empty buffer: index = length. *)
Definition prg_from_seed (A : arch) (seed : list Z) : option block_rng :=
  let* c := core_from_seed A seed in Some (mk_block_rng c (repeat 0 32) 32).
(** [BlockRng::generate_and_set].  Behind [prg.rs:50-76]. *)
Definition generate_and_set (A : arch) (g : block_rng) (i : nat) : option block_rng :=
  let* _ := assert (i <? 32)%nat in
  let* '(r, c) := generate A (bg_core g) in Some (mk_block_rng c r i).
(** [Prg::next_u32], [prg.rs:53-56]: [BlockRng::next_u32]. *)
Definition next_u32 (A : arch) (g : block_rng) : option (Z * block_rng) :=
  let* g := (if (32 <=? bg_index g)%nat then generate_and_set A g 0 else Some g) in
  let* v := index (bg_results g) (bg_index g) in
  Some (v, mk_block_rng (bg_core g) (bg_results g) (bg_index g + 1)).
(** [Prg::next_u64], [prg.rs:58-61]: [BlockRng::next_u64], which may straddle two buffers. *)
Definition read_u64 (r : list Z) (i : nat) : option Z :=
  let* x := index r i in let* y := index r (i + 1) in Some (Z.lor (Z.shiftl y 32) x).
(** [Prg::next_u64], [prg.rs:58-61]. *)
Definition next_u64 (A : arch) (g : block_rng) : option (Z * block_rng) :=
  let i := bg_index g in
  if (i <? 31)%nat then
    let* v := read_u64 (bg_results g) i in Some (v, mk_block_rng (bg_core g) (bg_results g) (i + 2))
  else if (32 <=? i)%nat then
    let* g := generate_and_set A g 2 in let* v := read_u64 (bg_results g) 0 in Some (v, g)
  else
    let* x := index (bg_results g) 31 in
    let* g := generate_and_set A g 1 in
    let* y := index (bg_results g) 0 in Some (Z.lor (Z.shiftl y 32) x, g).
(** [Prg::fill_bytes], [prg.rs:63-71]: [BlockRng::fill_bytes] with [fill_via_u32_chunks]: as many bytes
    as the buffer and the destination allow, a partially used word is dropped.  [n] is the number of bytes
    left; every pass makes progress, so [fuel] = n + 1 suffices. *)
Fixpoint fill_bytes (A : arch) (fuel n : nat) (g : block_rng) : option (list Z * block_rng) :=
  match fuel with
  | O => None
  | S fuel' =>
      if (n =? 0)%nat then Some ([], g)
      else
        let* g := (if (32 <=? bg_index g)%nat then generate_and_set A g 0 else Some g) in
        let src := concat (map (le_bytes 4) (skipn (bg_index g) (bg_results g))) in
        let len := Nat.min (length src) n in
        let g' := mk_block_rng (bg_core g) (bg_results g) (bg_index g + (len + 3) / 4) in
        let* '(rest, g'') := fill_bytes A fuel' (n - len) g' in
        Some (firstn len src ++ rest, g'')
  end.

(** [Prg::from_rng], [prg.rs:82-85], drawing from another such generator, which moves on: rand_core documents
    [BlockRng::from_rng] and the default [SeedableRng::from_rng] as filling the bytes of a seed ([Block::as_mut],
    [block.rs:157-162]) and calling [from_seed].  The [Result] is never an error: [try_fill_bytes] of
    [prg.rs:68-71] fills without failing. *)
Definition prg_from_rng (A : arch) (g : block_rng) : option (block_rng * block_rng) :=
  let* '(seed, g) := fill_bytes A 17 16 g in
  let* child := prg_from_seed A seed in Some (child, g).

(** [Prg::random_byte], [prg.rs:112-114]: rand 0.8 documents [gen::<u8>()] as the low byte of [next_u32]. *)
Definition random_byte (A : arch) (g : block_rng) : option (Z * block_rng) :=
  let* '(v, g) := next_u32 A g in Some (v mod 256, g).
(** [Prg::random_bool], [prg.rs:100-102]: [gen::<bool>()] is the sign bit of [next_u32] ([(x as i32) < 0]). *)
Definition random_bool (A : arch) (g : block_rng) : option (bool * block_rng) :=
  let* '(v, g) := next_u32 A g in Some (2 ^ 31 <=? v, g).
(** [Prg::random_bools], [prg.rs:106-108]: one [gen::<bool>()] per element. *)
Fixpoint random_bools (A : arch) (n : nat) (g : block_rng) : option (list bool * block_rng) :=
  match n with
  | O => Some ([], g)
  | S n' =>
      let* '(b, g) := random_bool A g in
      let* '(bs, g) := random_bools A n' g in
      Some (b :: bs, g)
  end.
(** [Prg::random_block], [prg.rs:124-126], and [block.rs:233-238]: [gen::<u128>()] draws the low 64 bits,
    then the high 64 bits. *)
Definition random_block (A : arch) (g : block_rng) : option (list Z * block_rng) :=
  let* '(x, g) := next_u64 A g in
  let* '(y, g) := next_u64 A g in
  Some (of_u128 (Z.lor (Z.shiftl y 64) x), g).
(** [Prg::random_blocks], [prg.rs:130-133]: fills the byte view of the slice. *)
Definition random_blocks (A : arch) (n : nat) (g : block_rng) : option (list Z * block_rng) :=
  fill_bytes A (S (16 * n)) (16 * n) g.

(** A call of the generator and its answer as bytes: integers little-endian, a Boolean is one byte.
    [FillBytes] is also [random_bytes] ([prg.rs:118-120]). *)
Definition prg_do (A : arch) (c : prg_call) (g : block_rng) : option (list Z * block_rng) :=
  match c with
  | NextU32 => let* '(v, g) := next_u32 A g in Some (le_bytes 4 v, g)
  | NextU64 => let* '(v, g) := next_u64 A g in Some (le_bytes 8 v, g)
  | FillBytes n => fill_bytes A (S n) n g
  | RandomByte => let* '(v, g) := random_byte A g in Some ([v], g)
  | RandomBool => let* '(b, g) := random_bool A g in Some ([b2z b], g)
  | RandomBools n => let* '(bs, g) := random_bools A n g in Some (map b2z bs, g)
  | RandomBlock => random_block A g
  | RandomBlocks n => random_blocks A n g
  end.
(** A history of calls of [prg.rs:52-120] (the caller: no source counterpart). *)
Fixpoint prg_run (A : arch) (cs : list prg_call) (g : block_rng) : option (list (list Z) * block_rng) :=
  match cs with
  | [] => Some ([], g)
  | c :: cs' =>
      let* '(o, g) := prg_do A c g in
      let* '(os, g) := prg_run A cs' g in
      Some (o :: os, g)
  end.
