(** AES-128. [algebra/src/utils/aes.rs], [algebra/src/utils/sse2neon.rs], for both architectures.

    A vector register is its 16 bytes in memory order.  The AES instructions themselves are hardware:
    they are given the meaning of the Intel and Arm manuals, which define them by the FIPS-197
    transformations of [Spec/Aes.v].  Shuffles, the key schedule, the round structure and the emulation
    of the Intel instructions on Arm are the code's own. *)
From Coq Require Import ZArith List Bool Arith.
From Verif Require Import Spec.Aes Model.Base Model.Block.
Import ListNotations.
Local Open Scope Z_scope.

(** Lane i of four 32-bit lanes, as four bytes: the operand of the shuffles at
    [algebra/src/utils/aes.rs:25-65], [sse2neon.rs:23-66]. *)
Definition lane (v : list Z) (i : nat) : list Z := firstn 4 (skipn (4 * i) v).
(** The two-bit selector number k of an immediate of those shuffles ([aes.rs:25-65], [sse2neon.rs:23-66]). *)
Definition sel (imm : Z) (k : Z) : nat := Z.to_nat (Z.land (Z.shiftr imm (2 * k)) 3).

(** ** Intel instructions (Intel 64 manual, volume 2) *)

(** [_mm_xor_si128].  [aes.rs:34,40,42,171,207]. *)
Definition mm_xor (a b : list Z) : list Z := lanewise Z.lxor a b.
(** [_mm_shuffle_epi32] (PSHUFD).  [aes.rs:41]. *)
Definition mm_shuffle_epi32 (a : list Z) (imm : Z) : list Z :=
  lane a (sel imm 0) ++ lane a (sel imm 1) ++ lane a (sel imm 2) ++ lane a (sel imm 3).
(** [_mm_shuffle_ps] (SHUFPS); the casts to and from [__m128] keep the bits.  [aes.rs:29-33,35-39]. *)
Definition mm_shuffle_ps (a b : list Z) (imm : Z) : list Z :=
  lane a (sel imm 0) ++ lane a (sel imm 1) ++ lane b (sel imm 2) ++ lane b (sel imm 3).
(** [_mm_aeskeygenassist_si128] (AESKEYGENASSIST): with X1, X3 lanes 1 and 3,
    [SubWord(X1), RotWord(SubWord(X1)) xor rcon, SubWord(X3), RotWord(SubWord(X3)) xor rcon].  [aes.rs:28]. *)
Definition mm_aeskeygenassist (a : list Z) (rc : Z) : list Z :=
  let x1 := sub_word (lane a 1) in
  let x3 := sub_word (lane a 3) in
  x1 ++ lanewise Z.lxor (rot_word x1) [rc; 0; 0; 0] ++ x3 ++ lanewise Z.lxor (rot_word x3) [rc; 0; 0; 0].
(** [_mm_aesenc_si128] (AESENC): ShiftRows, SubBytes, MixColumns, then the round key.  [aes.rs:174,212]. *)
Definition mm_aesenc (a k : list Z) : list Z := mm_xor (mix_columns (sub_bytes (shift_rows a))) k.
(** [_mm_aesenclast_si128] (AESENCLAST): no MixColumns.  [aes.rs:177,217]. *)
Definition mm_aesenclast (a k : list Z) : list Z := mm_xor (sub_bytes (shift_rows a)) k.

(** ** Arm instructions (Arm architecture reference manual) *)

(** [veorq_u8].  [aes.rs:191,236], [sse2neon.rs:117]. *)
Definition veorq (a b : list Z) : list Z := lanewise Z.lxor a b.
(** [vaeseq_u8] (AESE): the round key, ShiftRows, SubBytes.  [aes.rs:188,191,231,236]. *)
Definition vaeseq (a k : list Z) : list Z := sub_bytes (shift_rows (veorq a k)).
(** [vaesmcq_u8] (AESMC).  [aes.rs:188,231]. *)
Definition vaesmcq (a : list Z) : list Z := mix_columns a.
(** [vgetq_lane_u32], [vgetq_lane_s32] (bits), [vgetq_lane_f32] (bits): the lane as an integer.
    [sse2neon.rs:27-40,52-55,64]. *)
Definition vgetq_lane (a : list Z) (i : nat) : Z := le_value (lane a i).
(** [vmovq_n_u32], [vmovq_n_f32].  [sse2neon.rs:27,52]. *)
Definition vmovq_n (x : Z) : list Z := le_bytes 4 x ++ le_bytes 4 x ++ le_bytes 4 x ++ le_bytes 4 x.
(** [vsetq_lane_u32], [vsetq_lane_f32].  [sse2neon.rs:28-40,53-55]. *)
Definition vsetq_lane (x : Z) (a : list Z) (i : nat) : list Z :=
  firstn (4 * i) a ++ le_bytes 4 x ++ skipn (4 * S i) a.

(** [sse2neon.rs:4-21]. *)
Definition aes_sbox_table : list Z := [
    0x63; 0x7C; 0x77; 0x7B; 0xF2; 0x6B; 0x6F; 0xC5; 0x30; 0x01; 0x67; 0x2B; 0xFE; 0xD7; 0xAB; 0x76;
    0xCA; 0x82; 0xC9; 0x7D; 0xFA; 0x59; 0x47; 0xF0; 0xAD; 0xD4; 0xA2; 0xAF; 0x9C; 0xA4; 0x72; 0xC0;
    0xB7; 0xFD; 0x93; 0x26; 0x36; 0x3F; 0xF7; 0xCC; 0x34; 0xA5; 0xE5; 0xF1; 0x71; 0xD8; 0x31; 0x15;
    0x04; 0xC7; 0x23; 0xC3; 0x18; 0x96; 0x05; 0x9A; 0x07; 0x12; 0x80; 0xE2; 0xEB; 0x27; 0xB2; 0x75;
    0x09; 0x83; 0x2C; 0x1A; 0x1B; 0x6E; 0x5A; 0xA0; 0x52; 0x3B; 0xD6; 0xB3; 0x29; 0xE3; 0x2F; 0x84;
    0x53; 0xD1; 0x00; 0xED; 0x20; 0xFC; 0xB1; 0x5B; 0x6A; 0xCB; 0xBE; 0x39; 0x4A; 0x4C; 0x58; 0xCF;
    0xD0; 0xEF; 0xAA; 0xFB; 0x43; 0x4D; 0x33; 0x85; 0x45; 0xF9; 0x02; 0x7F; 0x50; 0x3C; 0x9F; 0xA8;
    0x51; 0xA3; 0x40; 0x8F; 0x92; 0x9D; 0x38; 0xF5; 0xBC; 0xB6; 0xDA; 0x21; 0x10; 0xFF; 0xF3; 0xD2;
    0xCD; 0x0C; 0x13; 0xEC; 0x5F; 0x97; 0x44; 0x17; 0xC4; 0xA7; 0x7E; 0x3D; 0x64; 0x5D; 0x19; 0x73;
    0x60; 0x81; 0x4F; 0xDC; 0x22; 0x2A; 0x90; 0x88; 0x46; 0xEE; 0xB8; 0x14; 0xDE; 0x5E; 0x0B; 0xDB;
    0xE0; 0x32; 0x3A; 0x0A; 0x49; 0x06; 0x24; 0x5C; 0xC2; 0xD3; 0xAC; 0x62; 0x91; 0x95; 0xE4; 0x79;
    0xE7; 0xC8; 0x37; 0x6D; 0x8D; 0xD5; 0x4E; 0xA9; 0x6C; 0x56; 0xF4; 0xEA; 0x65; 0x7A; 0xAE; 0x08;
    0xBA; 0x78; 0x25; 0x2E; 0x1C; 0xA6; 0xB4; 0xC6; 0xE8; 0xDD; 0x74; 0x1F; 0x4B; 0xBD; 0x8B; 0x8A;
    0x70; 0x3E; 0xB5; 0x66; 0x48; 0x03; 0xF6; 0x0E; 0x61; 0x35; 0x57; 0xB9; 0x86; 0xC1; 0x1D; 0x9E;
    0xE1; 0xF8; 0x98; 0x11; 0x69; 0xD9; 0x8E; 0x94; 0x9B; 0x1E; 0x87; 0xE9; 0xCE; 0x55; 0x28; 0xDF;
    0x8C; 0xA1; 0x89; 0x0D; 0xBF; 0xE6; 0x42; 0x68; 0x41; 0x99; 0x2D; 0x0F; 0xB0; 0x54; 0xBB; 0x16].

(** [sse2neon.rs:23-46]. *)
Definition neon_shuffle_epi32 (a : list Z) (imm : Z) : list Z :=
  let ret := vmovq_n (vgetq_lane a (sel imm 0)) in
  let ret := vsetq_lane (vgetq_lane a (sel imm 1)) ret 1 in
  let ret := vsetq_lane (vgetq_lane a (sel imm 2)) ret 2 in
  vsetq_lane (vgetq_lane a (sel imm 3)) ret 3.
(** [sse2neon.rs:48-58]. *)
Definition neon_shuffle_ps (a b : list Z) (imm : Z) : list Z :=
  let ret := vmovq_n (vgetq_lane a (sel imm 0)) in
  let ret := vsetq_lane (vgetq_lane a (sel imm 1)) ret 1 in
  let ret := vsetq_lane (vgetq_lane b (sel imm 2)) ret 2 in
  vsetq_lane (vgetq_lane b (sel imm 3)) ret 3.
(** [sse2neon.rs:60-66]; the bits of the signed result. *)
Definition neon_cvtsi128_si32 (a : list Z) : Z := vgetq_lane a 0.
(** std [u32::rotate_right(8)].  [sse2neon.rs:88,90]. *)
Definition ror8 (x : Z) : Z := Z.lor (Z.shiftr x 8) (Z.shiftl x 24 mod 2 ^ 32).
(** [sse2neon.rs:68-95]; [AES_SBOX[..]] cannot be out of bounds for a byte but is an [option] here. *)
Definition neon_aeskeygenassist (key : list Z) (rc : Z) : option (list Z) :=
  let x1 := neon_cvtsi128_si32 (neon_shuffle_epi32 key 0x55) in
  let x3 := neon_cvtsi128_si32 (neon_shuffle_epi32 key 0xFF) in
  let* x1 := mapM (fun b => index aes_sbox_table (Z.to_nat b)) (le_bytes 4 x1) in
  let* x3 := mapM (fun b => index aes_sbox_table (Z.to_nat b)) (le_bytes 4 x3) in
  let x1 := le_value x1 in
  let x3 := le_value x3 in
  Some (le_bytes 4 x1
    ++ le_bytes 4 (Z.lxor (Z.lor (ror8 x1) (Z.shiftl x1 24 mod 2 ^ 32)) rc)
    ++ le_bytes 4 x3
    ++ le_bytes 4 (Z.lxor (Z.lor (ror8 x3) (Z.shiftl x3 24 mod 2 ^ 32)) rc)).

(** ** Key schedule *)

(** [expand_assist_x86!(x0, _x1, x2, x0, sc, ac)], [aes.rs:25-44]: new values of [x0] and [x2]. *)
Definition expand_assist_x86 (v1 v3 : list Z) (sc ac : Z) : list Z * list Z :=
  let v2 := mm_aeskeygenassist v1 ac in
  let v3 := mm_shuffle_ps v3 v1 16 in
  let v1 := mm_xor v1 v3 in
  let v3 := mm_shuffle_ps v3 v1 140 in
  let v1 := mm_xor v1 v3 in
  let v2 := mm_shuffle_epi32 v2 sc in
  let v1 := mm_xor v1 v2 in
  (v1, v3).
(** [expand_assist_arm!(x0, _x1, x2, x0, sc, ac)], [aes.rs:46-65]. *)
Definition expand_assist_arm (v1 v3 : list Z) (sc ac : Z) : option (list Z * list Z) :=
  let* v2 := neon_aeskeygenassist v1 ac in
  let v3 := neon_shuffle_ps v3 v1 16 in
  let v1 := veorq v1 v3 in
  let v3 := neon_shuffle_ps v3 v1 140 in
  let v1 := veorq v1 v3 in
  let v2 := neon_shuffle_epi32 v2 sc in
  let v1 := veorq v1 v2 in
  Some (v1, v3).

(** The immediates of the ten expansions ([aes.rs:87-115,129-157]). *)
Definition expand_consts : list Z := [1; 2; 4; 8; 16; 32; 64; 128; 27; 54].

(** [aes.rs:77-117]; the unrolled sequence is a loop here.  [Aes] is the list of the 11 round keys. *)
Fixpoint x86_rounds (acs : list Z) (x0 x2 : list Z) : list (list Z) :=
  match acs with
  | [] => []
  | ac :: acs' => let '(x0, x2) := expand_assist_x86 x0 x2 255 ac in x0 :: x86_rounds acs' x0 x2
  end.
(** [aes.rs:77-117] ([aes_init] on x86). *)
Definition aes_init_x86 (key : list Z) : list (list Z) := key :: x86_rounds expand_consts key (repeat 0 16).
(** [aes.rs:119-159]. *)
Fixpoint arm_rounds (acs : list Z) (x0 x2 : list Z) : option (list (list Z)) :=
  match acs with
  | [] => Some []
  | ac :: acs' =>
      let* '(x0, x2) := expand_assist_arm x0 x2 255 ac in
      let* r := arm_rounds acs' x0 x2 in Some (x0 :: r)
  end.
(** [aes.rs:119-159] ([aes_init] on Arm). *)
Definition aes_init_arm (key : list Z) : option (list (list Z)) :=
  let* r := arm_rounds expand_consts key (repeat 0 16) in Some (key :: r).

(** The target architecture ([cfg(target_arch)]).  [aes.rs:2-11,78,120,168,182]. *)
Inductive arch := X86 | Arm.
(** [Aes::new], [aes.rs:71-75]. *)
Definition aes_new (A : arch) (key : list Z) : option (list (list Z)) :=
  match A with X86 => Some (aes_init_x86 key) | Arm => aes_init_arm key end.

(** ** Encryption *)

(** [aes.rs:167-179]. *)
Definition encrypt_x86 (ks : list (list Z)) (blk : list Z) : option (list Z) :=
  let* k0 := index ks 0 in
  let* k10 := index ks 10 in
  let ctxt := mm_xor blk k0 in
  let ctxt := fold_left mm_aesenc (firstn 9 (skipn 1 ks)) ctxt in
  Some (mm_aesenclast ctxt k10).
(** [aes.rs:181-193]. *)
Definition encrypt_arm (ks : list (list Z)) (blk : list Z) : option (list Z) :=
  let ctxt := fold_left (fun c k => vaesmcq (vaeseq c k)) (firstn 9 ks) blk in
  let* k9 := index ks 9 in
  let* k10 := index ks 10 in
  Some (veorq (vaeseq ctxt k9) k10).
(** [Aes::encrypt_block], [aes.rs:161-165]. *)
Definition encrypt_block (A : arch) (ks : list (list Z)) (blk : list Z) : option (list Z) :=
  match A with X86 => encrypt_x86 ks blk | Arm => encrypt_arm ks blk end.

(** [aes.rs:201-221]: every pass updates all the blocks. *)
Definition encrypt_many_x86 (ks : list (list Z)) (blks : list (list Z)) : option (list (list Z)) :=
  let* k0 := index ks 0 in
  let* k10 := index ks 10 in
  let ctxt := map (fun c => mm_xor c k0) blks in
  let ctxt := fold_left (fun cs k => map (fun c => mm_aesenc c k) cs) (firstn 9 (skipn 1 ks)) ctxt in
  Some (map (fun c => mm_aesenclast c k10) ctxt).
(** [aes.rs:223-240]. *)
Definition encrypt_many_arm (ks : list (list Z)) (blks : list (list Z)) : option (list (list Z)) :=
  let ctxt := fold_left (fun cs k => map (fun c => vaesmcq (vaeseq c k)) cs) (firstn 9 ks) blks in
  let* k9 := index ks 9 in
  let* k10 := index ks 10 in
  Some (map (fun c => veorq (vaeseq c k9) k10) ctxt).
(** [Aes::encrypt_many_blocks], [aes.rs:195-199]. *)
Definition encrypt_many_blocks (A : arch) (ks : list (list Z)) (blks : list (list Z)) : option (list (list Z)) :=
  match A with X86 => encrypt_many_x86 ks blks | Arm => encrypt_many_arm ks blks end.

(** [blks[i..j]]: panics unless i <= j <= len.  [aes.rs:248,258]. *)
Definition sub_slice (l : list (list Z)) (i j : nat) : option (list (list Z)) :=
  if ((i <=? j) && (j <=? length l))%nat then Some (firstn (j - i) (skipn i l)) else None.
(** [blks[i..j].copy_from_slice(src)]: panics when the lengths differ.  [aes.rs:248-249,258-259]. *)
Definition copy_into (l : list (list Z)) (i j : nat) (src : list (list Z)) : option (list (list Z)) :=
  let* d := sub_slice l i j in
  let* _ := assert (length d =? length src)%nat in
  Some (firstn i l ++ src ++ skipn j l).
(** Reads [blks[i..j]] into a buffer of [n] blocks, encrypts it and writes it back
    ([aes.rs:247-250,256-260]). *)
Definition encrypt_range (A : arch) (ks : list (list Z)) (n i j : nat) (blks : list (list Z)) : option (list (list Z)) :=
  let* buf := sub_slice blks i j in
  let* _ := assert (length buf =? n)%nat in
  let* out := encrypt_many_blocks A ks buf in
  copy_into blks i j out.
(** [Aes::encrypt_block_slice], [aes.rs:242-271]. *)
Definition encrypt_block_slice (A : arch) (ks : list (list Z)) (blks : list (list Z)) : option (list (list Z)) :=
  let len := length blks in
  let* blks := foldM (fun b i => encrypt_range A ks 8 (i * 8) ((i + 1) * 8) b) blks (seq 0 (len / 8)) in
  let remain := (len mod 8)%nat in
  if (0 <? remain)%nat then
    foldM (fun b n => if (remain =? n)%nat then encrypt_range A ks n (len - remain) len b else Some b) blks [1; 2; 3; 4; 5; 6; 7]%nat
  else Some blks.
