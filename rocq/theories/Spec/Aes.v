(** AES-128 as specified by FIPS-197, over lists of bytes.  The 16 bytes of a block fill the state
    column by column: byte r + 4c is row r, column c (FIPS-197, section 3.4). *)
From Coq Require Import ZArith List.
Import ListNotations.
Local Open Scope Z_scope.

Definition byte (x : Z) : Prop := 0 <= x < 256.
(** [l] is a string of [n] bytes. *)
Definition bytes (n : nat) (l : list Z) : Prop := length l = n /\ Forall byte l.

(** Bytewise exclusive or. *)
Fixpoint xors (a b : list Z) : list Z :=
  match a, b with x :: a', y :: b' => Z.lxor x y :: xors a' b' | _, _ => [] end.

(** ** The field GF(2^8) modulo x^8 + x^4 + x^3 + x + 1 (section 4.2) *)

(** Multiplication by x. *)
Definition xtime (b : Z) : Z := if 2 * b <? 256 then 2 * b else Z.lxor (2 * b) 283.
(** Multiplication: the sum of b * x^i over the bits i of a. *)
Definition gmul (a b : Z) : Z :=
  fold_right (fun i acc => Z.lxor (if Z.testbit a (Z.of_nat i) then Nat.iter i xtime b else 0) acc) 0 (seq 0 8).
(** The multiplicative inverse, 0 for 0. *)
Definition ginv (a : Z) : Z :=
  match find (fun y => gmul a y =? 1) (map Z.of_nat (seq 0 256)) with Some y => y | None => 0 end.

(** ** The transformations of the state (section 5.1) *)

(** Bit i of the S-box output: b_i + b_(i+4) + b_(i+5) + b_(i+6) + b_(i+7) + c_i of the inverse b, with
    c = 0x63 and indices modulo 8. *)
Definition sbox (x : Z) : Z :=
  let b := ginv x in
  let bit i := Z.testbit b (Z.of_nat (i mod 8)) in
  fold_right (fun i acc =>
    (if xorb (bit i) (xorb (bit (i + 4)%nat) (xorb (bit (i + 5)%nat)
         (xorb (bit (i + 6)%nat) (xorb (bit (i + 7)%nat) (Z.testbit 99 (Z.of_nat i)))))) then 1 else 0) + 2 * acc)
    0 (seq 0 8).
Definition sub_bytes (s : list Z) : list Z := map sbox s.
(** Row r moves left by r columns. *)
Definition shift_rows (s : list Z) : list Z :=
  map (fun i => nth ((i + 4 * (i mod 4)) mod 16) s 0) (seq 0 16).
(** Column c is multiplied by the matrix circ(2, 3, 1, 1). *)
Definition mix_columns (s : list Z) : list Z :=
  map (fun i =>
    let a k := nth (4 * (i / 4) + (i + k) mod 4) s 0 in
    Z.lxor (gmul 2 (a 0%nat)) (Z.lxor (gmul 3 (a 1%nat)) (Z.lxor (a 2%nat) (a 3%nat)))) (seq 0 16).
(** Inverses of the last three (section 5.3). *)
Definition inv_sbox (y : Z) : Z :=
  match find (fun x => sbox x =? y) (map Z.of_nat (seq 0 256)) with Some x => x | None => 0 end.
Definition inv_sub_bytes (s : list Z) : list Z := map inv_sbox s.
Definition inv_shift_rows (s : list Z) : list Z :=
  map (fun i => nth ((i + 12 * (i mod 4)) mod 16) s 0) (seq 0 16).
Definition inv_mix_columns (s : list Z) : list Z :=
  map (fun i =>
    let a k := nth (4 * (i / 4) + (i + k) mod 4) s 0 in
    Z.lxor (gmul 14 (a 0%nat)) (Z.lxor (gmul 11 (a 1%nat)) (Z.lxor (gmul 13 (a 2%nat)) (gmul 9 (a 3%nat))))) (seq 0 16).

(** ** Key expansion (section 5.2): words are lists of four bytes *)

Definition rot_word (w : list Z) : list Z := match w with a :: r => r ++ [a] | [] => [] end.
Definition sub_word (w : list Z) : list Z := map sbox w.
(** Rcon[i] = [x^(i-1), 0, 0, 0]. *)
Definition rcon (i : nat) : list Z := [Nat.iter (i - 1) xtime 1; 0; 0; 0].
(** Computes word i = length ws from the words before it. *)
Definition next_word (ws : list (list Z)) : list (list Z) :=
  let i := length ws in
  let temp := nth (i - 1) ws [] in
  let temp := if (i mod 4 =? 0)%nat then xors (sub_word (rot_word temp)) (rcon (i / 4)) else temp in
  ws ++ [xors (nth (i - 4) ws []) temp].
(** The 44 words of the schedule. *)
Definition key_expansion (key : list Z) : list (list Z) :=
  Nat.iter 40 next_word (map (fun i => firstn 4 (skipn (4 * i) key)) (seq 0 4)).
(** Round key r: words 4r .. 4r+3. *)
Definition round_key (key : list Z) (r : nat) : list Z :=
  concat (firstn 4 (skipn (4 * r) (key_expansion key))).

(** ** The cipher (section 5.1) and its inverse (section 5.3) *)

Definition aes128 (key blk : list Z) : list Z :=
  let s := xors blk (round_key key 0) in
  let s := fold_left (fun s r => xors (mix_columns (shift_rows (sub_bytes s))) (round_key key r)) (seq 1 9) s in
  xors (shift_rows (sub_bytes s)) (round_key key 10).
Definition inv_aes128 (key blk : list Z) : list Z :=
  let s := xors blk (round_key key 10) in
  let s := fold_left (fun s r => inv_mix_columns (xors (inv_sub_bytes (inv_shift_rows s)) (round_key key r))) (rev (seq 1 9)) s in
  xors (inv_sub_bytes (inv_shift_rows s)) (round_key key 0).

(** ** Counter mode *)

(** The little-endian bytes of [x]. *)
Fixpoint le_bytes (n : nat) (x : Z) : list Z :=
  match n with O => [] | S n' => x mod 256 :: le_bytes n' (x / 256) end.
(** The integer with the little-endian bytes [l]. *)
Fixpoint le_value (l : list Z) : Z := match l with [] => 0 | x :: l' => x + 256 * le_value l' end.
(** Block number i of the key stream of seed [key]: the encryption of the counter i. *)
Definition key_block (key : list Z) (i : Z) : list Z := aes128 key (le_bytes 16 i).
