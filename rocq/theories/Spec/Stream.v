(** The key stream of the AES-based generator and what a history of calls must answer. *)
From Coq Require Import ZArith List.
From Verif Require Import Spec.Aes.
Import ListNotations.
Local Open Scope Z_scope.

(** Byte i of the stream: block i / 16 is the encryption of the counter i / 16. *)
Definition stream_byte (key : list Z) (i : Z) : Z := nth (Z.to_nat (i mod 16)) (key_block key (i / 16)) 0.
(** n bytes of the stream from byte i on. *)
Definition stream (key : list Z) (i : Z) (n : nat) : list Z :=
  map (fun j => stream_byte key (i + Z.of_nat j)) (seq 0 n).

(** The calls a user can make. *)
Inductive prg_call :=
  NextU32 | NextU64 | FillBytes (n : nat) | RandomByte | RandomBool | RandomBools (n : nat) | RandomBlock | RandomBlocks (n : nat).

(** How many 32-bit words of the stream a call uses up. *)
Definition cost (c : prg_call) : Z :=
  match c with
  | NextU32 | RandomByte | RandomBool => 1
  | NextU64 => 2
  | FillBytes n => (Z.of_nat n + 3) / 4
  | RandomBools n => Z.of_nat n
  | RandomBlock => 4
  | RandomBlocks n => 4 * Z.of_nat n
  end.
Definition costs (cs : list prg_call) : Z := fold_right Z.add 0 (map cost cs).

(** The bytes a call answers when [pos] words have been used before it. A Boolean is the top bit of its word. *)
Definition answer (key : list Z) (pos : Z) (c : prg_call) : list Z :=
  match c with
  | NextU32 => stream key (4 * pos) 4
  | NextU64 => stream key (4 * pos) 8
  | FillBytes n => stream key (4 * pos) n
  | RandomByte => stream key (4 * pos) 1
  | RandomBool => [stream_byte key (4 * pos + 3) / 128]
  | RandomBools n => map (fun k => stream_byte key (4 * (pos + Z.of_nat k) + 3) / 128) (seq 0 n)
  | RandomBlock => stream key (4 * pos) 16
  | RandomBlocks n => stream key (4 * pos) (16 * n)
  end.
Fixpoint answers (key : list Z) (pos : Z) (cs : list prg_call) : list (list Z) :=
  match cs with
  | [] => []
  | c :: cs' => answer key pos c :: answers key (pos + cost c) cs'
  end.

(** The stream has 2^64 - 8 blocks of four words: the 64-bit counter must not run over. *)
Definition capacity : Z := 4 * (2 ^ 64 - 8).

(** Calls that return whole blocks. *)
Definition block_call (c : prg_call) : Prop := match c with RandomBlock | RandomBlocks _ => True | _ => False end.
(** A byte string cut into blocks of 16 bytes. *)
Definition cut (l : list Z) : list (list Z) :=
  map (fun i => firstn 16 (skipn (16 * i) l)) (seq 0 (length l / 16)).
