(** The block cipher as a source of randomness: chances, random permutations, uniform blocks, and what a
    program draws from a string of blocks. *)
From Coq Require Import ZArith QArith Qabs List Bool SpecFloat.
From Verif Require Import Spec.Basic Spec.Aes Spec.Stream Spec.Count Spec.HidingKeys Spec.Machine.
From Verif Require Import Model.Base Model.Aes Model.Prg Model.Field Model.Poly Model.Lwe Model.Params Model.Boolean Model.SecretKey Model.Gaussian Model.Sampled Model.Stream Model.Seeded.
Import ListNotations.
Local Open Scope Z_scope.

(** The chance that a uniformly chosen entry of [L] satisfies [D]. *)
Definition prob {A : Type} (D : A -> bool) (L : list A) : Q := inject_Z (count D L) / inject_Z (Z.of_nat (length L)).

(** Every entry of a list, with the other entries. *)
Fixpoint picks {A : Type} (L : list A) : list (A * list A) :=
  match L with [] => [] | x :: r => (x, r) :: map (fun yr => (fst yr, x :: snd yr)) (picks r) end.
(** All ways of choosing [n] entries of [L] one after the other, never the same one again. *)
Fixpoint arrangements {A : Type} (n : nat) (L : list A) : list (list A) :=
  match n with
  | O => [[]]
  | S n' => flat_map (fun yr => map (cons (fst yr)) (arrangements n' (snd yr))) (picks L)
  end.

(** All blocks of 16 bytes.  They are also the seeds. *)
Definition blocks : list (list Z) := tuples 16 256.
(** All permutations of the blocks, each as the list of the images of the blocks 0, 1, 2, ... (as
    little-endian numbers). *)
Definition permutations : list (list (list Z)) := arrangements (length blocks) blocks.
(** The encryptions of the blocks 0, ..., n-1 under a key. *)
Definition cipher_blocks (key : list Z) (n : nat) : list (list Z) := map (fun i => key_block key (Z.of_nat i)) (seq 0 n).
(** How well the test [D] of the encryptions of the first [n] blocks tells AES-128 under a random key from
    a random permutation. *)
Definition advantage (n : nat) (D : list (list Z) -> bool) : Q :=
  Qabs (prob (fun key => D (cipher_blocks key n)) blocks - prob (fun l => D (firstn n l)) permutations).
(** n (n - 1) / 2^129. *)
Definition birthday (n : nat) : Q := inject_Z (Z.of_nat n * (Z.of_nat n - 1)) / inject_Z (2 ^ 129).

(** Byte [i] of a string of blocks (zero after its end). *)
Definition byte_of (l : list (list Z)) (i : Z) : Z := nth (Z.to_nat (i mod 16)) (nth (Z.to_nat (i / 16)) l []) 0.
(** What a history of calls answers when the bytes [s] are read instead of a key stream, as [answers] of
    Spec/Stream. *)
Definition answer_in (s : Z -> Z) (pos : Z) (c : prg_call) : list Z :=
  match c with
  | NextU32 => part s pos 4
  | NextU64 => part s pos 8
  | FillBytes n => part s pos n
  | RandomByte => part s pos 1
  | RandomBool => [s (4 * pos + 3) / 128]
  | RandomBools n => map (fun k => s (4 * (pos + Z.of_nat k) + 3) / 128) (seq 0 n)
  | RandomBlock => part s pos 16
  | RandomBlocks n => part s pos (16 * n)
  end.
Fixpoint answers_in (s : Z -> Z) (pos : Z) (cs : list prg_call) : list (list Z) :=
  match cs with
  | [] => []
  | c :: cs' => answer_in s pos c :: answers_in s (pos + cost c) cs'
  end.

(** A user's session: keys, evaluation key, and encryptions of the messages [ms], from one generator. *)
Definition session {St : Type} (B : Z) (F : field) (tbl : tables) (P : parameters) (dv : deviations) (fuel : nat) (ms : list Z) :
    rand_on St ((key_pack * eval_key) * list lwe) :=
  let% kp := key_pack_new_g F tbl P dv fuel in
  let% K := eval_key_new_g B F tbl dv fuel kp in
  let% cs := rmap (fun m => kp_encrypt_g B dv fuel kp m) ms in
  rret ((kp, K), cs).
(** What it returns when it gets along with the bytes of [l], [n] blocks. *)
Definition finishes {V : Type} (m : rand_on Z V) (normal : gaussian -> reader spec_float) (below : Z -> reader Z) (n : nat) (l : list (list Z)) : option V :=
  match m (stream_rng (byte_of l) normal below) 0 with
  | Got (v, pos) => if pos <=? 4 * Z.of_nat n then Some v else None
  | _ => None
  end.
(** What it returns with the generator of a seed. *)
Definition seeded {V : Type} (m : rand_on block_rng V) (A : arch) (normal : gaussian -> reader spec_float) (below : Z -> reader Z) (seed : list Z) : option V :=
  let* g := prg_from_seed A seed in
  match m (prg_rng A normal below) g with Got (v, _) => Some v | _ => None end.
(** Tests of an outcome: something was returned and [D] accepts it; nothing was returned. *)
Definition passes {V : Type} (D : V -> bool) (o : option V) : bool := match o with Some v => D v | None => false end.
Definition fails {V : Type} (o : option V) : bool := match o with Some _ => false | None => true end.
