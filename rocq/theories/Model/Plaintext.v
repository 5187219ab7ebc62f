(** Message types, encoding and decoding. [fhe_core/src/plaintext.rs]. *)
From Coq Require Import ZArith List Bool.
From Verif Require Import Model.Base.
Import ListNotations.
Local Open Scope Z_scope.

(** The message types with a [Shrink] instance ([plaintext.rs:17-64]). *)
Inductive msg_type := MBool | MU8 | MU16 | MU32 | MU64.

(** Largest value of each type ([T::MAX]; a [bool] casts to 0 or 1).  [plaintext.rs:26-31,48]. *)
Definition msg_max (M : msg_type) : Z :=
  match M with
  | MBool => 1 | MU8 => 2 ^ 8 - 1 | MU16 => 2 ^ 16 - 1 | MU32 => 2 ^ 32 - 1 | MU64 => 2 ^ 64 - 1
  end.

(** [plaintext.rs:17-64].  [bool] (17-25): 0 and 1, any other value panics.  [u64] (27-32): the
    value itself.  Smaller types (34-64): panic when the value exceeds [MAX], else cast. *)
Definition shrink (M : msg_type) (c : Z) : option Z :=
  match M with
  | MBool => if c =? 0 then Some 0 else if c =? 1 then Some 1 else None
  | MU64 => Some c
  | MU8 => if msg_max MU8 <? c then None else Some (ucast 8 c)
  | MU16 => if msg_max MU16 <? c then None else Some (ucast 16 c)
  | MU32 => if msg_max MU32 <? c then None else Some (ucast 32 c)
  end.

(** [plaintext.rs:78-92]; [B] is the width of the ciphertext type [C]; [m] is the message cast to
    [u64]. *)
Definition encode (B m t q : Z) : option Z :=
  let* _ := assert (is_pow2 q && is_pow2 t) in
  let* _ := assert (m <? t) in
  let* d := udiv q t in
  let* c := ushl 64 m (trailing_zeros 64 d) in
  Some (ucast B c).

(** [plaintext.rs:106-119]. *)
Definition decode (M : msg_type) (c t q : Z) : option Z :=
  let* _ := assert (is_pow2 q && is_pow2 t) in
  let* d := udiv q t in
  let* s := usub (trailing_zeros 64 d) 1 in
  let* temp := ushr 64 c s in
  let* r := uadd 64 (temp / 2) (Z.land temp 1) in
  let* m := usub t 1 in
  shrink M (Z.land r m).
