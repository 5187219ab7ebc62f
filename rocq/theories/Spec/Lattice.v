(** Specification vocabulary for ciphertexts. *)
From Coq Require Import ZArith List.
From Verif Require Import Spec.Basic Model.Base Model.Barrett Model.Field Model.Lwe.
Import ListNotations.
Local Open Scope Z_scope.

(** A well-formed LWE ciphertext: dimension [n], canonical entries modulo [q]. *)
Definition lwe_wf (q : Z) (n : nat) (x : lwe) : Prop :=
  length (la x) = n /\ canonical q (la x) /\ 0 <= lb x < q.

(** The phase b - <a, s> modulo [q]. *)
Definition phase (q : Z) (s : list Z) (x : lwe) : Z := (lb x - dotz (la x) s) mod q.

(** [O] are the modular operations of a modulus [q] of one of the kinds the library offers. *)
Inductive modulus_ops : Z -> mops -> Prop :=
| mod_pow2 B k : 1 <= k <= B -> modulus_ops (2 ^ k) (p2_mops B (2 ^ k - 1))
| mod_barrett B q m : wwidth B -> 0 <= q -> barrett_new B q = Some m -> modulus_ops q (barrett_mops B m)
| mod_field B q F : wwidth B -> 0 <= q -> derive_field B q = Some F -> modulus_ops q (field_mops F).

(** [f] returns a well-formed ciphertext whose phase, under every key, is the given combination. *)
Definition phase_hom1 (q : Z) (f : lwe -> option lwe) (g : Z -> Z) : Prop :=
  forall n s x, lwe_wf q n x -> length s = n ->
  exists z, f x = Some z /\ lwe_wf q n z /\ phase q s z = g (phase q s x) mod q.
Definition phase_hom2 (q : Z) (f : lwe -> lwe -> option lwe) (g : Z -> Z -> Z) : Prop :=
  forall n s x y, lwe_wf q n x -> lwe_wf q n y -> length s = n ->
  exists z, f x y = Some z /\ lwe_wf q n z /\ phase q s z = g (phase q s x) (phase q s y) mod q.
