(** C21: the inverse transform undoes the forward transform and vice versa. *)
From Coq Require Import ZArith Znumtheory List Arith.
From Verif Require Import Spec.Basic Spec.Poly Model.Base Model.Field Model.NTT.
From Verif Require Import Proofs.NumTheory Proofs.PolyMain.
Import ListNotations.
Local Open Scope Z_scope.

Theorem C21_inverse_of_transform (B p : Z) (k : nat) (F : field) (draws : nat -> Z) (T : ntt_table) (a : list Z) :
  wwidth B -> prime p -> derive_field B p = Some F -> (forall i, 2 <= draws i <= p - 1) ->
  generate_ntt_table F draws k = Some (Ok T) ->
  (1 <= k)%nat -> length a = (2 ^ k)%nat -> canonical p a ->
  exists v, transform_slice F T a = Some v /\ length v = (2 ^ k)%nat /\ canonical p v /\
    inverse_transform_slice F T v = Some a.
Proof.
  intros HB Hp HF Hd HT. apply (gen_roundtrip B p k F T a Hp).
  exact (gen_facts_intro B p k F draws T HB Hp HF Hd HT).
Qed.
Print Assumptions C21_inverse_of_transform.

Theorem C21_transform_of_inverse (B p : Z) (k : nat) (F : field) (draws : nat -> Z) (T : ntt_table) (v : list Z) :
  wwidth B -> prime p -> derive_field B p = Some F -> (forall i, 2 <= draws i <= p - 1) ->
  generate_ntt_table F draws k = Some (Ok T) ->
  (1 <= k)%nat -> length v = (2 ^ k)%nat -> canonical p v ->
  exists a, inverse_transform_slice F T v = Some a /\ length a = (2 ^ k)%nat /\ canonical p a /\
    transform_slice F T a = Some v.
Proof.
  intros HB Hp HF Hd HT. apply (gen_roundtrip' B p k F T v Hp).
  exact (gen_facts_intro B p k F draws T HB Hp HF Hd HT).
Qed.
Print Assumptions C21_transform_of_inverse.

(** The inverse accepts lazily reduced values (below 2p). *)
Theorem C21_inverse_lazy (B p : Z) (k : nat) (F : field) (draws : nat -> Z) (T : ntt_table) (a u : list Z) :
  wwidth B -> prime p -> derive_field B p = Some F -> (forall i, 2 <= draws i <= p - 1) ->
  generate_ntt_table F draws k = Some (Ok T) ->
  (1 <= k)%nat -> length a = (2 ^ k)%nat -> canonical p a ->
  Forall (fun x => 0 <= x < 2 * p) u -> (exists v, transform_slice F T a = Some v /\ pcong p u v) ->
  inverse_transform_slice F T u = Some a.
Proof.
  intros HB Hp HF Hd HT. apply (gen_inverse_lazy B p k F T a u Hp).
  exact (gen_facts_intro B p k F draws T HB Hp HF Hd HT).
Qed.
Print Assumptions C21_inverse_lazy.

Example C21_ex : exists F T, prime 97 /\ derive_field 16 97 = Some F /\
  generate_ntt_table F (fun _ => 5) 3 = Some (Ok T) /\
  inverse_transform_slice F T [96; 3; 0; 50; 17; 17; 80; 1] = Some [33; 23; 94; 26; 52; 92; 23; 64] /\
  transform_slice F T [33; 23; 94; 26; 52; 92; 23; 64] = Some [96; 3; 0; 50; 17; 17; 80; 1] /\
  inverse_transform_slice F T [96; 100; 97; 50; 17; 114; 177; 1] = Some [33; 23; 94; 26; 52; 92; 23; 64].
Proof.
  eexists. eexists. split; [apply small_prime; vm_compute; reflexivity|].
  split; [vm_compute; reflexivity|]. split; [vm_compute; reflexivity|]. vm_compute. auto.
Qed.
