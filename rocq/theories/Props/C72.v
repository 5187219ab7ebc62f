(** C72: the search for a primitive root fails with a chance below 2^-100.
    The hundred draws are uniform on 2..p-1: [ts] ranges over all vectors of a hundred numbers below p - 2. *)
From Coq Require Import ZArith Znumtheory List Arith Bool Lia.
From Verif Require Import Spec.Basic Spec.Count Model.Base Model.Field Model.NTT.
From Verif Require Import Proofs.Arith Proofs.NumTheory Proofs.FieldProofs Proofs.NTTProofs Proofs.NTTTableProofs Proofs.RandomProofs Proofs.RootChanceProofs.
Import ListNotations.
Local Open Scope Z_scope.

(** The search fails on exactly ((p-3)/2)^100 of the (p-2)^100 vectors: those with squares only. *)
Theorem C72_root (B p : Z) (k : nat) (F : field) :
  wwidth B -> prime p -> derive_field B p = Some F -> (2 * 2 ^ Z.of_nat k | p - 1) ->
  let failures := count (fun ts =>
    match try_minimal_primitive_root F (fun i => 2 + nth i ts 0) (2 * 2 ^ Z.of_nat k) with Some (Ok _) => false | _ => true end)
    (tuples 100 (p - 2)) in
  failures = ((p - 3) / 2) ^ 100 /\ 2 ^ 100 * failures < (p - 2) ^ 100.
Proof.
  intros HB Hp HF Hd. pose proof (prime_ge_2 p Hp). destruct (derive_field_ok B p F HB ltac:(lia) HF) as (Hok & Hw & Hpp). subst B p.
  rewrite <- pow2_nat in *.
  apply (search_chance F k (fun draws => try_minimal_primitive_root F draws (2 * Z.of_nat (2 ^ k))) Hok Hp Hd). intros draws Hdr. apply (minimal_iff F Hok Hp k Hd draws Hdr).
Qed.
Print Assumptions C72_root.

(** The same for a whole table. *)
Theorem C72_table (B p : Z) (k : nat) (F : field) :
  wwidth B -> prime p -> derive_field B p = Some F -> (k < 63)%nat -> (2 * 2 ^ Z.of_nat k | p - 1) ->
  let failures := count (fun ts =>
    match generate_ntt_table F (fun i => 2 + nth i ts 0) k with Some (Ok _) => false | _ => true end) (tuples 100 (p - 2)) in
  failures = ((p - 3) / 2) ^ 100 /\ 2 ^ 100 * failures < (p - 2) ^ 100.
Proof.
  intros HB Hp HF Hk Hd. pose proof (prime_ge_2 p Hp). destruct (derive_field_ok B p F HB ltac:(lia) HF) as (Hok & Hw & Hpp). subst B p.
  rewrite <- pow2_nat in *.
  apply (search_chance F k (fun draws => generate_ntt_table F draws k) Hok Hp Hd). intros draws Hdr. apply (generate_iff F Hok Hp k Hd draws Hdr Hk).
Qed.
Print Assumptions C72_table.

(** Both kinds of vectors exist: a failing and a successful search in F_97 with 5 a non-square. *)
Example C72_ex : exists F, prime 97 /\ derive_field 16 97 = Some F /\ (2 * 2 ^ Z.of_nat 2 | 97 - 1) /\
  In (repeat 2 100) (tuples 100 (97 - 2)) /\ In (repeat 2 99 ++ [3]) (tuples 100 (97 - 2)) /\
  try_minimal_primitive_root F (fun i => 2 + nth i (repeat 2 100) 0) 8 = Some Err /\
  try_minimal_primitive_root F (fun i => 2 + nth i (repeat 2 99 ++ [3]) 0) 8 = Some (Ok 33) /\ 33 ^ 4 mod 97 = 96.
Proof.
  eexists. split; [apply small_prime; vm_compute; reflexivity|]. split; [vm_compute; reflexivity|].
  split; [exists 12; reflexivity|]. split; [apply tuples_in; split; [reflexivity|repeat constructor; lia]|].
  split; [apply tuples_in; split; [reflexivity|repeat constructor; lia]|].
  split; [vm_compute; reflexivity|]. split; vm_compute; reflexivity.
Qed.
