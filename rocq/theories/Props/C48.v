(** C48: the inverse of a polynomial. *)
From Coq Require Import ZArith Znumtheory List Arith Lia.
From Verif Require Import Spec.Basic Spec.Poly Model.Base Model.Field Model.NTT Model.Concrete Model.Poly.
From Verif Require Import Proofs.NumTheory Proofs.FieldProofs Proofs.PolyMain Proofs.PolyInvProofs.
Import ListNotations.
Local Open Scope Z_scope.

Theorem C48_inverse_partial (B p : Z) (k : nat) (F : field) (tbl : tables) (a b : list Z) :
  wwidth B -> prime p -> derive_field B p = Some F -> serves F tbl k -> (1 <= k)%nat ->
  length a = (2 ^ k)%nat -> canonical p a ->
  length b = (2 ^ k)%nat -> pmod p (negacyclic (2 ^ k) b a) = monomial (2 ^ k) 1 0 ->
  exists r, p_inv F tbl a = Some r /\ length r = (2 ^ k)%nat /\ canonical p r /\
    pmod p (negacyclic (2 ^ k) r a) = monomial (2 ^ k) 1 0.
Proof. exact (poly_inv B p k F tbl a b). Qed.
Print Assumptions C48_inverse_partial.

(** What every operand gets, whether it has an inverse or not: a canonical polynomial [r] with
    [r a a = a] and [a r r = r], and [r a] is 1 exactly when some inverse exists.  A caller can
    therefore detect a missing inverse by multiplying back. *)
Theorem C48_every_operand_partial (B p : Z) (k : nat) (F : field) (tbl : tables) (a : list Z) :
  wwidth B -> prime p -> derive_field B p = Some F -> serves F tbl k -> (1 <= k)%nat ->
  length a = (2 ^ k)%nat -> canonical p a ->
  exists r, p_inv F tbl a = Some r /\ length r = (2 ^ k)%nat /\ canonical p r /\
    pmod p (negacyclic (2 ^ k) (negacyclic (2 ^ k) r a) a) = a /\
    pmod p (negacyclic (2 ^ k) (negacyclic (2 ^ k) a r) r) = r /\
    (pmod p (negacyclic (2 ^ k) r a) = monomial (2 ^ k) 1 0 <->
     exists b, length b = (2 ^ k)%nat /\ pmod p (negacyclic (2 ^ k) b a) = monomial (2 ^ k) 1 0).
Proof. exact (poly_pseudo B p k F tbl a). Qed.
Print Assumptions C48_every_operand_partial.

(** A polynomial without inverse is not rejected: here a result is returned whose product with
    the operand is not 1. *)
Theorem C48_no_inverse_refuted :
  exists (B p : Z) (F : field) (tbl : tables) (a r : list Z),
    wwidth B /\ prime p /\ derive_field B p = Some F /\ serves F tbl 2 /\
    length a = 4%nat /\ canonical p a /\ Exists (fun x => x <> 0) a /\
    p_inv F tbl a = Some r /\ pmod p (negacyclic 4 r a) <> monomial 4 1 0.
Proof.
  exists 16, 97. eexists. exists (fun _ => match derive_field 16 97 with
    | Some F => match generate_table F None (fun _ => 5) 2 with Some (Ok T) => Some T | _ => None end | None => None end).
  exists [64; 1; 0; 0]. eexists. split; [exists 8; lia|]. split; [apply small_prime; vm_compute; reflexivity|].
  split; [vm_compute; reflexivity|]. split.
  - exists None, (fun _ => 5). eexists. split; [exact I|]; split; [intros; vm_compute; split; discriminate|]. split; [vm_compute; reflexivity|vm_compute; reflexivity].
  - split; [reflexivity|]. split; [repeat constructor; lia|]. split; [constructor; lia|].
    split; [vm_compute; reflexivity|]. vm_compute. discriminate.
Qed.
Print Assumptions C48_no_inverse_refuted.

Example C48_ex : exists F T, prime 97 /\ derive_field 16 97 = Some F /\ serves F (fun _ => Some T) 2 /\
  p_inv F (fun _ => Some T) [1; 1; 0; 0] = Some [49; 48; 49; 48] /\
  pmod 97 (negacyclic 4 [49; 48; 49; 48] [1; 1; 0; 0]) = monomial 4 1 0.
Proof.
  eexists. eexists. split; [apply small_prime; vm_compute; reflexivity|].
  split; [vm_compute; reflexivity|]. split.
  - exists None, (fun _ => 5). eexists. split; [exact I|]; split; [intros; vm_compute; split; discriminate|]. split; [vm_compute; reflexivity|reflexivity].
  - vm_compute. auto.
Qed.

(** An operand without inverse. *)
Example C48_ex_pseudo : exists F T r, derive_field 16 97 = Some F /\ serves F (fun _ => Some T) 2 /\
  p_inv F (fun _ => Some T) [64; 1; 0; 0] = Some r /\ r <> [0; 0; 0; 0] /\
  pmod 97 (negacyclic 4 r [64; 1; 0; 0]) <> monomial 4 1 0 /\
  pmod 97 (negacyclic 4 (negacyclic 4 r [64; 1; 0; 0]) [64; 1; 0; 0]) = [64; 1; 0; 0].
Proof.
  eexists. eexists. eexists. split; [vm_compute; reflexivity|]. split.
  - exists None, (fun _ => 5). eexists. split; [exact I|]; split; [intros; vm_compute; split; discriminate|]. split; [vm_compute; reflexivity|reflexivity].
  - split; [vm_compute; reflexivity|]. split; [discriminate|]. split; [vm_compute; discriminate|]. vm_compute. reflexivity.
Qed.
