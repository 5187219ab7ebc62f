(** C22: polynomial multiplication is negacyclic convolution. *)
From Coq Require Import ZArith Znumtheory List Arith Lia.
From Verif Require Import Spec.Basic Spec.Poly Model.Base Model.Field Model.NTT Model.Concrete Model.Poly.
From Verif Require Import Proofs.NumTheory Proofs.FieldProofs Proofs.PolyMain Proofs.MonomialMore.
Import ListNotations.
Local Open Scope Z_scope.

Theorem C22_mul (B p : Z) (k : nat) (F : field) (tbl : tables) (a b : list Z) :
  wwidth B -> prime p -> derive_field B p = Some F -> serves F tbl k -> (1 <= k)%nat ->
  length a = (2 ^ k)%nat -> length b = (2 ^ k)%nat -> canonical p a -> canonical p b ->
  p_mul_assign F tbl a b = Some (pmod p (negacyclic (2 ^ k) a b)).
Proof. exact (poly_mul B p k F tbl a b). Qed.
Print Assumptions C22_mul.

(** Multiplying by a polynomial already in transform form. *)
Theorem C22_mul_mixed (B p : Z) (k : nat) (F : field) (tbl : tables) (a b : list Z) :
  wwidth B -> prime p -> derive_field B p = Some F -> serves F tbl k -> (1 <= k)%nat ->
  length a = (2 ^ k)%nat -> length b = (2 ^ k)%nat -> canonical p a -> canonical p b ->
  exists v, into_ntt F tbl b = Some v /\
    p_mul_assign_ntt F tbl a v = Some (pmod p (negacyclic (2 ^ k) a b)).
Proof. exact (poly_mul_ntt B p k F tbl a b). Qed.
Print Assumptions C22_mul_mixed.

(** Operations in transform form correspond to the ring operations. *)
Theorem C22_ntt_ops (B p : Z) (k : nat) (F : field) (tbl : tables) (a b : list Z) :
  wwidth B -> prime p -> derive_field B p = Some F -> serves F tbl k ->
  length a = (2 ^ k)%nat -> length b = (2 ^ k)%nat -> canonical p a -> canonical p b ->
  exists u v, into_ntt F tbl a = Some u /\ into_ntt F tbl b = Some v /\
    p_add F u v = into_ntt F tbl (pmod p (padd a b)) /\
    p_sub F u v = into_ntt F tbl (pmod p (psub a b)) /\
    p_neg F u = into_ntt F tbl (pmod p (pneg a)) /\
    n_mul F u v = into_ntt F tbl (pmod p (negacyclic (2 ^ k) a b)) /\
    n_mul_assign_poly F tbl u b = into_ntt F tbl (pmod p (negacyclic (2 ^ k) a b)) /\
    p_add F u v <> None.
Proof. exact (ntt_domain B p k F tbl a b). Qed.
Print Assumptions C22_ntt_ops.

(** Multiply-accumulate, plain and lazy.  The accumulator [x] may itself be lazily reduced, so the
    statement chains over any number of accumulations. *)
Theorem C22_multiply_accumulate (B p : Z) (k : nat) (F : field) (tbl : tables) (a b c x : list Z) :
  wwidth B -> prime p -> derive_field B p = Some F -> serves F tbl k ->
  length a = (2 ^ k)%nat -> length b = (2 ^ k)%nat -> length c = (2 ^ k)%nat ->
  canonical p a -> canonical p b -> canonical p c ->
  Forall (fun y => 0 <= y < 2 * p) x -> (exists t, into_ntt F tbl c = Some t /\ pcong p x t) ->
  exists u v r, into_ntt F tbl a = Some u /\ into_ntt F tbl b = Some v /\
    ntt_add_mul_assign F x u v = into_ntt F tbl (pmod p (padd c (negacyclic (2 ^ k) a b))) /\
    ntt_add_mul_assign F x u v <> None /\
    ntt_add_mul_assign_fast F x u v = Some r /\ Forall (fun y => 0 <= y < 2 * p) r /\
    (exists t, into_ntt F tbl (pmod p (padd c (negacyclic (2 ^ k) a b))) = Some t /\ pcong p r t) /\
    ((0 < k)%nat -> into_native F tbl r = Some (pmod p (padd c (negacyclic (2 ^ k) a b)))).
Proof. exact (ntt_mac B p k F tbl a b c x). Qed.
Print Assumptions C22_multiply_accumulate.

(** Operands of different lengths, or of a length that is no power of two, are refused. *)
Theorem C22_bad_length (F : field) (tbl : tables) (a b : list Z) :
  (length a <> length b -> p_mul_assign F tbl a b = None /\ p_mul_assign_ntt F tbl a b = None) /\
  ((forall k, length a <> (2 ^ k)%nat) -> into_ntt F tbl a = None /\ into_native F tbl a = None /\
    p_mul_assign F tbl a b = None /\ p_mul_assign_ntt F tbl a b = None /\ p_inv F tbl a = None).
Proof. split; [apply mul_mismatch|apply mul_no_pow2]. Qed.
Print Assumptions C22_bad_length.

(** With one coefficient and the table of this library the inverse transform underflows, so every
    product and inverse panics. *)
Theorem C22_length_one (B p : Z) (F : field) (draws : nat -> Z) (T : ntt_table) (tbl : tables) (a b : list Z) :
  wwidth B -> prime p -> derive_field B p = Some F -> (forall i, 2 <= draws i <= p - 1) ->
  generate_ntt_table F draws 0 = Some (Ok T) -> tbl 0%nat = Some (OwnTable T) ->
  length a = 1%nat -> length b = 1%nat -> canonical p a ->
  into_native F tbl a = None /\ p_mul_assign F tbl a b = None /\ p_mul_assign_ntt F tbl a b = None /\ p_inv F tbl a = None.
Proof.
  intros HB Hp HF Hd HT. apply (gen_one_coefficient B p F T tbl a b).
  exact (gen_facts_intro B p 0 F draws T HB Hp HF Hd HT).
Qed.
Print Assumptions C22_length_one.

(** Such a table exists. *)
Theorem C22_length_one_refuted :
  exists (B p : Z) (F : field) (tbl : tables) (a b : list Z),
    wwidth B /\ prime p /\ derive_field B p = Some F /\ serves F tbl 0 /\
    length a = 1%nat /\ length b = 1%nat /\ canonical p a /\ canonical p b /\
    p_mul_assign F tbl a b = None.
Proof.
  exists 16, 97. eexists. exists (fun _ => match derive_field 16 97 with
    | Some F => match generate_table F None (fun _ => 5) 0 with Some (Ok T) => Some T | _ => None end | None => None end).
  exists [3], [5]. split; [exists 8; lia|]. split; [apply small_prime; vm_compute; reflexivity|].
  split; [vm_compute; reflexivity|]. split.
  - exists None, (fun _ => 5). eexists. split; [exact I|]; split; [intros; vm_compute; split; discriminate|]. split; [vm_compute; reflexivity|vm_compute; reflexivity].
  - split; [reflexivity|]. split; [reflexivity|]. split; [repeat constructor; lia|].
    split; [repeat constructor; lia|]. vm_compute. reflexivity.
Qed.
Print Assumptions C22_length_one_refuted.

Example C22_ex : exists F T, prime 97 /\ derive_field 16 97 = Some F /\ serves F (fun _ => Some T) 2 /\
  p_mul_assign F (fun _ => Some T) [1; 2; 3; 96] [5; 0; 7; 1] = Some [79; 14; 23; 10] /\
  pmod 97 (negacyclic 4 [1; 2; 3; 96] [5; 0; 7; 1]) = [79; 14; 23; 10].
Proof.
  eexists. eexists. split; [apply small_prime; vm_compute; reflexivity|].
  split; [vm_compute; reflexivity|]. split.
  - exists None, (fun _ => 5). eexists. split; [exact I|]; split; [intros; vm_compute; split; discriminate|]. split; [vm_compute; reflexivity|reflexivity].
  - vm_compute. auto.
Qed.
