(** C30: sample extraction keeps the constant coefficient of the phase. *)
From Coq Require Import ZArith List Arith.
From Verif Require Import Spec.Basic Spec.Poly Spec.Lattice Spec.Ring Model.Base Model.Field Model.Lwe Model.Rlwe.
From Verif Require Import Proofs.FieldProofs Proofs.RlweProofs.
Import ListNotations.
Local Open Scope Z_scope.

(** Any dimension n > 0, any well-formed ciphertext, any key polynomial [s]: the LWE phase under
    the coefficient vector of [s] is the constant coefficient of [b - a*s]; both forms agree. *)
Theorem C30_extract (B p : Z) (F : field) (n : nat) (s : list Z) (x : rlwe) :
  wwidth B -> 0 <= p -> derive_field B p = Some F ->
  (0 < n)%nat -> rlwe_wf p n x -> length s = n ->
  exists z, extract_lwe F x = Some z /\ extract_lwe_locally F x = Some z /\ lwe_wf p n z /\
    phase p s z = nth 0 (rphase n s x) 0 mod p.
Proof.
  intros HB Hp HF. destruct (derive_field_ok B p F HB Hp HF) as (Hok & <- & <-). apply extract_phase. exact Hok.
Qed.
Print Assumptions C30_extract.

(** The partial form for a shorter key is extraction under the zero-padded key. *)
Theorem C30_partial_extract (B p : Z) (F : field) (n : nat) (s : list Z) (x : rlwe) :
  wwidth B -> 0 <= p -> derive_field B p = Some F ->
  (0 < n)%nat -> rlwe_wf p n x -> (length s <= n)%nat ->
  exists z, extract_partial_lwe_locally F x (length s) = Some z /\ lwe_wf p (length s) z /\
    phase p s z = nth 0 (rphase n (pad n s) x) 0 mod p.
Proof.
  intros HB Hp HF. destruct (derive_field_ok B p F HB Hp HF) as (Hok & <- & <-). apply extract_partial_phase. exact Hok.
Qed.
Print Assumptions C30_partial_extract.

(** The "reverse" form leaves the mask alone; its key is (s_0, -s_{n-1}, ..., -s_1). *)
Theorem C30_reverse (B p : Z) (F : field) (n : nat) (s : list Z) (x : rlwe) :
  wwidth B -> 0 <= p -> derive_field B p = Some F ->
  (0 < n)%nat -> rlwe_wf p n x -> length s = n ->
  exists z, extract_lwe_reverse_locally x = Some z /\ lwe_wf p n z /\
    phase p (revkey s) z = nth 0 (rphase n s x) 0 mod p.
Proof.
  intros HB Hp HF. destruct (derive_field_ok B p F HB Hp HF) as (Hok & <- & <-). apply extract_reverse_phase.
Qed.
Print Assumptions C30_reverse.

(** The partial reverse form with LWE key [s] extracts under the ring key that is the reversal of
    the zero-padded [s]. *)
Theorem C30_partial_reverse (B p : Z) (F : field) (n : nat) (s : list Z) (x : rlwe) :
  wwidth B -> 0 <= p -> derive_field B p = Some F ->
  (0 < n)%nat -> rlwe_wf p n x -> (length s <= n)%nat ->
  exists z, extract_partial_lwe_reverse_locally x (length s) = Some z /\ lwe_wf p (length s) z /\
    phase p s z = nth 0 (rphase n (revkey (pad n s)) x) 0 mod p.
Proof.
  intros HB Hp HF. destruct (derive_field_ok B p F HB Hp HF) as (Hok & <- & <-). apply extract_partial_reverse_phase.
Qed.
Print Assumptions C30_partial_reverse.

Example C30_ex : exists F, derive_field 16 97 = Some F /\
  rlwe_wf 97 4 (mk_rlwe [3; 50; 0; 96] [10; 20; 30; 40]) /\
  extract_lwe F (mk_rlwe [3; 50; 0; 96] [10; 20; 30; 40]) = Some (mk_lwe [3; 1; 0; 47] 10) /\
  phase 97 [1; 0; 1; -1] (mk_lwe [3; 1; 0; 47] 10) = 54 /\
  nth 0 (rphase 4 [1; 0; 1; -1] (mk_rlwe [3; 50; 0; 96] [10; 20; 30; 40])) 0 mod 97 = 54 /\
  extract_partial_lwe_reverse_locally (mk_rlwe [3; 50; 0; 96] [10; 20; 30; 40]) 2 = Some (mk_lwe [3; 50] 10) /\
  revkey (pad 4 [1; -1]) = [1; 0; 0; 1].
Proof.
  eexists. split; [vm_compute; reflexivity|].
  split; [repeat split; repeat constructor; vm_compute; congruence|]. vm_compute. auto.
Qed.
