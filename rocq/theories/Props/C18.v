(** C18: gadget decomposition is exact. *)
From Coq Require Import ZArith List.
From Verif Require Import Spec.Basic Model.Base Model.Barrett Model.Field Proofs.FieldProofs.
Import ListNotations.
Local Open Scope Z_scope.

Theorem C18_basis_new (B p bits : Z) (F : field) :
  wwidth B -> 0 <= p -> derive_field B p = Some F -> 0 <= bits ->
  ((exists b, basis_new F bits = Some b) <-> 1 <= bits <= bit_len p).
Proof.
  intros HB Hp HF. destruct (derive_field_ok B p F HB Hp HF) as (Hok & _ & <-).
  exact (basis_new_iff F bits Hok).
Qed.
Print Assumptions C18_basis_new.

Theorem C18_decompose (B p bits v : Z) (F : field) (b : basis) :
  wwidth B -> 0 <= p -> derive_field B p = Some F -> 0 <= bits -> basis_new F bits = Some b ->
  0 <= v < p ->
  exists d, f_decompose F b v = Some d /\ length d = bs_len b /\
    Forall (fun x => 0 <= x < 2 ^ bits) d /\ digits_value (2 ^ bits) d = v.
Proof.
  intros HB Hp HF H0 Hb Hv. destruct (derive_field_ok B p F HB Hp HF) as (Hok & _ & <-).
  destruct (decompose_full F bits b v Hok Hb H0 Hv) as (d & H1 & H2 & H3 & H4 & _).
  exists d. auto.
Qed.
Print Assumptions C18_decompose.

(** The polynomial decomposition holds, at every coefficient, the scalar digits. *)
Theorem C18_poly_decompose (B p bits : Z) (F : field) (b : basis) (a : list Z) :
  wwidth B -> 0 <= p -> derive_field B p = Some F -> 0 <= bits -> basis_new F bits = Some b ->
  canonical p a ->
  exists ds, poly_decompose F b a = Some ds /\ length ds = bs_len b /\
    Forall (fun d => length d = length a) ds /\
    forall i, (i < length a)%nat ->
      f_decompose F b (nth i a 0) = Some (map (fun d => nth i d 0) ds).
Proof.
  intros HB Hp HF H0 Hb Ha. destruct (derive_field_ok B p F HB Hp HF) as (Hok & _ & <-).
  exact (poly_decompose_full F bits b a Hok Hb H0 Ha).
Qed.
Print Assumptions C18_poly_decompose.

Example C18_ex : exists F b, derive_field 32 132120577 = Some F /\ basis_new F 3 = Some b /\
  bs_len b = 9%nat /\ f_decompose F b 132120576 = Some [0; 0; 0; 0; 0; 0; 0; 7; 7] /\
  poly_decompose F b [1; 9; 132120576] =
    Some [[1; 1; 0]; [0; 1; 0]; [0; 0; 0]; [0; 0; 0]; [0; 0; 0]; [0; 0; 0]; [0; 0; 0]; [0; 0; 7]; [0; 0; 7]].
Proof.
  do 2 eexists. split; [vm_compute; reflexivity|]. split; [vm_compute; reflexivity|].
  vm_compute. auto.
Qed.
