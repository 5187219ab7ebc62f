(** C33: external product of a ring ciphertext and an RGSW ciphertext. *)
From Coq Require Import ZArith Znumtheory List Arith.
From Verif Require Import Spec.Basic Spec.Poly Spec.Ring Model.Base Model.Field Model.NTT Model.Concrete Model.Poly Model.Rlwe Model.Gadget.
From Verif Require Import Proofs.NumTheory Proofs.FieldProofs Proofs.PolyMain Proofs.RingProofs Proofs.RgswProofs Proofs.WorkspaceProofs Proofs.ExampleTac.
Import ListNotations.
Local Open Scope Z_scope.

(** All variants return the same ciphertext, and its phase is m*phase(x) plus the digit-weighted
    noise of the two gadget halves ([external_product], Spec/Ring.v). *)
Theorem C33_external_product (B p : Z) (k : nat) (F : field) (tbl : tables) (bits : Z) (b : basis) (R : rgsw) (x : rlwe) :
  wwidth B -> prime p -> derive_field B p = Some F -> serves F tbl k -> (0 < k)%nat ->
  0 <= bits -> basis_new F bits = Some b -> rgsw_wf p (2 ^ k) b R -> rlwe_wf p (2 ^ k) x ->
  exists RN ct, rgsw_to_ntt F tbl R = Some RN /\
    rlwe_mul_rgsw F tbl x R = Some ct /\ external_product p (2 ^ k) (2 ^ bits) R x ct /\
    rlwe_mul_ntt_rgsw F tbl x RN = Some ct /\
    forall med, length (ra med) = (2 ^ k)%nat /\ length (rb med) = (2 ^ k)%nat ->
      rlwe_mul_assign_ntt_rgsw F tbl x RN (2 ^ k) (2 ^ k) med = Some ct /\
      forall dst, length (ra dst) = (2 ^ k)%nat /\ length (rb dst) = (2 ^ k)%nat ->
        rlwe_mul_ntt_rgsw_inplace F tbl x RN (2 ^ k) (2 ^ k) med dst = Some ct.
Proof.
  intros HB Hp HF Hs Hk H0 Hb HR Hx. destruct (field_ctx B p k F tbl HB Hp HF Hs) as (Hok & <- & w & C).
  apply (external_main F Hok Hp tbl k w C Hk b bits Hb H0); assumption.
Qed.
Print Assumptions C33_external_product.

(** The noise added by one external product is at most 2 * len * n * (base-1) * E. *)
Theorem C33_noise_bound (n : nat) (base E : Z) (l : nat) (x : rlwe) (da db es es' : list (list Z)) :
  0 <= E -> 1 <= base -> length (ra x) = n -> length (rb x) = n ->
  gadget_digits base l (ra x) da -> gadget_digits base l (rb x) db -> length es = l -> length es' = l ->
  Forall (fun e => length e = n /\ bounded E e) es -> Forall (fun e => length e = n /\ bounded E e) es' ->
  bounded (2 * (Z.of_nat l * (Z.of_nat n * ((base - 1) * E)))) (padd (lincomb n da es) (lincomb n db es')).
Proof. apply external_noise_bound. Qed.
Print Assumptions C33_noise_bound.

(** RGSW times RGSW: every row of the product is the external product of the row of the left factor
    with the right factor. *)
Theorem C33_internal_product (B p : Z) (k : nat) (F : field) (tbl : tables) (bits : Z) (b : basis) (R S : rgsw) :
  wwidth B -> prime p -> derive_field B p = Some F -> serves F tbl k -> (0 < k)%nat ->
  0 <= bits -> basis_new F bits = Some b -> rgsw_wf p (2 ^ k) b R -> rgsw_wf p (2 ^ k) b S ->
  exists SN T, rgsw_to_ntt F tbl S = Some SN /\ rgsw_mul_small F tbl R S = Some T /\ rgsw_mul_small_ntt F tbl R SN = Some T /\
    rgsw_wf p (2 ^ k) b T /\
    Forall2 (external_product p (2 ^ k) (2 ^ bits) S) (gd (c_neg R)) (gd (c_neg T)) /\
    Forall2 (external_product p (2 ^ k) (2 ^ bits) S) (gd (c_m R)) (gd (c_m T)).
Proof.
  intros HB Hp HF Hs Hk H0 Hb HR HS. destruct (field_ctx B p k F tbl HB Hp HF Hs) as (Hok & <- & w & C).
  apply (rgsw_mul_main F Hok Hp tbl k w C Hk b bits Hb H0); assumption.
Qed.
Print Assumptions C33_internal_product.

(** The in-place forms refuse a decomposition or polynomial space whose length is not that of the
    ciphertext. *)
Theorem C33_workspace (F : field) (tbl : tables) (R : rgsw) (x med dst : rlwe) (dlen plen : nat) :
  length (ra x) = length (rb x) ->
  plen <> length (ra x) \/ (dlen <> length (ra x) /\ (gd (c_neg R) <> [] \/ gd (c_m R) <> [])) ->
  rlwe_mul_ntt_rgsw_inplace F tbl x R dlen plen med dst = None /\
  rlwe_mul_assign_ntt_rgsw F tbl x R dlen plen med = None.
Proof. exact (workspace_rgsw F tbl R x med dst dlen plen). Qed.
Print Assumptions C33_workspace.

(** Modulus 97, n = 4, base 2^3, s = 1 - X: an RGSW encryption of X with small noise. *)
Definition C33_s : list Z := [1; 96; 0; 0].
Definition C33_m : list Z := [0; 1; 0; 0].
Definition C33_R (b : basis) : rgsw :=
  mk_rgsw (mk_gadget [mk_rlwe [5; 6; 7; 8] [14; 0; 2; 1]; mk_rlwe [90; 1; 1; 1] [91; 1; 9; 0]; mk_rlwe [0; 0; 3; 96] [96; 34; 67; 93]] b)
          (mk_gadget [mk_rlwe [1; 2; 3; 4] [5; 2; 2; 1]; mk_rlwe [0; 0; 1; 1] [1; 8; 1; 0]; mk_rlwe [50; 0; 0; 0] [50; 14; 0; 0]] b).
Definition C33_es : list (list Z) := [[1; 0; 0; 0]; [0; 1; 1; 0]; [0; 1; 0; 0]].
Definition C33_es' : list (list Z) := [[0; 0; 1; 0]; [0; 0; 0; 0]; [0; 0; 0; 0]].

Example C33_ex : exists F T b ct, prime 97 /\ derive_field 16 97 = Some F /\ serves F (fun _ => Some T) 2 /\
  basis_new F 3 = Some b /\ rgsw_wf 97 4 b (C33_R b) /\
  rgsw_encrypts 97 4 C33_s 8 C33_m (C33_R b) C33_es C33_es' /\
  rlwe_mul_rgsw F (fun _ => Some T) (mk_rlwe [77; 5; 96; 12] [1; 0; 33; 20]) (C33_R b) = Some ct /\
  map (fun x => x mod 97) (rphase 4 C33_s ct) =
    map (fun x => x mod 97) (padd (negacyclic 4 C33_m (rphase 4 C33_s (mk_rlwe [77; 5; 96; 12] [1; 0; 33; 20])))
      (padd (lincomb 4 [[5; 5; 0; 4]; [1; 0; 4; 1]; [1; 0; 1; 0]] C33_es)
            (lincomb 4 [[1; 0; 1; 4]; [0; 0; 4; 2]; [0; 0; 0; 0]] C33_es'))).
Proof.
  eexists. eexists. eexists. eexists. split; [apply small_prime; vm_compute; reflexivity|].
  split; [vm_compute; reflexivity|]. split; [ex_serves|]. split; [vm_compute; reflexivity|].
  split; [split; ex_wf|]. split; [split; ex_enc|]. split; [vm_compute; reflexivity|vm_compute; reflexivity].
Qed.
