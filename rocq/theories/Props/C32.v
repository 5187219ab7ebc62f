(** C32: gadget product. *)
From Coq Require Import ZArith Znumtheory List Arith.
From Verif Require Import Spec.Basic Spec.Poly Spec.Ring Model.Base Model.Field Model.NTT Model.Concrete Model.Poly Model.Rlwe Model.Gadget.
From Verif Require Import Proofs.NumTheory Proofs.FieldProofs Proofs.PolyMain Proofs.RingProofs Proofs.RgswProofs Proofs.WorkspaceProofs Proofs.ExampleTac.
Import ListNotations.
Local Open Scope Z_scope.

(** [gadget_product] (Spec/Ring.v): whatever the key, message and noise of the rows, the result has
    phase m*f plus the digit-weighted row noise.  The coefficient form returns that ciphertext, the
    transform forms return its transform, the lazy form a lazily reduced transform of it. *)
Theorem C32_gadget_mul (B p : Z) (k : nat) (F : field) (tbl : tables) (bits : Z) (b : basis) (G : gadget) (f : list Z) :
  wwidth B -> prime p -> derive_field B p = Some F -> serves F tbl k -> (0 < k)%nat ->
  0 <= bits -> basis_new F bits = Some b -> gadget_wf p (2 ^ k) b G -> length f = (2 ^ k)%nat -> canonical p f ->
  exists GN ct y, gadget_to_ntt F tbl G = Some GN /\
    g_mul_polynomial F tbl G f = Some ct /\ gadget_product p (2 ^ k) (2 ^ bits) (gd G) (rlwe_zero (2 ^ k)) f ct /\
    ng_mul_polynomial F tbl GN f = Some y /\ rlwe_to_ntt F tbl ct = Some y /\ rlwe_from_ntt F tbl y = Some ct /\
    forall dst, length (ra dst) = (2 ^ k)%nat /\ length (rb dst) = (2 ^ k)%nat ->
      ng_mul_polynomial_inplace F tbl GN f (2 ^ k) (2 ^ k) dst = Some y /\
      exists y', ng_mul_polynomial_inplace_fast F tbl GN f (2 ^ k) (2 ^ k) dst = Some y' /\ rlwe_from_ntt F tbl y' = Some ct.
Proof.
  intros HB Hp HF Hs Hk H0 Hb HG Lf Cf. destruct (field_ctx B p k F tbl HB Hp HF Hs) as (Hok & <- & w & C).
  apply (gadget_mul_main F Hok Hp tbl k w C Hk b bits Hb H0); assumption.
Qed.
Print Assumptions C32_gadget_mul.

(** Adding the product to a ciphertext, all variants. *)
Theorem C32_gadget_add (B p : Z) (k : nat) (F : field) (tbl : tables) (bits : Z) (b : basis) (G : gadget) (f : list Z) (x : rlwe) :
  wwidth B -> prime p -> derive_field B p = Some F -> serves F tbl k -> (0 < k)%nat ->
  0 <= bits -> basis_new F bits = Some b -> gadget_wf p (2 ^ k) b G -> length f = (2 ^ k)%nat -> canonical p f ->
  rlwe_wf p (2 ^ k) x ->
  exists GN xn ct, gadget_to_ntt F tbl G = Some GN /\ rlwe_to_ntt F tbl x = Some xn /\
    g_mul_polynomial_add_rlwe F tbl G f x = Some ct /\ gadget_product p (2 ^ k) (2 ^ bits) (gd G) x f ct /\
    (exists y, nrlwe_add_gadget_mul F tbl xn GN f = Some y /\
       nrlwe_add_gadget_mul_assign F tbl xn GN f (2 ^ k) (2 ^ k) = Some y /\ rlwe_from_ntt F tbl y = Some ct) /\
    (exists y, nrlwe_add_gadget_mul_assign_fast F tbl xn GN f (2 ^ k) (2 ^ k) = Some y /\ rlwe_from_ntt F tbl y = Some ct) /\
    (exists y, nrlwe_add_gadget_mul_inplace_fast F tbl xn GN f (2 ^ k) = Some y /\ rlwe_from_ntt F tbl y = Some ct).
Proof.
  intros HB Hp HF Hs Hk H0 Hb HG Lf Cf. destruct (field_ctx B p k F tbl HB Hp HF Hs) as (Hok & <- & w & C).
  apply (gadget_add_main F Hok Hp tbl k w C Hk b bits Hb H0); assumption.
Qed.
Print Assumptions C32_gadget_add.

(** Subtracting it: the digits are those of -f, the phase is phase(x) - m*f + digit-weighted noise. *)
Theorem C32_gadget_sub (B p : Z) (k : nat) (F : field) (tbl : tables) (bits : Z) (b : basis) (G : gadget) (f : list Z) (x : rlwe) :
  wwidth B -> prime p -> derive_field B p = Some F -> serves F tbl k -> (0 < k)%nat ->
  0 <= bits -> basis_new F bits = Some b -> gadget_wf p (2 ^ k) b G -> length f = (2 ^ k)%nat -> canonical p f ->
  rlwe_wf p (2 ^ k) x ->
  exists GN xn ct, gadget_to_ntt F tbl G = Some GN /\ rlwe_to_ntt F tbl x = Some xn /\
    rlwe_wf p (2 ^ k) ct /\
    (exists ds, gadget_digits (2 ^ bits) (length (gd G)) (pmod p (pneg f)) ds /\
      forall s m es, length s = (2 ^ k)%nat -> length m = (2 ^ k)%nat -> gadget_encrypts p (2 ^ k) s (2 ^ bits) m (gd G) es ->
        pcong p (rphase (2 ^ k) s ct) (padd (psub (rphase (2 ^ k) s x) (negacyclic (2 ^ k) m f)) (lincomb (2 ^ k) ds es))) /\
    (exists y, nrlwe_sub_gadget_mul F tbl xn GN f (2 ^ k) = Some y /\ rlwe_from_ntt F tbl y = Some ct) /\
    (exists y, nrlwe_sub_gadget_mul_fast F tbl xn GN f (2 ^ k) = Some y /\ rlwe_from_ntt F tbl y = Some ct).
Proof.
  intros HB Hp HF Hs Hk H0 Hb HG Lf Cf. destruct (field_ctx B p k F tbl HB Hp HF Hs) as (Hok & <- & w & C).
  apply (gadget_sub_main F Hok Hp tbl k w C Hk b bits Hb H0); assumption.
Qed.
Print Assumptions C32_gadget_sub.

(** The digit-weighted noise of any such product is at most len * n * (base-1) * E. *)
Theorem C32_noise_bound (n : nat) (base E : Z) (l : nat) (f : list Z) (ds es : list (list Z)) :
  0 <= E -> 1 <= base -> length f = n -> gadget_digits base l f ds -> length es = l ->
  Forall (fun e => length e = n /\ bounded E e) es ->
  bounded (Z.of_nat l * (Z.of_nat n * ((base - 1) * E))) (lincomb n ds es).
Proof.
  intros HE Hb <- (L & D & _) Le Hes. rewrite <- L. apply lincomb_bound; try assumption. congruence.
Qed.
Print Assumptions C32_noise_bound.

(** Workspaces of the wrong length are refused by every in-place form: the decomposition space when
    the key has a row to multiply by, the polynomial space always. *)
Theorem C32_workspace (F : field) (tbl : tables) (G : gadget) (f : list Z) (x : rlwe) (dlen plen : nat) :
  (plen <> length f \/ (dlen <> length f /\ gd G <> []) ->
    ng_mul_polynomial_inplace F tbl G f dlen plen x = None /\
    ng_mul_polynomial_inplace_fast F tbl G f dlen plen x = None /\
    nrlwe_add_gadget_mul_assign F tbl x G f dlen plen = None /\
    nrlwe_add_gadget_mul_assign_fast F tbl x G f dlen plen = None) /\
  (dlen <> length f -> gd G <> [] ->
    nrlwe_add_gadget_mul_inplace_fast F tbl x G f dlen = None /\
    nrlwe_sub_gadget_mul F tbl x G f dlen = None /\
    nrlwe_sub_gadget_mul_fast F tbl x G f dlen = None).
Proof. exact (workspace_main F tbl G f x dlen plen). Qed.
Print Assumptions C32_workspace.

(** Modulus 97, n = 4, base 2^3 (3 rows): a gadget encryption of m = 1 + 2X^3 under s = 1 - X with noise in {-1,0,1}. *)
Definition C32_s : list Z := [1; 96; 0; 0].
Definition C32_m : list Z := [1; 0; 0; 2].
Definition C32_rows : list rlwe :=
  [mk_rlwe [5; 6; 7; 8] [15; 2; 0; 3]; mk_rlwe [90; 1; 1; 1] [2; 9; 1; 16]; mk_rlwe [0; 0; 3; 96] [63; 0; 3; 27]].
Definition C32_es : list (list Z) := [[1; 1; -1; 0]; [0; 1; 1; 0]; [0; 0; 0; 0]].

Example C32_ex : exists F T b ct, prime 97 /\ derive_field 16 97 = Some F /\ serves F (fun _ => Some T) 2 /\
  basis_new F 3 = Some b /\
  gadget_wf 97 4 b (mk_gadget C32_rows b) /\ gadget_encrypts 97 4 C32_s 8 C32_m C32_rows C32_es /\
  g_mul_polynomial F (fun _ => Some T) (mk_gadget C32_rows b) [77; 5; 96; 12] = Some ct /\
  map (fun x => x mod 97) (rphase 4 C32_s ct) =
    map (fun x => x mod 97) (padd (negacyclic 4 C32_m [77; 5; 96; 12])
      (lincomb 4 [[5; 5; 0; 4]; [1; 0; 4; 1]; [1; 0; 1; 0]] C32_es)).
Proof.
  eexists. eexists. eexists. eexists. split; [apply small_prime; vm_compute; reflexivity|].
  split; [vm_compute; reflexivity|]. split; [ex_serves|]. split; [vm_compute; reflexivity|].
  split; [ex_wf|]. split; [ex_enc|]. split; [vm_compute; reflexivity|vm_compute; reflexivity].
Qed.
