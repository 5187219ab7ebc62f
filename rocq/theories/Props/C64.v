(** C64: adding, subtracting and scaling ring, gadget and RGSW ciphertexts. *)
From Coq Require Import ZArith Znumtheory List Arith.
From Verif Require Import Spec.Basic Spec.Poly Spec.Ring Model.Base Model.Field Model.NTT Model.Concrete Model.Poly Model.Rlwe Model.Gadget.
From Verif Require Import Proofs.NumTheory Proofs.FieldProofs Proofs.PolyMain Proofs.RingProofs Proofs.RgswProofs Proofs.LinearProofs Proofs.ExampleTac.
Import ListNotations.
Local Open Scope Z_scope.

(** Destinations: the coefficients they hold are irrelevant, only their shape matters. *)
Definition rlwe_room (n : nat) (d : rlwe) : Prop := length (ra d) = n /\ length (rb d) = n.
Definition gadget_room (n : nat) (b : basis) (D : gadget) : Prop := gb D = b /\ length (gd D) = bs_len b /\ Forall (rlwe_room n) (gd D).
Definition rgsw_room (n : nat) (b : basis) (D : rgsw) : Prop := gadget_room n b (c_neg D) /\ gadget_room n b (c_m D).
(** The lists combined entry by entry. *)
Definition entrywise (f : list Z -> list Z -> list Z) (l r : list (list Z)) : list (list Z) := map (fun u => f (fst u) (snd u)) (combine l r).

(** Every form of addition returns the same ciphertext, whose phase under every key is the sum of the
    phases; doing it on the transformed ciphertexts gives the transform of that ciphertext. *)
Theorem C64_rlwe_add (B p : Z) (k : nat) (F : field) (tbl : tables) (x y : rlwe) :
  wwidth B -> prime p -> derive_field B p = Some F -> serves F tbl k -> rlwe_wf p (2 ^ k) x -> rlwe_wf p (2 ^ k) y ->
  exists z xN yN zN, rlwe_add_ref F x y = Some z /\ rlwe_add_assign F x y = Some z /\
    (forall d, rlwe_room (2 ^ k) d -> rlwe_add_inplace F x y d = Some z) /\ rlwe_wf p (2 ^ k) z /\
    (forall s, length s = (2 ^ k)%nat -> pcong p (rphase (2 ^ k) s z) (padd (rphase (2 ^ k) s x) (rphase (2 ^ k) s y))) /\
    rlwe_to_ntt F tbl x = Some xN /\ rlwe_to_ntt F tbl y = Some yN /\ rlwe_to_ntt F tbl z = Some zN /\
    rlwe_add_ref F xN yN = Some zN /\ rlwe_add_assign F xN yN = Some zN /\
    (forall d, rlwe_room (2 ^ k) d -> rlwe_add_inplace F xN yN d = Some zN).
Proof.
  intros HB Hp HF Hs Hx Hy. destruct (field_ctx B p k F tbl HB Hp HF Hs) as (Hok & <- & w & C).
  exact (rlwe_op_main F Hok Hp tbl k w C false x y Hx Hy).
Qed.
Print Assumptions C64_rlwe_add.

(** Every form of subtraction returns the same ciphertext, whose phase under every key is the difference of the
    phases; doing it on the transformed ciphertexts gives the transform of that ciphertext. *)
Theorem C64_rlwe_sub (B p : Z) (k : nat) (F : field) (tbl : tables) (x y : rlwe) :
  wwidth B -> prime p -> derive_field B p = Some F -> serves F tbl k -> rlwe_wf p (2 ^ k) x -> rlwe_wf p (2 ^ k) y ->
  exists z xN yN zN, rlwe_sub_ref F x y = Some z /\ rlwe_sub_assign F x y = Some z /\
    (forall d, rlwe_room (2 ^ k) d -> rlwe_sub_inplace F x y d = Some z) /\ rlwe_wf p (2 ^ k) z /\
    (forall s, length s = (2 ^ k)%nat -> pcong p (rphase (2 ^ k) s z) (psub (rphase (2 ^ k) s x) (rphase (2 ^ k) s y))) /\
    rlwe_to_ntt F tbl x = Some xN /\ rlwe_to_ntt F tbl y = Some yN /\ rlwe_to_ntt F tbl z = Some zN /\
    rlwe_sub_ref F xN yN = Some zN /\ rlwe_sub_assign F xN yN = Some zN /\
    (forall d, rlwe_room (2 ^ k) d -> rlwe_sub_inplace F xN yN d = Some zN).
Proof.
  intros HB Hp HF Hs Hx Hy. destruct (field_ctx B p k F tbl HB Hp HF Hs) as (Hok & <- & w & C).
  exact (rlwe_op_main F Hok Hp tbl k w C true x y Hx Hy).
Qed.
Print Assumptions C64_rlwe_sub.

(** Gadget ciphertexts: the sum encrypts the sum of the messages with the sum of the noises. *)
Theorem C64_gadget_add (B p : Z) (k : nat) (F : field) (tbl : tables) (bits : Z) (b : basis) (G H : gadget) :
  wwidth B -> prime p -> derive_field B p = Some F -> serves F tbl k -> gadget_wf p (2 ^ k) b G -> gadget_wf p (2 ^ k) b H ->
  exists Z0 GN HN ZN, gadget_wf p (2 ^ k) b Z0 /\
    (forall D, gadget_room (2 ^ k) b D -> gadget_op_inplace (rlwe_add_inplace F) G H D = Some Z0) /\
    (forall s m m' es es', length s = (2 ^ k)%nat -> length m = (2 ^ k)%nat -> length m' = (2 ^ k)%nat ->
      gadget_encrypts p (2 ^ k) s (2 ^ bits) m (gd G) es -> gadget_encrypts p (2 ^ k) s (2 ^ bits) m' (gd H) es' ->
      gadget_encrypts p (2 ^ k) s (2 ^ bits) (padd m m') (gd Z0) (entrywise padd es es')) /\
    gadget_to_ntt F tbl G = Some GN /\ gadget_to_ntt F tbl H = Some HN /\ gadget_to_ntt F tbl Z0 = Some ZN /\
    (forall D, gadget_room (2 ^ k) b D -> gadget_op_inplace (rlwe_add_inplace F) GN HN D = Some ZN).
Proof.
  intros HB Hp HF Hs HG HH. destruct (field_ctx B p k F tbl HB Hp HF Hs) as (Hok & <- & w & C).
  exact (gadget_op_main F Hok Hp tbl k w C b bits false G H HG HH).
Qed.
Print Assumptions C64_gadget_add.

(** The same for RGSW ciphertexts. *)
Theorem C64_rgsw_add (B p : Z) (k : nat) (F : field) (tbl : tables) (bits : Z) (b : basis) (R S : rgsw) :
  wwidth B -> prime p -> derive_field B p = Some F -> serves F tbl k -> rgsw_wf p (2 ^ k) b R -> rgsw_wf p (2 ^ k) b S ->
  exists T RN SN TN, rgsw_wf p (2 ^ k) b T /\
    (forall D, rgsw_room (2 ^ k) b D -> rgsw_op_inplace (rlwe_add_inplace F) R S D = Some T) /\
    (forall s m m' es es' fs fs', length s = (2 ^ k)%nat -> length m = (2 ^ k)%nat -> length m' = (2 ^ k)%nat ->
      rgsw_encrypts p (2 ^ k) s (2 ^ bits) m R es es' -> rgsw_encrypts p (2 ^ k) s (2 ^ bits) m' S fs fs' ->
      rgsw_encrypts p (2 ^ k) s (2 ^ bits) (padd m m') T (entrywise padd es fs) (entrywise padd es' fs')) /\
    rgsw_to_ntt F tbl R = Some RN /\ rgsw_to_ntt F tbl S = Some SN /\ rgsw_to_ntt F tbl T = Some TN /\
    (forall D, rgsw_room (2 ^ k) b D -> rgsw_op_inplace (rlwe_add_inplace F) RN SN D = Some TN).
Proof.
  intros HB Hp HF Hs HR HS. destruct (field_ctx B p k F tbl HB Hp HF Hs) as (Hok & <- & w & C).
  exact (rgsw_op_main F Hok Hp tbl k w C b bits false R S HR HS).
Qed.
Print Assumptions C64_rgsw_add.

(** Gadget ciphertexts: the difference encrypts the difference of the messages with the difference of the noises. *)
Theorem C64_gadget_sub (B p : Z) (k : nat) (F : field) (tbl : tables) (bits : Z) (b : basis) (G H : gadget) :
  wwidth B -> prime p -> derive_field B p = Some F -> serves F tbl k -> gadget_wf p (2 ^ k) b G -> gadget_wf p (2 ^ k) b H ->
  exists Z0 GN HN ZN, gadget_wf p (2 ^ k) b Z0 /\
    (forall D, gadget_room (2 ^ k) b D -> gadget_op_inplace (rlwe_sub_inplace F) G H D = Some Z0) /\
    (forall s m m' es es', length s = (2 ^ k)%nat -> length m = (2 ^ k)%nat -> length m' = (2 ^ k)%nat ->
      gadget_encrypts p (2 ^ k) s (2 ^ bits) m (gd G) es -> gadget_encrypts p (2 ^ k) s (2 ^ bits) m' (gd H) es' ->
      gadget_encrypts p (2 ^ k) s (2 ^ bits) (psub m m') (gd Z0) (entrywise psub es es')) /\
    gadget_to_ntt F tbl G = Some GN /\ gadget_to_ntt F tbl H = Some HN /\ gadget_to_ntt F tbl Z0 = Some ZN /\
    (forall D, gadget_room (2 ^ k) b D -> gadget_op_inplace (rlwe_sub_inplace F) GN HN D = Some ZN).
Proof.
  intros HB Hp HF Hs HG HH. destruct (field_ctx B p k F tbl HB Hp HF Hs) as (Hok & <- & w & C).
  exact (gadget_op_main F Hok Hp tbl k w C b bits true G H HG HH).
Qed.
Print Assumptions C64_gadget_sub.

(** The same for RGSW ciphertexts. *)
Theorem C64_rgsw_sub (B p : Z) (k : nat) (F : field) (tbl : tables) (bits : Z) (b : basis) (R S : rgsw) :
  wwidth B -> prime p -> derive_field B p = Some F -> serves F tbl k -> rgsw_wf p (2 ^ k) b R -> rgsw_wf p (2 ^ k) b S ->
  exists T RN SN TN, rgsw_wf p (2 ^ k) b T /\
    (forall D, rgsw_room (2 ^ k) b D -> rgsw_op_inplace (rlwe_sub_inplace F) R S D = Some T) /\
    (forall s m m' es es' fs fs', length s = (2 ^ k)%nat -> length m = (2 ^ k)%nat -> length m' = (2 ^ k)%nat ->
      rgsw_encrypts p (2 ^ k) s (2 ^ bits) m R es es' -> rgsw_encrypts p (2 ^ k) s (2 ^ bits) m' S fs fs' ->
      rgsw_encrypts p (2 ^ k) s (2 ^ bits) (psub m m') T (entrywise psub es fs) (entrywise psub es' fs')) /\
    rgsw_to_ntt F tbl R = Some RN /\ rgsw_to_ntt F tbl S = Some SN /\ rgsw_to_ntt F tbl T = Some TN /\
    (forall D, rgsw_room (2 ^ k) b D -> rgsw_op_inplace (rlwe_sub_inplace F) RN SN D = Some TN).
Proof.
  intros HB Hp HF Hs HR HS. destruct (field_ctx B p k F tbl HB Hp HF Hs) as (Hok & <- & w & C).
  exact (rgsw_op_main F Hok Hp tbl k w C b bits true R S HR HS).
Qed.
Print Assumptions C64_rgsw_sub.

(** Scaling a transformed ciphertext by a transformed polynomial multiplies its phase by the polynomial. *)
Theorem C64_rlwe_scale (B p : Z) (k : nat) (F : field) (tbl : tables) (v : list Z) (x : rlwe) :
  wwidth B -> prime p -> derive_field B p = Some F -> serves F tbl k ->
  length v = (2 ^ k)%nat -> canonical p v -> rlwe_wf p (2 ^ k) x ->
  exists z vN xN zN, rlwe_wf p (2 ^ k) z /\ into_ntt F tbl v = Some vN /\ rlwe_to_ntt F tbl x = Some xN /\ rlwe_to_ntt F tbl z = Some zN /\
    nrlwe_mul_assign F xN vN = Some zN /\ (forall d, rlwe_room (2 ^ k) d -> nrlwe_mul_inplace F xN vN d = Some zN) /\
    forall s, length s = (2 ^ k)%nat -> pcong p (rphase (2 ^ k) s z) (negacyclic (2 ^ k) v (rphase (2 ^ k) s x)).
Proof.
  intros HB Hp HF Hs Lv Cv Hx. destruct (field_ctx B p k F tbl HB Hp HF Hs) as (Hok & <- & w & C).
  exact (scale_main F Hok Hp tbl k w C v x Lv Cv Hx).
Qed.
Print Assumptions C64_rlwe_scale.

Theorem C64_rgsw_scale (B p : Z) (k : nat) (F : field) (tbl : tables) (bits : Z) (b : basis) (v : list Z) (R : rgsw) :
  wwidth B -> prime p -> derive_field B p = Some F -> serves F tbl k ->
  length v = (2 ^ k)%nat -> canonical p v -> rgsw_wf p (2 ^ k) b R ->
  exists T vN RN TN, rgsw_wf p (2 ^ k) b T /\ into_ntt F tbl v = Some vN /\ rgsw_to_ntt F tbl R = Some RN /\ rgsw_to_ntt F tbl T = Some TN /\
    nrgsw_mul_assign F RN vN = Some TN /\
    forall s m es es', length s = (2 ^ k)%nat -> length m = (2 ^ k)%nat -> rgsw_encrypts p (2 ^ k) s (2 ^ bits) m R es es' ->
      rgsw_encrypts p (2 ^ k) s (2 ^ bits) (negacyclic (2 ^ k) v m) T (map (negacyclic (2 ^ k) v) es) (map (negacyclic (2 ^ k) v) es').
Proof.
  intros HB Hp HF Hs Lv Cv HR. destruct (field_ctx B p k F tbl HB Hp HF Hs) as (Hok & <- & w & C).
  exact (rgsw_scale_main F Hok Hp tbl k w C b bits v R Lv Cv HR).
Qed.
Print Assumptions C64_rgsw_scale.

(** Gadget ciphertexts for different bases, and ring ciphertexts of different dimensions, are refused. *)
Theorem C64_basis_mismatch (F : field) (G H D : gadget) : bs_basis (gb G) <> bs_basis (gb H) ->
  gadget_op_inplace (rlwe_add_inplace F) G H D = None /\ gadget_op_inplace (rlwe_sub_inplace F) G H D = None.
Proof. intros N. split; apply basis_mismatch; exact N. Qed.
Print Assumptions C64_basis_mismatch.

Theorem C64_dimension_mismatch (F : field) (x y : rlwe) : length (ra x) <> length (ra y) ->
  rlwe_add_ref F x y = None /\ rlwe_add_assign F x y = None /\ rlwe_sub_ref F x y = None /\ rlwe_sub_assign F x y = None /\
  forall v, length (ra x) <> length v -> nrlwe_mul_assign F x v = None.
Proof. apply dim_mismatch. Qed.
Print Assumptions C64_dimension_mismatch.

(** Modulus 97, n = 4, base 2^3, s = 1 - X: an RGSW encryption of X with small noise, added to itself
    and scaled by 2 + X^3. *)
Definition C64_s : list Z := [1; 96; 0; 0].
Definition C64_m : list Z := [0; 1; 0; 0].
Definition C64_R (b : basis) : rgsw :=
  mk_rgsw (mk_gadget [mk_rlwe [5; 6; 7; 8] [14; 0; 2; 1]; mk_rlwe [90; 1; 1; 1] [91; 1; 9; 0]; mk_rlwe [0; 0; 3; 96] [96; 34; 67; 93]] b)
          (mk_gadget [mk_rlwe [1; 2; 3; 4] [5; 2; 2; 1]; mk_rlwe [0; 0; 1; 1] [1; 8; 1; 0]; mk_rlwe [50; 0; 0; 0] [50; 14; 0; 0]] b).
Definition C64_es : list (list Z) := [[1; 0; 0; 0]; [0; 1; 1; 0]; [0; 1; 0; 0]].
Definition C64_es' : list (list Z) := [[0; 0; 1; 0]; [0; 0; 0; 0]; [0; 0; 0; 0]].
Definition C64_dst (b : basis) : gadget := mk_gadget (repeat (rlwe_zero 4) 3) b.

Example C64_ex : exists F T b Y RN vN TN, prime 97 /\ derive_field 16 97 = Some F /\ serves F (fun _ => Some T) 2 /\
  basis_new F 3 = Some b /\ rgsw_wf 97 4 b (C64_R b) /\ rgsw_room 4 b (mk_rgsw (C64_dst b) (C64_dst b)) /\
  rgsw_encrypts 97 4 C64_s 8 C64_m (C64_R b) C64_es C64_es' /\
  rgsw_op_inplace (rlwe_add_inplace F) (C64_R b) (C64_R b) (mk_rgsw (C64_dst b) (C64_dst b)) = Some Y /\
  rgsw_encrypts 97 4 C64_s 8 [0; 2; 0; 0] Y [[2; 0; 0; 0]; [0; 2; 2; 0]; [0; 2; 0; 0]] [[0; 0; 2; 0]; [0; 0; 0; 0]; [0; 0; 0; 0]] /\
  rgsw_to_ntt F (fun _ => Some T) (C64_R b) = Some RN /\ into_ntt F (fun _ => Some T) [2; 0; 0; 1] = Some vN /\
  nrgsw_mul_assign F RN vN = Some TN /\ TN <> RN.
Proof.
  eexists. eexists. eexists. eexists. eexists. eexists. eexists. split; [apply small_prime; vm_compute; reflexivity|].
  split; [vm_compute; reflexivity|]. split; [ex_serves|]. split; [vm_compute; reflexivity|].
  split; [split; ex_wf|]. split; [repeat split; repeat constructor|]. split; [split; ex_enc|]. split; [vm_compute; reflexivity|].
  split; [split; ex_enc|]. split; [vm_compute; reflexivity|]. split; [vm_compute; reflexivity|]. split; [vm_compute; reflexivity|]. discriminate.
Qed.
