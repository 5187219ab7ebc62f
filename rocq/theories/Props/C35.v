(** C35: blind rotation with a binary key. *)
From Coq Require Import ZArith Znumtheory List Arith.
From Verif Require Import Spec.Basic Spec.Poly Spec.Lattice Spec.Ring Spec.Blind Model.Base Model.Field Model.NTT Model.Concrete Model.Poly Model.Lwe Model.Rlwe Model.Gadget Model.BlindRotation.
From Verif Require Import Proofs.NumTheory Proofs.FieldProofs Proofs.PolyMain Proofs.NTTProofs Proofs.PolyProofs Proofs.BlindProofs Proofs.BlindKeyProofs Proofs.ExampleTac.
Import ListNotations.
Local Open Scope Z_scope.

(** Any look-up table, any LWE ciphertext modulo 2n, any binary key for the LWE secret [z]: no panic,
    and the phase of the result is X^{-(b - <a,z>)} * lut plus an error of at most 2*len*n*(base-1)*E
    per nonzero mask entry. *)
Theorem C35_blind_rotate (B p : Z) (k : nat) (F : field) (tbl : tables) (bits : Z) (b : basis) (s z lut : list Z) (E : Z) (key : list rgsw) (x : lwe) :
  wwidth B -> prime p -> derive_field B p = Some F -> serves F tbl k -> (0 < k)%nat ->
  0 <= bits -> basis_new F bits = Some b -> length s = (2 ^ k)%nat ->
  0 <= E -> binary_key F tbl (2 ^ k) b s E z key ->
  length lut = (2 ^ k)%nat -> canonical p lut -> lwe_wf (2 * Z.of_nat (2 ^ k)) (length z) x ->
  exists ct, blind_rotate F tbl (BrBinary key) lut x b = Some ct /\
    rotated p (2 ^ k) s lut (- (lb x - dotz (la x) z))
      (nonzeros (la x) * (2 * (Z.of_nat (bs_len b) * (Z.of_nat (2 ^ k) * ((2 ^ bits - 1) * E))))) ct.
Proof.
  intros HB Hp HF Hs Hk H0 Hb Ls HE HK Ll Cl Hx. destruct (field_ctx B p k F tbl HB Hp HF Hs) as (Hok & <- & w & C).
  replace (- (lb x - dotz (la x) z)) with (dotz (la x) z - lb x) by ring.
  apply (binary_blind_rotate_correct F Hok Hp tbl k w C Hk b bits Hb H0 s Ls E z key lut x); assumption.
Qed.
Print Assumptions C35_blind_rotate.

(** Key generation from a binary secret and small noise yields such a key, whatever the randomness. *)
Theorem C35_generate (B p : Z) (k : nat) (F : field) (tbl : tables) (bits : Z) (b : basis) (s sk z : list Z) (E : Z) (rnd : list rgsw_rnd) :
  wwidth B -> prime p -> derive_field B p = Some F -> serves F tbl k -> (0 < k)%nat ->
  0 <= bits -> basis_new F bits = Some b -> length s = (2 ^ k)%nat -> canonical p s -> into_ntt F tbl s = Some sk ->
  Forall (fun x => x = 0 \/ x = 1) z -> length rnd = length z ->
  Forall (fun r => drawn_small p (2 ^ k) E (bs_len b) (fst r) /\ drawn_small p (2 ^ k) E (bs_len b) (snd r)) rnd ->
  exists key, binary_generate F tbl z sk b rnd = Some key /\ binary_key F tbl (2 ^ k) b s E z key.
Proof.
  intros HB Hp HF Hs Hk H0 Hb Ls Cs HS Hz Lr Hr. destruct (field_ctx B p k F tbl HB Hp HF Hs) as (Hok & <- & w & C).
  rewrite (into_ntt_canon F Hok tbl k w C s Ls Cs) in HS. injection HS as <-.
  apply (binary_generate_correct F Hok Hp tbl k w C Hk b bits Hb H0 s Ls E z rnd); assumption.
Qed.
Print Assumptions C35_generate.

(** Modulus 97, n = 4, base 2^3: key for the secret (1,0) generated with noise in {-1,0,1}; rotating by
    a ciphertext with <a,z> - b = 1 - 3 = 6 (mod 8). *)
Definition C35_r : list (list Z * list Z) := [([5; 6; 7; 8], [1; 0; 0; 96]); ([90; 1; 1; 1], [0; 1; 1; 0]); ([0; 0; 3; 96], [0; 0; 1; 0])].
Definition C35_rnd : list rgsw_rnd := [(C35_r, C35_r); (C35_r, C35_r)].
Example C35_ex : exists F T b sk key ct, prime 97 /\ derive_field 16 97 = Some F /\ serves F (fun _ => Some T) 2 /\
  basis_new F 3 = Some b /\ into_ntt F (fun _ => Some T) [1; 96; 0; 0] = Some sk /\
  Forall (fun r => drawn_small 97 4 1 (bs_len b) (fst r) /\ drawn_small 97 4 1 (bs_len b) (snd r)) C35_rnd /\
  binary_generate F (fun _ => Some T) [1; 0] sk b C35_rnd = Some key /\
  lwe_wf 8 2 (mk_lwe [1; 5] 3) /\
  blind_rotate F (fun _ => Some T) (BrBinary key) [12; 12; 12; 85] (mk_lwe [1; 5] 3) b = Some ct /\
  rlwe_wf 97 4 ct /\ xpow 4 (-2) = [0; 0; -1; 0].
Proof.
  eexists. eexists. eexists. eexists. eexists. eexists. split; [apply small_prime; vm_compute; reflexivity|].
  split; [vm_compute; reflexivity|]. split; [ex_serves|]. split; [vm_compute; reflexivity|].
  split; [vm_compute; reflexivity|]. split.
  { assert (D : drawn_small 97 4 1 3 C35_r).
    { unfold C35_r. ex_drawn. }
    repeat (constructor; [split; exact D|]). constructor. }
  split; [vm_compute; reflexivity|]. split; [ex_wf|]. split; [vm_compute; reflexivity|]. split; [ex_wf|]. vm_compute. reflexivity.
Qed.
