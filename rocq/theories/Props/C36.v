(** C36: blind rotation with a ternary key. *)
From Coq Require Import ZArith Znumtheory List Arith.
From Verif Require Import Spec.Basic Spec.Poly Spec.Lattice Spec.Ring Spec.Blind Model.Base Model.Field Model.NTT Model.Concrete Model.Poly Model.Lwe Model.Rlwe Model.Gadget Model.BlindRotation.
From Verif Require Import Proofs.NumTheory Proofs.FieldProofs Proofs.PolyMain Proofs.NTTProofs Proofs.PolyProofs Proofs.BlindProofs Proofs.BlindKeyProofs Proofs.ExampleTac.
Import ListNotations.
Local Open Scope Z_scope.

(** As C35 for secrets in {-1,0,1}; the combined evaluation key doubles the noise.  Ring dimensions
    above 2^31 are excluded: there the table index i*degree no longer fits 64 bits. *)
Theorem C36_blind_rotate (B p : Z) (k : nat) (F : field) (tbl : tables) (bits : Z) (b : basis) (s z lut : list Z) (E : Z) (key : list (rgsw * rgsw)) (x : lwe) :
  wwidth B -> prime p -> derive_field B p = Some F -> serves F tbl k -> (0 < k <= 31)%nat ->
  0 <= bits -> basis_new F bits = Some b -> length s = (2 ^ k)%nat ->
  0 <= E -> ternary_key F tbl (2 ^ k) b s E z key ->
  length lut = (2 ^ k)%nat -> canonical p lut -> lwe_wf (2 * Z.of_nat (2 ^ k)) (length z) x ->
  exists ct, blind_rotate F tbl (BrTernary key) lut x b = Some ct /\
    rotated p (2 ^ k) s lut (- (lb x - dotz (la x) z))
      (nonzeros (la x) * (2 * (Z.of_nat (bs_len b) * (Z.of_nat (2 ^ k) * ((2 ^ bits - 1) * (2 * E)))))) ct.
Proof.
  intros HB Hp HF Hs (Hk & H31) H0 Hb Ls HE HK Ll Cl Hx. destruct (field_ctx B p k F tbl HB Hp HF Hs) as (Hok & <- & w & C).
  replace (- (lb x - dotz (la x) z)) with (dotz (la x) z - lb x) by ring.
  apply (ternary_blind_rotate_correct F Hok Hp tbl k w C Hk b bits Hb H0 s Ls E z key lut x); assumption.
Qed.
Print Assumptions C36_blind_rotate.

(** Key generation from a ternary secret stored modulo q yields such a key. *)
Theorem C36_generate (B p : Z) (k : nat) (F : field) (tbl : tables) (bits : Z) (b : basis) (s sk z : list Z) (E q : Z) (rnd : list (rgsw_rnd * rgsw_rnd)) :
  wwidth B -> prime p -> derive_field B p = Some F -> serves F tbl k -> (0 < k)%nat ->
  0 <= bits -> basis_new F bits = Some b -> length s = (2 ^ k)%nat -> canonical p s -> into_ntt F tbl s = Some sk ->
  2 < q -> Forall (fun x => x = 0 \/ x = 1 \/ x = -1) z -> length rnd = length z ->
  Forall (fun r => (drawn_small p (2 ^ k) E (bs_len b) (fst (fst r)) /\ drawn_small p (2 ^ k) E (bs_len b) (snd (fst r))) /\
                   (drawn_small p (2 ^ k) E (bs_len b) (fst (snd r)) /\ drawn_small p (2 ^ k) E (bs_len b) (snd (snd r)))) rnd ->
  exists key, ternary_generate F tbl (map (fun x => x mod q) z) sk b rnd = Some key /\ ternary_key F tbl (2 ^ k) b s E z key.
Proof.
  intros HB Hp HF Hs Hk H0 Hb Ls Cs HS Hq Hz Lr Hr. destruct (field_ctx B p k F tbl HB Hp HF Hs) as (Hok & <- & w & C).
  rewrite (into_ntt_canon F Hok tbl k w C s Ls Cs) in HS. injection HS as <-.
  apply (ternary_generate_correct F Hok Hp tbl k w C Hk b bits Hb H0 s Ls E q z rnd); assumption.
Qed.
Print Assumptions C36_generate.

(** Modulus 97, n = 4, base 2^3, LWE secret (-1, 1) stored modulo 16. *)
Definition C36_r : list (list Z * list Z) := [([5; 6; 7; 8], [1; 0; 0; 96]); ([90; 1; 1; 1], [0; 1; 1; 0]); ([0; 0; 3; 96], [0; 0; 1; 0])].
Definition C36_rnd : list (rgsw_rnd * rgsw_rnd) := [((C36_r, C36_r), (C36_r, C36_r)); ((C36_r, C36_r), (C36_r, C36_r))].
Example C36_ex : exists F T b sk key ct, prime 97 /\ derive_field 16 97 = Some F /\ serves F (fun _ => Some T) 2 /\
  basis_new F 3 = Some b /\ into_ntt F (fun _ => Some T) [1; 96; 0; 0] = Some sk /\
  drawn_small 97 4 1 (bs_len b) C36_r /\
  ternary_generate F (fun _ => Some T) (map (fun x => x mod 16) [-1; 1]) sk b C36_rnd = Some key /\
  lwe_wf 8 2 (mk_lwe [1; 5] 3) /\
  blind_rotate F (fun _ => Some T) (BrTernary key) [12; 12; 12; 85] (mk_lwe [1; 5] 3) b = Some ct /\
  rlwe_wf 97 4 ct.
Proof.
  eexists. eexists. eexists. eexists. eexists. eexists. split; [apply small_prime; vm_compute; reflexivity|].
  split; [vm_compute; reflexivity|]. split; [ex_serves|]. split; [vm_compute; reflexivity|].
  split; [vm_compute; reflexivity|]. split.
  { unfold C36_r. ex_drawn. }
  split; [vm_compute; reflexivity|]. split; [ex_wf|]. split; [vm_compute; reflexivity|]. ex_wf.
Qed.
