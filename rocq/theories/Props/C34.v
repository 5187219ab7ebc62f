(** C34: fresh ring, gadget and RGSW samples. *)
From Coq Require Import ZArith Znumtheory List Arith.
From Verif Require Import Spec.Basic Spec.Poly Spec.Ring Model.Base Model.Field Model.NTT Model.Concrete Model.Poly Model.Rlwe Model.Gadget.
From Verif Require Import Proofs.NumTheory Proofs.FieldProofs Proofs.NTTProofs Proofs.PolyProofs Proofs.PolyMain Proofs.RgswProofs Proofs.SampleProofs Proofs.ExampleTac.
Import ListNotations.
Local Open Scope Z_scope.

(** The randomness [rnd] lists one (uniform, noise) pair of ring elements per row; the noise of the
    produced ciphertext is exactly the drawn noise.  [sk] is the transform of the key [s].
    Messages: 0 is [repeat 0 n], 1 is [monomial n 1 0]. *)
Definition drawn (p : Z) (n : nat) (rnd : list (list Z * list Z)) : Prop :=
  Forall (fun ae => (length (fst ae) = n /\ canonical p (fst ae)) /\ (length (snd ae) = n /\ canonical p (snd ae))) rnd.

(** A plain ring sample of zero. *)
Theorem C34_rlwe_zero (B p : Z) (k : nat) (F : field) (tbl : tables) (s sk a e : list Z) :
  wwidth B -> prime p -> derive_field B p = Some F -> serves F tbl k -> (0 < k)%nat ->
  length s = (2 ^ k)%nat -> canonical p s -> into_ntt F tbl s = Some sk -> drawn p (2 ^ k) [(a, e)] ->
  exists x, rlwe_zero_sample F tbl sk a e = Some x /\ rlwe_wf p (2 ^ k) x /\ ra x = a /\ pcong p (rphase (2 ^ k) s x) e.
Proof.
  intros HB Hp HF Hs Hk Ls Cs HS HD. destruct (field_ctx B p k F tbl HB Hp HF Hs) as (Hok & <- & w & C).
  rewrite (into_ntt_canon F Hok tbl k w C s Ls Cs) in HS. injection HS as <-.
  apply (rlwe_zero_main F Hok Hp tbl k w C Hk s Ls a e); apply (Forall_inv HD).
Qed.
Print Assumptions C34_rlwe_zero.

(** Gadget samples, coefficient form.  Messages 1 and -s need base^len to fit in a word: the loop
    computes one power more than it uses. *)
Theorem C34_gadget_zero (B p : Z) (k : nat) (F : field) (tbl : tables) (bits : Z) (b : basis) (s sk : list Z) (rnd : list (list Z * list Z)) :
  wwidth B -> prime p -> derive_field B p = Some F -> serves F tbl k -> (0 < k)%nat ->
  0 <= bits -> basis_new F bits = Some b ->
  length s = (2 ^ k)%nat -> canonical p s -> into_ntt F tbl s = Some sk ->
  drawn p (2 ^ k) rnd -> length rnd = bs_len b ->
  exists G, g_zero_sample F tbl sk b rnd = Some G /\ gadget_wf p (2 ^ k) b G /\
    gadget_encrypts p (2 ^ k) s (2 ^ bits) (repeat 0 (2 ^ k)) (gd G) (map snd rnd).
Proof.
  intros HB Hp HF Hs Hk H0 Hb Ls Cs HS. destruct (field_ctx B p k F tbl HB Hp HF Hs) as (Hok & <- & w & C).
  rewrite (into_ntt_canon F Hok tbl k w C s Ls Cs) in HS. injection HS as <-. intros.
  apply (g_zero_sample_main F Hok Hp tbl k w C Hk s Ls b bits); assumption.
Qed.
Print Assumptions C34_gadget_zero.

Theorem C34_gadget_one (B p : Z) (k : nat) (F : field) (tbl : tables) (bits : Z) (b : basis) (s sk : list Z) (rnd : list (list Z * list Z)) :
  wwidth B -> prime p -> derive_field B p = Some F -> serves F tbl k -> (0 < k)%nat ->
  0 <= bits -> basis_new F bits = Some b ->
  length s = (2 ^ k)%nat -> canonical p s -> into_ntt F tbl s = Some sk ->
  drawn p (2 ^ k) rnd -> length rnd = bs_len b ->
  bits * Z.of_nat (bs_len b) < fw F ->
  exists G, g_one_sample F tbl sk b rnd = Some G /\ gadget_wf p (2 ^ k) b G /\
    gadget_encrypts p (2 ^ k) s (2 ^ bits) (monomial (2 ^ k) 1 0) (gd G) (map snd rnd).
Proof.
  intros HB Hp HF Hs Hk H0 Hb Ls Cs HS. destruct (field_ctx B p k F tbl HB Hp HF Hs) as (Hok & <- & w & C).
  rewrite (into_ntt_canon F Hok tbl k w C s Ls Cs) in HS. injection HS as <-. intros.
  apply (g_one_sample_main F Hok Hp tbl k w C Hk s Ls b bits); assumption.
Qed.
Print Assumptions C34_gadget_one.

Theorem C34_gadget_neg_secret (B p : Z) (k : nat) (F : field) (tbl : tables) (bits : Z) (b : basis) (s sk : list Z) (rnd : list (list Z * list Z)) :
  wwidth B -> prime p -> derive_field B p = Some F -> serves F tbl k -> (0 < k)%nat ->
  0 <= bits -> basis_new F bits = Some b ->
  length s = (2 ^ k)%nat -> canonical p s -> into_ntt F tbl s = Some sk ->
  drawn p (2 ^ k) rnd -> length rnd = bs_len b ->
  bits * Z.of_nat (bs_len b) < fw F ->
  exists G, g_neg_secret_sample F tbl sk b rnd = Some G /\ gadget_wf p (2 ^ k) b G /\
    gadget_encrypts p (2 ^ k) s (2 ^ bits) (pneg s) (gd G) (map snd rnd).
Proof.
  intros HB Hp HF Hs Hk H0 Hb Ls Cs HS. destruct (field_ctx B p k F tbl HB Hp HF Hs) as (Hok & <- & w & C).
  rewrite (into_ntt_canon F Hok tbl k w C s Ls Cs) in HS. injection HS as <-. intros.
  apply (g_neg_sample_main F Hok Hp tbl k w C Hk s Ls b bits); assumption.
Qed.
Print Assumptions C34_gadget_neg_secret.

(** Gadget samples, transform form: no restriction. *)
Theorem C34_ntt_gadget_zero (B p : Z) (k : nat) (F : field) (tbl : tables) (bits : Z) (b : basis) (s sk : list Z) (rnd : list (list Z * list Z)) :
  wwidth B -> prime p -> derive_field B p = Some F -> serves F tbl k -> (0 < k)%nat ->
  0 <= bits -> basis_new F bits = Some b ->
  length s = (2 ^ k)%nat -> canonical p s -> into_ntt F tbl s = Some sk ->
  drawn p (2 ^ k) rnd -> length rnd = bs_len b ->
  exists GN G, ng_zero_sample F tbl sk b rnd = Some GN /\ gadget_to_ntt F tbl G = Some GN /\ gadget_wf p (2 ^ k) b G /\
    gadget_encrypts p (2 ^ k) s (2 ^ bits) (repeat 0 (2 ^ k)) (gd G) (map snd rnd).
Proof.
  intros HB Hp HF Hs Hk H0 Hb Ls Cs HS. destruct (field_ctx B p k F tbl HB Hp HF Hs) as (Hok & <- & w & C).
  rewrite (into_ntt_canon F Hok tbl k w C s Ls Cs) in HS. injection HS as <-. intros.
  apply (ng_zero_sample_main F Hok Hp tbl k w C Hk s Ls b bits); assumption.
Qed.
Print Assumptions C34_ntt_gadget_zero.

Theorem C34_ntt_gadget_one (B p : Z) (k : nat) (F : field) (tbl : tables) (bits : Z) (b : basis) (s sk : list Z) (rnd : list (list Z * list Z)) :
  wwidth B -> prime p -> derive_field B p = Some F -> serves F tbl k -> (0 < k)%nat ->
  0 <= bits -> basis_new F bits = Some b ->
  length s = (2 ^ k)%nat -> canonical p s -> into_ntt F tbl s = Some sk ->
  drawn p (2 ^ k) rnd -> length rnd = bs_len b ->
  exists GN G, ng_one_sample F tbl sk b rnd = Some GN /\ gadget_to_ntt F tbl G = Some GN /\ gadget_wf p (2 ^ k) b G /\
    gadget_encrypts p (2 ^ k) s (2 ^ bits) (monomial (2 ^ k) 1 0) (gd G) (map snd rnd).
Proof.
  intros HB Hp HF Hs Hk H0 Hb Ls Cs HS. destruct (field_ctx B p k F tbl HB Hp HF Hs) as (Hok & <- & w & C).
  rewrite (into_ntt_canon F Hok tbl k w C s Ls Cs) in HS. injection HS as <-. intros.
  apply (ng_one_sample_main F Hok Hp tbl k w C Hk s Ls b bits); assumption.
Qed.
Print Assumptions C34_ntt_gadget_one.

Theorem C34_ntt_gadget_neg_secret (B p : Z) (k : nat) (F : field) (tbl : tables) (bits : Z) (b : basis) (s sk : list Z) (rnd : list (list Z * list Z)) :
  wwidth B -> prime p -> derive_field B p = Some F -> serves F tbl k -> (0 < k)%nat ->
  0 <= bits -> basis_new F bits = Some b ->
  length s = (2 ^ k)%nat -> canonical p s -> into_ntt F tbl s = Some sk ->
  drawn p (2 ^ k) rnd -> length rnd = bs_len b ->
  exists GN G, ng_neg_secret_sample F tbl sk b rnd = Some GN /\ gadget_to_ntt F tbl G = Some GN /\ gadget_wf p (2 ^ k) b G /\
    gadget_encrypts p (2 ^ k) s (2 ^ bits) (pneg s) (gd G) (map snd rnd).
Proof.
  intros HB Hp HF Hs Hk H0 Hb Ls Cs HS. destruct (field_ctx B p k F tbl HB Hp HF Hs) as (Hok & <- & w & C).
  rewrite (into_ntt_canon F Hok tbl k w C s Ls Cs) in HS. injection HS as <-. intros.
  apply (ng_neg_sample_main F Hok Hp tbl k w C Hk s Ls b bits); assumption.
Qed.
Print Assumptions C34_ntt_gadget_neg_secret.

(** RGSW samples. *)
Theorem C34_rgsw_zero (B p : Z) (k : nat) (F : field) (tbl : tables) (bits : Z) (b : basis) (s sk : list Z) (r0 r1 : list (list Z * list Z)) :
  wwidth B -> prime p -> derive_field B p = Some F -> serves F tbl k -> (0 < k)%nat ->
  0 <= bits -> basis_new F bits = Some b ->
  length s = (2 ^ k)%nat -> canonical p s -> into_ntt F tbl s = Some sk ->
  drawn p (2 ^ k) r0 -> length r0 = bs_len b ->
  drawn p (2 ^ k) r1 -> length r1 = bs_len b ->
  exists R, rgsw_zero_sample F tbl sk b r0 r1 = Some R /\ rgsw_wf p (2 ^ k) b R /\
    rgsw_encrypts p (2 ^ k) s (2 ^ bits) (repeat 0 (2 ^ k)) R (map snd r0) (map snd r1).
Proof.
  intros HB Hp HF Hs Hk H0 Hb Ls Cs HS. destruct (field_ctx B p k F tbl HB Hp HF Hs) as (Hok & <- & w & C).
  rewrite (into_ntt_canon F Hok tbl k w C s Ls Cs) in HS. injection HS as <-. intros.
  apply (rgsw_zero_main F Hok Hp tbl k w C Hk s Ls b bits); assumption.
Qed.
Print Assumptions C34_rgsw_zero.

Theorem C34_rgsw_one (B p : Z) (k : nat) (F : field) (tbl : tables) (bits : Z) (b : basis) (s sk : list Z) (r0 r1 : list (list Z * list Z)) :
  wwidth B -> prime p -> derive_field B p = Some F -> serves F tbl k -> (0 < k)%nat ->
  0 <= bits -> basis_new F bits = Some b ->
  length s = (2 ^ k)%nat -> canonical p s -> into_ntt F tbl s = Some sk ->
  drawn p (2 ^ k) r0 -> length r0 = bs_len b ->
  drawn p (2 ^ k) r1 -> length r1 = bs_len b ->
  bits * Z.of_nat (bs_len b) < fw F ->
  exists R, rgsw_one_sample F tbl sk b r0 r1 = Some R /\ rgsw_wf p (2 ^ k) b R /\
    rgsw_encrypts p (2 ^ k) s (2 ^ bits) (monomial (2 ^ k) 1 0) R (map snd r0) (map snd r1).
Proof.
  intros HB Hp HF Hs Hk H0 Hb Ls Cs HS. destruct (field_ctx B p k F tbl HB Hp HF Hs) as (Hok & <- & w & C).
  rewrite (into_ntt_canon F Hok tbl k w C s Ls Cs) in HS. injection HS as <-. intros.
  apply (rgsw_one_main F Hok Hp tbl k w C Hk s Ls b bits); assumption.
Qed.
Print Assumptions C34_rgsw_one.

Theorem C34_ntt_rgsw_zero (B p : Z) (k : nat) (F : field) (tbl : tables) (bits : Z) (b : basis) (s sk : list Z) (r0 r1 : list (list Z * list Z)) :
  wwidth B -> prime p -> derive_field B p = Some F -> serves F tbl k -> (0 < k)%nat ->
  0 <= bits -> basis_new F bits = Some b ->
  length s = (2 ^ k)%nat -> canonical p s -> into_ntt F tbl s = Some sk ->
  drawn p (2 ^ k) r0 -> length r0 = bs_len b ->
  drawn p (2 ^ k) r1 -> length r1 = bs_len b ->
  exists RN R, nrgsw_zero_sample F tbl sk b r0 r1 = Some RN /\ rgsw_to_ntt F tbl R = Some RN /\ rgsw_wf p (2 ^ k) b R /\
    rgsw_encrypts p (2 ^ k) s (2 ^ bits) (repeat 0 (2 ^ k)) R (map snd r0) (map snd r1).
Proof.
  intros HB Hp HF Hs Hk H0 Hb Ls Cs HS. destruct (field_ctx B p k F tbl HB Hp HF Hs) as (Hok & <- & w & C).
  rewrite (into_ntt_canon F Hok tbl k w C s Ls Cs) in HS. injection HS as <-. intros.
  apply (nrgsw_zero_main F Hok Hp tbl k w C Hk s Ls b bits); assumption.
Qed.
Print Assumptions C34_ntt_rgsw_zero.

Theorem C34_ntt_rgsw_one (B p : Z) (k : nat) (F : field) (tbl : tables) (bits : Z) (b : basis) (s sk : list Z) (r0 r1 : list (list Z * list Z)) :
  wwidth B -> prime p -> derive_field B p = Some F -> serves F tbl k -> (0 < k)%nat ->
  0 <= bits -> basis_new F bits = Some b ->
  length s = (2 ^ k)%nat -> canonical p s -> into_ntt F tbl s = Some sk ->
  drawn p (2 ^ k) r0 -> length r0 = bs_len b ->
  drawn p (2 ^ k) r1 -> length r1 = bs_len b ->
  exists RN R, nrgsw_one_sample F tbl sk b r0 r1 = Some RN /\ rgsw_to_ntt F tbl R = Some RN /\ rgsw_wf p (2 ^ k) b R /\
    rgsw_encrypts p (2 ^ k) s (2 ^ bits) (monomial (2 ^ k) 1 0) R (map snd r0) (map snd r1).
Proof.
  intros HB Hp HF Hs Hk H0 Hb Ls Cs HS. destruct (field_ctx B p k F tbl HB Hp HF Hs) as (Hok & <- & w & C).
  rewrite (into_ntt_canon F Hok tbl k w C s Ls Cs) in HS. injection HS as <-. intros.
  apply (nrgsw_one_main F Hok Hp tbl k w C Hk s Ls b bits); assumption.
Qed.
Print Assumptions C34_ntt_rgsw_one.

(** Otherwise the coefficient forms panic on every draw, although the basis was accepted. *)
Theorem C34_overflow (B p : Z) (k : nat) (F : field) (tbl : tables) (bits : Z) (b : basis) (s sk : list Z) (rnd : list (list Z * list Z)) :
  wwidth B -> prime p -> derive_field B p = Some F -> serves F tbl k -> (0 < k)%nat ->
  0 <= bits -> basis_new F bits = Some b ->
  length s = (2 ^ k)%nat -> canonical p s -> into_ntt F tbl s = Some sk ->
  drawn p (2 ^ k) rnd -> length rnd = bs_len b ->
  fw F <= bits * Z.of_nat (bs_len b) ->
  g_one_sample F tbl sk b rnd = None /\ g_neg_secret_sample F tbl sk b rnd = None.
Proof.
  intros HB Hp HF Hs Hk H0 Hb Ls Cs HS. destruct (field_ctx B p k F tbl HB Hp HF Hs) as (Hok & <- & w & C).
  rewrite (into_ntt_canon F Hok tbl k w C s Ls Cs) in HS. injection HS as <-. intros.
  apply (g_samples_overflow F Hok Hp tbl k w C Hk s Ls b bits); assumption.
Qed.
Print Assumptions C34_overflow.

(** "Generation does not panic for any accepted basis" is false of the coefficient form: 8-bit words,
    p = 17, base 2^4. *)
Theorem C34_no_panic_refuted : exists F T b s sk rnd,
  wwidth 8 /\ prime 17 /\ derive_field 8 17 = Some F /\ serves F (fun _ => Some T) 1 /\ basis_new F 4 = Some b /\
  length s = 2%nat /\ canonical 17 s /\ into_ntt F (fun _ => Some T) s = Some sk /\
  drawn 17 2 rnd /\ length rnd = bs_len b /\
  g_one_sample F (fun _ => Some T) sk b rnd = None.
Proof.
  eexists. eexists. eexists. exists [1; 16]. eexists. exists [([3; 4], [1; 0]); ([5; 6], [0; 16])].
  split; [exists 4; split; [discriminate|reflexivity]|]. split; [apply small_prime; vm_compute; reflexivity|].
  split; [vm_compute; reflexivity|]. split; [exists None, (fun _ => 3); eexists; split; [exact I|]; split; [intros; vm_compute; split; discriminate|]; split; [vm_compute; reflexivity|reflexivity]|].
  split; [vm_compute; reflexivity|]. split; [reflexivity|]. split; [ex_canon|]. split; [vm_compute; reflexivity|].
  split; [repeat (constructor; [repeat split; ex_canon|]); constructor|]. split; [vm_compute; reflexivity|]. vm_compute; reflexivity.
Qed.
Print Assumptions C34_no_panic_refuted.

Example C34_ex : exists F T b sk R, prime 97 /\ derive_field 16 97 = Some F /\ serves F (fun _ => Some T) 2 /\
  basis_new F 3 = Some b /\ into_ntt F (fun _ => Some T) [1; 96; 0; 0] = Some sk /\ 3 * Z.of_nat (bs_len b) < fw F /\
  drawn 97 4 [([5; 6; 7; 8], [1; 0; 0; 96]); ([90; 1; 1; 1], [0; 1; 1; 0]); ([0; 0; 3; 96], [0; 0; 2; 0])] /\
  rgsw_one_sample F (fun _ => Some T) sk b
    [([5; 6; 7; 8], [1; 0; 0; 96]); ([90; 1; 1; 1], [0; 1; 1; 0]); ([0; 0; 3; 96], [0; 0; 2; 0])]
    [([1; 6; 7; 8], [1; 0; 0; 96]); ([90; 1; 1; 1], [0; 1; 1; 0]); ([0; 0; 3; 96], [0; 0; 2; 0])] = Some R /\
  gd (c_neg R) = [mk_rlwe [6; 6; 7; 8] [14; 1; 1; 0]; mk_rlwe [1; 1; 1; 1] [91; 9; 1; 0]; mk_rlwe [64; 0; 3; 96] [96; 0; 5; 93]].
Proof.
  eexists. eexists. eexists. eexists. eexists. split; [apply small_prime; vm_compute; reflexivity|].
  split; [vm_compute; reflexivity|]. split; [ex_serves|]. split; [vm_compute; reflexivity|].
  split; [vm_compute; reflexivity|]. split; [vm_compute; reflexivity|].
  split; [repeat (constructor; [repeat split; ex_canon|]); constructor|]. split; [vm_compute; reflexivity|]. vm_compute. reflexivity.
Qed.
