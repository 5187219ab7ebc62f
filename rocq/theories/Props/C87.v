(** C87: straight-line programs on ring ciphertexts, multiplexers and encrypted table lookup. *)
From Coq Require Import ZArith Znumtheory List Arith Lia.
From Verif Require Import Spec.Basic Spec.Poly Spec.Lattice Spec.Ring Spec.LinProg Spec.RingProg Model.Base Model.Field Model.NTT Model.Concrete Model.Poly Model.Lwe Model.Rlwe Model.Gadget.
From Verif Require Import Proofs.NumTheory Proofs.FieldProofs Proofs.PolyMain Proofs.RingProgProofs Proofs.RgswChainProofs Proofs.ExampleTac.
Import ListNotations.
Local Open Scope Z_scope.

(** Any program over any ciphertexts: with row noises of the RGSW ciphertexts at most [E], it runs without panic whenever it names
    existing registers and exponents up to 2n, and every register encrypts what the program computes on the plaintext polynomials,
    with noise at most the bound computed alongside ([plain_step], Spec/RingProg.v). *)
Theorem C87_program (B p : Z) (k : nat) (F : field) (tbl : tables) (bits E : Z) (b : basis) (s : list Z) (med : rlwe)
    (RNs : list rgsw) (ms : list (list Z)) (prog : list ringop) (cts : list rlwe) (us vs : list (list Z * Z)) :
  wwidth B -> prime p -> derive_field B p = Some F -> serves F tbl k -> (0 < k)%nat ->
  0 <= bits -> basis_new F bits = Some b -> 0 <= E -> length s = (2 ^ k)%nat -> length (ra med) = (2 ^ k)%nat /\ length (rb med) = (2 ^ k)%nat ->
  Forall2 (rgsw_holds F tbl p (2 ^ k) b s (2 ^ bits) E) RNs ms -> Forall2 (rlwe_holds p (2 ^ k) s) cts us ->
  rrun (plain_step (2 ^ k) (2 * (Z.of_nat (bs_len b) * (Z.of_nat (2 ^ k) * ((2 ^ bits - 1) * E)))) ms) prog us = Some vs ->
  exists out, rrun (rlwe_step F tbl (2 ^ k) med RNs) prog cts = Some out /\ Forall2 (rlwe_holds p (2 ^ k) s) out vs.
Proof.
  intros HB Hp HF Hs Hk H0 Hb HE Ls Lm. destruct (field_ctx B p k F tbl HB Hp HF Hs) as (Hok & <- & w & C).
  exact (ring_program F Hok Hp tbl k w C Hk b bits E Hb H0 HE s Ls med RNs ms prog cts us vs Lm).
Qed.
Print Assumptions C87_program.

(** A multiplexer returns the phase of the chosen ciphertext, up to the noise of one external product. *)
Theorem C87_cmux (B p : Z) (k : nat) (F : field) (tbl : tables) (bits E : Z) (b : basis) (s : list Z) (med x y : rlwe) (RN : rgsw) (c : bool) :
  wwidth B -> prime p -> derive_field B p = Some F -> serves F tbl k -> (0 < k)%nat ->
  0 <= bits -> basis_new F bits = Some b -> 0 <= E -> length s = (2 ^ k)%nat -> length (ra med) = (2 ^ k)%nat /\ length (rb med) = (2 ^ k)%nat ->
  rgsw_holds F tbl p (2 ^ k) b s (2 ^ bits) E RN (bit_poly (2 ^ k) c) -> rlwe_wf p (2 ^ k) x -> rlwe_wf p (2 ^ k) y ->
  exists z, cmux F tbl (2 ^ k) med RN x y = Some z /\
    rlwe_holds p (2 ^ k) s z (rphase (2 ^ k) s (if c then y else x), 2 * (Z.of_nat (bs_len b) * (Z.of_nat (2 ^ k) * ((2 ^ bits - 1) * E)))).
Proof.
  intros HB Hp HF Hs Hk H0 Hb HE Ls Lm. destruct (field_ctx B p k F tbl HB Hp HF Hs) as (Hok & <- & w & C).
  exact (cmux_exact F Hok Hp tbl k w C Hk b bits E Hb H0 HE s Ls med Lm RN c x y).
Qed.
Print Assumptions C87_cmux.

(** Encrypted lookup in a table of 2^d ciphertexts by d encrypted bits: the entry whose number has these bits comes out, and the
    noise grows by one external product per bit, not by the size of the table. *)
Theorem C87_lookup (B p : Z) (k : nat) (F : field) (tbl : tables) (bits E E0 : Z) (b : basis) (s : list Z) (med : rlwe)
    (RNs : list rgsw) (cs : list bool) (table : list rlwe) (vs : list (list Z)) :
  wwidth B -> prime p -> derive_field B p = Some F -> serves F tbl k -> (0 < k)%nat ->
  0 <= bits -> basis_new F bits = Some b -> 0 <= E -> length s = (2 ^ k)%nat -> length (ra med) = (2 ^ k)%nat /\ length (rb med) = (2 ^ k)%nat ->
  Forall2 (fun RN c => rgsw_holds F tbl p (2 ^ k) b s (2 ^ bits) E RN (bit_poly (2 ^ k) c)) RNs cs ->
  length vs = (2 ^ length cs)%nat -> Forall2 (fun x v => rlwe_holds p (2 ^ k) s x (v, E0)) table vs ->
  exists z, cmux_tree F tbl (2 ^ k) med RNs table = Some z /\
    rlwe_holds p (2 ^ k) s z (nth (selected cs) vs [], E0 + Z.of_nat (length cs) * (2 * (Z.of_nat (bs_len b) * (Z.of_nat (2 ^ k) * ((2 ^ bits - 1) * E))))).
Proof.
  intros HB Hp HF Hs Hk H0 Hb HE Ls Lm. destruct (field_ctx B p k F tbl HB Hp HF Hs) as (Hok & <- & w & C).
  exact (tree_holds F Hok Hp tbl k w C Hk b bits E Hb H0 HE s Ls med Lm RNs cs E0 table vs).
Qed.
Print Assumptions C87_lookup.

(** The LWE ciphertext extracted from any register encrypts the constant coefficient, with no more noise. *)
Theorem C87_extract (B p : Z) (F : field) (n : nat) (s : list Z) (x : rlwe) (v : list Z) (E : Z) :
  wwidth B -> 0 <= p -> derive_field B p = Some F -> (0 < n)%nat -> length s = n -> rlwe_holds p n s x (v, E) ->
  exists z e, extract_lwe F x = Some z /\ lwe_wf p n z /\ Z.abs e <= E /\ phase p s z = (nth 0 v 0 + e) mod p.
Proof.
  intros HB Hp HF. destruct (derive_field_ok B p F HB Hp HF) as (Hok & <- & <-). apply holds_extract. exact Hok.
Qed.
Print Assumptions C87_extract.

(** With messages scaled by [delta] and a bound below half of it, a ciphertext encrypts one list of messages only: what the theorems
    above say of a result determines it. *)
Theorem C87_unambiguous (p delta t E : Z) (n : nat) (s : list Z) (x : rlwe) (ms ms' : list Z) :
  0 <= t -> delta * t <= p -> 2 * E < delta -> Forall (fun m => 0 <= m < t) ms -> Forall (fun m => 0 <= m < t) ms' ->
  rlwe_holds p n s x (map (Z.mul delta) ms, E) -> rlwe_holds p n s x (map (Z.mul delta) ms', E) -> ms = ms'.
Proof. exact (holds_unique p n s x delta t E ms ms'). Qed.
Print Assumptions C87_unambiguous.

(** Modulus 3329, n = 2, base 2^4 with three digits, noises up to 1: the table entries are 1664 times polynomials of bits, selected by
    the encrypted bits 1 and 0; the noise bound after two layers, 361, is below a quarter of the modulus. *)
Definition C87_s : list Z := [1; -1].
Definition C87_row (v : list Z) (a e : list Z) : rlwe := mk_rlwe a (pmod 3329 (padd (negacyclic 2 a C87_s) (padd v e))).
Definition C87_gadget (b : basis) (m : list Z) (seed : Z) (es : list (list Z)) : gadget :=
  mk_gadget (map (fun i => C87_row (pscale (16 ^ Z.of_nat i) m) (map (fun j => (seed * (719 * Z.of_nat i + 371 * j + 1)) mod 3329) [0; 1]) (nth i es [])) (seq 0 3)) b.
Definition C87_es : list (list Z) := [[1; 0]; [0; -1]; [1; 1]].
Definition C87_rgsw (b : basis) (c : bool) (seed : Z) : rgsw :=
  mk_rgsw (C87_gadget b (pneg (negacyclic 2 (bit_poly 2 c) C87_s)) seed C87_es) (C87_gadget b (bit_poly 2 c) (seed + 1) (rev C87_es)).
Definition C87_vs : list (list Z) := [[0; 1664]; [1664; 1664]; [0; 0]; [1664; 0]].
Definition C87_table : list rlwe := map (fun v => C87_row v (map (fun x => (x * 3 + 1234) mod 3329) v) [1; -1]) C87_vs.
Definition C87_prog : list ringop := [RSub 1 0; RRotSub 4 3; RAddRot 2 5 1; RExtTo 2 1; RAddTo 2 3; RSubFrom 0 2].
Ltac C87_key := split; [split; ex_wf|]; split; [vm_compute; reflexivity|]; split; [split; ex_enc|]; split; (repeat (apply Forall_cons; [split; [reflexivity|ex_canon]|]); apply Forall_nil).

Example C87_ex : exists F T b RNs z out, prime 3329 /\ derive_field 16 3329 = Some F /\ serves F (fun _ => Some T) 1 /\ basis_new F 4 = Some b /\ bs_len b = 3%nat /\
  Forall2 (fun RN c => rgsw_holds F (fun _ => Some T) 3329 2 b C87_s 16 1 RN (bit_poly 2 c)) RNs [true; false] /\
  Forall2 (fun x v => rlwe_holds 3329 2 C87_s x (v, 1)) C87_table C87_vs /\ C87_vs = map (map (Z.mul 1664)) [[0; 1]; [1; 1]; [0; 0]; [1; 0]] /\
  cmux_tree F (fun _ => Some T) 2 (rlwe_zero 2) RNs C87_table = Some z /\ selected [true; false] = 1%nat /\
  map (fun x => (x + 832) / 1664) (pmod 3329 (rphase 2 C87_s z)) = [1; 1] /\
  rrun (rlwe_step F (fun _ => Some T) 2 (rlwe_zero 2) RNs) C87_prog C87_table = Some out /\
  option_map (map snd) (rrun (plain_step 2 180 (map (bit_poly 2) [true; false])) C87_prog (map (fun v => (v, 1)) C87_vs)) = Some [182; 1; 181; 1; 2; 4].
Proof.
  eexists. eexists. eexists. eexists [_; _]. eexists. eexists. split; [apply small_prime; vm_compute; reflexivity|]. split; [vm_compute; reflexivity|].
  split; [exists None, (fun _ => 3); eexists; split; [exact I|]; split; [intros; vm_compute; split; discriminate|]; split; [vm_compute; reflexivity|reflexivity]|].
  split; [vm_compute; reflexivity|]. split; [vm_compute; reflexivity|].
  split.
  { constructor; [|constructor; [|constructor]].
    - let R := eval vm_compute in (C87_rgsw (mk_basis 16 3 15 4) true 55) in (split; [reflexivity|]; exists R, C87_es, (rev C87_es); C87_key).
    - let R := eval vm_compute in (C87_rgsw (mk_basis 16 3 15 4) false 808) in (split; [reflexivity|]; exists R, C87_es, (rev C87_es); C87_key). }
  split.
  { let l := eval vm_compute in C87_table in change C87_table with l. unfold C87_vs.
    repeat (apply Forall2_cons; [split; [ex_wf|]; split; [reflexivity|]; exists [1; -1]; split; [reflexivity|]; split; [ex_canon|]; apply pcong_dec; [reflexivity|vm_compute; reflexivity]|]). apply Forall2_nil. }
  split; [reflexivity|]. split; [vm_compute; reflexivity|]. split; [reflexivity|]. split; [vm_compute; reflexivity|]. split; [vm_compute; reflexivity|vm_compute; reflexivity].
Qed.
