(** C88: products of RGSW ciphertexts. *)
From Coq Require Import ZArith Znumtheory List Arith Lia.
From Verif Require Import Spec.Basic Spec.Poly Spec.Lattice Spec.Ring Spec.LinProg Spec.RingProg Model.Base Model.Field Model.NTT Model.Concrete Model.Poly Model.Lwe Model.Rlwe Model.Gadget.
From Verif Require Import Proofs.NumTheory Proofs.FieldProofs Proofs.PolyMain Proofs.RgswChainProofs Proofs.ExampleTac.
Import ListNotations.
Local Open Scope Z_scope.

(** The product of any number of RGSW ciphertexts never panics and encrypts the product of the messages modulo X^n + 1; each factor
    multiplies the noise accumulated so far by the norm of its message and adds the noise of one external product. *)
Theorem C88_product (B p : Z) (k : nat) (F : field) (tbl : tables) (bits : Z) (b : basis) (s : list Z)
    (R : rgsw) (u : list Z * Z) (Rs : list rgsw) (ms : list (list Z * Z)) :
  wwidth B -> prime p -> derive_field B p = Some F -> serves F tbl k -> (0 < k)%nat ->
  0 <= bits -> basis_new F bits = Some b -> length s = (2 ^ k)%nat ->
  rgsw_has p (2 ^ k) b s (2 ^ bits) R u -> Forall2 (rgsw_has p (2 ^ k) b s (2 ^ bits)) Rs ms ->
  exists T, rgsw_product F tbl R Rs = Some T /\
    rgsw_has p (2 ^ k) b s (2 ^ bits) T (plain_product (2 ^ k) (Z.of_nat (bs_len b)) (2 ^ bits) u ms).
Proof.
  intros HB Hp HF Hs Hk H0 Hb Ls. destruct (field_ctx B p k F tbl HB Hp HF Hs) as (Hok & <- & w & C).
  exact (rgsw_product_has F Hok Hp tbl k w C Hk b bits Hb H0 s Ls R u Rs ms).
Qed.
Print Assumptions C88_product.

(** For encrypted bits it encrypts their conjunction, and the noise grows linearly in their number. *)
Theorem C88_conjunction (B p : Z) (k : nat) (F : field) (tbl : tables) (bits E0 E : Z) (b : basis) (s : list Z)
    (R : rgsw) (c : bool) (Rs : list rgsw) (cs : list bool) :
  wwidth B -> prime p -> derive_field B p = Some F -> serves F tbl k -> (0 < k)%nat ->
  0 <= bits -> basis_new F bits = Some b -> length s = (2 ^ k)%nat ->
  rgsw_has p (2 ^ k) b s (2 ^ bits) R (bit_poly (2 ^ k) c, E0) ->
  Forall2 (fun R c => rgsw_has p (2 ^ k) b s (2 ^ bits) R (bit_poly (2 ^ k) c, E)) Rs cs ->
  exists T, rgsw_product F tbl R Rs = Some T /\
    rgsw_has p (2 ^ k) b s (2 ^ bits) T (bit_poly (2 ^ k) (forallb (fun c => c) (c :: cs)),
      E0 + Z.of_nat (length cs) * (2 * (Z.of_nat (bs_len b) * (Z.of_nat (2 ^ k) * ((2 ^ bits - 1) * E))))).
Proof.
  intros HB Hp HF Hs Hk H0 Hb Ls. destruct (field_ctx B p k F tbl HB Hp HF Hs) as (Hok & <- & w & C).
  exact (rgsw_all F Hok Hp tbl k w C Hk b bits Hb H0 s Ls R c cs Rs E0 E).
Qed.
Print Assumptions C88_conjunction.

(** Transformed, it drives a multiplexer: [y] is chosen exactly if all bits are set. *)
Theorem C88_select (B p : Z) (k : nat) (F : field) (tbl : tables) (bits E : Z) (b : basis) (s : list Z) (med x y : rlwe)
    (R : rgsw) (c : bool) (Rs : list rgsw) (cs : list bool) :
  let gain e := 2 * (Z.of_nat (bs_len b) * (Z.of_nat (2 ^ k) * ((2 ^ bits - 1) * e))) in
  wwidth B -> prime p -> derive_field B p = Some F -> serves F tbl k -> (0 < k)%nat ->
  0 <= bits -> basis_new F bits = Some b -> length s = (2 ^ k)%nat -> length (ra med) = (2 ^ k)%nat /\ length (rb med) = (2 ^ k)%nat ->
  rgsw_has p (2 ^ k) b s (2 ^ bits) R (bit_poly (2 ^ k) c, E) ->
  Forall2 (fun R c => rgsw_has p (2 ^ k) b s (2 ^ bits) R (bit_poly (2 ^ k) c, E)) Rs cs ->
  rlwe_wf p (2 ^ k) x -> rlwe_wf p (2 ^ k) y ->
  exists T TN z, rgsw_product F tbl R Rs = Some T /\ rgsw_to_ntt F tbl T = Some TN /\ cmux F tbl (2 ^ k) med TN x y = Some z /\
    rlwe_holds p (2 ^ k) s z (rphase (2 ^ k) s (if forallb (fun c => c) (c :: cs) then y else x), gain (E + Z.of_nat (length cs) * gain E)).
Proof.
  intros gain HB Hp HF Hs Hk H0 Hb Ls. destruct (field_ctx B p k F tbl HB Hp HF Hs) as (Hok & <- & w & C).
  exact (select_all F Hok Hp tbl k w C Hk b bits Hb H0 s Ls med R c cs Rs E x y).
Qed.
Print Assumptions C88_select.

(** Modulus 3329, n = 2, base 2^4 with three digits, noises up to 1: the product of two encrypted bits, both set, has noise at most 181,
    below a quarter of the modulus, and chooses [y]. *)
Definition C88_s : list Z := [1; -1].
Definition C88_row (v : list Z) (a e : list Z) : rlwe := mk_rlwe a (pmod 3329 (padd (negacyclic 2 a C88_s) (padd v e))).
Definition C88_es : list (list Z) := map (fun i => if Nat.even i then [1; 0] else [-1; 1]) (seq 0 3).
Definition C88_gadget (b : basis) (m : list Z) (seed : Z) (es : list (list Z)) : gadget :=
  mk_gadget (map (fun i => C88_row (pscale (16 ^ Z.of_nat i) m) (map (fun j => (seed * (719 * Z.of_nat i + 371 * j + 1)) mod 3329) [0; 1]) (nth i es [])) (seq 0 3)) b.
Definition C88_rgsw (b : basis) (c : bool) (seed : Z) : rgsw :=
  mk_rgsw (C88_gadget b (pneg (negacyclic 2 (bit_poly 2 c) C88_s)) seed C88_es) (C88_gadget b (bit_poly 2 c) (seed + 1) C88_es).
Definition C88_x : rlwe := C88_row [0; 1664] [123; 2567] [1; -1].
Definition C88_y : rlwe := C88_row [1664; 1664] [1234; 777] [0; 1].
Ltac C88_key := split; [reflexivity|]; split; [lia|]; split; [split; ex_wf|]; exists C88_es, C88_es; split; [split; ex_enc|];
  split; (repeat (apply Forall_cons; [split; [reflexivity|ex_canon]|]); apply Forall_nil).

Example C88_ex : exists F T b R S U UN z, prime 3329 /\ derive_field 16 3329 = Some F /\ serves F (fun _ => Some T) 1 /\ basis_new F 4 = Some b /\ bs_len b = 3%nat /\
  rgsw_has 3329 2 b C88_s 16 R (bit_poly 2 true, 1) /\ rgsw_has 3329 2 b C88_s 16 S (bit_poly 2 true, 1) /\
  rlwe_wf 3329 2 C88_x /\ rlwe_wf 3329 2 C88_y /\
  rgsw_product F (fun _ => Some T) R [S] = Some U /\ rgsw_to_ntt F (fun _ => Some T) U = Some UN /\
  cmux F (fun _ => Some T) 2 (rlwe_zero 2) UN C88_x C88_y = Some z /\
  map (fun x => (x + 832) / 1664) (pmod 3329 (rphase 2 C88_s z)) = [1; 1] /\
  plain_product 2 3 16 ([1; 0], 1) [([1; 0], 1)] = ([1; 0], 181).
Proof.
  eexists. eexists. eexists.
  let R := eval vm_compute in (C88_rgsw (mk_basis 16 3 15 4) true 55) in exists R.
  let R := eval vm_compute in (C88_rgsw (mk_basis 16 3 15 4) true 808) in exists R.
  eexists. eexists. eexists. split; [apply small_prime; vm_compute; reflexivity|]. split; [vm_compute; reflexivity|].
  split; [exists None, (fun _ => 3); eexists; split; [exact I|]; split; [intros; vm_compute; split; discriminate|]; split; [vm_compute; reflexivity|reflexivity]|].
  split; [vm_compute; reflexivity|]. split; [vm_compute; reflexivity|].
  split; [C88_key|]. split; [C88_key|]. split; [ex_wf|]. split; [ex_wf|].
  split; [vm_compute; reflexivity|]. split; [vm_compute; reflexivity|]. split; [vm_compute; reflexivity|]. split; vm_compute; reflexivity.
Qed.
