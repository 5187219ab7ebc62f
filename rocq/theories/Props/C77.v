(** C77: what an optimised build returns where a checked build stops. *)
From Coq Require Import ZArith Znumtheory List Arith Lia.
From Verif Require Import Spec.Basic Spec.Poly Spec.Ring Model.Base Model.Gcd Model.Barrett Model.PowOf2 Model.Goldilocks Model.Field Model.NTT Model.Concrete Model.Poly Model.Plaintext Model.Lwe Model.Rlwe Model.Gadget.
From Verif Require Import Model.OptArith Model.OptRing.
From Verif Require Import Proofs.NumTheory Proofs.Arith Proofs.BarrettProofs Proofs.FieldProofs Proofs.NTTProofs Proofs.PolyProofs Proofs.PolyMain Proofs.RgswProofs Proofs.SampleProofs Proofs.Refine Proofs.OptArithProofs Proofs.OptExtra Proofs.OptRingProofs Proofs.OptGcd Proofs.OptBases Proofs.ExampleTac Props.C34 Props.C64.
Import ListNotations.
Local Open Scope Z_scope.

(** Gadget and RGSW encryptions of one in coefficient form, which the checked build refuses when the
    power after the last one overflows (C34_overflow), are right for every accepted basis: that power
    is not used. *)
Theorem C77_gadget_samples (B p : Z) (k : nat) (F : field) (tbl : tables) (bits : Z) (b : basis) (s sk : list Z) (r0 r1 : list (list Z * list Z)) :
  wwidth B -> prime p -> derive_field B p = Some F -> serves F tbl k -> (0 < k)%nat ->
  0 <= bits -> basis_new F bits = Some b ->
  length s = (2 ^ k)%nat -> canonical p s -> into_ntt F tbl s = Some sk ->
  drawn p (2 ^ k) r0 -> length r0 = bs_len b ->
  drawn p (2 ^ k) r1 -> length r1 = bs_len b ->
  (exists G, g_one_sample_o F tbl sk b r1 = Some G /\ gadget_wf p (2 ^ k) b G /\
     gadget_encrypts p (2 ^ k) s (2 ^ bits) (monomial (2 ^ k) 1 0) (gd G) (map snd r1)) /\
  (exists G, g_neg_secret_sample_o F tbl sk b r0 = Some G /\ gadget_wf p (2 ^ k) b G /\
     gadget_encrypts p (2 ^ k) s (2 ^ bits) (pneg s) (gd G) (map snd r0)) /\
  (exists R, rgsw_one_sample_o F tbl sk b r0 r1 = Some R /\ rgsw_wf p (2 ^ k) b R /\
     rgsw_encrypts p (2 ^ k) s (2 ^ bits) (monomial (2 ^ k) 1 0) R (map snd r0) (map snd r1)).
Proof.
  intros HB Hp HF Hs Hk H0 Hb Ls Cs HS. destruct (field_ctx B p k F tbl HB Hp HF Hs) as (Hok & <- & w & C).
  rewrite (into_ntt_canon F Hok tbl k w C s Ls Cs) in HS. injection HS as <-. intros D0 L0 D1 L1.
  split; [|split].
  - apply (g_one_sample_o_main F Hok Hp tbl k w C Hk s Ls b bits); assumption.
  - apply (g_neg_sample_o_main F Hok Hp tbl k w C Hk s Ls b bits); assumption.
  - apply (rgsw_one_o_main F Hok Hp tbl k w C Hk s Ls b bits); assumption.
Qed.

(** Powers of a base that is not reduced, which the checked build refuses: right for every word; only
    the first power is returned as it came. *)
Theorem C77_barrett_power (B v EB a e : Z) (m : barrett) :
  wwidth B -> 0 <= v -> barrett_new B v = Some m -> 0 <= EB -> 0 <= a < 2 ^ B -> 0 <= e ->
  bexp_o B EB m a e = Some (if e =? 1 then a else a ^ e mod v).
Proof.
  intros HB Hv E. destruct (barrett_new_inv B v m HB Hv E) as (_ & <- & Hm). apply (bexp_o_any B m HB Hm).
Qed.

Theorem C77_power_of_two_power (B EB k a e : Z) : 1 <= k <= B -> 0 <= EB -> 0 <= a < 2 ^ B -> 0 <= e ->
  p2_exp_o B EB (2 ^ k - 1) a e = Some (if e =? 1 then a else a ^ e mod 2 ^ k).
Proof. exact (p2_exp_o_any B EB k a e). Qed.

Theorem C77_goldilocks_power (EB a e : Z) : 0 <= EB -> 0 <= a < 2 ^ 64 -> 0 <= e ->
  exists z, gl_exp_o EB a e = Some z /\ 0 <= z < 2 ^ 64 /\ cong (2 ^ 64 - 2 ^ 32 + 1) z (a ^ e).
Proof. exact (gl_exp_o_any EB a e). Qed.

(** Negation of a Goldilocks word above the modulus: off by 2^32 - 1.  So the negation is right exactly
    up to the modulus. *)
Theorem C77_goldilocks_negation (a : Z) : 0 <= a < 2 ^ 64 ->
  exists z, gl_neg_o a = Some z /\ 0 <= z < 2 ^ 64 /\
    cong (2 ^ 64 - 2 ^ 32 + 1) z (- a + (if a <=? 2 ^ 64 - 2 ^ 32 + 1 then 0 else 2 ^ 32 - 1)) /\
    (cong (2 ^ 64 - 2 ^ 32 + 1) z (- a) <-> a <= 2 ^ 64 - 2 ^ 32 + 1).
Proof. exact (gl_neg_o_any a). Qed.

(** Such words come out of products of reduced elements: minus the product is then silently wrong. *)
Example C77_ex_goldilocks : exists a b z y,
  0 <= a < 2 ^ 64 - 2 ^ 32 + 1 /\ 0 <= b < 2 ^ 64 - 2 ^ 32 + 1 /\
  gl_mul_o a b = Some z /\ gl_neg_o z = Some y /\ (y + a * b) mod (2 ^ 64 - 2 ^ 32 + 1) = 2 ^ 32 - 1.
Proof.
  exists 3, 6148914691236517205. eexists. eexists.
  split; [lia|]. split; [lia|]. split; [vm_compute; reflexivity|]. split; [vm_compute; reflexivity|]. vm_compute. reflexivity.
Qed.

(** Polynomials of different lengths, which the checked build refuses: the borrowing forms return the
    shorter length, the assigning forms keep the rest of the left operand. *)
Theorem C77_lengths (B p : Z) (F : field) (a b : list Z) :
  wwidth B -> 0 <= p -> derive_field B p = Some F -> canonical p a -> canonical p b ->
  let m := Nat.min (length a) (length b) in
  let shorter (op : Z -> Z -> Z) (x : option (list Z)) := exists r, x = Some r /\ length r = m /\
    forall i, (i < m)%nat -> nth i r 0 = op (nth i a 0) (nth i b 0) mod p in
  let kept (op : Z -> Z -> Z) (x : option (list Z)) := exists r, x = Some r /\ length r = length a /\
    (forall i, (i < m)%nat -> nth i r 0 = op (nth i a 0) (nth i b 0) mod p) /\
    (forall i, (length b <= i)%nat -> nth i r 0 = nth i a 0) in
  shorter Z.add (p_add_o F a b) /\ shorter Z.sub (p_sub_o F a b) /\ shorter Z.mul (n_mul_o F a b) /\
  kept Z.add (p_add_assign_o F a b) /\ kept Z.sub (p_sub_assign_o F a b) /\ kept Z.mul (n_mul_assign_o F a b).
Proof.
  intros HB Hp HF Ca Cb. destruct (derive_field_ok B p F HB Hp HF) as (Hok & _ & <-). pose proof (fp_range F Hok) as W. cbv zeta.
  split; [|split; [|split; [|split; [|split]]]].
  - apply (mapM2_at _ (fun x y => (x + y) mod fp F) (fun x => 0 <= x < fp F)); [|exact Ca|exact Cb]. intros x y Hx Hy. apply ref_f_add, (f_add_correct F Hok); assumption.
  - apply (mapM2_at _ (fun x y => (x - y) mod fp F) (fun x => 0 <= x < fp F)); [|exact Ca|exact Cb]. intros x y Hx Hy. apply ref_f_sub, (f_sub_correct F Hok); assumption.
  - apply (mapM2_at _ (fun x y => (x * y) mod fp F) (fun x => 0 <= x < fp F)); [|exact Ca|exact Cb]. intros x y Hx Hy. apply ref_f_mul, (f_mul_correct F Hok); lia.
  - apply (zipA_at _ (fun x y => (x + y) mod fp F) (fun x => 0 <= x < fp F)); [|exact Ca|exact Cb]. intros x y Hx Hy. apply ref_f_add, (f_add_correct F Hok); assumption.
  - apply (zipA_at _ (fun x y => (x - y) mod fp F) (fun x => 0 <= x < fp F)); [|exact Ca|exact Cb]. intros x y Hx Hy. apply ref_f_sub_assign, (f_sub_assign_correct F Hok); assumption.
  - apply (zipA_at _ (fun x y => (x * y) mod fp F) (fun x => 0 <= x < fp F)); [|exact Ca|exact Cb]. intros x y Hx Hy. apply ref_f_mul, (f_mul_correct F Hok); lia.
Qed.

(** Gadget ciphertexts over different bases, which the checked build refuses (C64_basis_mismatch): the rows are
    added and subtracted all the same, as far as all three have any, and the result keeps the basis of
    the destination; so its i-th row holds the messages with the i-th powers of two different bases. *)
Theorem C77_bases (B p : Z) (k : nat) (F : field) (tbl : tables) (G H D : gadget) :
  wwidth B -> prime p -> derive_field B p = Some F -> serves F tbl k ->
  Forall (rlwe_wf p (2 ^ k)) (gd G) -> Forall (rlwe_wf p (2 ^ k)) (gd H) -> Forall (rlwe_room (2 ^ k)) (gd D) ->
  let m := Nat.min (Nat.min (length (gd G)) (length (gd H))) (length (gd D)) in
  let row X i := nth i (gd X) (mk_rlwe [] []) in
  let result (op : list Z -> list Z -> list Z) (x : option gadget) := exists D', x = Some D' /\ gb D' = gb D /\ length (gd D') = length (gd D) /\
    (forall i, (i < m)%nat -> rlwe_wf p (2 ^ k) (row D' i) /\ forall s, length s = (2 ^ k)%nat ->
      pcong p (rphase (2 ^ k) s (row D' i)) (op (rphase (2 ^ k) s (row G i)) (rphase (2 ^ k) s (row H i)))) /\
    (forall i, (m <= i)%nat -> row D' i = row D i) in
  result padd (gadget_op_inplace_o (rlwe_add_inplace_o F) G H D) /\ result psub (gadget_op_inplace_o (rlwe_sub_inplace_o F) G H D).
Proof.
  intros HB Hp HF Hs HG HH HD. cbv zeta. split.
  - apply (gadget_op_any (fun x y d => rlwe_wf p (2 ^ k) x /\ rlwe_wf p (2 ^ k) y /\ rlwe_room (2 ^ k) d)
      (fun x y z => rlwe_wf p (2 ^ k) z /\ forall s, length s = (2 ^ k)%nat -> pcong p (rphase (2 ^ k) s z) (padd (rphase (2 ^ k) s x) (rphase (2 ^ k) s y)))).
    + intros x y d (Wx & Wy & Hd). destruct (C64_rlwe_add B p k F tbl x y HB Hp HF Hs Wx Wy) as (z & _ & _ & _ & _ & _ & E & W & P & _).
      exists z. split; [apply ref_rlwe_add_inplace, E, Hd|]. split; assumption.
    + apply rows_good; assumption.
  - apply (gadget_op_any (fun x y d => rlwe_wf p (2 ^ k) x /\ rlwe_wf p (2 ^ k) y /\ rlwe_room (2 ^ k) d)
      (fun x y z => rlwe_wf p (2 ^ k) z /\ forall s, length s = (2 ^ k)%nat -> pcong p (rphase (2 ^ k) s z) (psub (rphase (2 ^ k) s x) (rphase (2 ^ k) s y)))).
    + intros x y d (Wx & Wy & Hd). destruct (C64_rlwe_sub B p k F tbl x y HB Hp HF Hs Wx Wy) as (z & _ & _ & _ & _ & _ & E & W & P & _).
      exists z. split; [apply ref_rlwe_sub_inplace, E, Hd|]. split; assumption.
    + apply rows_good; assumption.
Qed.

Example C77_ex_bases : exists F T b b',
  derive_field 8 17 = Some F /\ serves F (fun _ => Some T) 1 /\ basis_new F 2 = Some b /\ basis_new F 4 = Some b' /\
  let G := mk_gadget [mk_rlwe [3; 4] [5; 6]] b in let H := mk_gadget [mk_rlwe [1; 2] [15; 16]; mk_rlwe [7; 8] [9; 10]] b' in
  let D := mk_gadget [mk_rlwe [0; 0] [0; 0]; mk_rlwe [1; 1] [1; 1]] b in
  Forall (rlwe_wf 17 2) (gd G) /\ Forall (rlwe_wf 17 2) (gd H) /\ Forall (rlwe_room 2) (gd D) /\
  gadget_op_inplace (rlwe_add_inplace F) G H D = None /\
  gadget_op_inplace_o (rlwe_add_inplace_o F) G H D = Some (mk_gadget [mk_rlwe [4; 6] [3; 5]; mk_rlwe [1; 1] [1; 1]] b).
Proof.
  eexists. eexists. eexists. eexists.
  split; [vm_compute; reflexivity|]. split; [exists None, (fun _ => 3); eexists; split; [exact I|]; split; [intros; vm_compute; split; discriminate|]; split; [vm_compute; reflexivity|reflexivity]|].
  split; [vm_compute; reflexivity|]. split; [vm_compute; reflexivity|]. cbv zeta. cbn [gd].
  split; [repeat (constructor; [repeat split; ex_canon|]); constructor|]. split; [repeat (constructor; [repeat split; ex_canon|]); constructor|].
  split; [repeat (constructor; [split; reflexivity|]); constructor|]. split; vm_compute; reflexivity.
Qed.

(** A ciphertext and a key of different lengths, which the checked build refuses: the excess is ignored. *)
Theorem C77_decrypt_lengths (M : msg_type) (B t q : Z) (s : list Z) (x : lwe) :
  let l := Nat.min (length s) (length (la x)) in
  decrypt_o M B t q s x = decrypt_o M B t q (firstn l s) (mk_lwe (firstn l (la x)) (lb x)).
Proof. exact (decrypt_o_prefix M B t q s x). Qed.

(** Equal plaintext and ciphertext moduli, which the parameter check accepts (C42_equal_moduli_refuted):
    every ciphertext decrypts to zero. *)
Theorem C77_equal_moduli (M : msg_type) (B j : Z) (s : list Z) (x : lwe) : 1 <= j <= B -> j < 64 ->
  decrypt_o M B (2 ^ j) (2 ^ j) s x = Some 0.
Proof. exact (decrypt_o_equal M B j s x). Qed.

(** The extended gcd on words of any size, where the checked build may stop (C08_overflow_refuted): it
    ends and the divisor is right; so inversion still tells units from non-units. *)
Theorem C77_extended_gcd (B x y : Z) : 0 < B -> 0 < x < 2 ^ B -> 0 < y < 2 ^ B ->
  exists c d, extended_gcd_o B x y = Some (c, d, Z.gcd x y).
Proof. exact (extended_gcd_o_value B x y). Qed.

Theorem C77_units (B a m : Z) : 0 < B -> 0 < a < 2 ^ B -> 0 < m < 2 ^ B ->
  (Z.gcd a m <> 1 -> try_inv_reduce_o B a m = Some None /\ inv_reduce_o B a m = None) /\
  (Z.gcd a m = 1 -> exists r, try_inv_reduce_o B a m = Some (Some r) /\ inv_reduce_o B a m = Some r).
Proof. exact (try_inv_reduce_o_err B a m). Qed.

(** But the coefficients, and with them the inverse, may be silently wrong where the checked build stops. *)
Theorem C77_inverse_wrong : exists a m r : Z, 2 ^ 62 < m < 2 ^ 63 /\ 0 < a < m /\ Z.gcd a m = 1 /\
  inv_reduce 64 a m = None /\ inv_reduce_o 64 a m = Some r /\ (r * a) mod m <> 1.
Proof.
  exists 3, (2 ^ 63 - 25). eexists. split; [lia|]. split; [lia|]. split; [vm_compute; reflexivity|].
  split; [vm_compute; reflexivity|]. split; [vm_compute; reflexivity|]. vm_compute. discriminate.
Qed.

(** The case of C34_no_panic_refuted returns in the optimised build; so do a power of an unreduced base,
    a sum of different lengths, and the decryption of an encryption of 7 with equal moduli. *)
Example C77_ex : exists F T b sk R m,
  derive_field 8 17 = Some F /\ serves F (fun _ => Some T) 1 /\ basis_new F 4 = Some b /\
  into_ntt F (fun _ => Some T) [1; 16] = Some sk /\ drawn 17 2 [([3; 4], [1; 0]); ([5; 6], [0; 16])] /\
  bs_len b = 2%nat /\
  g_one_sample F (fun _ => Some T) sk b [([3; 4], [1; 0]); ([5; 6], [0; 16])] = None /\
  g_one_sample_o F (fun _ => Some T) sk b [([3; 4], [1; 0]); ([5; 6], [0; 16])] = Some R /\
  barrett_new 8 17 = Some m /\ bexp 8 8 m 200 5 = None /\ bexp_o 8 8 m 200 5 = Some (200 ^ 5 mod 17) /\ bexp_o 8 8 m 200 1 = Some 200 /\
  p_sub F [1; 2; 3] [4] = None /\ p_sub_assign_o F [1; 2; 3] [4] = Some [14; 2; 3] /\
  (let* x := encrypt_o 16 1024 1024 [1; 2] [3; 4] 0 7 in decrypt_o MU64 16 1024 1024 [1; 2] x) = Some 0.
Proof.
  eexists. eexists. eexists. eexists. eexists. eexists.
  split; [vm_compute; reflexivity|]. split; [exists None, (fun _ => 3); eexists; split; [exact I|]; split; [intros; vm_compute; split; discriminate|]; split; [vm_compute; reflexivity|reflexivity]|]. split; [vm_compute; reflexivity|].
  split; [vm_compute; reflexivity|]. split; [repeat (constructor; [repeat split; ex_canon|]); constructor|]. split; [vm_compute; reflexivity|].
  split; [vm_compute; reflexivity|]. split; [vm_compute; reflexivity|]. split; [vm_compute; reflexivity|].
  split; [vm_compute; reflexivity|]. split; [vm_compute; reflexivity|]. split; [vm_compute; reflexivity|].
  split; [vm_compute; reflexivity|]. split; [vm_compute; reflexivity|]. vm_compute. reflexivity.
Qed.

Print Assumptions C77_gadget_samples.
Print Assumptions C77_barrett_power.
Print Assumptions C77_power_of_two_power.
Print Assumptions C77_goldilocks_power.
Print Assumptions C77_goldilocks_negation.
Print Assumptions C77_lengths.
Print Assumptions C77_decrypt_lengths.
Print Assumptions C77_equal_moduli.
Print Assumptions C77_extended_gcd.
Print Assumptions C77_units.
Print Assumptions C77_inverse_wrong.
Print Assumptions C77_bases.
