(** C85: every randomised test of polynomials and ciphertexts passes on every draw.
    False for four of them.  Those of LWE addition and of the three products with a gadget draw masks or messages
    that they do not allow for: the first adds words that may overflow, the others compare decodings of values that
    may lie on a decoding boundary, and one also expects one noise to be smaller than another.
    For the first the draws that fail are characterised exactly, for the others those that pass are described; all
    the remaining tests pass on every draw. *)
From Coq Require Import ZArith Znumtheory List Bool Lia SpecFloat.
From Verif Require Import Spec.Basic Spec.Poly Spec.Ring Spec.LatticeTest Model.Base Model.Field Model.NTT Model.Concrete Model.Poly Model.Gadget Model.RingTests.
From Verif Require Import Proofs.NumTheory Proofs.RingTestProofs Proofs.LatticeTestProofs Proofs.LatticeTestGadget Proofs.ExampleTac.
Import ListNotations.
Local Open Scope Z_scope.

(** The comparisons the tests make are of the whole values. *)
Theorem C85_assertions : (forall x y, assert_poly x y = Some tt <-> x = y) /\
  (forall a b a' b', assert_rlwe (Rlwe.mk_rlwe a b) (Rlwe.mk_rlwe a' b') = Some tt <-> a = a' /\ b = b') /\
  (forall a b a' b', assert_lwe (Lwe.mk_lwe a b) (Lwe.mk_lwe a' b') = Some tt <-> a = a' /\ b = b').
Proof. exact assertions_compare. Qed.
Print Assumptions C85_assertions.

(** ** [polynomial_test.rs] *)

Theorem C85_polynomials (B p : Z) (k : nat) (F : field) (tbl : tables) : wwidth B -> B <= 64 -> prime p -> derive_field B p = Some F -> serves F tbl k -> (0 < k)%nat ->
  forall a b, length a = (2 ^ k)%nat -> length b = (2 ^ k)%nat -> canonical p a -> canonical p b ->
  rt_transform F tbl a = Some tt /\ rt_poly_mul F tbl a b = Some tt /\ rt_eval F a = Some tt /\
  forall bits, 1 <= bits <= bit_len p -> rt_decompose F bits a = Some tt /\ rt_decompose_mul F tbl bits a b = Some tt.
Proof.
  intros HB H64 Hp HF HS Hk a b La Lb Ha Hb. destruct (test_ctx B p k F tbl HB Hp HF HS) as (Hok & <- & <- & w & C & _).
  split; [apply (rt_transform_ok F Hok Hp tbl k w C); assumption|]. split; [apply (rt_poly_mul_ok F Hok Hp tbl k w C); assumption|].
  split; [apply (rt_eval_ok F Hok); [rewrite La; pose proof (Nat.pow_nonzero 2 k); lia|apply prime_ge_2; exact Hp|exact Ha]|].
  intros bits Hbits. split; [apply (rt_decompose_ok F Hok); assumption|apply (rt_decompose_mul_ok F Hok Hp tbl k w C); assumption].
Qed.
Print Assumptions C85_polynomials.

(** The property of monomials is tested at a degree of twice the length when the second draw is the length itself:
    the table of this crate accepts it. *)
Theorem C85_monomials (B p : Z) (k : nat) (F : field) (tbl : tables) (T : any_table) : wwidth B -> prime p -> derive_field B p = Some F -> serves F tbl k -> tbl k = Some T -> (k <= 31)%nat ->
  (forall d c, (d < 2 ^ k)%nat -> 0 <= c < p -> rt_transform_monomial F T (2 ^ k) d c = Some tt) /\
  (forall d1 d2, (d1 < 2 ^ k)%nat -> (2 ^ k <= d2 < 2 * 2 ^ k)%nat -> (exists T', T = OwnTable T') \/ d2 <> (2 ^ k)%nat ->
    rt_monomial_property F T (2 ^ k) d1 d2 = Some tt).
Proof.
  intros HB Hp HF HS ET Hk. destruct (test_ctx B p k F tbl HB Hp HF HS) as (Hok & <- & _ & w & C & HT). specialize (HT T ET). split.
  - intros d c Hd Hc. exact (rt_transform_monomial_ok F Hok tbl k w C T d c Hk HT Hd Hc).
  - intros d1 d2 H1 H2 Ho. exact (rt_monomial_property_ok F Hok tbl k w C T d1 d2 Hk HT H1 H2 Ho).
Qed.
Print Assumptions C85_monomials.

(** ** [lattice_test.rs] *)

Theorem C85_lwe (B kk : Z) (a1 a2 : list Z) (b1 b2 : Z) : 1 <= kk <= B -> length a1 = length a2 ->
  canonical (2 ^ kk) a1 -> canonical (2 ^ kk) a2 -> 0 <= b1 < 2 ^ kk -> 0 <= b2 < 2 ^ kk -> rt_lwe B (2 ^ kk) a1 a2 b1 b2 = Some tt.
Proof. intros H. exact (rt_lwe_ok B kk H a1 a2 b1 b2). Qed.
Print Assumptions C85_lwe.

Theorem C85_rlwe (B p : Z) (k : nat) (F : field) (tbl : tables) : wwidth B -> prime p -> derive_field B p = Some F -> serves F tbl k -> (0 < k)%nat ->
  forall r a1 a2 b1 b2, Forall (fun x => length x = (2 ^ k)%nat /\ canonical p x) [r; a1; a2; b1; b2] ->
  rt_rlwe F tbl r a1 a2 b1 b2 = Some tt /\ rt_extract F tbl r a1 = Some tt.
Proof.
  intros HB Hp HF HS Hk r a1 a2 b1 b2 H. destruct (test_ctx B p k F tbl HB Hp HF HS) as (Hok & <- & _ & w & C & _).
  repeat match goal with H : Forall _ (_ :: _) |- _ => inversion H as [|? ? [? ?] ?]; subst; clear H end.
  split; [apply (rt_rlwe_ok F Hok Hp tbl k w C Hk)|apply (rt_extract_ok F Hok Hp tbl k w C Hk)]; assumption.
Qed.
Print Assumptions C85_rlwe.

(** Noise up to [E], whatever the key and the masks. *)
Theorem C85_rlwe_he (B p t E : Z) (k : nat) (F : field) (tbl : tables) : wwidth B -> B <= 64 -> prime p -> derive_field B p = Some F -> serves F tbl k -> (0 < k)%nat ->
  2 <= t -> p * t <= 2 ^ 52 -> 2 * t * (2 * E + 1) < p -> 0 <= E ->
  forall v0 v1 s a0 e0 a1 e1, length v0 = (2 ^ k)%nat -> length v1 = (2 ^ k)%nat -> Forall (fun x => 0 <= x < t) v0 -> Forall (fun x => 0 <= x < t) v1 ->
  length s = (2 ^ k)%nat -> canonical p s -> row_draw p E (2 ^ k) (a0, e0) -> row_draw p E (2 ^ k) (a1, e1) ->
  rt_rlwe_he F tbl t v0 v1 s a0 e0 a1 e1 = Some tt.
Proof.
  intros HB H64 Hp HF HS Hk Ht H52 HE HE0 v0 v1 s a0 e0 a1 e1 L0 L1 V0 V1 Ls Cs (A0 & A0' & A0'') (A1 & A1' & A1'').
  destruct (test_ctx B p k F tbl HB Hp HF HS) as (Hok & <- & <- & w & C & _).
  apply (rt_rlwe_he_ok F Hok Hp tbl k w C Hk t H64 ltac:(nia) H52 E); assumption.
Qed.
Print Assumptions C85_rlwe_he.

(** ** The four that can fail *)

(** [test_lwe_he] (missing: masks whose sum overflows a word).  The second mask is drawn from all words, not below the
    modulus, and the ciphertexts are added as plain words: the test passes exactly when no sum overflows. *)
Theorem C85_lwe_he_partial (B kk t v0 v1 : Z) (s a1 : list Z) (e1 : Z) (a2 : list Z) (e2 : Z) : 1 <= kk < B -> B <= 64 -> 2 <= t -> (t | 2 ^ kk) -> 2 ^ kk * t <= 2 ^ 52 ->
  0 <= v0 < t -> 0 <= v1 < t -> length a1 = length a2 -> 0 <= e1 -> 0 <= e2 -> 2 * t * (e1 + e2) < 2 ^ kk ->
  (rt_lwe_he B (2 ^ kk) t v0 v1 s a1 e1 a2 e2 = Some tt <-> Forall2 (fun x y => x + y < 2 ^ B) a1 a2).
Proof. intros Hk HB. apply (rt_lwe_he_iff B kk ltac:(lia) t v0 v1 s a1 e1 a2 e2 ltac:(lia)). Qed.
Print Assumptions C85_lwe_he_partial.
Theorem C85_lwe_he_refuted : exists s a1 a2, length s = 32%nat /\ length a1 = 32%nat /\ length a2 = 32%nat /\ canonical 1024 a1 /\ canonical (2 ^ 32) a2 /\
  rt_lwe_he 32 1024 4 1 2 s a1 0 a2 0 = None.
Proof.
  exists (repeat 0 32), (repeat 1 32), (4294967295 :: repeat 0 31). repeat split; try reflexivity.
  - apply Forall_forall. intros x Hx. apply repeat_spec in Hx. subst. lia.
  - constructor; [lia|]. apply Forall_forall. intros x Hx. apply repeat_spec in Hx. subst. lia.
Qed.
Print Assumptions C85_lwe_he_refuted.

(** [test_rgsw_mul_rlwe] (missing: products of the messages near a decoding boundary).  With noises up to [E] and a
    multiplier up to [M], the noise of the product is at most n M E + 2 len n (base - 1) E; the test passes whenever no
    coefficient of the product of the messages is that close to a boundary, whatever the key and the masks. *)
Theorem C85_rgsw_rlwe_partial (B p t bits M E : Z) (k : nat) (F : field) (tbl : tables) (b : basis) : wwidth B -> B <= 64 -> prime p -> derive_field B p = Some F -> serves F tbl k -> (0 < k)%nat ->
  2 <= t <= p -> p * t <= 2 ^ 52 -> 0 <= bits -> basis_new F bits = Some b -> 0 <= M -> 0 <= E ->
  forall m0 m1 s rnd rnd' a e, length m0 = (2 ^ k)%nat -> canonical p m0 -> small p M (2 ^ k) m1 -> length s = (2 ^ k)%nat -> canonical p s ->
  Forall (row_draw p E (2 ^ k)) rnd -> Forall (row_draw p E (2 ^ k)) rnd' -> length rnd = bs_len b -> length rnd' = bs_len b -> row_draw p E (2 ^ k) (a, e) ->
  far_from_boundary p t (Z.of_nat (2 ^ k) * (M * E) + 2 * (Z.of_nat (bs_len b) * (Z.of_nat (2 ^ k) * ((2 ^ bits - 1) * E)))) (pmod p (negacyclic (2 ^ k) m0 m1)) ->
  rt_rgsw_rlwe F tbl t bits m0 m1 s rnd rnd' a e = Some tt.
Proof.
  intros HB H64 Hp HF HS Hk Ht H52 H0 Hb HM HE m0 m1 s rnd rnd' a e L0 C0 S1 Ls Cs R R' LR LR' RA Far.
  destruct (test_ctx B p k F tbl HB Hp HF HS) as (Hok & <- & <- & w & C & _).
  exact (rt_rgsw_rlwe_ok F Hok Hp tbl k w C Hk t bits b H64 Ht H52 H0 Hb M E m0 m1 s rnd rnd' a e HM HE Ls Cs L0 C0 S1 R R' LR LR' RA Far).
Qed.
Print Assumptions C85_rgsw_rlwe_partial.
(** A unit of noise at the boundary is enough, in every field and for every basis. *)
Theorem C85_rgsw_rlwe_refuted (B p t bits : Z) (k : nat) (F : field) (tbl : tables) (b : basis) : wwidth B -> B <= 64 -> prime p -> derive_field B p = Some F -> serves F tbl k -> (0 < k)%nat ->
  2 <= t <= p -> p * t <= 2 ^ 52 -> 0 <= bits -> basis_new F bits = Some b ->
  exists m0 m1 s rnd rnd' a e, length m0 = (2 ^ k)%nat /\ canonical p m0 /\ small p 1 (2 ^ k) m1 /\ length s = (2 ^ k)%nat /\ canonical p s /\
  Forall (row_draw p 1 (2 ^ k)) rnd /\ Forall (row_draw p 1 (2 ^ k)) rnd' /\ length rnd = bs_len b /\ length rnd' = bs_len b /\ row_draw p 1 (2 ^ k) (a, e) /\
  rt_rgsw_rlwe F tbl t bits m0 m1 s rnd rnd' a e = None.
Proof.
  intros HB H64 Hp HF HS Hk Ht H52 H0 Hb. destruct (test_ctx B p k F tbl HB Hp HF HS) as (Hok & <- & <- & w & C & _).
  exact (rgsw_rlwe_fails F Hok Hp tbl k w C Hk t bits b H64 Ht H52 H0 Hb).
Qed.
Print Assumptions C85_rgsw_rlwe_refuted.

(** [test_rgsw_mul_rgsw] (missing: the same).  The second comparison is of minus the product times the key. *)
Theorem C85_rgsw_rgsw_partial (B p t bits M E : Z) (k : nat) (F : field) (tbl : tables) (b : basis) : wwidth B -> B <= 64 -> prime p -> derive_field B p = Some F -> serves F tbl k -> (0 < k)%nat ->
  2 <= t <= p -> p * t <= 2 ^ 52 -> 0 <= bits -> basis_new F bits = Some b -> 0 <= M -> 0 <= E ->
  forall m0 m1 s rnd1 rnd1' rnd0 rnd0', length m0 = (2 ^ k)%nat -> canonical p m0 -> small p M (2 ^ k) m1 -> length s = (2 ^ k)%nat -> canonical p s ->
  Forall (fun rnd => Forall (row_draw p E (2 ^ k)) rnd /\ length rnd = bs_len b) [rnd1; rnd1'; rnd0; rnd0'] ->
  (forall y, y = negacyclic (2 ^ k) m0 m1 \/ y = negacyclic (2 ^ k) (pneg (negacyclic (2 ^ k) m0 s)) m1 ->
    far_from_boundary p t (Z.of_nat (2 ^ k) * (M * E) + 2 * (Z.of_nat (bs_len b) * (Z.of_nat (2 ^ k) * ((2 ^ bits - 1) * E)))) (pmod p y)) ->
  rt_rgsw_rgsw F tbl t bits m0 m1 s rnd1 rnd1' rnd0 rnd0' = Some tt.
Proof.
  intros HB H64 Hp HF HS Hk Ht H52 H0 Hb HM HE m0 m1 s rnd1 rnd1' rnd0 rnd0' L0 C0 S1 Ls Cs R Far.
  destruct (test_ctx B p k F tbl HB Hp HF HS) as (Hok & <- & <- & w & C & _).
  repeat match goal with H : Forall _ (_ :: _) |- _ => inversion H as [|? ? [? ?] ?]; subst; clear H end.
  apply (rt_rgsw_rgsw_ok F Hok Hp tbl k w C Hk t bits b H64 Ht H52 H0 Hb M E); try assumption; [exact (basis_len_pos F bits b Hok H0 Hb)|apply Far; left; reflexivity|apply Far; right; reflexivity].
Qed.
Print Assumptions C85_rgsw_rgsw_partial.
Theorem C85_rgsw_rgsw_refuted (B p t bits : Z) (k : nat) (F : field) (tbl : tables) (b : basis) : wwidth B -> B <= 64 -> prime p -> derive_field B p = Some F -> serves F tbl k -> (0 < k)%nat ->
  2 <= t <= p -> p * t <= 2 ^ 52 -> 0 <= bits -> basis_new F bits = Some b ->
  exists m0 m1 s rnd1 rnd1' rnd0 rnd0', length m0 = (2 ^ k)%nat /\ canonical p m0 /\ small p 1 (2 ^ k) m1 /\ length s = (2 ^ k)%nat /\ canonical p s /\
  Forall (fun rnd => Forall (row_draw p 1 (2 ^ k)) rnd /\ length rnd = bs_len b) [rnd1; rnd1'; rnd0; rnd0'] /\
  rt_rgsw_rgsw F tbl t bits m0 m1 s rnd1 rnd1' rnd0 rnd0' = None.
Proof.
  intros HB H64 Hp HF HS Hk Ht H52 H0 Hb. destruct (test_ctx B p k F tbl HB Hp HF HS) as (Hok & <- & <- & w & C & _).
  exact (rgsw_rgsw_fails F Hok Hp tbl k w C Hk t bits b H64 Ht H52 H0 Hb).
Qed.
Print Assumptions C85_rgsw_rgsw_refuted.

(** [test_gadget_rlwe] (missing: products near a boundary).  Away from the boundaries the second assertion holds, and
    the test passes exactly when the first one does: the floating-point norm of the noise of the gadget product is below
    that of the multiplier times the noise of the first row. *)
Theorem C85_gadget_partial (B p t bits E : Z) (k : nat) (F : field) (tbl : tables) (b : basis) : wwidth B -> B <= 64 -> prime p -> derive_field B p = Some F -> serves F tbl k -> (0 < k)%nat ->
  2 <= t <= p -> p * t <= 2 ^ 52 -> 0 <= bits -> basis_new F bits = Some b -> 0 <= E ->
  forall m poly s rnd, Forall (fun x => length x = (2 ^ k)%nat /\ canonical p x) [m; poly; s] -> Forall (row_draw p E (2 ^ k)) rnd -> length rnd = bs_len b ->
  far_from_boundary p t (Z.of_nat (bs_len b) * (Z.of_nat (2 ^ k) * ((2 ^ bits - 1) * E))) (pmod p (negacyclic (2 ^ k) poly m)) ->
  exists ds, gadget_digits (2 ^ bits) (bs_len b) poly ds /\ (rt_gadget F tbl t bits m poly s rnd = Some tt <->
    SFltb (std_dev (map (cabs p) (lincomb (2 ^ k) ds (map snd rnd)))) (std_dev (map (cabs p) (negacyclic (2 ^ k) poly (nth 0 (map snd rnd) [])))) = true).
Proof.
  intros HB H64 Hp HF HS Hk Ht H52 H0 Hb HE m poly s rnd H Hr Lr Far. destruct (test_ctx B p k F tbl HB Hp HF HS) as (Hok & <- & <- & w & C & _).
  repeat match goal with H : Forall _ (_ :: _) |- _ => inversion H as [|? ? [? ?] ?]; subst; clear H end.
  apply (rt_gadget_iff F Hok Hp tbl k w C Hk t bits b H64 Ht H52 H0 Hb E); try assumption. exact (basis_len_pos F bits b Hok H0 Hb).
Qed.
Print Assumptions C85_gadget_partial.
(** It fails whenever the multiplier times the noise of the first row is zero, so for a zero multiplier and for a first
    row without noise. *)
Theorem C85_gadget_refuted (B p t bits E : Z) (k : nat) (F : field) (tbl : tables) (b : basis) : wwidth B -> B <= 64 -> prime p -> derive_field B p = Some F -> serves F tbl k -> (0 < k)%nat ->
  2 <= t <= p -> p * t <= 2 ^ 52 -> 0 <= bits -> basis_new F bits = Some b ->
  forall m poly s rnd, Forall (fun x => length x = (2 ^ k)%nat /\ canonical p x) [m; poly; s] -> Forall (row_draw p E (2 ^ k)) rnd -> length rnd = bs_len b ->
  Forall (fun c => (p | c)) (negacyclic (2 ^ k) poly (nth 0 (map snd rnd) [])) -> rt_gadget F tbl t bits m poly s rnd = None.
Proof.
  intros HB H64 Hp HF HS Hk Ht H52 H0 Hb m poly s rnd H Hr Lr HZ. destruct (test_ctx B p k F tbl HB Hp HF HS) as (Hok & <- & <- & w & C & _).
  repeat match goal with H : Forall _ (_ :: _) |- _ => inversion H as [|? ? [? ?] ?]; subst; clear H end.
  apply (rt_gadget_none F Hok Hp tbl k w C Hk t bits b H64 Ht H52 H0 Hb E); try assumption. exact (basis_len_pos F bits b Hok H0 Hb).
Qed.
Print Assumptions C85_gadget_refuted.

(** The parameters of the tests, and draws that meet the hypotheses: a product of the messages away from the boundaries
    for noises up to 20, and a run of the test of the gadget with noise in every row that passes, at length 2. *)
Example C85_ex : exists F T b, prime 132120577 /\ derive_field 32 132120577 = Some F /\ serves F (fun _ => Some T) 5 /\ basis_new F 3 = Some b /\ bs_len b = 9%nat /\
  132120577 * 4 <= 2 ^ 52 /\ 2 * 4 * (2 * 20 + 1) < 132120577 /\
  far_from_boundary 132120577 4 (Z.of_nat (2 ^ 5) * (1 * 20) + 2 * (Z.of_nat (bs_len b) * (Z.of_nat (2 ^ 5) * ((2 ^ 3 - 1) * 20))))
    (pmod 132120577 (negacyclic (2 ^ 5) (repeat 33030144 32) (1 :: repeat 0 31))).
Proof.
  eexists. eexists. eexists. split; [exact prime_default|]. split; [vm_compute; reflexivity|]. split; [ex_serves|]. split; [vm_compute; reflexivity|].
  split; [reflexivity|]. split; [vm_compute; discriminate|]. split; [vm_compute; reflexivity|].
  match goal with |- far_from_boundary _ _ _ ?l => let v := eval vm_compute in l in change l with v end.
  repeat (apply Forall_cons; [exists 1; vm_compute; reflexivity|]). apply Forall_nil.
Qed.
Example C85_ex_gadget : exists F T b, derive_field 32 132120577 = Some F /\ serves F (fun _ => Some T) 1 /\ basis_new F 3 = Some b /\
  far_from_boundary 132120577 4 (Z.of_nat (bs_len b) * (Z.of_nat (2 ^ 1) * ((2 ^ 3 - 1) * 2))) (pmod 132120577 (negacyclic (2 ^ 1) [98765432; 1357] [7; 11])) /\
  rt_gadget F (fun _ => Some T) 4 3 [7; 11] [98765432; 1357] [31415926; 5358979] (repeat ([271828; 18284], [1; 132120575]) 9) = Some tt.
Proof.
  eexists. eexists. eexists. split; [vm_compute; reflexivity|]. split; [ex_serves|]. split; [vm_compute; reflexivity|]. split.
  - match goal with |- far_from_boundary _ _ _ ?l => let v := eval vm_compute in l in change l with v end.
    apply Forall_cons; [exists 1; vm_compute; reflexivity|]. apply Forall_cons; [exists 1; vm_compute; reflexivity|]. apply Forall_nil.
  - vm_compute. reflexivity.
Qed.
