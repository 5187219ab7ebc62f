(** C62: the blind rotation noise has Gaussian tails over the randomness of the key. *)
From Coq Require Import ZArith Znumtheory List Arith Lia.
From Verif Require Import Spec.Basic Spec.Poly Spec.Lattice Spec.Ring Spec.Blind Spec.Count Spec.Moment Spec.Noise Spec.SubGauss Model.Base Model.Field Model.NTT Model.Concrete Model.Poly Model.Lwe Model.Rlwe Model.Gadget Model.BlindRotation Model.Sample.
From Verif Require Import Proofs.NumTheory Proofs.FieldProofs Proofs.PolyMain Proofs.NTTProofs Proofs.PolyProofs Proofs.MomentProofs Proofs.SubGaussProofs Proofs.NoiseProofs Proofs.BinomProofs Proofs.ExampleTac.
Import ListNotations.
Local Open Scope Z_scope.

(** A binary key whose noise coefficients are independent draws of a distribution [D] with moments at most
    those of a Gaussian of variance V.  Over the draws, every even moment of the error of an output
    coefficient is at most that of a Gaussian of variance 2*len*n*(base-1)^2*V per nonzero mask entry.
    A run that panicked would count as an error of p; C60 states that none does. *)
Theorem C62_binary (B p : Z) (k : nat) (F : field) (tbl : tables) (bits : Z) (b : basis) (s sk z lut : list Z) (D : dist Z) (V : Z) (us : list rows2) (x : lwe) (t : nat) (m : nat) :
  wwidth B -> prime p -> derive_field B p = Some F -> serves F tbl k -> (0 < k)%nat ->
  0 <= bits -> basis_new F bits = Some b -> length s = (2 ^ k)%nat -> canonical p s -> into_ntt F tbl s = Some sk ->
  Forall (fun x => x = 0 \/ x = 1) z -> length us = length z -> Forall (rows2_shape (2 ^ k) (bs_len b) (canonical p)) us ->
  sub_gaussian V D -> 0 <= V ->
  length lut = (2 ^ k)%nat -> canonical p lut -> lwe_wf (2 * Z.of_nat (2 ^ k)) (length z) x -> (t < 2 ^ k)%nat ->
  let DD := each (length z) (noise_rows2 (2 ^ k) (bs_len b) D) in
  let run es := let* key := binary_generate F tbl z sk b (draws p us es) in blind_rotate F tbl (BrBinary key) lut x b in
  let err es := run_error p (2 ^ k) s z lut x t (run es) in
  let W := nonzeros (la x) * (2 * (Z.of_nat (bs_len b) * (Z.of_nat (2 ^ k) * ((2 ^ bits - 1) * (2 ^ bits - 1) * V)))) in
  wsum DD (fun es => err es ^ Z.of_nat (2 * m)) <= odd_product m * W ^ Z.of_nat m * mass DD.
Proof.
  intros HB Hp HF Hs Hk H0 Hb Ls Cs HS Hz Lu Hu HD HV Ll Cl Hx Ht. destruct (field_ctx B p k F tbl HB Hp HF Hs) as (Hok & <- & w & C).
  rewrite (into_ntt_canon F Hok tbl k w C s Ls Cs) in HS. injection HS as <-.
  exact (binary_gauss F Hok Hp tbl k w C Hk b bits Hb H0 s Ls D V HV HD z us lut x t m Hz Lu Hu Ll Cl Hx Ht).
Qed.
Print Assumptions C62_binary.

(** So the fraction of draws whose error reaches T is at most (2m-1)!! (W/T^2)^m, for every m. *)
Theorem C62_binary_tail (B p : Z) (k : nat) (F : field) (tbl : tables) (bits : Z) (b : basis) (s sk z lut : list Z) (D : dist Z) (V : Z) (us : list rows2) (x : lwe) (t : nat) (T : Z) (m : nat) :
  wwidth B -> prime p -> derive_field B p = Some F -> serves F tbl k -> (0 < k)%nat ->
  0 <= bits -> basis_new F bits = Some b -> length s = (2 ^ k)%nat -> canonical p s -> into_ntt F tbl s = Some sk ->
  Forall (fun x => x = 0 \/ x = 1) z -> length us = length z -> Forall (rows2_shape (2 ^ k) (bs_len b) (canonical p)) us ->
  sub_gaussian V D -> 0 <= V ->
  length lut = (2 ^ k)%nat -> canonical p lut -> lwe_wf (2 * Z.of_nat (2 ^ k)) (length z) x -> (t < 2 ^ k)%nat -> 0 <= T ->
  let DD := each (length z) (noise_rows2 (2 ^ k) (bs_len b) D) in
  let run es := let* key := binary_generate F tbl z sk b (draws p us es) in blind_rotate F tbl (BrBinary key) lut x b in
  let err es := run_error p (2 ^ k) s z lut x t (run es) in
  let W := nonzeros (la x) * (2 * (Z.of_nat (bs_len b) * (Z.of_nat (2 ^ k) * ((2 ^ bits - 1) * (2 ^ bits - 1) * V)))) in
  wsum DD (fun es => if T <=? Z.abs (err es) then 1 else 0) * T ^ Z.of_nat (2 * m) <= odd_product m * W ^ Z.of_nat m * mass DD.
Proof.
  intros HB Hp HF Hs Hk H0 Hb Ls Cs HS Hz Lu Hu HD HV Ll Cl Hx Ht HT DD run err W.
  apply (markov DD err (fun es => T <=? Z.abs (err es))); [apply nonneg_each, nonneg_both; apply nonneg_each, nonneg_each, HD|exact HT| |].
  - apply (C62_binary B p k F tbl bits b s sk z lut D V us x t); assumption.
  - intros es wt _ H. apply Z.leb_le. exact H.
Qed.
Print Assumptions C62_binary_tail.

(** Ternary keys, whose entries are pairs. *)
Theorem C62_ternary (B p : Z) (k : nat) (F : field) (tbl : tables) (bits : Z) (b : basis) (s sk z lut : list Z) (q : Z) (D : dist Z) (V : Z) (us : list (rows2 * rows2)) (x : lwe) (t : nat) (m : nat) :
  wwidth B -> prime p -> derive_field B p = Some F -> serves F tbl k -> (0 < k <= 31)%nat ->
  0 <= bits -> basis_new F bits = Some b -> length s = (2 ^ k)%nat -> canonical p s -> into_ntt F tbl s = Some sk ->
  2 < q -> Forall (fun x => x = 0 \/ x = 1 \/ x = -1) z -> length us = length z ->
  Forall (fun u => rows2_shape (2 ^ k) (bs_len b) (canonical p) (fst u) /\ rows2_shape (2 ^ k) (bs_len b) (canonical p) (snd u)) us ->
  sub_gaussian V D -> 0 <= V ->
  length lut = (2 ^ k)%nat -> canonical p lut -> lwe_wf (2 * Z.of_nat (2 ^ k)) (length z) x -> (t < 2 ^ k)%nat ->
  let DD := each (length z) (both (noise_rows2 (2 ^ k) (bs_len b) D) (noise_rows2 (2 ^ k) (bs_len b) D)) in
  let run es := let* key := ternary_generate F tbl (map (fun x => x mod q) z) sk b (draws2 p us es) in blind_rotate F tbl (BrTernary key) lut x b in
  let err es := run_error p (2 ^ k) s z lut x t (run es) in
  let W := nonzeros (la x) * (2 * (2 * (Z.of_nat (bs_len b) * (Z.of_nat (2 ^ k) * ((2 ^ bits - 1) * (2 ^ bits - 1) * V))))) in
  wsum DD (fun es => err es ^ Z.of_nat (2 * m)) <= odd_product m * W ^ Z.of_nat m * mass DD.
Proof.
  intros HB Hp HF Hs (Hk & H31) H0 Hb Ls Cs HS Hq Hz Lu Hu HD HV Ll Cl Hx Ht. destruct (field_ctx B p k F tbl HB Hp HF Hs) as (Hok & <- & w & C).
  rewrite (into_ntt_canon F Hok tbl k w C s Ls Cs) in HS. injection HS as <-.
  exact (ternary_gauss F Hok Hp tbl k w C Hk b bits Hb H0 s Ls D V HV HD q z us lut x t m H31 Hq Hz Lu Hu Ll Cl Hx Ht).
Qed.
Print Assumptions C62_ternary.

Theorem C62_ternary_tail (B p : Z) (k : nat) (F : field) (tbl : tables) (bits : Z) (b : basis) (s sk z lut : list Z) (q : Z) (D : dist Z) (V : Z) (us : list (rows2 * rows2)) (x : lwe) (t : nat) (T : Z) (m : nat) :
  wwidth B -> prime p -> derive_field B p = Some F -> serves F tbl k -> (0 < k <= 31)%nat ->
  0 <= bits -> basis_new F bits = Some b -> length s = (2 ^ k)%nat -> canonical p s -> into_ntt F tbl s = Some sk ->
  2 < q -> Forall (fun x => x = 0 \/ x = 1 \/ x = -1) z -> length us = length z ->
  Forall (fun u => rows2_shape (2 ^ k) (bs_len b) (canonical p) (fst u) /\ rows2_shape (2 ^ k) (bs_len b) (canonical p) (snd u)) us ->
  sub_gaussian V D -> 0 <= V ->
  length lut = (2 ^ k)%nat -> canonical p lut -> lwe_wf (2 * Z.of_nat (2 ^ k)) (length z) x -> (t < 2 ^ k)%nat -> 0 <= T ->
  let DD := each (length z) (both (noise_rows2 (2 ^ k) (bs_len b) D) (noise_rows2 (2 ^ k) (bs_len b) D)) in
  let run es := let* key := ternary_generate F tbl (map (fun x => x mod q) z) sk b (draws2 p us es) in blind_rotate F tbl (BrTernary key) lut x b in
  let err es := run_error p (2 ^ k) s z lut x t (run es) in
  let W := nonzeros (la x) * (2 * (2 * (Z.of_nat (bs_len b) * (Z.of_nat (2 ^ k) * ((2 ^ bits - 1) * (2 ^ bits - 1) * V))))) in
  wsum DD (fun es => if T <=? Z.abs (err es) then 1 else 0) * T ^ Z.of_nat (2 * m) <= odd_product m * W ^ Z.of_nat m * mass DD.
Proof.
  intros HB Hp HF Hs Hk H0 Hb Ls Cs HS Hq Hz Lu Hu HD HV Ll Cl Hx Ht HT DD run err W.
  apply (markov DD err (fun es => T <=? Z.abs (err es))); [apply nonneg_each, nonneg_both; apply nonneg_both; apply nonneg_each, nonneg_each, HD|exact HT| |].
  - apply (C62_ternary B p k F tbl bits b s sk z lut q D V us x t); assumption.
  - intros es wt _ H. apply Z.leb_le. exact H.
Qed.
Print Assumptions C62_ternary_tail.

(** The first parameter set shipped (N = 1024, base 2^3, 1024 mask entries) with a noise whose moments are
    at most those of a Gaussian of variance 42 (the declared standard deviation is 6.4, rounding adds
    1/12): less than one draw in 2^160 gives an error of p/16 or more in a given coefficient. *)
Theorem C62_default_set (F : field) (tbl : tables) (b : basis) (s sk z lut : list Z) (D : dist Z) (us : list (rows2 * rows2)) (x : lwe) (t : nat) :
  let p := 132120577 in let n := (2 ^ 10)%nat in
  derive_field 32 p = Some F -> serves F tbl 10 -> basis_new F 3 = Some b -> 
  length s = n -> canonical p s -> into_ntt F tbl s = Some sk ->
  Forall (fun x => x = 0 \/ x = 1 \/ x = -1) z -> length z = n -> length us = length z ->
  Forall (fun u => rows2_shape n (bs_len b) (canonical p) (fst u) /\ rows2_shape n (bs_len b) (canonical p) (snd u)) us ->
  sub_gaussian 42 D ->
  length lut = n -> canonical p lut -> lwe_wf (2 * Z.of_nat n) (length z) x -> (t < n)%nat ->
  let DD := each (length z) (both (noise_rows2 n (bs_len b) D) (noise_rows2 n (bs_len b) D)) in
  let run es := let* key := ternary_generate F tbl (map (fun x => x mod 1024) z) sk b (draws2 p us es) in blind_rotate F tbl (BrTernary key) lut x b in
  2 ^ 160 * wsum DD (fun es => if p / 16 <=? Z.abs (run_error p n s z lut x t (run es)) then 1 else 0) <= mass DD.
Proof.
  intros p n HF Hs Hb Ls Cs HS Hz Lz Lu Hu HD Ll Cl Hx Ht DD run.
  assert (W32 : wwidth 32) by (exists 16; split; [discriminate|reflexivity]).
  pose proof (C62_ternary_tail 32 p 10 F tbl 3 b s sk z lut 1024 D 42 us x t (p / 16) 32 W32 prime_default HF Hs ltac:(lia) ltac:(lia) Hb Ls Cs HS ltac:(lia) Hz Lu Hu HD ltac:(lia) Ll Cl Hx Ht ltac:(vm_compute; discriminate)) as H.
  cbv zeta in H. fold n DD in H. fold run in H. set (Wt := wsum DD _) in *.
  assert (El : bs_len b = 9%nat) by (vm_compute in HF; injection HF as <-; vm_compute in Hb; injection Hb as <-; reflexivity).
  rewrite El in H. 
  assert (Hn : 0 <= nonzeros (la x) <= 1024).
  { destruct Hx as (Lx & _). rewrite Lz in Lx. pose proof (nonzeros_le (la x)) as NL. rewrite Lx in NL. split; [unfold nonzeros; lia|exact NL]. }
  assert (NN : nonneg DD) by (apply nonneg_each, nonneg_both; apply nonneg_both; apply nonneg_each, nonneg_each, HD).
  pose proof (mass_nonneg DD NN) as M0.
  assert (W0 : 0 <= Wt) by (apply Z.le_trans with (wsum DD (fun _ => 0)); [rewrite wsum_const; lia|apply wsum_le; [exact NN|]; intros es wt _; destruct (_ <=? _); lia]).
  replace (2 * (2 * (Z.of_nat 9 * (Z.of_nat n * ((2 ^ 3 - 1) * (2 ^ 3 - 1) * 42))))) with 75866112 in H by reflexivity.
  assert (H' : (nonzeros (la x) * 75866112) ^ Z.of_nat 32 <= (1024 * 75866112) ^ Z.of_nat 32) by (apply Z.pow_le_mono_l; lia).
  pose proof (odd_product_pos 32) as PO.
  assert (K : odd_product 32 * (1024 * 75866112) ^ Z.of_nat 32 * 2 ^ 160 <= (p / 16) ^ Z.of_nat (2 * 32)) by (vm_compute; discriminate).
  set (O := odd_product 32) in *. set (A := (nonzeros (la x) * 75866112) ^ Z.of_nat 32) in *. set (A' := (1024 * 75866112) ^ Z.of_nat 32) in *. set (TT := (p / 16) ^ Z.of_nat (2 * 32)) in *.
  assert (P160 : 0 < 2 ^ 160) by reflexivity. set (E := 2 ^ 160) in *.
  assert (PA : 0 < A') by reflexivity. clearbody O A A' TT E Wt.
  assert (H1 : Wt * TT <= O * A' * mass DD).
  { etransitivity; [exact H|]. apply Z.mul_le_mono_nonneg_r; [exact M0|]. apply Z.mul_le_mono_nonneg_l; lia. }
  assert (H2 : Wt * (O * A' * E) <= Wt * TT) by (apply Z.mul_le_mono_nonneg_l; assumption).
  assert (POA : 0 < O * A') by (apply Z.mul_pos_pos; assumption).
  apply (Z.mul_le_mono_pos_l _ _ (O * A') POA). lia.
Qed.
Print Assumptions C62_default_set.

(** The centred binomial distribution of any width: half the sum of 2h signs, of variance h/2. *)
Theorem C62_binomial h V : Z.of_nat h <= 2 * V -> sub_gaussian V (centred_binomial h).
Proof. apply binomial_gauss. Qed.
Print Assumptions C62_binomial.

(** The library's binomial sampler over any field of modulus above 42: over the 256^6 byte strings of one
    call, the value returned, as a signed integer, has moments at most those of a Gaussian of variance 11. *)
Theorem C62_sampler B p F : wwidth B -> 0 <= p -> derive_field B p = Some F -> 42 < p ->
  sub_gaussian 11 (map (fun bs => (match sample_cbd_field_vec F 1 (stream bs) with Some [x] => nearest p x | _ => p end, 1)) (tuples 6 256)).
Proof.
  intros HB Hp HF H42. destruct (derive_field_ok B p F HB Hp HF) as (Hok & _ & <-). exact (cbd_gauss F Hok H42).
Qed.
Print Assumptions C62_sampler.

(** The distribution of width 84 meets the hypothesis of the shipped set, and a small run: modulus 97,
    n = 2, base 2^4, noise uniform in {-1, 0, 1}. *)
Definition C62_u : rows2 := ([[5; 6]; [90; 1]], [[0; 96]; [7; 8]]).
Definition C62_e : rows2 := ([[1; 0]; [0; -1]], [[0; 0]; [1; 1]]).
Definition C62_D : dist Z := [(-1, 1); (0, 1); (1, 1)].
Example C62_ex : sub_gaussian 42 (centred_binomial 84) /\ centred_binomial 2 = [(-2, 1); (-1, 4); (0, 6); (1, 4); (2, 1)] /\ odd_product 4 = 105 /\
  sub_gaussian 1 C62_D /\
  exists F T b sk ct ct', prime 97 /\ derive_field 16 97 = Some F /\ serves F (fun _ => Some T) 1 /\
  basis_new F 4 = Some b /\ into_ntt F (fun _ => Some T) [1; 96] = Some sk /\
  rows2_shape 2 (bs_len b) (canonical 97) C62_u /\ lwe_wf 4 2 (mk_lwe [1; 3] 2) /\ canonical 97 [12; 85] /\
  (let* key := binary_generate F (fun _ => Some T) [1; 0] sk b (draws 97 [C62_u; C62_u] [C62_e; C62_e]) in
   blind_rotate F (fun _ => Some T) (BrBinary key) [12; 85] (mk_lwe [1; 3] 2) b) = Some ct /\
  (let* key := ternary_generate F (fun _ => Some T) (map (fun x => x mod 16) [1; -1]) sk b (draws2 97 [(C62_u, C62_u); (C62_u, C62_u)] [(C62_e, C62_e); (C62_e, C62_e)]) in
   blind_rotate F (fun _ => Some T) (BrTernary key) [12; 85] (mk_lwe [1; 3] 2) b) = Some ct' /\
  rotation_error 97 2 [1; 96] [1; 0] [12; 85] (mk_lwe [1; 3] 2) 0 ct = 4.
Proof.
  split; [apply C62_binomial; vm_compute; discriminate|]. split; [vm_compute; reflexivity|]. split; [reflexivity|]. split.
  { split; [repeat constructor; cbn; lia|]. intros m. unfold C62_D, mass. cbn [wsum]. pose proof (odd_product_pos m). split.
    - rewrite Nat2Z.inj_add, !Z.pow_add_r, pow1_even, !Z.pow_1_l by lia. change (Z.of_nat 1) with 1. rewrite !Z.pow_1_r. ring.
    - rewrite pow1_even, !Z.pow_1_l by lia. destruct m; [cbn; lia|]. rewrite (Z.pow_0_l (Z.of_nat (2 * S m))) by lia. lia. }
  eexists. eexists. eexists. eexists. eexists. eexists. split; [apply small_prime; vm_compute; reflexivity|].
  split; [vm_compute; reflexivity|]. split; [ex_serves|]. split; [vm_compute; reflexivity|].
  split; [vm_compute; reflexivity|]. split.
  { repeat (split || constructor); vm_compute; congruence. }
  split; [ex_wf|]. split; [ex_canon|].
  split; [vm_compute; reflexivity|]. split; [vm_compute; reflexivity|]. vm_compute. reflexivity.
Qed.
