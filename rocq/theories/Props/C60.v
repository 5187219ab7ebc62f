(** C60: size of the blind rotation noise over the randomness of the key. *)
From Coq Require Import ZArith Znumtheory List Arith Lia.
From Verif Require Import Spec.Basic Spec.Poly Spec.Lattice Spec.Ring Spec.Blind Spec.Moment Spec.Noise Model.Base Model.Field Model.NTT Model.Concrete Model.Poly Model.Lwe Model.Rlwe Model.Gadget Model.BlindRotation.
From Verif Require Import Proofs.NumTheory Proofs.FieldProofs Proofs.PolyMain Proofs.NTTProofs Proofs.PolyProofs Proofs.MomentProofs Proofs.NoiseProofs Proofs.ExampleTac.
Import ListNotations.
Local Open Scope Z_scope.

(** A binary key generated with every noise coefficient drawn independently from [D] (mean zero, mean
    square at most V), any uniform rows [us], any look-up table and any LWE ciphertext [x] modulo 2n.
    No draw panics, and the mean square of the error of every output coefficient is at most
    2*len*n*(base-1)^2*V per nonzero mask entry. *)
Theorem C60_binary (B p : Z) (k : nat) (F : field) (tbl : tables) (bits : Z) (b : basis) (s sk z lut : list Z) (D : dist Z) (V : Z) (us : list rows2) (x : lwe) (t : nat) :
  wwidth B -> prime p -> derive_field B p = Some F -> serves F tbl k -> (0 < k)%nat ->
  0 <= bits -> basis_new F bits = Some b -> length s = (2 ^ k)%nat -> canonical p s -> into_ntt F tbl s = Some sk ->
  Forall (fun x => x = 0 \/ x = 1) z -> length us = length z -> Forall (rows2_shape (2 ^ k) (bs_len b) (canonical p)) us ->
  centred_dist V D -> 0 <= V ->
  length lut = (2 ^ k)%nat -> canonical p lut -> lwe_wf (2 * Z.of_nat (2 ^ k)) (length z) x -> (t < 2 ^ k)%nat ->
  let DD := each (length z) (noise_rows2 (2 ^ k) (bs_len b) D) in
  let run es := let* key := binary_generate F tbl z sk b (draws p us es) in blind_rotate F tbl (BrBinary key) lut x b in
  let err es := run_error p (2 ^ k) s z lut x t (run es) in
  (forall es wt, In (es, wt) DD -> exists ct, run es = Some ct /\ rlwe_wf p (2 ^ k) ct) /\
  wsum DD (fun es => err es * err es)
    <= nonzeros (la x) * (2 * (Z.of_nat (bs_len b) * (Z.of_nat (2 ^ k) * ((2 ^ bits - 1) * (2 ^ bits - 1) * V)))) * mass DD.
Proof.
  intros HB Hp HF Hs Hk H0 Hb Ls Cs HS Hz Lu Hu HD HV Ll Cl Hx Ht. destruct (field_ctx B p k F tbl HB Hp HF Hs) as (Hok & <- & w & C).
  rewrite (into_ntt_canon F Hok tbl k w C s Ls Cs) in HS. injection HS as <-.
  exact (binary_moment F Hok Hp tbl k w C Hk b bits Hb H0 s Ls D V HV HD z us lut x t Hz Lu Hu Ll Cl Hx Ht).
Qed.
Print Assumptions C60_binary.

(** The fraction of draws for which the error reaches T is at most that mean square over T^2. *)
Theorem C60_binary_tail (B p : Z) (k : nat) (F : field) (tbl : tables) (bits : Z) (b : basis) (s sk z lut : list Z) (D : dist Z) (V : Z) (us : list rows2) (x : lwe) (t : nat) (T : Z) :
  wwidth B -> prime p -> derive_field B p = Some F -> serves F tbl k -> (0 < k)%nat ->
  0 <= bits -> basis_new F bits = Some b -> length s = (2 ^ k)%nat -> canonical p s -> into_ntt F tbl s = Some sk ->
  Forall (fun x => x = 0 \/ x = 1) z -> length us = length z -> Forall (rows2_shape (2 ^ k) (bs_len b) (canonical p)) us ->
  centred_dist V D -> 0 <= V ->
  length lut = (2 ^ k)%nat -> canonical p lut -> lwe_wf (2 * Z.of_nat (2 ^ k)) (length z) x -> (t < 2 ^ k)%nat -> 0 <= T ->
  let DD := each (length z) (noise_rows2 (2 ^ k) (bs_len b) D) in
  let run es := let* key := binary_generate F tbl z sk b (draws p us es) in blind_rotate F tbl (BrBinary key) lut x b in
  let err es := run_error p (2 ^ k) s z lut x t (run es) in
  wsum DD (fun es => if T <=? Z.abs (err es) then 1 else 0) * (T * T)
    <= nonzeros (la x) * (2 * (Z.of_nat (bs_len b) * (Z.of_nat (2 ^ k) * ((2 ^ bits - 1) * (2 ^ bits - 1) * V)))) * mass DD.
Proof.
  intros HB Hp HF Hs Hk H0 Hb Ls Cs HS Hz Lu Hu HD HV Ll Cl Hx Ht HT DD run err.
  apply (chebyshev DD err (fun es => T <=? Z.abs (err es))); [apply nonneg_each, nonneg_both; apply nonneg_each, nonneg_each, HD|exact HT| |].
  - apply (C60_binary B p k F tbl bits b s sk z lut D V us x t); assumption.
  - intros es wt _ H. apply Z.leb_le. exact H.
Qed.
Print Assumptions C60_binary_tail.

(** The same for ternary keys, whose entries are pairs; the bound doubles. *)
Theorem C60_ternary (B p : Z) (k : nat) (F : field) (tbl : tables) (bits : Z) (b : basis) (s sk z lut : list Z) (q : Z) (D : dist Z) (V : Z) (us : list (rows2 * rows2)) (x : lwe) (t : nat) :
  wwidth B -> prime p -> derive_field B p = Some F -> serves F tbl k -> (0 < k <= 31)%nat ->
  0 <= bits -> basis_new F bits = Some b -> length s = (2 ^ k)%nat -> canonical p s -> into_ntt F tbl s = Some sk ->
  2 < q -> Forall (fun x => x = 0 \/ x = 1 \/ x = -1) z -> length us = length z ->
  Forall (fun u => rows2_shape (2 ^ k) (bs_len b) (canonical p) (fst u) /\ rows2_shape (2 ^ k) (bs_len b) (canonical p) (snd u)) us ->
  centred_dist V D -> 0 <= V ->
  length lut = (2 ^ k)%nat -> canonical p lut -> lwe_wf (2 * Z.of_nat (2 ^ k)) (length z) x -> (t < 2 ^ k)%nat ->
  let DD := each (length z) (both (noise_rows2 (2 ^ k) (bs_len b) D) (noise_rows2 (2 ^ k) (bs_len b) D)) in
  let run es := let* key := ternary_generate F tbl (map (fun x => x mod q) z) sk b (draws2 p us es) in blind_rotate F tbl (BrTernary key) lut x b in
  let err es := run_error p (2 ^ k) s z lut x t (run es) in
  (forall es wt, In (es, wt) DD -> exists ct, run es = Some ct /\ rlwe_wf p (2 ^ k) ct) /\
  wsum DD (fun es => err es * err es)
    <= nonzeros (la x) * (2 * (2 * (Z.of_nat (bs_len b) * (Z.of_nat (2 ^ k) * ((2 ^ bits - 1) * (2 ^ bits - 1) * V))))) * mass DD.
Proof.
  intros HB Hp HF Hs (Hk & H31) H0 Hb Ls Cs HS Hq Hz Lu Hu HD HV Ll Cl Hx Ht. destruct (field_ctx B p k F tbl HB Hp HF Hs) as (Hok & <- & w & C).
  rewrite (into_ntt_canon F Hok tbl k w C s Ls Cs) in HS. injection HS as <-.
  exact (ternary_moment F Hok Hp tbl k w C Hk b bits Hb H0 s Ls D V HV HD q z us lut x t H31 Hq Hz Lu Hu Ll Cl Hx Ht).
Qed.
Print Assumptions C60_ternary.

Theorem C60_ternary_tail (B p : Z) (k : nat) (F : field) (tbl : tables) (bits : Z) (b : basis) (s sk z lut : list Z) (q : Z) (D : dist Z) (V : Z) (us : list (rows2 * rows2)) (x : lwe) (t : nat) (T : Z) :
  wwidth B -> prime p -> derive_field B p = Some F -> serves F tbl k -> (0 < k <= 31)%nat ->
  0 <= bits -> basis_new F bits = Some b -> length s = (2 ^ k)%nat -> canonical p s -> into_ntt F tbl s = Some sk ->
  2 < q -> Forall (fun x => x = 0 \/ x = 1 \/ x = -1) z -> length us = length z ->
  Forall (fun u => rows2_shape (2 ^ k) (bs_len b) (canonical p) (fst u) /\ rows2_shape (2 ^ k) (bs_len b) (canonical p) (snd u)) us ->
  centred_dist V D -> 0 <= V ->
  length lut = (2 ^ k)%nat -> canonical p lut -> lwe_wf (2 * Z.of_nat (2 ^ k)) (length z) x -> (t < 2 ^ k)%nat -> 0 <= T ->
  let DD := each (length z) (both (noise_rows2 (2 ^ k) (bs_len b) D) (noise_rows2 (2 ^ k) (bs_len b) D)) in
  let run es := let* key := ternary_generate F tbl (map (fun x => x mod q) z) sk b (draws2 p us es) in blind_rotate F tbl (BrTernary key) lut x b in
  let err es := run_error p (2 ^ k) s z lut x t (run es) in
  wsum DD (fun es => if T <=? Z.abs (err es) then 1 else 0) * (T * T)
    <= nonzeros (la x) * (2 * (2 * (Z.of_nat (bs_len b) * (Z.of_nat (2 ^ k) * ((2 ^ bits - 1) * (2 ^ bits - 1) * V))))) * mass DD.
Proof.
  intros HB Hp HF Hs Hk H0 Hb Ls Cs HS Hq Hz Lu Hu HD HV Ll Cl Hx Ht HT DD run err.
  apply (chebyshev DD err (fun es => T <=? Z.abs (err es))); [apply nonneg_each, nonneg_both; apply nonneg_both; apply nonneg_each, nonneg_each, HD|exact HT| |].
  - apply (C60_ternary B p k F tbl bits b s sk z lut q D V us x t); assumption.
  - intros es wt _ H. apply Z.leb_le. exact H.
Qed.
Print Assumptions C60_ternary_tail.

(** The ternary parameter sets shipped with the library, with a noise of mean square at most 42 (the
    declared standard deviation is 6.4; rounding to integers adds 1/12).  For the first one (N = 1024,
    base 2^3, 1024 mask entries) less than one draw in 877 gives an error of p/16 or more in a given coefficient. *)
Theorem C60_default_set (F : field) (tbl : tables) (b : basis) (s sk z lut : list Z) (D : dist Z) (us : list (rows2 * rows2)) (x : lwe) (t : nat) :
  let p := 132120577 in let n := (2 ^ 10)%nat in
  derive_field 32 p = Some F -> serves F tbl 10 -> basis_new F 3 = Some b -> 
  length s = n -> canonical p s -> into_ntt F tbl s = Some sk ->
  Forall (fun x => x = 0 \/ x = 1 \/ x = -1) z -> length z = n -> length us = length z ->
  Forall (fun u => rows2_shape n (bs_len b) (canonical p) (fst u) /\ rows2_shape n (bs_len b) (canonical p) (snd u)) us ->
  centred_dist 42 D ->
  length lut = n -> canonical p lut -> lwe_wf (2 * Z.of_nat n) (length z) x -> (t < n)%nat ->
  let DD := each (length z) (both (noise_rows2 n (bs_len b) D) (noise_rows2 n (bs_len b) D)) in
  let run es := let* key := ternary_generate F tbl (map (fun x => x mod 1024) z) sk b (draws2 p us es) in blind_rotate F tbl (BrTernary key) lut x b in
  877 * wsum DD (fun es => if p / 16 <=? Z.abs (run_error p n s z lut x t (run es)) then 1 else 0) <= mass DD.
Proof.
  intros p n HF Hs Hb Ls Cs HS Hz Lz Lu Hu HD Ll Cl Hx Ht DD run.
  assert (W32 : wwidth 32) by (exists 16; split; [discriminate|reflexivity]).
  pose proof (C60_ternary_tail 32 p 10 F tbl 3 b s sk z lut 1024 D 42 us x t (p / 16) W32 prime_default HF Hs ltac:(lia) ltac:(lia) Hb Ls Cs HS ltac:(lia) Hz Lu Hu HD ltac:(lia) Ll Cl Hx Ht ltac:(vm_compute; discriminate)) as H.
  cbv zeta in H. fold n DD in H. fold run in H. set (Wt := wsum DD _) in *.
  assert (El : bs_len b = 9%nat) by (vm_compute in HF; injection HF as <-; vm_compute in Hb; injection Hb as <-; reflexivity).
  rewrite El in H. replace (p / 16 * (p / 16)) with 68186900791296 in H by reflexivity.
  assert (Hn : nonzeros (la x) <= 1024).
  { destruct Hx as (Lx & _). rewrite Lz in Lx. pose proof (nonzeros_le (la x)) as NL. rewrite Lx in NL. exact NL. }
  assert (M0 : 0 <= mass DD) by (apply mass_nonneg; apply nonneg_each, nonneg_both; apply nonneg_both; apply nonneg_each, nonneg_each, HD).
  replace (2 * (2 * (Z.of_nat 9 * (Z.of_nat n * ((2 ^ 3 - 1) * (2 ^ 3 - 1) * 42))))) with 75866112 in H by reflexivity.
  assert (nonzeros (la x) * 75866112 * mass DD <= 1024 * 75866112 * mass DD) by (apply Z.mul_le_mono_nonneg_r; lia). lia.
Qed.
Print Assumptions C60_default_set.

(** Modulus 97, n = 2, base 2^4, noise uniform in {-1, 0, 1}: the hypotheses of the binary and of the
    ternary statement hold, the mean square of the noise is 2/3, and one of the draws run. *)
Definition C60_u : rows2 := ([[5; 6]; [90; 1]], [[0; 96]; [7; 8]]).
Definition C60_e : rows2 := ([[1; 0]; [0; -1]], [[0; 0]; [1; 1]]).
Definition C60_D : dist Z := [(-1, 1); (0, 1); (1, 1)].
Example C60_ex : exists F T b sk ct ct', prime 97 /\ derive_field 16 97 = Some F /\ serves F (fun _ => Some T) 1 /\
  basis_new F 4 = Some b /\ into_ntt F (fun _ => Some T) [1; 96] = Some sk /\
  rows2_shape 2 (bs_len b) (canonical 97) C60_u /\ centred_dist 1 C60_D /\ lwe_wf 4 2 (mk_lwe [1; 3] 2) /\ canonical 97 [12; 85] /\
  (let* key := binary_generate F (fun _ => Some T) [1; 0] sk b (draws 97 [C60_u; C60_u] [C60_e; C60_e]) in
   blind_rotate F (fun _ => Some T) (BrBinary key) [12; 85] (mk_lwe [1; 3] 2) b) = Some ct /\
  (let* key := ternary_generate F (fun _ => Some T) (map (fun x => x mod 16) [1; -1]) sk b (draws2 97 [(C60_u, C60_u); (C60_u, C60_u)] [(C60_e, C60_e); (C60_e, C60_e)]) in
   blind_rotate F (fun _ => Some T) (BrTernary key) [12; 85] (mk_lwe [1; 3] 2) b) = Some ct' /\
  rotation_error 97 2 [1; 96] [1; 0] [12; 85] (mk_lwe [1; 3] 2) 0 ct = 4.
Proof.
  eexists. eexists. eexists. eexists. eexists. eexists. split; [apply small_prime; vm_compute; reflexivity|].
  split; [vm_compute; reflexivity|]. split; [ex_serves|]. split; [vm_compute; reflexivity|].
  split; [vm_compute; reflexivity|]. split.
  { repeat (split || constructor); vm_compute; congruence. }
  split; [split; [repeat constructor; vm_compute; discriminate|split; vm_compute; [reflexivity|discriminate]]|].
  split; [ex_wf|]. split; [ex_canon|].
  split; [vm_compute; reflexivity|]. split; [vm_compute; reflexivity|]. vm_compute. reflexivity.
Qed.
