(** C67: any number of gates on fresh ciphertexts under one key pair; failures add up at most.  With the custom
    set, also over the randomness of the secret key. *)
From Coq Require Import ZArith Znumtheory List Bool Arith Lia.
From Verif Require Import Spec.Basic Spec.Poly Spec.Lattice Spec.Ring Spec.Blind Spec.Switch Spec.Gates Spec.KeyGen Spec.Count Spec.Moment Spec.Noise Spec.SubGauss Spec.Boot Spec.BootLwe Spec.Layer.
From Verif Require Import Model.Base Model.Plaintext Model.Field Model.NTT Model.Concrete Model.Poly Model.Lwe Model.Rlwe Model.Gadget Model.BlindRotation Model.KeySwitch Model.Params Model.Shipped Model.Boolean Model.SecretKey.
From Verif Require Import Proofs.NumTheory Proofs.FieldProofs Proofs.PolyProofs Proofs.KeyGenProofs Proofs.GateProofs Proofs.GateFormProofs Proofs.GateChanceProofs Proofs.SubGaussProofs Proofs.BinomProofs Proofs.LweChanceProofs Proofs.ExampleTac Proofs.MomentProofs Proofs.LayerProofs Proofs.ShippedChanceProofs Proofs.KeyWeightProofs Proofs.WholeRunProofs Props.C62 Props.C63 Props.C65.
Import ListNotations.
Local Open Scope Z_scope.

(** The order rotation, key switching, modulus switching.  Any bits encrypted under any masks, with noise of at
    most E each; any list of gates, each on inputs or negations of inputs, all evaluated with one evaluation
    key: the chance that any of them panics or decrypts to the wrong bit is at most the number of gates times
    the bound for a single gate. *)
Theorem C67_layer (BF p : Z) (k : nat) (F : field) (tbl : tables) (B j bits : Z) (P : parameters) (words rwords : nat -> Z) (gauss : list Z) (bk : basis) (D Dk : dist Z) (V Vk Vp : Z) (r : nat) (T : Z) (i : nat) (M : msg_type) :
  good_params BF p k F tbl B j bits P -> pp_key P = LTernary -> pp_steps P = BrKsMs -> Nat.log2_up (Z.to_nat (pp_n P)) = k ->
  words32 words -> words32 rwords -> ring_draw p k gauss -> basis_new F (pp_ks_bits P) = Some bk ->
  sub_gaussian V D -> 0 <= V -> sub_gaussian Vk Dk -> 0 <= Vk -> p * p <= 12 * Vp ->
  let q := 2 ^ j in let N := Z.of_nat (2 ^ k) in
  (p - 1) * q < 2 ^ 52 -> (1 <= r <= 2 ^ k)%nat -> 0 <= T -> 8 * T + 4 * p * (Z.of_nat r + 1) + 14 * q <= p * q ->
  exists kp, key_pack_new F tbl P words rwords gauss = Some kp /\
    let W := gate_variance k j bits P (bs_len bk) V Vk Vp (weight (kp_lwe kp)) in
    forall E ins, 0 <= E -> 24 * N * E + 2 * key_first_switch N q (weight (kp_lwe kp)) < q * N -> inputs_ok (length (kp_lwe kp)) q E ins ->
    exists cts, encrypt_all B kp ins = Some cts /\ forall cs, Forall (one_gate (length ins)) cs ->
      layer_at_most M B F tbl kp (2 ^ k) (bs_len bk) D Dk
        (Z.of_nat (length cs) * (odd_product i * W ^ Z.of_nat i * p ^ Z.of_nat (S r) + (N * pp_n P) ^ Z.of_nat (S r) * T ^ Z.of_nat (2 * i)))
        (T ^ Z.of_nat (2 * i) * p ^ Z.of_nat (S r)) ins cts cs.
Proof.
  intros HG HK HS HX Hw Hr Hg Hbk HD HV HDk HVk HVp q N H52 Hrr HT HB.
  destruct (C63_gates BF p k F tbl B j bits P words rwords gauss bk D Dk V Vk Vp r T i M HG HK HS HX Hw Hr Hg Hbk HD HV HDk HVk HVp H52 Hrr HT HB) as (kp & E & KP & H).
  exists kp. split; [exact E|]. intros W E0 ins HE HR HI.
  destruct HG as ((_ & Hp & _) & (HB1 & Hj & _) & (_ & Eq & Et & _) & _).
  assert (P0 : 0 <= p) by (pose proof (prime_ge_2 p Hp); lia).
  apply (gates_layer M B F tbl kp j N (key_first_switch N q (weight (kp_lwe kp))) E0); try assumption; try (rewrite KP; assumption).
  - unfold N. pose proof (Nat.pow_nonzero 2 k). lia.
  - pose proof (weight_le (kp_lwe kp)). unfold key_first_switch. destruct (_ =? _); [lia|]. unfold q. pose proof (Z.pow_nonneg 2 j). nia.
  - apply HD.
  - apply HDk.
  - apply Z.mul_nonneg_nonneg; apply Z.pow_nonneg; assumption.
Qed.
Print Assumptions C67_layer.

(** The same for the two orders that switch the modulus right after the rotation. *)
Theorem C67_lwe_layer (BF p : Z) (k : nat) (F : field) (tbl : tables) (B j bits : Z) (P : parameters) (words rwords : nat -> Z) (gauss : list Z) (D Dk : dist Z) (V Vk Vp : Z) (r : nat) (T T' : Z) (i i' : nat) (M : msg_type) :
  good_params BF p k F tbl B j bits P -> pp_key P = LTernary -> pp_steps P <> BrKsMs -> pp_n P <= p ->
  words32 words -> words32 rwords -> ring_draw p k gauss ->
  sub_gaussian V D -> 0 <= V -> sub_gaussian Vk Dk -> 0 <= Vk -> p * p <= 12 * Vp ->
  let q := 2 ^ j in let N := Z.of_nat (2 ^ k) in let lk := switch_levels j P in
  (p - 1) * q < 2 ^ 52 -> (1 <= r <= 2 ^ k)%nat -> 0 <= T -> 0 < T' -> 8 * (T + T') + 4 * p * (Z.of_nat r + 1) + 14 * q <= p * q ->
  exists kp, key_pack_new F tbl P words rwords gauss = Some kp /\
    let A := odd_product i * lwe_gate_variance p k j bits P lk V Vk ^ Z.of_nat i in let X := T ^ Z.of_nat (2 * i) in
    let A' := odd_product i' * (weight (kp_ring kp) * Vp) ^ Z.of_nat i' in let X' := T' ^ Z.of_nat (2 * i') in
    let A'' := (N * pp_n P) ^ Z.of_nat (S r) in let X'' := p ^ Z.of_nat (S r) in
    forall E ins, 0 <= E -> 24 * N * E + 2 * key_first_switch N q (weight (kp_lwe kp)) < q * N -> inputs_ok (length (kp_lwe kp)) q E ins ->
    exists cts, encrypt_all B kp ins = Some cts /\ forall cs, Forall (one_gate (length ins)) cs ->
      lwe_layer_at_most M B F tbl kp (2 ^ k) lk D Dk (Z.of_nat (length cs) * (A * X' * X'' + X * A' * X'' + X * X' * A'')) (X * X' * X'') ins cts cs.
Proof.
  intros HG HK HS Hnp Hw Hr Hg HD HV HDk HVk HVp q N lk H52 Hrr HT HT' HB.
  destruct (C65_gates BF p k F tbl B j bits P words rwords gauss D Dk V Vk Vp r T T' i i' M HG HK HS Hnp Hw Hr Hg HD HV HDk HVk HVp H52 Hrr HT HT' HB) as (kp & E & KP & H).
  exists kp. split; [exact E|]. intros A X A' X' A'' X'' E0 ins HE HR HI.
  destruct HG as ((_ & Hp & _) & (HB1 & Hj & _) & (_ & Eq & Et & _) & _).
  assert (P0 : 0 <= p) by (pose proof (prime_ge_2 p Hp); lia).
  apply (lwe_gates_layer M B F tbl kp j N (key_first_switch N q (weight (kp_lwe kp))) E0); try assumption; try (rewrite KP; assumption).
  - unfold N. pose proof (Nat.pow_nonzero 2 k). lia.
  - pose proof (weight_le (kp_lwe kp)). unfold key_first_switch. destruct (_ =? _); [lia|]. unfold q. pose proof (Z.pow_nonneg 2 j). nia.
  - apply HD.
  - apply HDk.
  - unfold X, X', X''. assert (0 <= T') by lia. repeat apply Z.mul_nonneg_nonneg; apply Z.pow_nonneg; assumption.
Qed.
Print Assumptions C67_lwe_layer.

(** The default set shipped, every secret key, noise up to 42 (the sampler used for encryption never exceeds
    21): less than one evaluation key in 2^113 / G breaks any of G gates. *)
Theorem C67_default_set (F : field) (tbl : tables) (P : parameters) (words rwords : nat -> Z) (gauss : list Z) (D Dk : dist Z) (M : msg_type) :
  derive_field 32 132120577 = Some F -> serves F tbl 10 -> params_new F default_set = Some (Some P) ->
  words32 words -> words32 rwords -> sub_gaussian 42 D -> sub_gaussian 42 Dk ->
  exists kp, key_pack_new F tbl P words rwords gauss = Some kp /\
  forall ins, inputs_ok (2 ^ 10) 1024 42 ins -> exists cts, encrypt_all 16 kp ins = Some cts /\
  forall cs, Forall (one_gate (length ins)) cs -> layer_at_most M 16 F tbl kp (2 ^ 10) 27 D Dk (Z.of_nat (length cs)) (2 ^ 113) ins cts cs.
Proof.
  intros HF Hsv HP Hw Hr HD HDk.
  destruct (default_gates F tbl P words rwords gauss D Dk M HF Hsv HP Hw Hr HD HDk) as (kp & E & KP & Eq & Et & Lk & HA).
  exists kp. split; [exact E|]. intros ins HI.
  destruct (gates_layer M 16 F tbl kp 10 1024 0 42 (2 ^ 10) 27 D Dk 1 (2 ^ 113) ins) as (cts & E1 & H); try lia; try (rewrite KP; assumption); try assumption.
  - apply HD.
  - apply HDk.
  - rewrite Lk. exact HI.
  - exists cts. split; [exact E1|]. intros cs Hcs. specialize (H cs Hcs). rewrite Z.mul_1_r in H. exact H.
Qed.
Print Assumptions C67_default_set.

(** The custom set shipped: the noise and the weight of the secret key share the room left. *)
Theorem C67_custom_set (F : field) (tbl : tables) (P : parameters) (words rwords : nat -> Z) (gauss : list Z) (D Dk : dist Z) (M : msg_type) :
  derive_field 32 132120577 = Some F -> serves F tbl 10 -> params_new F custom_set = Some (Some P) ->
  words32 words -> words32 rwords -> sub_gaussian 42 D -> sub_gaussian 42 Dk ->
  exists kp, key_pack_new F tbl P words rwords gauss = Some kp /\
  forall E ins, 0 <= E -> 3 * E + 4 * weight (kp_lwe kp) < 2044 -> inputs_ok (2 ^ 9) 16384 E ins -> exists cts, encrypt_all 16 kp ins = Some cts /\
  forall cs, Forall (one_gate (length ins)) cs -> lwe_layer_at_most M 16 F tbl kp (2 ^ 10) 2 D Dk (Z.of_nat (length cs)) (2 ^ 16) ins cts cs.
Proof.
  intros HF Hsv HP Hw Hr HD HDk.
  destruct (custom_gates F tbl P words rwords gauss D Dk M HF Hsv HP Hw Hr HD HDk) as (kp & E & KP & Eq & Et & Lk & HA).
  exists kp. split; [exact E|]. intros E0 ins HE HR HI. pose proof (weight_le (kp_lwe kp)) as HW.
  destruct (lwe_gates_layer M 16 F tbl kp 14 1024 (16384 * (1 + weight (kp_lwe kp))) E0 (2 ^ 10) 2 D Dk 1 (2 ^ 16) ins) as (cts & E1 & H); try lia; try (rewrite KP; assumption); try assumption.
  - apply HD.
  - apply HDk.
  - rewrite Lk. exact HI.
  - exists cts. split; [exact E1|]. intros cs Hcs. specialize (H cs Hcs). rewrite Z.mul_1_r in H. exact H.
Qed.
Print Assumptions C67_custom_set.

(** The weight of a ternary secret key: over uniform random words, the share of those for which key generation
    panics or the key has w or more nonzero entries is at most ((1 + t)/2)^n / t^w, for every t at least 1. *)
Theorem C67_key_weight (BF p : Z) (k : nat) (F : field) (tbl : tables) (B j bits : Z) (P : parameters) (rwords : nat -> Z) (gauss : list Z) (w t : Z) :
  good_params BF p k F tbl B j bits P -> pp_key P = LTernary -> words32 rwords -> ring_draw p k gauss -> 1 <= t -> 0 <= w ->
  let len := Z.to_nat (pp_n P) in let n := S (len / 16) in
  count (fun ws => match key_pack_new F tbl P (stream ws) rwords gauss with Some kp => w <=? weight (kp_lwe kp) | None => true end) (tuples n (2 ^ 32))
    * (t ^ w * 2 ^ pp_n P) <= (1 + t) ^ pp_n P * (2 ^ 32) ^ Z.of_nat n.
Proof. exact (key_weight BF p k F tbl B j bits P rwords gauss w t). Qed.
Print Assumptions C67_key_weight.

(** The custom set shipped, over the randomness of both keys.  The secret key is generated from uniform random
    words and the evaluation key from its own randomness; whatever is encrypted, under whatever masks and with
    noise within the sampler's range: the chance that anything in the run panics or any of G gates decrypts to
    the wrong bit is at most G / 2^16 + 1 / 2^400. *)
Theorem C67_custom_run (F : field) (tbl : tables) (P : parameters) (rwords : nat -> Z) (gauss : list Z) (D Dk : dist Z) (M : msg_type) (masks : list (list (list (list Z)))) (ins : inputs) (cs : list circuit) :
  derive_field 32 132120577 = Some F -> serves F tbl 10 -> params_new F custom_set = Some (Some P) ->
  words32 rwords -> sub_gaussian 42 D -> sub_gaussian 42 Dk -> switch_masks 16384 (2 ^ 9) (2 ^ 7) 2 (2 ^ 10) masks ->
  inputs_ok (2 ^ 9) 16384 21 ins -> Forall (one_gate (length ins)) cs ->
  let both_keys := both (each 33 (uniform (2 ^ 32))) (lwe_key_randomness (fp F) (2 ^ 10) (bs_len (pp_basis P)) 2 (2 ^ 9) (2 ^ 7) D Dk) in
  wsum both_keys (fun wx => run_fails M 16 F tbl P rwords gauss masks ins cs (fst wx) (snd wx)) * 2 ^ 400
    <= (Z.of_nat (length cs) * 2 ^ 384 + 1) * mass both_keys.
Proof. exact (custom_run F tbl P rwords gauss D Dk M masks ins cs). Qed.
Print Assumptions C67_custom_run.

(** The small set of C63 (N = 8, n = 5, key (1, -1, 0, 0, 0)), three inputs and four gates over them and their
    negations: the hypotheses hold, the bound is 4 / 2^100, and one choice of the randomness runs without
    failing; exchanging two of the bits claimed to be encrypted makes it fail. *)
Definition C67_in : inputs := [(true, ([100; 3; 900; 4; 6], -2)); (false, ([7; 0; 512; 9; 1], 1)); (true, ([1; 1023; 77; 0; 0], 3))].
Definition C67_other : inputs := [(false, ([100; 3; 900; 4; 6], -2)); (true, ([7; 0; 512; 9; 1], 1)); (true, ([1; 1023; 77; 0; 0], 3))].
Definition C67_gates : list circuit :=
  [CAnd (CInput 0) (CNot (CInput 1)); CMajority (CInput 0) (CInput 1) (CInput 2); CXor (CNot (CNot (CInput 0))) (CInput 2); COr (CInput 1) (CInput 1)].
Example C67_ex : exists F T b kp cts, let tbl := fun _ => Some T in let P := C63_par b in
  good_params 32 132120577 3 F tbl 16 10 7 P /\ pp_key P = LTernary /\ pp_steps P = BrKsMs /\ Nat.log2_up (Z.to_nat (pp_n P)) = 3%nat /\
  words32 C63_words /\ ring_draw 132120577 3 [1; 0; 5; 0; 0; 7; 2; 0] /\ basis_new F (pp_ks_bits P) = Some b /\ sub_gaussian 1 C62_D /\
  key_pack_new F tbl P C63_words C63_words [1; 0; 5; 0; 0; 7; 2; 0] = Some kp /\
  24 * 8 * 3 + 2 * key_first_switch 8 1024 (weight (kp_lwe kp)) < 1024 * 8 /\ inputs_ok (length (kp_lwe kp)) 1024 3 C67_in /\
  Forall (one_gate (length C67_in)) C67_gates /\ encrypt_all 16 kp C67_in = Some cts /\
  layer_fails MBool 16 F tbl kp C67_in cts C67_gates C63_x = 0 /\ layer_fails MBool 16 F tbl kp C67_other cts C67_gates C63_x = 1.
Proof.
  assert (W32 : wwidth 32) by (exists 16; split; [discriminate|reflexivity]).
  destruct (derive_field 32 132120577) as [F|] eqn:HF; [|vm_compute in HF; discriminate]. pose proof HF as HF'.
  vm_compute in HF'. injection HF' as EF.
  assert (HT : exists T, serves F (fun _ => Some T) 3 /\ generate_table F None (fun _ => 5) 3 = Some (Ok T)) by (subst F; eexists; split; [ex_serves|vm_compute; reflexivity]). destruct HT as (T & HT & ET).
  destruct (basis_new F 7) as [b|] eqn:Hb; [|rewrite <- EF in Hb; vm_compute in Hb; discriminate].
  pose proof Hb as Hb'. rewrite <- EF in Hb'. vm_compute in Hb'. injection Hb' as Eb.
  rewrite <- EF in ET. vm_compute in ET. injection ET as ET.
  exists F, T, b. eexists. eexists. cbv zeta. split; [|split; [|split; [|split; [|split; [|split; [|split; [|split; [|split; [|split; [|split; [|split; [|split]]]]]]]]]]]].
  - split; [|split; [|split]].
    + split; [exact W32|]. split; [exact prime_default|]. split; [reflexivity|]. split; [exact HF|]. split; [exact HT|lia].
    + repeat split; vm_compute; congruence.
    + split; [reflexivity|]. split; [reflexivity|]. split; [reflexivity|]. split; [lia|]. split; [exact Hb|discriminate].
    + split; [cbn; lia|]. split; [exists b; exact Hb|]. change (Nat.log2_up (Z.to_nat (pp_n (C63_par b)))) with 3%nat. split; [lia|exact HT].
  - reflexivity.
  - reflexivity.
  - reflexivity.
  - intros i. unfold C63_words. lia.
  - split; [reflexivity|]. ex_canon.
  - exact Hb.
  - destruct C62_ex as (_ & _ & _ & H & _). exact H.
  - rewrite <- EF, <- Eb, <- ET. vm_compute. reflexivity.
  - vm_compute. reflexivity.
  - repeat constructor; vm_compute; congruence.
  - repeat constructor.
  - vm_compute. reflexivity.
  - rewrite <- EF, <- Eb, <- ET. split; [vm_compute; reflexivity|vm_compute; reflexivity].
Qed.
