(** C69: under a binary LWE key, a bootstrapped gate fails with small probability over the randomness of the
    evaluation key. *)
From Coq Require Import ZArith Znumtheory List Bool Arith Lia.
From Verif Require Import Spec.Basic Spec.Poly Spec.Lattice Spec.Ring Spec.Blind Spec.Switch Spec.Gates Spec.KeyGen Spec.Count Spec.Moment Spec.Noise Spec.SubGauss Spec.Boot Spec.BootLwe Spec.BootBin.
From Verif Require Import Model.Base Model.Plaintext Model.Field Model.NTT Model.Concrete Model.Poly Model.Lwe Model.Rlwe Model.Gadget Model.BlindRotation Model.KeySwitch Model.Params Model.Shipped Model.Boolean Model.SecretKey.
From Verif Require Import Proofs.NumTheory Proofs.FieldProofs Proofs.PolyProofs Proofs.KeyGenProofs Proofs.GateProofs Proofs.GateFormProofs Proofs.GateChanceProofs Proofs.LweChanceProofs Proofs.GateChanceBinProofs Proofs.LweChanceBinProofs Proofs.SubGaussProofs Proofs.BinomProofs Proofs.ExampleTac Props.C28 Props.C62 Props.C63.
Import ListNotations.
Local Open Scope Z_scope.

(** Key generation under a binary LWE key, otherwise as C63: the order rotation, key switching, modulus
    switching, and an LWE dimension that rounds up to the ring dimension; masks uniform, noise with the moments
    of Gaussians of variances V and Vk.  The secret key is generated whatever the random words.  Over the
    randomness of the evaluation key, for gate inputs of any noise within the radius: the chance that
    evaluation key generation, the gate or decryption panics or a wrong bit is decrypted is at most the tail of
    a Gaussian of variance W beyond T, plus (Nn/p)^(r+1).  The rotation contributes half the variance it
    contributes under a ternary key. *)
Theorem C69_gates (BF p : Z) (k : nat) (F : field) (tbl : tables) (B j bits : Z) (P : parameters) (words rwords : nat -> Z) (gauss : list Z) (bk : basis) (D Dk : dist Z) (V Vk Vp : Z) (r : nat) (T : Z) (i : nat) (M : msg_type) :
  good_params BF p k F tbl B j bits P -> pp_key P = LBinary -> pp_steps P = BrKsMs -> Nat.log2_up (Z.to_nat (pp_n P)) = k ->
  words32 words -> words32 rwords -> ring_draw p k gauss -> basis_new F (pp_ks_bits P) = Some bk ->
  sub_gaussian V D -> 0 <= V -> sub_gaussian Vk Dk -> 0 <= Vk -> p * p <= 12 * Vp ->
  let q := 2 ^ j in let N := Z.of_nat (2 ^ k) in
  (p - 1) * q < 2 ^ 52 -> (1 <= r <= 2 ^ k)%nat -> 0 <= T -> 8 * T + 4 * p * (Z.of_nat r + 1) + 14 * q <= p * q ->
  exists kp, key_pack_new F tbl P words rwords gauss = Some kp /\ kp_par kp = P /\
    let W := bin_gate_variance k j bits P (bs_len bk) V Vk Vp (weight (kp_lwe kp)) in
    let fails := bin_fails_at_most M B F tbl kp (2 ^ k) (bs_len bk) D Dk
      (odd_product i * W ^ Z.of_nat i * p ^ Z.of_nat (S r) + (N * pp_n P) ^ Z.of_nat (S r) * T ^ Z.of_nat (2 * i))
      (T ^ Z.of_nat (2 * i) * p ^ Z.of_nat (S r)) in
    let fs := key_first_switch N q (weight (kp_lwe kp)) in
    forall m0 m1 e0 e1 c0 c1, bit_ct q (kp_lwe kp) m0 e0 c0 -> bit_ct q (kp_lwe kp) m1 e1 c1 ->
      (8 * N * Z.abs (e0 + e1) + 2 * fs < q * N ->
        fails (fun K => g_nand B F tbl K c0 c1) (negb (m0 && m1)) /\ fails (fun K => g_and B F tbl K c0 c1) (m0 && m1) /\
        fails (fun K => g_or B F tbl K c0 c1) (m0 || m1) /\ fails (fun K => g_nor B F tbl K c0 c1) (negb (m0 || m1))) /\
      (8 * N * Z.abs (e0 - e1) + fs < q * N ->
        fails (fun K => g_xor B F tbl K c0 c1) (xorb m0 m1) /\ fails (fun K => g_xnor B F tbl K c0 c1) (negb (xorb m0 m1))) /\
      (forall m2 e2 c2, bit_ct q (kp_lwe kp) m2 e2 c2 -> 8 * N * Z.abs (e0 + e1 + e2) + 2 * fs < q * N ->
        fails (fun K => g_majority B F tbl K c0 c1 c2) (m0 && m1 || m1 && m2 || m2 && m0)).
Proof.
  intros HG HK HS HX Hw Hr Hg Hbk HD HV HDk HVk HVp q N H52 Hrr HT HB.
  destruct (new_keys BF p k F tbl B j bits P HG words rwords gauss Hw Hr Hg) as (kp & E).
  destruct (GateChanceProofs.keys BF p k F tbl B j bits P HG HS words rwords gauss kp Hw Hr Hg E) as (z' & s & w & KP & _ & _ & _ & _ & _ & _ & _ & _ & Ep & C).
  destruct (bin_keys BF p k F tbl B j bits P words rwords gauss kp HG HK Hw E) as (z & Ez & Lz & Sz).
  exists kp. split; [exact E|]. split; [exact KP|]. intros W fails fs m0 m1 e0 e1 c0 c1 H0 H1.
  pose proof (q_big BF p k F tbl B j bits P HG) as Q8. fold q in Q8.
  assert (P8 : 8 <= p) by (apply Z.mul_le_mono_pos_r with q; [lia|]; destruct HG as ((_ & Hp & _) & _); pose proof (prime_ge_2 p Hp); nia).
  pose proof (fun m g => bin_chance BF p k F tbl B j bits P HG HK HS HX H52 words rwords gauss kp Hw Hr Hg E bk Hbk D Dk V Vk Vp HD HDk HV HVk HVp r T i M z Ez Lz Sz w C Ep Hrr HT HB m g) as CH.
  assert (BC : forall m e c, bit_ct q (kp_lwe kp) m e c -> bit_ct q z m e c).
  { intros m e c (H & H'). rewrite Ez, map_length in H. rewrite Ez in H'. unfold q in H'. rewrite phase_mod in H' by (fold q; lia). split; [exact H|exact H']. }
  apply BC in H0. apply BC in H1.
  assert (EF : fs = first_switch N q z) by (unfold fs; rewrite Ez; symmetry; apply first_switch_weight; [lia|apply RotBinProofs.bin_ter; exact Sz]). clearbody fs. subst fs.
  assert (HSET := setting BF p k F tbl B j bits P HG).
  split; [|split].
  - intros HR. destruct (form2 BF p k F tbl B j P z HSET w C P8 m0 m1 e0 e1 c0 c1 H0 H1 HR) as (G1 & G2 & G3 & G4).
    split; [|split; [|split]]; apply CH; assumption.
  - intros HR. destruct (formx BF p k F tbl B j P z HSET w C P8 m0 m1 e0 e1 c0 c1 H0 H1 HR) as (G1 & G2). split; apply CH; assumption.
  - intros m2 e2 c2 H2 HR. apply BC in H2. apply CH. exact (formm BF p k F tbl B j P z HSET w C P8 m0 m1 m2 e0 e1 e2 c0 c1 c2 H0 H1 H2 HR).
Qed.
Print Assumptions C69_gates.

(** The two orders that switch the modulus right after the rotation, otherwise as C65. *)
Theorem C69_lwe_gates (BF p : Z) (k : nat) (F : field) (tbl : tables) (B j bits : Z) (P : parameters) (words rwords : nat -> Z) (gauss : list Z) (D Dk : dist Z) (V Vk Vp : Z) (r : nat) (T T' : Z) (i i' : nat) (M : msg_type) :
  good_params BF p k F tbl B j bits P -> pp_key P = LBinary -> pp_steps P <> BrKsMs -> pp_n P <= p ->
  words32 words -> words32 rwords -> ring_draw p k gauss ->
  sub_gaussian V D -> 0 <= V -> sub_gaussian Vk Dk -> 0 <= Vk -> p * p <= 12 * Vp ->
  let q := 2 ^ j in let N := Z.of_nat (2 ^ k) in let lk := switch_levels j P in
  (p - 1) * q < 2 ^ 52 -> (1 <= r <= 2 ^ k)%nat -> 0 <= T -> 0 < T' -> 8 * (T + T') + 4 * p * (Z.of_nat r + 1) + 14 * q <= p * q ->
  exists kp, key_pack_new F tbl P words rwords gauss = Some kp /\ kp_par kp = P /\
    let A := odd_product i * bin_lwe_gate_variance p k j bits P lk V Vk ^ Z.of_nat i in let X := T ^ Z.of_nat (2 * i) in
    let A' := odd_product i' * (weight (kp_ring kp) * Vp) ^ Z.of_nat i' in let X' := T' ^ Z.of_nat (2 * i') in
    let A'' := (N * pp_n P) ^ Z.of_nat (S r) in let X'' := p ^ Z.of_nat (S r) in
    let fails := bin_lwe_fails_at_most M B F tbl kp (2 ^ k) lk D Dk (A * X' * X'' + X * A' * X'' + X * X' * A'') (X * X' * X'') in
    let fs := key_first_switch N q (weight (kp_lwe kp)) in
    forall m0 m1 e0 e1 c0 c1, bit_ct q (kp_lwe kp) m0 e0 c0 -> bit_ct q (kp_lwe kp) m1 e1 c1 ->
      (8 * N * Z.abs (e0 + e1) + 2 * fs < q * N ->
        fails (fun K => g_nand B F tbl K c0 c1) (negb (m0 && m1)) /\ fails (fun K => g_and B F tbl K c0 c1) (m0 && m1) /\
        fails (fun K => g_or B F tbl K c0 c1) (m0 || m1) /\ fails (fun K => g_nor B F tbl K c0 c1) (negb (m0 || m1))) /\
      (8 * N * Z.abs (e0 - e1) + fs < q * N ->
        fails (fun K => g_xor B F tbl K c0 c1) (xorb m0 m1) /\ fails (fun K => g_xnor B F tbl K c0 c1) (negb (xorb m0 m1))) /\
      (forall m2 e2 c2, bit_ct q (kp_lwe kp) m2 e2 c2 -> 8 * N * Z.abs (e0 + e1 + e2) + 2 * fs < q * N ->
        fails (fun K => g_majority B F tbl K c0 c1 c2) (m0 && m1 || m1 && m2 || m2 && m0)).
Proof.
  intros HG HK HS Hnp Hw Hr Hg HD HV HDk HVk HVp q N lk H52 Hrr HT HT' HB.
  destruct (new_keys BF p k F tbl B j bits P HG words rwords gauss Hw Hr Hg) as (kp & E).
  destruct (LweChanceProofs.keys BF p k F tbl B j bits P HG HS words rwords gauss kp Hw Hr Hg E) as (z' & s & w & KP & _ & _ & _ & _ & _ & _ & _ & _ & _ & Ep & C).
  destruct (bin_keys BF p k F tbl B j bits P words rwords gauss kp HG HK Hw E) as (z & Ez & Lz & Sz).
  exists kp. split; [exact E|]. split; [exact KP|]. intros A X A' X' A'' X'' fails fs m0 m1 e0 e1 c0 c1 H0 H1.
  pose proof (q_big BF p k F tbl B j bits P HG) as Q8. fold q in Q8.
  assert (P8 : 8 <= p) by (apply Z.mul_le_mono_pos_r with q; [lia|]; destruct HG as ((_ & Hp & _) & _); pose proof (prime_ge_2 p Hp); nia).
  pose proof (fun m g => bin_lwe_chance BF p k F tbl B j bits P HG HK HS H52 Hnp words rwords gauss kp Hw Hr Hg E D Dk V Vk Vp HD HDk HV HVk HVp r T T' i i' M z Ez Lz Sz w C Ep Hrr HT HT' HB m g) as CH.
  assert (BC : forall m e c, bit_ct q (kp_lwe kp) m e c -> bit_ct q z m e c).
  { intros m e c (H & H'). rewrite Ez, map_length in H. rewrite Ez in H'. unfold q in H'. rewrite phase_mod in H' by (fold q; lia). split; [exact H|exact H']. }
  apply BC in H0. apply BC in H1.
  assert (EF : fs = first_switch N q z) by (unfold fs; rewrite Ez; symmetry; apply first_switch_weight; [lia|apply RotBinProofs.bin_ter; exact Sz]). clearbody fs. subst fs.
  assert (HSET := setting BF p k F tbl B j bits P HG).
  split; [|split].
  - intros HR. destruct (form2 BF p k F tbl B j P z HSET w C P8 m0 m1 e0 e1 c0 c1 H0 H1 HR) as (G1 & G2 & G3 & G4).
    split; [|split; [|split]]; apply CH; assumption.
  - intros HR. destruct (formx BF p k F tbl B j P z HSET w C P8 m0 m1 e0 e1 c0 c1 H0 H1 HR) as (G1 & G2). split; apply CH; assumption.
  - intros m2 e2 c2 H2 HR. apply BC in H2. apply CH. exact (formm BF p k F tbl B j P z HSET w C P8 m0 m1 m2 e0 e1 e2 c0 c1 c2 H0 H1 H2 HR).
Qed.
Print Assumptions C69_lwe_gates.

(** The default parameter set with its LWE key made binary: less than one evaluation key in 2^115 makes a gate
    on fresh ciphertexts panic or decrypt to the wrong bit. *)
Definition default_binary : const_params := mk_const_params 1024 4 1024 LBinary 1024 132120577 RTernary 3 BrKsMs 1.
Theorem C69_default_binary (F : field) (tbl : tables) (P : parameters) (words rwords : nat -> Z) (gauss : list Z) (D Dk : dist Z) (M : msg_type) :
  derive_field 32 132120577 = Some F -> serves F tbl 10 -> params_new F default_binary = Some (Some P) ->
  words32 words -> words32 rwords -> sub_gaussian 42 D -> sub_gaussian 42 Dk ->
  exists kp, key_pack_new F tbl P words rwords gauss = Some kp /\
  forall (m0 m1 : bool) (a0 a1 : list Z) (e0 e1 : Z),
    length a0 = (2 ^ 10)%nat -> canonical 1024 a0 -> length a1 = (2 ^ 10)%nat -> canonical 1024 a1 -> Z.abs e0 + Z.abs e1 < 128 ->
    exists c0 c1, kp_encrypt 16 kp a0 (e0 mod 1024) (if m0 then 1 else 0) = Some c0 /\ kp_encrypt 16 kp a1 (e1 mod 1024) (if m1 then 1 else 0) = Some c1 /\
    let fails := bin_fails_at_most M 16 F tbl kp (2 ^ 10) 27 D Dk 1 (2 ^ 115) in
    fails (fun K => g_nand 16 F tbl K c0 c1) (negb (m0 && m1)) /\ fails (fun K => g_and 16 F tbl K c0 c1) (m0 && m1) /\
    fails (fun K => g_or 16 F tbl K c0 c1) (m0 || m1) /\ fails (fun K => g_nor 16 F tbl K c0 c1) (negb (m0 || m1)) /\
    fails (fun K => g_xor 16 F tbl K c0 c1) (xorb m0 m1) /\ fails (fun K => g_xnor 16 F tbl K c0 c1) (negb (xorb m0 m1)).
Proof.
  intros HF Hsv HP Hw Hr HD HDk.
  assert (W32 : wwidth 32) by (exists 16; split; [discriminate|reflexivity]).
  destruct (basis_new F 3) as [b|] eqn:Hb; [|vm_compute in HF; injection HF as <-; vm_compute in Hb; discriminate].
  destruct (basis_new F 1) as [bk|] eqn:Hbk; [|vm_compute in HF; injection HF as <-; vm_compute in Hbk; discriminate].
  assert (El : bs_len b = 9%nat) by (clear - HF Hb; vm_compute in HF; injection HF as <-; vm_compute in Hb; injection Hb as <-; reflexivity).
  assert (Elk : bs_len bk = 27%nat) by (clear - HF Hbk; vm_compute in HF; injection HF as <-; vm_compute in Hbk; injection Hbk as <-; reflexivity).
  assert (EP : P = mk_parameters 1024 4 1024 LBinary 1024 132120577 RTernary b 1 BrKsMs).
  { assert (E : params_new F default_binary = let* b := basis_new F 3 in Some (Some (mk_parameters 1024 4 1024 LBinary 1024 132120577 RTernary b 1 BrKsMs))) by reflexivity.
    rewrite E, Hb in HP. cbn [bind] in HP. congruence. }
  subst P. set (P := mk_parameters 1024 4 1024 LBinary 1024 132120577 RTernary b 1 BrKsMs) in *.
  assert (HG : good_params 32 132120577 10 F tbl 16 10 3 P).
  { split; [|split; [|split]].
    - split; [exact W32|]. split; [exact prime_default|]. split; [reflexivity|]. split; [exact HF|]. split; [exact Hsv|lia].
    - repeat split; vm_compute; congruence.
    - split; [reflexivity|]. split; [reflexivity|]. split; [reflexivity|]. split; [lia|]. split; [exact Hb|discriminate].
    - split; [cbn; lia|]. split; [exists bk; exact Hbk|]. change (Nat.log2_up (Z.to_nat (pp_n P))) with 10%nat. split; [lia|exact Hsv]. }
  assert (HGs : ring_draw 132120577 10 (repeat 0 (2 ^ 10))).
  { split; [apply repeat_length|]. apply Forall_forall. intros x Hx. apply repeat_spec in Hx. lia. }
  assert (EG : key_pack_new F tbl P words rwords gauss = key_pack_new F tbl P words rwords (repeat 0 (2 ^ 10))) by reflexivity.
  destruct (C69_gates 32 132120577 10 F tbl 16 10 3 P words rwords (repeat 0 (2 ^ 10)) bk D Dk 42 42 1454653905567745 17 15722346871 81 M HG eq_refl eq_refl eq_refl Hw Hr HGs Hbk HD ltac:(lia) HDk ltac:(lia) ltac:(vm_compute; discriminate) ltac:(vm_compute; reflexivity) ltac:(split; [lia|apply Nat.leb_le; reflexivity]) ltac:(vm_compute; discriminate) ltac:(vm_compute; discriminate)) as (kp & EK & KP & H).
  exists kp. rewrite EG. split; [exact EK|]. intros m0 m1 a0 a1 e0 e1 La0 Ca0 La1 Ca1 He.
  destruct (GateChanceProofs.keys 32 132120577 10 F tbl 16 10 3 P HG eq_refl words rwords _ kp Hw Hr HGs EK) as (z & _ & _ & _ & Ez & _ & _ & _ & _ & Lz & _).
  assert (Lk : length (kp_lwe kp) = (2 ^ 10)%nat) by (rewrite Ez, map_length, Lz; reflexivity).
  assert (ENC : forall (m : bool) a e, length a = (2 ^ 10)%nat -> canonical 1024 a -> Z.abs e < 128 ->
    exists c, kp_encrypt 16 kp a (e mod 1024) (if m then 1 else 0) = Some c /\ bit_ct (2 ^ 10) (kp_lwe kp) m e c).
  { intros m a e La Ca Hae. destruct (C28_roundtrip 16 2 10 MU64 (kp_lwe kp) a e (if m then 1 else 0)) as (c & Ec & Wc & _ & Pc & _).
    - lia.
    - lia.
    - congruence.
    - exact Ca.
    - destruct m; vm_compute; split; congruence.
    - destruct m; vm_compute; discriminate.
    - change (2 * 2 ^ 2) with 8. change (2 ^ 10) with 1024. lia.
    - exists c. unfold kp_encrypt. rewrite KP. split; [exact Ec|]. split; [exact Wc|]. rewrite Pc. f_equal. f_equal. destruct m; reflexivity. }
  destruct (ENC m0 a0 e0 La0 Ca0 ltac:(lia)) as (c0 & E0 & B0). destruct (ENC m1 a1 e1 La1 Ca1 ltac:(lia)) as (c1 & E1 & B1).
  exists c0, c1. split; [exact E0|]. split; [exact E1|].
  assert (W0 : forall h, 0 <= h <= 1024 -> 0 <= bin_gate_variance 10 10 3 P (bs_len bk) 42 42 1454653905567745 h <= bin_gate_variance 10 10 3 P (bs_len bk) 42 42 1454653905567745 1024).
  { intros h Hh. unfold bin_gate_variance. cbv zeta. rewrite Elk. change (pp_basis P) with b. rewrite El. change (pp_n P) with 1024. change (pp_ks_bits P) with 1.
    change (Z.of_nat (2 ^ 10)) with 1024. lia. }
  pose proof (weight_le (kp_lwe kp)) as HW. rewrite Lk in HW. change (Z.of_nat (2 ^ 10)) with 1024 in HW. specialize (W0 _ HW).
  cbv zeta in H. set (W := bin_gate_variance 10 10 3 P (bs_len bk) 42 42 1454653905567745 (weight (kp_lwe kp))) in *.
  assert (FSW : key_first_switch (Z.of_nat (2 ^ 10)) (2 ^ 10) (weight (kp_lwe kp)) = 0) by reflexivity.
  destruct (H m0 m1 e0 e1 c0 c1 B0 B1) as (H1 & H2 & _). rewrite FSW in H1, H2. change (Z.of_nat (2 ^ 10)) with 1024 in H1, H2. change (2 ^ 10) with 1024 in H1, H2.
  specialize (H1 ltac:(lia)). specialize (H2 ltac:(lia)).
  destruct H1 as (G1 & G2 & G3 & G4). destruct H2 as (G5 & G6).
  assert (EW : bin_gate_variance 10 10 3 P (bs_len bk) 42 42 1454653905567745 1024 = 1530297125663933440).
  { unfold bin_gate_variance. cbv zeta. rewrite Elk. change (pp_basis P) with b. rewrite El. reflexivity. }
  rewrite EW in W0. clearbody W. change (pp_n P) with 1024 in *. rewrite Elk in *.
  assert (WK : forall g m, bin_fails_at_most M 16 F tbl kp (2 ^ 10) 27 D Dk
      (odd_product 81 * W ^ Z.of_nat 81 * 132120577 ^ Z.of_nat 18 + (1024 * 1024) ^ Z.of_nat 18 * 15722346871 ^ Z.of_nat (2 * 81))
      (15722346871 ^ Z.of_nat (2 * 81) * 132120577 ^ Z.of_nat 18) g m -> bin_fails_at_most M 16 F tbl kp (2 ^ 10) 27 D Dk 1 (2 ^ 115) g m).
  { intros g m. apply (bin_fails_small _ _ _ _ _ _ _ _ _ _ _ _ _ _ _ _ 161).
    - apply HD.
    - apply HDk.
    - apply W0.
    - reflexivity.
    - apply Z.le_trans with (1530297125663933440 * 161); [apply Z.mul_le_mono_nonneg_r; [discriminate|apply W0]|vm_compute; discriminate].
    - reflexivity.
    - split; [reflexivity|discriminate].
    - reflexivity.
    - vm_compute; discriminate.
    - vm_compute; discriminate. }
  split; [|split; [|split; [|split; [|split]]]]; apply WK; assumption.
Qed.
Print Assumptions C69_default_binary.

(** N = 8, n = 5, q = 1024, both bases 2^7, noise uniform in {-1, 0, 1}: the hypotheses hold, those on the
    gate inputs too, the bound is at most 2^-100, and one choice of the randomness runs without failing; the
    key is (0, 1, 1, 0, 0). *)
Definition C69_par (b : basis) : parameters := mk_parameters 5 4 1024 LBinary 8 132120577 RTernary b 7 BrKsMs.
Definition C69_words (i : nat) : Z := 6.
Definition C69_x : bin_randomness := (repeat C63_u 5, (repeat C63_e 5, (fst C63_u, snd C63_e))).
Example C69_ex : exists F T b kp, let tbl := fun _ => Some T in let P := C69_par b in
  good_params 32 132120577 3 F tbl 16 10 7 P /\ pp_key P = LBinary /\ pp_steps P = BrKsMs /\ Nat.log2_up (Z.to_nat (pp_n P)) = 3%nat /\
  words32 C69_words /\ ring_draw 132120577 3 [1; 0; 5; 0; 0; 7; 2; 0] /\ basis_new F (pp_ks_bits P) = Some b /\ sub_gaussian 1 C62_D /\
  (132120577 - 1) * 2 ^ 10 < 2 ^ 52 /\
  key_pack_new F tbl P C69_words C69_words [1; 0; 5; 0; 0; 7; 2; 0] = Some kp /\ kp_lwe kp = [0; 1; 1; 0; 0] /\
  (let T := 16000000000 in let W := bin_gate_variance 3 10 7 P (bs_len b) 1 1 1454653905567745 (weight (kp_lwe kp)) in
   8 * T + 4 * 132120577 * (4 + 1) + 14 * 1024 <= 132120577 * 1024 /\ 132120577 * 132120577 <= 12 * 1454653905567745 /\
   2 ^ 100 * (odd_product 24 * W ^ 24 * 132120577 ^ 5 + (8 * 5) ^ 5 * T ^ 48) <= T ^ 48 * 132120577 ^ 5) /\
  exists c, kp_encrypt 16 kp [100; 3; 900; 5; 512] 1022 1 = Some c /\ bit_ct 1024 (kp_lwe kp) true (-2) c /\
    8 * 8 * Z.abs (-2 + -2 + -2) + 2 * key_first_switch 8 1024 (weight (kp_lwe kp)) < 1024 * 8 /\
    bin_gate_fails MBool 16 F tbl kp (fun K => g_nand 16 F tbl K c c) false C69_x = 0 /\
    bin_gate_fails MBool 16 F tbl kp (fun K => g_nand 16 F tbl K c c) true C69_x = 1.
Proof.
  assert (W32 : wwidth 32) by (exists 16; split; [discriminate|reflexivity]).
  destruct (derive_field 32 132120577) as [F|] eqn:HF; [|vm_compute in HF; discriminate]. pose proof HF as HF'.
  vm_compute in HF'. injection HF' as EF.
  assert (HT : exists T, serves F (fun _ => Some T) 3 /\ generate_table F None (fun _ => 5) 3 = Some (Ok T)) by (subst F; eexists; split; [ex_serves|vm_compute; reflexivity]). destruct HT as (T & HT & ET).
  destruct (basis_new F 7) as [b|] eqn:Hb; [|rewrite <- EF in Hb; vm_compute in Hb; discriminate].
  pose proof Hb as Hb'. rewrite <- EF in Hb'. vm_compute in Hb'. injection Hb' as Eb.
  rewrite <- EF in ET. vm_compute in ET. injection ET as ET.
  exists F, T, b. eexists. cbv zeta. split; [|split; [|split; [|split; [|split; [|split; [|split; [|split; [|split; [|split; [|split; [|split]]]]]]]]]]].
  - split; [|split; [|split]].
    + split; [exact W32|]. split; [exact prime_default|]. split; [reflexivity|]. split; [exact HF|]. split; [exact HT|lia].
    + repeat split; vm_compute; congruence.
    + split; [reflexivity|]. split; [reflexivity|]. split; [reflexivity|]. split; [lia|]. split; [exact Hb|discriminate].
    + split; [cbn; lia|]. split; [exists b; exact Hb|]. change (Nat.log2_up (Z.to_nat (pp_n (C69_par b)))) with 3%nat. split; [lia|exact HT].
  - reflexivity.
  - reflexivity.
  - reflexivity.
  - intros i. unfold C69_words. lia.
  - split; [reflexivity|]. ex_canon.
  - exact Hb.
  - destruct C62_ex as (_ & _ & _ & H & _). exact H.
  - reflexivity.
  - rewrite <- EF, <- Eb, <- ET. vm_compute. reflexivity.
  - reflexivity.
  - rewrite <- Eb. split; [vm_compute; discriminate|]. split; [vm_compute; discriminate|]. vm_compute. discriminate.
  - eexists. split; [vm_compute; reflexivity|]. split; [split; [ex_wf|vm_compute; reflexivity]|]. split; [vm_compute; reflexivity|].
    rewrite <- EF, <- Eb, <- ET. split; [vm_compute; reflexivity|vm_compute; reflexivity].
Qed.

(** N = 8, q = 1024, rotation base 2^7, noise uniform in {-1, 0, 1}; n = 5 and a switching key of four levels of
    base 2^3, or n = 8 and none.  The hypotheses hold, those on the gate inputs too, the bound is at most
    2^-100, and one choice of the randomness runs without failing. *)
Definition C69_lwe_par (b : basis) (st : steps) : parameters :=
  match st with BrMs => mk_parameters 8 4 1024 LBinary 8 132120577 RTernary b 0 BrMs | _ => mk_parameters 5 4 1024 LBinary 8 132120577 RTernary b 3 BrMsKs end.
Definition C69_masks (st : steps) : list (list (list (list Z))) := match st with BrMs => [] | _ => repeat (repeat (repeat [100; 3; 900; 5; 512] 7) 8) 4 end.
Definition C69_lwe_x (st : steps) : bin_lwe_randomness :=
  let n := match st with BrMs => 8%nat | _ => 5%nat end in
  (repeat C63_u n, (repeat C63_e n, match st with BrMs => [] | _ => repeat (repeat (map (fun i => Z.of_nat i mod 3 - 1) (seq 0 7)) 8) 4 end)).
Example C69_lwe_ex : forall st, st <> BrKsMs -> exists F T b kp, let tbl := fun _ => Some T in let P := C69_lwe_par b st in
  good_params 32 132120577 3 F tbl 16 10 7 P /\ pp_key P = LBinary /\ pp_steps P = st /\ pp_n P <= 132120577 /\
  words32 C69_words /\ ring_draw 132120577 3 [1; 0; 5; 0; 0; 7; 2; 0] /\ sub_gaussian 1 C62_D /\ (132120577 - 1) * 2 ^ 10 < 2 ^ 52 /\
  key_pack_new F tbl P C69_words C69_words [1; 0; 5; 0; 0; 7; 2; 0] = Some kp /\ switch_masks 1024 (length (kp_lwe kp)) (2 ^ pp_ks_bits P) (switch_levels 10 P) (2 ^ 3) (C69_masks st) /\
  (let T := 105 * 132120577 in let T' := 20 * 132120577 in let W := bin_lwe_gate_variance 132120577 3 10 7 P (switch_levels 10 P) 1 1 in
   8 * (T + T') + 4 * 132120577 * (4 + 1) + 14 * 1024 <= 132120577 * 1024 /\ 132120577 * 132120577 <= 12 * 1454653905567745 /\
   2 ^ 100 * (odd_product 24 * W ^ 24 * T' ^ 48 * 132120577 ^ 5 + T ^ 48 * (odd_product 24 * (8 * 1454653905567745) ^ 24) * 132120577 ^ 5 + T ^ 48 * T' ^ 48 * (8 * pp_n P) ^ 5) <= T ^ 48 * T' ^ 48 * 132120577 ^ 5) /\
  exists c, kp_encrypt 16 kp (firstn (length (kp_lwe kp)) [100; 3; 900; 77; 1; 2; 600; 0]) 1022 1 = Some c /\ bit_ct 1024 (kp_lwe kp) true (-2) c /\
    8 * 8 * Z.abs (-2 + -2 + -2) + 2 * key_first_switch 8 1024 (weight (kp_lwe kp)) < 1024 * 8 /\
    bin_lwe_gate_fails MBool 16 F tbl kp (C69_masks st) (fun K => g_nand 16 F tbl K c c) false (C69_lwe_x st) = 0.
Proof.
  intros st Hst. assert (W32 : wwidth 32) by (exists 16; split; [discriminate|reflexivity]).
  destruct (derive_field 32 132120577) as [F|] eqn:HF; [|vm_compute in HF; discriminate]. pose proof HF as HF'.
  vm_compute in HF'. injection HF' as EF.
  assert (HT : exists T, serves F (fun _ => Some T) 3 /\ generate_table F None (fun _ => 5) 3 = Some (Ok T)) by (subst F; eexists; split; [ex_serves|vm_compute; reflexivity]). destruct HT as (T & HT & ET).
  destruct (basis_new F 7) as [b|] eqn:Hb; [|rewrite <- EF in Hb; vm_compute in Hb; discriminate].
  pose proof Hb as Hb'. rewrite <- EF in Hb'. vm_compute in Hb'. injection Hb' as Eb.
  rewrite <- EF in ET. vm_compute in ET. injection ET as ET.
  exists F, T, b. destruct st; [|contradiction Hst; reflexivity|]; (eexists; cbv zeta; split; [|split; [|split; [|split; [|split; [|split; [|split; [|split; [|split; [|split; [|split]]]]]]]]]];
  [split; [|split; [|split]];
    [split; [exact W32|]; split; [exact prime_default|]; split; [reflexivity|]; split; [exact HF|]; split; [exact HT|lia]
    |repeat split; vm_compute; congruence
    |split; [reflexivity|]; split; [reflexivity|]; split; [reflexivity|]; split; [lia|]; split; [exact Hb|discriminate]
    |split; [discriminate|first [reflexivity|cbn; lia]]]
  |reflexivity
  |reflexivity
  |vm_compute; discriminate
  |intros i; unfold C69_words; lia
  |split; [reflexivity|]; ex_canon
  |destruct C62_ex as (_ & _ & _ & H & _); exact H
  |reflexivity
  |rewrite <- EF, <- Eb, <- ET; vm_compute; reflexivity
  | 
  |rewrite <- Eb; split; [vm_compute; discriminate|]; split; [vm_compute; discriminate|]; vm_compute; discriminate
  |eexists; split; [vm_compute; reflexivity|]; split; [split; [ex_wf|vm_compute; reflexivity]|]; split; [vm_compute; reflexivity|];
    rewrite <- EF, <- Eb, <- ET; vm_compute; reflexivity]).
  - assert (FR : forall A (Q : A -> Prop) x n, Q x -> Forall Q (repeat x n)) by (intros A Q x n Hx; apply Forall_forall; intros y Hy; apply repeat_spec in Hy; subst y; exact Hx).
    split; [reflexivity|]. apply FR. split; [reflexivity|]. apply FR. split; [reflexivity|]. apply FR. split; [reflexivity|ex_canon].
  - split; [reflexivity|constructor].
Qed.
