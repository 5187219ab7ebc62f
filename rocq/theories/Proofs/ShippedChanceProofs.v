(** Chances of all gates for the shipped sets, in the form used for layers, and whole runs. *)
From Coq Require Import ZArith Znumtheory List Bool Arith Lia.
From Verif Require Import Spec.Basic Spec.Poly Spec.Lattice Spec.Ring Spec.Blind Spec.Switch Spec.Gates Spec.KeyGen Spec.Count Spec.Moment Spec.Noise Spec.SubGauss Spec.Boot Spec.BootLwe Spec.Layer.
From Verif Require Import Model.Base Model.Plaintext Model.Field Model.NTT Model.Concrete Model.Poly Model.Lwe Model.Rlwe Model.Gadget Model.BlindRotation Model.KeySwitch Model.Params Model.Shipped Model.Boolean Model.SecretKey.
From Verif Require Import Proofs.NumTheory Proofs.FieldProofs Proofs.PolyProofs Proofs.KeyGenProofs Proofs.GateProofs Proofs.GateFormProofs Proofs.GateChanceProofs Proofs.SubGaussProofs Proofs.BinomProofs Proofs.LweChanceProofs Proofs.ExampleTac Proofs.MomentProofs Proofs.LayerProofs Props.C28 Props.C62 Props.C63 Props.C65.
Import ListNotations.
Local Open Scope Z_scope.


Definition all_gates (B : Z) (F : field) (tbl : tables) (kp : key_pack) (q N fs : Z) (fails : (eval_key -> option lwe) -> bool -> Prop) : Prop :=
  forall m0 m1 e0 e1 c0 c1, bit_ct q (kp_lwe kp) m0 e0 c0 -> bit_ct q (kp_lwe kp) m1 e1 c1 ->
      (8 * N * Z.abs (e0 + e1) + 2 * fs < q * N ->
        fails (fun K => g_nand B F tbl K c0 c1) (negb (m0 && m1)) /\ fails (fun K => g_and B F tbl K c0 c1) (m0 && m1) /\
        fails (fun K => g_or B F tbl K c0 c1) (m0 || m1) /\ fails (fun K => g_nor B F tbl K c0 c1) (negb (m0 || m1))) /\
      (8 * N * Z.abs (e0 - e1) + fs < q * N ->
        fails (fun K => g_xor B F tbl K c0 c1) (xorb m0 m1) /\ fails (fun K => g_xnor B F tbl K c0 c1) (negb (xorb m0 m1))) /\
      (forall m2 e2 c2, bit_ct q (kp_lwe kp) m2 e2 c2 -> 8 * N * Z.abs (e0 + e1 + e2) + 2 * fs < q * N ->
        fails (fun K => g_majority B F tbl K c0 c1 c2) (m0 && m1 || m1 && m2 || m2 && m0)).
Lemma all_gates_mono B F tbl kp q N fs (f f' : (eval_key -> option lwe) -> bool -> Prop) : (forall g m, f g m -> f' g m) -> all_gates B F tbl kp q N fs f -> all_gates B F tbl kp q N fs f'.
Proof.
  intros H HA m0 m1 e0 e1 c0 c1 H0 H1. destruct (HA m0 m1 e0 e1 c0 c1 H0 H1) as (A1 & A2 & A3). split; [|split].
  - intros HR. destruct (A1 HR) as (G1 & G2 & G3 & G4). auto 6.
  - intros HR. destruct (A2 HR) as (G1 & G2). auto.
  - intros m2 e2 c2 H2 HR. apply H. eapply A3; eassumption.
Qed.

Lemma default_gates (F : field) (tbl : tables) (P : parameters) (words rwords : nat -> Z) (gauss : list Z) (D Dk : dist Z) (M : msg_type) :
  derive_field 32 132120577 = Some F -> serves F tbl 10 -> params_new F default_set = Some (Some P) ->
  words32 words -> words32 rwords -> sub_gaussian 42 D -> sub_gaussian 42 Dk ->
  exists kp, key_pack_new F tbl P words rwords gauss = Some kp /\ kp_par kp = P /\ pp_q P = 2 ^ 10 /\ pp_t P = 4 /\ length (kp_lwe kp) = (2 ^ 10)%nat /\
    all_gates 16 F tbl kp (2 ^ 10) 1024 0 (fails_at_most M 16 F tbl kp (2 ^ 10) 27 D Dk 1 (2 ^ 113)).
Proof.
  intros HF Hsv HP Hw Hr HD HDk.
  assert (W32 : wwidth 32) by (exists 16; split; [discriminate|reflexivity]).
  destruct (basis_new F 3) as [b|] eqn:Hb; [|vm_compute in HF; injection HF as <-; vm_compute in Hb; discriminate].
  destruct (basis_new F 1) as [bk|] eqn:Hbk; [|vm_compute in HF; injection HF as <-; vm_compute in Hbk; discriminate].
  assert (El : bs_len b = 9%nat) by (clear - HF Hb; vm_compute in HF; injection HF as <-; vm_compute in Hb; injection Hb as <-; reflexivity).
  assert (Elk : bs_len bk = 27%nat) by (clear - HF Hbk; vm_compute in HF; injection HF as <-; vm_compute in Hbk; injection Hbk as <-; reflexivity).
  assert (EP : P = mk_parameters 1024 4 1024 LTernary 1024 132120577 RTernary b 1 BrKsMs).
  { assert (E : params_new F default_set = let* b := basis_new F 3 in Some (Some (mk_parameters 1024 4 1024 LTernary 1024 132120577 RTernary b 1 BrKsMs))) by reflexivity.
    rewrite E, Hb in HP. cbn [bind] in HP. congruence. }
  subst P. set (P := mk_parameters 1024 4 1024 LTernary 1024 132120577 RTernary b 1 BrKsMs) in *.
  assert (HG : good_params 32 132120577 10 F tbl 16 10 3 P).
  { split; [|split; [|split]].
    - split; [exact W32|]. split; [exact prime_default|]. split; [reflexivity|]. split; [exact HF|]. split; [exact Hsv|lia].
    - repeat split; vm_compute; congruence.
    - split; [reflexivity|]. split; [reflexivity|]. split; [reflexivity|]. split; [lia|]. split; [exact Hb|discriminate].
    - split; [cbn; lia|]. split; [exists bk; exact Hbk|]. change (Nat.log2_up (Z.to_nat (pp_n P))) with 10%nat. split; [lia|exact Hsv]. }
  assert (HGs : ring_draw 132120577 10 (repeat 0 (2 ^ 10))).
  { split; [apply repeat_length|]. apply Forall_forall. intros x Hx. apply repeat_spec in Hx. lia. }
  assert (EG : key_pack_new F tbl P words rwords gauss = key_pack_new F tbl P words rwords (repeat 0 (2 ^ 10))) by reflexivity.
  destruct (C63_gates 32 132120577 10 F tbl 16 10 3 P words rwords (repeat 0 (2 ^ 10)) bk D Dk 42 42 1454653905567745 16 15788407159 79 M HG eq_refl eq_refl eq_refl Hw Hr HGs Hbk HD ltac:(lia) HDk ltac:(lia) ltac:(vm_compute; discriminate) ltac:(vm_compute; reflexivity) ltac:(split; [lia|apply Nat.leb_le; reflexivity]) ltac:(vm_compute; discriminate) ltac:(vm_compute; discriminate)) as (kp & EK & KP & H).
  exists kp. rewrite EG. split; [exact EK|]. split; [exact KP|]. split; [reflexivity|]. split; [reflexivity|].
  destruct (GateChanceProofs.keys 32 132120577 10 F tbl 16 10 3 P HG eq_refl words rwords _ kp Hw Hr HGs EK) as (z & _ & _ & _ & Ez & _ & _ & _ & _ & Lz & _).
  assert (Lk : length (kp_lwe kp) = (2 ^ 10)%nat) by (rewrite Ez, map_length, Lz; reflexivity). split; [exact Lk|].
  assert (W0 : forall h, 0 <= h <= 1024 -> 0 <= gate_variance 10 10 3 P (bs_len bk) 42 42 1454653905567745 h <= gate_variance 10 10 3 P (bs_len bk) 42 42 1454653905567745 1024).
  { intros h Hh. unfold gate_variance. cbv zeta. rewrite Elk. change (pp_basis P) with b. rewrite El. change (pp_n P) with 1024. change (pp_ks_bits P) with 1.
    change (Z.of_nat (2 ^ 10)) with 1024. lia. }
  pose proof (weight_le (kp_lwe kp)) as HW. rewrite Lk in HW. change (Z.of_nat (2 ^ 10)) with 1024 in HW. specialize (W0 _ HW).
  cbv zeta in H. set (W := gate_variance 10 10 3 P (bs_len bk) 42 42 1454653905567745 (weight (kp_lwe kp))) in *.
  assert (FSW : key_first_switch (Z.of_nat (2 ^ 10)) (2 ^ 10) (weight (kp_lwe kp)) = 0) by reflexivity.
  assert (EW : gate_variance 10 10 3 P (bs_len bk) 42 42 1454653905567745 1024 = 1571027434403267584).
  { unfold gate_variance. cbv zeta. rewrite Elk. change (pp_basis P) with b. rewrite El. reflexivity. }
  rewrite EW in W0. clearbody W. change (pp_n P) with 1024 in *. rewrite Elk in *.
  assert (WK : forall g m, fails_at_most M 16 F tbl kp (2 ^ 10) 27 D Dk
      (odd_product 79 * W ^ Z.of_nat 79 * 132120577 ^ Z.of_nat 17 + (1024 * 1024) ^ Z.of_nat 17 * 15788407159 ^ Z.of_nat (2 * 79))
      (15788407159 ^ Z.of_nat (2 * 79) * 132120577 ^ Z.of_nat 17) g m -> fails_at_most M 16 F tbl kp (2 ^ 10) 27 D Dk 1 (2 ^ 113) g m).
  { intros g m. apply (fails_small _ _ _ _ _ _ _ _ _ _ _ _ _ _ _ _ 158).
    - apply HD.
    - apply HDk.
    - apply W0.
    - reflexivity.
    - apply Z.le_trans with (1571027434403267584 * 158); [apply Z.mul_le_mono_nonneg_r; [discriminate|apply W0]|vm_compute; discriminate].
    - reflexivity.
    - split; [reflexivity|discriminate].
    - reflexivity.
    - vm_compute; discriminate.
    - vm_compute; discriminate. }
  apply (all_gates_mono _ _ _ _ _ _ _ _ _ WK). rewrite FSW in H. exact H.
Qed.

Lemma custom_gates (F : field) (tbl : tables) (P : parameters) (words rwords : nat -> Z) (gauss : list Z) (D Dk : dist Z) (M : msg_type) :
  derive_field 32 132120577 = Some F -> serves F tbl 10 -> params_new F custom_set = Some (Some P) ->
  words32 words -> words32 rwords -> sub_gaussian 42 D -> sub_gaussian 42 Dk ->
  exists kp, key_pack_new F tbl P words rwords gauss = Some kp /\ kp_par kp = P /\ pp_q P = 2 ^ 14 /\ pp_t P = 4 /\ length (kp_lwe kp) = (2 ^ 9)%nat /\
    all_gates 16 F tbl kp (2 ^ 14) 1024 (16384 * (1 + weight (kp_lwe kp))) (lwe_fails_at_most M 16 F tbl kp (2 ^ 10) 2 D Dk 1 (2 ^ 16)).
Proof.
  intros HF Hsv HP Hw Hr HD HDk.
  assert (W32 : wwidth 32) by (exists 16; split; [discriminate|reflexivity]).
  destruct (basis_new F 7) as [b|] eqn:Hb; [|vm_compute in HF; injection HF as <-; vm_compute in Hb; discriminate].
  assert (El : bs_len b = 4%nat) by (clear - HF Hb; vm_compute in HF; injection HF as <-; vm_compute in Hb; injection Hb as <-; reflexivity).
  assert (EP : P = mk_parameters 512 4 16384 LTernary 1024 132120577 RTernary b 7 BrMsKs).
  { assert (E : params_new F custom_set = let* b := basis_new F 7 in Some (Some (mk_parameters 512 4 16384 LTernary 1024 132120577 RTernary b 7 BrMsKs))) by reflexivity.
    rewrite E, Hb in HP. cbn [bind] in HP. congruence. }
  subst P. set (P := mk_parameters 512 4 16384 LTernary 1024 132120577 RTernary b 7 BrMsKs) in *.
  assert (HG : good_params 32 132120577 10 F tbl 16 14 7 P).
  { split; [|split; [|split]].
    - split; [exact W32|]. split; [exact prime_default|]. split; [reflexivity|]. split; [exact HF|]. split; [exact Hsv|lia].
    - repeat split; vm_compute; congruence.
    - split; [reflexivity|]. split; [reflexivity|]. split; [reflexivity|]. split; [lia|]. split; [exact Hb|discriminate].
    - split; [discriminate|cbn; lia]. }
  assert (HGs : ring_draw 132120577 10 (repeat 0 (2 ^ 10))).
  { split; [apply repeat_length|]. apply Forall_forall. intros x Hx. apply repeat_spec in Hx. lia. }
  assert (EG : key_pack_new F tbl P words rwords gauss = key_pack_new F tbl P words rwords (repeat 0 (2 ^ 10))) by reflexivity.
  destruct (C65_gates 32 132120577 10 F tbl 16 14 7 P words rwords (repeat 0 (2 ^ 10)) D Dk 42 42 1454653905567745 2 263514462154 (52 * 132120577) 11 16 M HG eq_refl ltac:(discriminate) ltac:(vm_compute; discriminate) Hw Hr HGs HD ltac:(lia) HDk ltac:(lia) ltac:(vm_compute; discriminate) ltac:(vm_compute; reflexivity) ltac:(split; [lia|apply Nat.leb_le; reflexivity]) ltac:(vm_compute; discriminate) ltac:(vm_compute; reflexivity) ltac:(vm_compute; discriminate)) as (kp & EK & KP & H).
  exists kp. rewrite EG. split; [exact EK|]. split; [exact KP|]. split; [reflexivity|]. split; [reflexivity|].
  destruct (LweChanceProofs.keys 32 132120577 10 F tbl 16 14 7 P HG ltac:(discriminate) words rwords _ kp Hw Hr HGs EK) as (z & s & _ & _ & Ez & Es & _ & Ls & _ & _ & Lz & _).
  assert (Lk : length (kp_lwe kp) = (2 ^ 9)%nat) by (rewrite Ez, map_length, Lz; reflexivity). split; [exact Lk|].
  pose proof (weight_le (kp_ring kp)) as HW. replace (length (kp_ring kp)) with (2 ^ 10)%nat in HW by (rewrite Es, map_length; symmetry; exact Ls). change (Z.of_nat (2 ^ 10)) with 1024 in HW.
  set (h := weight (kp_lwe kp)) in *.
  assert (EV : lwe_gate_variance 132120577 10 14 7 P (switch_levels 14 P) 42 42 = 3026891850282814230528).
  { unfold lwe_gate_variance. cbv zeta. change (pp_basis P) with b. rewrite El. reflexivity. }
  cbv zeta in H. rewrite EV in H. change (switch_levels 14 P) with 2%nat in H.
  assert (FSW : key_first_switch (Z.of_nat (2 ^ 10)) (2 ^ 14) h = 16384 * (1 + h)) by reflexivity.
  rewrite FSW in H.
  set (A := odd_product 11 * 3026891850282814230528 ^ Z.of_nat 11) in *. set (X := 263514462154 ^ Z.of_nat (2 * 11)) in *. set (X' := (52 * 132120577) ^ Z.of_nat (2 * 16)) in *.
  set (A'' := (1024 * pp_n P) ^ Z.of_nat 3) in *. set (X'' := 132120577 ^ Z.of_nat 3) in *. set (A' := odd_product 16 * (weight (kp_ring kp) * 1454653905567745) ^ Z.of_nat 16) in *.
  assert (HA : A' <= odd_product 16 * (1024 * 1454653905567745) ^ Z.of_nat 16).
  { unfold A'. apply Z.mul_le_mono_nonneg_l; [vm_compute; discriminate|]. apply Z.pow_le_mono_l. lia. }
  assert (WK : forall g m, lwe_fails_at_most M 16 F tbl kp (2 ^ 10) 2 D Dk (A * X' * X'' + X * A' * X'' + X * X' * A'') (X * X' * X'') g m -> lwe_fails_at_most M 16 F tbl kp (2 ^ 10) 2 D Dk 1 (2 ^ 16) g m).
  { intros g m. apply (lwe_fails_weaken _ _ _ _ _ _ _ _ _ _ _ (A * X' * X'' + X * (odd_product 16 * (1024 * 1454653905567745) ^ Z.of_nat 16) * X'' + X * X' * A'')).
    - apply HD.
    - apply HDk.
    - vm_compute; reflexivity.
    - apply Z.add_le_mono_r, Z.add_le_mono_l. apply Z.mul_le_mono_nonneg_r; [vm_compute; discriminate|]. apply Z.mul_le_mono_nonneg_l; [vm_compute; discriminate|exact HA].
    - vm_compute; discriminate. }
  apply (all_gates_mono _ _ _ _ _ _ _ _ _ WK). exact H.
Qed.

(** From the gates to layers of gates on encrypted inputs. *)
Lemma gates_layer M B F tbl kp j N fs E n lk D Dk num den ins : 0 < B <= 64 -> 3 <= j < B -> pp_q (kp_par kp) = 2 ^ j -> pp_t (kp_par kp) = 4 ->
  0 < N -> 0 <= fs -> 0 <= E -> 24 * N * E + 2 * fs < 2 ^ j * N -> nonneg D -> nonneg Dk -> 0 <= den ->
  all_gates B F tbl kp (2 ^ j) N fs (fails_at_most M B F tbl kp n lk D Dk num den) ->
  inputs_ok (length (kp_lwe kp)) (2 ^ j) E ins ->
  exists cts, encrypt_all B kp ins = Some cts /\ forall cs, Forall (one_gate (length ins)) cs ->
    layer_at_most M B F tbl kp n lk D Dk (Z.of_nat (length cs) * num) den ins cts cs.
Proof.
  intros HB Hj Hq Ht HN Hf HE HR HD HDk Hd HA HI.
  destruct (encrypt_all_ok B j kp ins E HB Hj Hq Ht ltac:(nia) HI) as (cts & E1 & L & Hx).
  exists cts. split; [exact E1|]. intros cs Hcs. apply layer_bound; [assumption|assumption|assumption|].
  eapply Forall_impl; [|exact Hcs]. intros c Hc.
  refine (one_gate_fails B F tbl (kp_par kp) j Hj Hq (kp_lwe kp) N fs E (length ins) (bit_of ins) (ct_of cts) HN Hf Hx HR _ _ HA c Hc).
  intros g g' m. apply at_most_ext.
Qed.
Lemma lwe_gates_layer M B F tbl kp j N fs E n lk D Dk num den ins : 0 < B <= 64 -> 3 <= j < B -> pp_q (kp_par kp) = 2 ^ j -> pp_t (kp_par kp) = 4 ->
  0 < N -> 0 <= fs -> 0 <= E -> 24 * N * E + 2 * fs < 2 ^ j * N -> nonneg D -> nonneg Dk -> 0 <= den ->
  all_gates B F tbl kp (2 ^ j) N fs (lwe_fails_at_most M B F tbl kp n lk D Dk num den) ->
  inputs_ok (length (kp_lwe kp)) (2 ^ j) E ins ->
  exists cts, encrypt_all B kp ins = Some cts /\ forall cs, Forall (one_gate (length ins)) cs ->
    lwe_layer_at_most M B F tbl kp n lk D Dk (Z.of_nat (length cs) * num) den ins cts cs.
Proof.
  intros HB Hj Hq Ht HN Hf HE HR HD HDk Hd HA HI.
  destruct (encrypt_all_ok B j kp ins E HB Hj Hq Ht ltac:(nia) HI) as (cts & E1 & L & Hx).
  exists cts. split; [exact E1|]. intros cs Hcs. apply lwe_layer_bound; [assumption|assumption|assumption|].
  eapply Forall_impl; [|exact Hcs]. intros c Hc.
  refine (one_gate_fails B F tbl (kp_par kp) j Hj Hq (kp_lwe kp) N fs E (length ins) (bit_of ins) (ct_of cts) HN Hf Hx HR _ _ HA c Hc).
  intros g g' m. apply lwe_at_most_ext.
Qed.
