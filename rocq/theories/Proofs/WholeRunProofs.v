(** Key weight in terms of key generation, and the whole run with the custom set. *)
From Coq Require Import ZArith Znumtheory List Bool Arith Lia.
From Verif Require Import Spec.Basic Spec.Poly Spec.Lattice Spec.Ring Spec.Blind Spec.Switch Spec.Gates Spec.KeyGen Spec.Count Spec.Moment Spec.Noise Spec.SubGauss Spec.Boot Spec.BootLwe Spec.Layer.
From Verif Require Import Model.Base Model.Plaintext Model.Field Model.NTT Model.Concrete Model.Poly Model.Lwe Model.Rlwe Model.Gadget Model.BlindRotation Model.KeySwitch Model.Params Model.Shipped Model.Boolean Model.Sample Model.SecretKey.
From Verif Require Import Proofs.NumTheory Proofs.FieldProofs Proofs.PolyProofs Proofs.KeyGenProofs Proofs.GateProofs Proofs.GateChanceProofs Proofs.SubGaussProofs Proofs.LweChanceProofs Proofs.MomentProofs Proofs.LayerProofs Proofs.ShippedChanceProofs Proofs.UniformProofs Proofs.KeyWeightProofs.
From Verif Require Proofs.RandomProofs.
Import ListNotations.
Local Open Scope Z_scope.

Lemma stream_words32 ws n : Forall (fun x => 0 <= x < 2 ^ 32) ws -> (length ws = n)%nat -> words32 (stream ws).
Proof.
  intros H L i. unfold stream. destruct (Nat.lt_ge_cases i (length ws)) as [Hi|Hi].
  - rewrite Forall_forall in H. apply H, nth_In. exact Hi.
  - rewrite nth_overflow by exact Hi. split; [lia|reflexivity].
Qed.

Lemma count_le_on {A} (f g : A -> bool) l : (forall x, In x l -> f x = true -> g x = true) -> count f l <= count g l.
Proof.
  induction l as [|x l IH]; intros H; [reflexivity|]. rewrite !RandomProofs.count_cons.
  assert (IH' := IH (fun y Hy => H y (or_intror Hy))). destruct (f x) eqn:E; [rewrite (H x (or_introl eq_refl) E)|]; destruct (g x); lia.
Qed.

Lemma key_weight (BF p : Z) (k : nat) (F : field) (tbl : tables) (B j bits : Z) (P : parameters) (rwords : nat -> Z) (gauss : list Z) (w t : Z) :
  good_params BF p k F tbl B j bits P -> pp_key P = LTernary -> words32 rwords -> ring_draw p k gauss -> 1 <= t -> 0 <= w ->
  let len := Z.to_nat (pp_n P) in let n := S (len / 16) in
  count (fun ws => match key_pack_new F tbl P (stream ws) rwords gauss with Some kp => w <=? weight (kp_lwe kp) | None => true end) (tuples n (2 ^ 32))
    * (t ^ w * 2 ^ pp_n P) <= (1 + t) ^ pp_n P * (2 ^ 32) ^ Z.of_nat n.
Proof.
  intros HG HK Hr Hg Ht Hw len n.
  assert (Q : 2 < pp_q P).
  { destruct HG as (_ & (_ & Hj & _) & (_ & Eq & _) & _). rewrite Eq. apply Z.lt_le_trans with (2 ^ 3); [reflexivity|]. apply Z.pow_le_mono_r; lia. }
  assert (N0 : 0 <= pp_n P) by apply HG.
  pose proof (heavy_count (pp_q P) Q len w t Ht Hw) as H. cbv zeta in H. fold n in H.
  replace (Z.of_nat len) with (pp_n P) in H by (unfold len; rewrite Z2Nat.id by exact N0; reflexivity).
  eapply Z.le_trans; [|exact H]. clear H. apply Z.mul_le_mono_nonneg_r.
  { apply Z.mul_nonneg_nonneg; apply Z.pow_nonneg; lia. }
  clearbody n. assert (R32 : exists R, R = 2 ^ 32) by (eexists; reflexivity). destruct R32 as (R & ER). rewrite <- ER.
  apply count_le_on. intros ws Hws. apply RandomProofs.tuples_in in Hws. destruct Hws as (L & Hws). rewrite ER in Hws.
  destruct (new_keys BF p k F tbl B j bits P HG (stream ws) rwords gauss (stream_words32 ws n Hws L) Hr Hg) as (kp & E).
  rewrite E. unfold key_pack_new, create_lwe_secret_key in E. rewrite HK in E. fold len in E.
  destruct (sample_ternary_values (pp_q P) len (stream ws)) as [z|]; [|discriminate]. cbn [bind] in E.
  destruct (create_ring_secret_key F P z rwords gauss) as [s|]; [|discriminate]. cbn [bind] in E.
  destruct (into_ntt F tbl s) as [S'|]; [|discriminate]. cbn [bind] in E. injection E as <-. cbn [kp_lwe]. tauto.
Qed.

Lemma lwe_layer_range M B F tbl kp masks ins cts cs x : lwe_layer_fails M B F tbl kp masks ins cts cs x <= 1.
Proof. unfold lwe_layer_fails. destruct (existsb _ _); lia. Qed.
Lemma run_range M B F tbl P rwords gauss masks ins cs ws x : run_fails M B F tbl P rwords gauss masks ins cs ws x <= 1.
Proof. unfold run_fails. destruct (bind _ _) as [(kp & cts)|]; [apply lwe_layer_range|lia]. Qed.

Lemma heavy_count_at q len n R u w t : 2 < q -> n = S (len / 16) -> R = 2 ^ 32 -> u = Z.of_nat len -> 1 <= t -> 0 <= w ->
  count (fun ws => match sample_ternary_values q len (stream ws) with Some v => w <=? weight v | None => true end) (tuples n R) * (t ^ w * 2 ^ u) <= (1 + t) ^ u * R ^ Z.of_nat n.
Proof. intros Hq -> -> -> Ht Hw. exact (heavy_count q Hq len w t Ht Hw). Qed.
Lemma heavy_at q R (Hq : 2 < q) (ER : R = 2^32) : 
  count (fun ws => match sample_ternary_values q 512 (stream ws) with Some v => 496 <=? weight v | None => true end) (tuples 33 R) * (29 ^ 496 * 2 ^ 512) <= (1 + 29) ^ 512 * R ^ Z.of_nat 33.
Proof. exact (heavy_count_at q 512 33 R 512 496 29 Hq eq_refl ER eq_refl ltac:(lia) ltac:(lia)). Qed.
Lemma frac_le c u v m h : 0 <= m -> 0 <= h -> 0 < u -> c * u <= v * m -> v * h <= u -> c * h <= m.
Proof.
  intros M0 H0 X0 H X. apply Z.mul_le_mono_pos_r with u; [exact X0|]. apply Z.le_trans with (v * m * h).
  - replace (c * h * u) with (c * u * h) by ring. apply Z.mul_le_mono_nonneg_r; assumption.
  - replace (v * m * h) with (m * (v * h)) by ring. apply Z.mul_le_mono_nonneg_l; assumption.
Qed.
Lemma words_frac q len n R (w : Z) c : 0 < R -> count (fun ws => match sample_ternary_values q len (stream ws) with Some v => w <=? weight v | None => true end) (tuples n R) * c <= R ^ Z.of_nat n ->
  wsum (each n (uniform R)) (fun ws => if match sample_ternary_values q len (stream ws) with Some v => w <=? weight v | None => true end then 1 else 0) * c <= mass (each n (uniform R)).
Proof. intros R0 H. rewrite wsum_tuples, sumf_count, mass_each_uniform by exact R0. exact H. Qed.
Lemma heavy_words q R : 2 < q -> R = 2 ^ 32 ->
  wsum (each 33 (uniform R)) (fun ws => if match sample_ternary_values q 512 (stream ws) with Some v => 496 <=? weight v | None => true end then 1 else 0) * 2 ^ 400 <= mass (each 33 (uniform R)).
Proof.
  intros Hq ER. assert (R0 : 0 < R) by (rewrite ER; reflexivity). apply words_frac; [exact R0|].
  refine (frac_le _ (29 ^ 496 * 2 ^ 512) ((1 + 29) ^ 512) _ _ (Z.pow_nonneg _ _ (Z.lt_le_incl _ _ R0)) _ _ (heavy_at q R Hq ER) _); vm_compute; [discriminate|reflexivity|discriminate].
Qed.

Lemma custom_run (F : field) (tbl : tables) (P : parameters) (rwords : nat -> Z) (gauss : list Z) (D Dk : dist Z) (M : msg_type) (masks : list (list (list (list Z)))) (ins : inputs) (cs : list circuit) :
  derive_field 32 132120577 = Some F -> serves F tbl 10 -> params_new F custom_set = Some (Some P) ->
  words32 rwords -> sub_gaussian 42 D -> sub_gaussian 42 Dk -> switch_masks 16384 (2 ^ 9) (2 ^ 7) 2 (2 ^ 10) masks ->
  inputs_ok (2 ^ 9) 16384 21 ins -> Forall (one_gate (length ins)) cs ->
  let both_keys := both (each 33 (uniform (2 ^ 32))) (lwe_key_randomness (fp F) (2 ^ 10) (bs_len (pp_basis P)) 2 (2 ^ 9) (2 ^ 7) D Dk) in
  wsum both_keys (fun wx => run_fails M 16 F tbl P rwords gauss masks ins cs (fst wx) (snd wx)) * 2 ^ 400
    <= (Z.of_nat (length cs) * 2 ^ 384 + 1) * mass both_keys.
Proof.
  intros HF Hsv HP Hr HD HDk HM HI Hcs both_keys. unfold both_keys. clear both_keys.
  set (DD := lwe_key_randomness (fp F) (2 ^ 10) (bs_len (pp_basis P)) 2 (2 ^ 9) (2 ^ 7) D Dk).
  assert (HDD : nonneg DD) by (apply lwe_randomness_nonneg; [apply HD|apply HDk]).
  set (bad := fun ws => match sample_ternary_values (pp_q P) 512 (stream ws) with Some v => 496 <=? weight v | None => true end).
  assert (PN : pp_key P = LTernary /\ pp_q P = 2 ^ 14 /\ pp_n P = 512 /\ pp_ks_bits P = 7).
  { assert (E : params_new F custom_set = let* b := basis_new F 7 in Some (Some (mk_parameters 512 4 16384 LTernary 1024 132120577 RTernary b 7 BrMsKs))) by reflexivity.
    rewrite E in HP. destruct (basis_new F 7) as [b|]; [|discriminate]. cbn [bind] in HP. injection HP as <-. repeat split; reflexivity. }
  destruct PN as (PK & PQ & PN & PB).
  assert (HB := fun R => heavy_words (pp_q P) R ltac:(rewrite PQ; reflexivity)). fold bad in HB.
  assert (HW : nonneg (each 33 (uniform (2 ^ 32)))) by (apply nonneg_each, uniform_nonneg).
  assert (R32 : exists R, R = 2 ^ 32) by (eexists; reflexivity). destruct R32 as (R & ER). specialize (HB R ER). rewrite <- ER in HW |- *.
  pose proof (run_bound (each 33 (uniform R)) DD (run_fails M 16 F tbl P rwords gauss masks ins cs) bad (Z.of_nat (length cs)) (2 ^ 16) (2 ^ 400) HW HDD ltac:(lia) ltac:(reflexivity) ltac:(vm_compute; discriminate) (run_range M 16 F tbl P rwords gauss masks ins cs)) as H.
  lapply H; clear H; [intros H|].
  - specialize (H HB). clear HB. set (t := wsum (both _ _) _) in *. set (m := mass (both _ _)) in *. clearbody t m. set (g := Z.of_nat (length cs)) in *. clearbody g.
    apply Z.mul_le_mono_pos_l with (2 ^ 16); [reflexivity|].
    replace (2 ^ 16 * (t * 2 ^ 400)) with (t * (2 ^ 16 * 2 ^ 400)) by ring. eapply Z.le_trans; [exact H|].
    apply Z.eq_le_incl. replace (2 ^ 400) with (2 ^ 16 * 2 ^ 384) by reflexivity. ring.
  - intros ws v Hws Hb. apply in_each_uniform in Hws. destruct Hws as (L & Hws). rewrite ER in Hws.
    assert (Hw := stream_words32 ws 33 Hws L).
    destruct (custom_gates F tbl P (stream ws) rwords gauss D Dk M HF Hsv HP Hw Hr HD HDk) as (kp & E & KP & Eq & Et & Lk & HA).
    assert (WT : weight (kp_lwe kp) <= 495).
    { pose proof E as E'. unfold key_pack_new, create_lwe_secret_key in E'. rewrite PK, PN in E'. change (Z.to_nat 512) with 512%nat in E'. unfold bad in Hb.
      destruct (sample_ternary_values (pp_q P) 512 (stream ws)) as [z|]; [|discriminate]. cbn [bind] in E'.
      destruct (create_ring_secret_key F P z rwords gauss) as [s|]; [|discriminate]. cbn [bind] in E'.
      destruct (into_ntt F tbl s) as [S'|]; [|discriminate]. cbn [bind] in E'. injection E' as <-. cbn [kp_lwe]. apply Z.leb_gt in Hb. lia. }
    pose proof (weight_le (kp_lwe kp)) as HW'.
    destruct (lwe_gates_layer M 16 F tbl kp 14 1024 (16384 * (1 + weight (kp_lwe kp))) 21 (2 ^ 10) 2 D Dk 1 (2 ^ 16) ins) as (cts & E1 & H); try lia; try (rewrite KP; assumption); try assumption.
    + apply HD.
    + apply HDk.
    + rewrite Lk. exact HI.
    + specialize (H cs Hcs). unfold lwe_layer_at_most in H. cbv zeta in H. rewrite KP, Lk, PQ, PB, Z.mul_1_r in H. specialize (H masks HM).
      unfold run_fails. rewrite E. cbn [bind]. rewrite E1. cbn [bind]. exact H.
Qed.
