(** Proofs for C78: counting. *)
From Coq Require Import ZArith Znumtheory List Bool Arith Lia Permutation.
From Verif Require Import Spec.Basic Spec.Poly Spec.Ring Spec.Count Spec.Hiding Spec.HidingKeys Model.Base Model.PowOf2 Model.Field Model.NTT Model.Concrete Model.Poly Model.Params Model.Lwe Model.Rlwe Model.Gadget
  Model.BlindRotation Model.KeySwitch Model.SecretKey
  Proofs.Arith Proofs.BarrettProofs Proofs.NumTheory Proofs.FieldProofs Proofs.PolyMath Proofs.NTTProofs Proofs.NTTTableProofs Proofs.PolyProofs Proofs.RingProofs Proofs.GadgetProofs Proofs.RlweProofs Proofs.GadgetMain Proofs.RgswProofs Proofs.PolyMain Proofs.PowOf2Proofs Proofs.LweProofs Proofs.LweSwitchProofs Proofs.RingSwitchKeyProofs Proofs.RingSwitchProofs Proofs.RotProofs Proofs.SampleProofs Proofs.RandomProofs Proofs.HidingProofs Proofs.Shuffle Proofs.PlantProofs.
Import ListNotations.
Local Open Scope Z_scope.

Lemma numbered_each {A} (f : nat -> A -> A) l k : length l = k -> numbered f l = each (map f (seq 0 k)) l.
Proof.
  intros <-. unfold numbered, each. generalize 0%nat as j. induction l as [|x l IH]; intros j; [reflexivity|].
  cbn [length seq map combine fst snd]. f_equal. apply IH.
Qed.
Lemma each_each {A} (f : A -> A) k (l : list A) : length l = k -> map f l = each (repeat f k) l.
Proof. intros H. symmetry. apply each_map. exact H. Qed.
Lemma shuffles_map {A C} (g : A -> C) (f : A -> A) (h : C -> C) L : (forall x, In x L -> h (g x) = g (f x)) -> shuffles f L -> shuffles h (map g L).
Proof.
  intros E H. unfold shuffles in *. rewrite map_map. rewrite (map_ext_in _ (fun x => g (f x))) by exact E. rewrite <- (map_map f g).
  apply Permutation_map. exact H.
Qed.
Lemma shuffles_id {A} (L : list A) : shuffles (fun x => x) L. Proof. unfold shuffles. rewrite map_id. apply Permutation_refl. Qed.

Lemma shuffle_vector k p (cs : list Z) : 0 < p -> length cs = k ->
  shuffles (fun v => map (fun vt => (fst vt + snd vt) mod p) (combine v cs)) (tuples k p).
Proof.
  intros Hp L. rewrite tuples_lists.
  apply (shuffles_ext (each (map (fun c x => (x + c) mod p) cs))).
  - intros v Hv. apply lists_in in Hv. destruct Hv as (Lv & _). unfold each. subst k. clear -Lv. revert v Lv.
    induction cs as [|c cs IH]; intros [|x v] Lv; try reflexivity; try discriminate. cbn [map combine fst snd]. f_equal. apply IH. cbn in Lv. lia.
  - replace k with (length (map (fun c x => (x + c) mod p) cs)) by (rewrite map_length; exact L). apply shuffle_lists.
    rewrite Forall_map. apply Forall_forall. intros c _. apply shuffle_range. exact Hp.
Qed.
Lemma shuffle_const k p c : 0 < p -> shuffles (map (fun x => (x + c) mod p)) (tuples k p).
Proof.
  intros Hp. rewrite tuples_lists. apply (shuffles_ext (each (repeat (fun x => (x + c) mod p) k))).
  - intros v Hv. apply lists_in in Hv. apply each_map. apply Hv.
  - replace k with (length (repeat (fun x => (x + c) mod p) k)) at 2 by apply repeat_length. apply shuffle_lists.
    apply Forall_forall. intros f Hf. apply repeat_spec in Hf. subst f. apply shuffle_range. exact Hp.
Qed.

Lemma shuffle_mask N p c : 0 < p -> shuffles (add_mask p c) (all_rows N p).
Proof.
  intros Hp. unfold all_rows. apply (shuffles_map _ (fun ab => (map (fun x => (x + c) mod p) (fst ab), snd ab))); [reflexivity|].
  apply (shuffle_prod (map (fun x => (x + c) mod p)) (fun x => x)); [apply shuffle_const; exact Hp|apply shuffles_id].
Qed.
Lemma shuffle_body N p c : 0 < p -> shuffles (add_body p c) (all_rows N p).
Proof.
  intros Hp. unfold all_rows. apply (shuffles_map _ (fun ab => (fst ab, map (fun x => (x + c) mod p) (snd ab)))); [reflexivity|].
  apply (shuffle_prod (fun x => x) (map (fun x => (x + c) mod p))); [apply shuffles_id|apply shuffle_const; exact Hp].
Qed.

(** A test that does not look at the choices. *)
Lemma count_const {T} (c : bool) (L : list T) : count (fun _ => c) L = (if c then 1 else 0) * Z.of_nat (length L).
Proof. destruct c; [rewrite count_true|rewrite count_false]; ring. Qed.
Lemma blind {W A C} (g : W -> bool) (M : list A) (U : list C) c ws : Z.of_nat (length U) = c * Z.of_nat (length M) ->
  c * count (fun wm => g (fst wm)) (list_prod ws M) = count (fun wu => g (fst wu)) (list_prod ws U).
Proof.
  intros E. induction ws as [|w ws IH]; [cbn [list_prod]; rewrite !count_nil; ring|]. cbn [list_prod]. rewrite !count_app, !count_map, <- IH. cbn [fst]. rewrite !count_const, E. ring.
Qed.
Lemma blind1 {W C} (g : W -> bool) (U : list C) ws : Z.of_nat (length U) * count g ws = count (fun wu => g (fst wu)) (list_prod ws U).
Proof.
  induction ws as [|w ws IH]; [cbn [list_prod]; rewrite !count_nil; ring|]. cbn [list_prod]. rewrite !count_app, !count_map, <- IH. cbn [fst]. rewrite count_const, count_cons. ring.
Qed.

(** Making a key out of rows: a permutation of the rows, then a fixed arrangement. *)
Definition moved (p base : Z) (l : nat) (m : Z) (u : list rlwe * list rlwe) : list rlwe * list rlwe :=
  (each (map (fun i => add_mask p (m * base ^ Z.of_nat i)) (seq 0 l)) (fst u),
   each (map (fun i => add_body p (m * base ^ Z.of_nat i)) (seq 0 l)) (snd u)).
Definition arranged (b : basis) (u : list rlwe * list rlwe) : rgsw := mk_rgsw (mk_gadget (fst u) b) (mk_gadget (snd u) b).

Lemma planted_moved N p base P z m U : In U (shapes m (bs_len (pp_basis P)) (all_rows N p)) ->
  planted p base P z U = as_key P (map (arranged (pp_basis P)) (each (map (moved p base (bs_len (pp_basis P))) (slot_bits P z)) U)).
Proof.
  intros HU. apply lists_in in HU. destruct HU as (_ & HU). unfold planted. f_equal. unfold each. revert U HU.
  generalize (slot_bits P z) as ms. induction ms as [|v ms IH]; intros [|u U] HU; try reflexivity. inversion HU as [|? ? Hu HU']; subst.
  cbn [map combine fst snd]. f_equal; [|apply IH; exact HU']. destruct u as [u0 u1]. apply in_prod_iff in Hu. destruct Hu as (H0 & H1).
  apply lists_in in H0, H1. unfold planted_rgsw, arranged, moved. cbn [fst snd]. rewrite !(numbered_each _ _ (bs_len (pp_basis P))) by tauto. reflexivity.
Qed.

Lemma shuffle_moved N p base l m : 0 < p -> shuffles (moved p base l m) (list_prod (lists l (all_rows N p)) (lists l (all_rows N p))).
Proof.
  intros Hp. unfold moved. apply (shuffle_prod (each (map (fun i => add_mask p (m * base ^ Z.of_nat i)) (seq 0 l))) (each (map (fun i => add_body p (m * base ^ Z.of_nat i)) (seq 0 l)))).
  - replace l with (length (map (fun i => add_mask p (m * base ^ Z.of_nat i)) (seq 0 l))) at 2 by (rewrite map_length, seq_length; reflexivity).
    apply shuffle_lists. rewrite Forall_map. apply Forall_forall. intros i _. apply shuffle_mask. exact Hp.
  - replace l with (length (map (fun i => add_body p (m * base ^ Z.of_nat i)) (seq 0 l))) at 2 by (rewrite map_length, seq_length; reflexivity).
    apply shuffle_lists. rewrite Forall_map. apply Forall_forall. intros i _. apply shuffle_body. exact Hp.
Qed.

Lemma slot_bits_length P z : length (slot_bits P z) = slots P (length z).
Proof. unfold slot_bits, slots. induction z as [|v z IH]; [destruct (pp_key P); reflexivity|]. cbn [flat_map length]. rewrite app_length, IH. destruct (pp_key P); cbn [length]; lia. Qed.

Lemma count_planted N p base P z (D : br_key -> bool) : 0 < p ->
  count (fun U => D (planted p base P z U)) (shapes (slots P (length z)) (bs_len (pp_basis P)) (all_rows N p)) =
  count (fun U => D (as_key P (map (arranged (pp_basis P)) U))) (shapes (slots P (length z)) (bs_len (pp_basis P)) (all_rows N p)).
Proof.
  intros Hp. set (l := bs_len (pp_basis P)).
  rewrite (count_ext_in _ (fun U => D (as_key P (map (arranged (pp_basis P)) (each (map (moved p base l) (slot_bits P z)) U))))).
  2:{ intros U HU. f_equal. apply (planted_moved N p base P z (slots P (length z))). exact HU. }
  apply (count_shuffle (each (map (moved p base l) (slot_bits P z))) _ (fun U => D (as_key P (map (arranged (pp_basis P)) U)))).
  unfold shapes. replace (slots P (length z)) with (length (map (moved p base l) (slot_bits P z))) by (rewrite map_length; apply slot_bits_length).
  apply shuffle_lists. rewrite Forall_map. apply Forall_forall. intros m _. apply shuffle_moved. exact Hp.
Qed.

Lemma shapes_length {A} m l (L : list A) : Z.of_nat (length (shapes m l L)) = Z.of_nat (length L) ^ Z.of_nat (m * (2 * l)).
Proof.
  unfold shapes. rewrite lists_length, prod_length, Nat2Z.inj_mul, lists_length, <- Z.pow_add_r, <- Z.pow_mul_r by lia. f_equal. lia.
Qed.
Lemma tuples_count N' q : 0 <= q -> Z.of_nat (length (tuples N' q)) = q ^ Z.of_nat N'.
Proof. intros H. rewrite tuples_lists, lists_length, range_length, Z2Nat.id by lia. reflexivity. Qed.

Lemma rows_count N' q : 0 <= q -> Z.of_nat (length (all_rows N' q)) = q ^ (2 * Z.of_nat N').
Proof. intros H. unfold all_rows. rewrite map_length, prod_length, Nat2Z.inj_mul, !tuples_count, <- Z.pow_add_r by lia. f_equal. lia. Qed.

Section Rotation.
Variables (X : Type) (BF p : Z) (k n : nat) (F : field) (tbl : tables) (bits : Z) (P : parameters) (ws : list (kworld X noises)).
Local Notation N := (2 ^ k)%nat.
Hypothesis (HB : wwidth BF) (Hp : prime p) (HF : derive_field BF p = Some F) (HS : serves F tbl k) (Hk : (0 < k)%nat)
  (H0 : 0 <= bits) (Hb : basis_new F bits = Some (pp_basis P)) (Hw : Forall (rotation_world F tbl N n P) ws).

Lemma mask_in (A E : noises) m l : In A (all_masks N (fp F) m l) -> length E = m ->
  Forall (fun e => (length (fst e) = l /\ Forall (fun v => length v = N /\ canonical (fp F) v) (fst e)) /\
                   (length (snd e) = l /\ Forall (fun v => length v = N /\ canonical (fp F) v) (snd e))) E ->
  Forall (fun r => (Forall (fun ae => pwf F k (fst ae) /\ pwf F k (snd ae)) (fst r) /\ length (fst r) = l) /\
                   (Forall (fun ae => pwf F k (fst ae) /\ pwf F k (snd ae)) (snd r) /\ length (snd r) = l)) (draws_with A E) /\
  length (draws_with A E) = m.
Proof.
  intros HA HE HN. apply lists_in in HA. destruct HA as (LA & HA). unfold draws_with. split; [|rewrite map_length, combine_length; lia].
  assert (G : forall (xs ys : list (list Z)), In xs (lists l (tuples N (fp F))) -> length ys = l /\ Forall (fun v => length v = N /\ canonical (fp F) v) ys ->
    Forall (fun ae => pwf F k (fst ae) /\ pwf F k (snd ae)) (combine xs ys) /\ length (combine xs ys) = l).
  { intros xs ys Hx (Ly & Hy). apply lists_in in Hx. destruct Hx as (Lx & Hx). split; [|rewrite combine_length; lia].
    apply Forall_forall. intros [x y] Hin. cbn [fst snd]. rewrite Forall_forall in Hx, Hy. split.
    - apply in_combine_l in Hin. apply Hx in Hin. apply tuples_in in Hin. exact Hin.
    - apply in_combine_r in Hin. apply Hy in Hin. exact Hin. }
  rewrite Forall_map. apply Forall_forall. intros [a e] Hin. cbn [fst snd]. rewrite Forall_forall in HA, HN.
  pose proof (HA _ (in_combine_l _ _ _ _ Hin)) as Ha. pose proof (HN _ (in_combine_r _ _ _ _ Hin)) as (He0 & He1).
  destruct a as [a0 a1]. apply in_prod_iff in Ha. destruct Ha as (Ha0 & Ha1). cbn [fst snd]. split; apply G; assumption.
Qed.

Lemma rotation_value (w : kworld X noises) A z : rotation_world F tbl N n P w -> In A (all_masks N (fp F) (slots P n) (bs_len (pp_basis P))) -> length z = n ->
  br_key_generate F tbl (with_lwe z (secrets w)) (rotation_draws (draws_with A (chance w))) =
  Some (planted (fp F) (2 ^ bits) P z (zero_rows_of F tbl (kp_ntt (secrets w)) (draws_with A (chance w)))).
Proof.
  intros (HP & Ls & Cs & HSk & Ln & HN) HA Lz. destruct (field_ctx BF p k F tbl HB Hp HF HS) as (Hok & Ep & wt & C).
  rewrite (into_ntt_canon F Hok tbl k wt C _ Ls Cs) in HSk. injection HSk as HSk. unfold with_lwe. rewrite HP, <- HSk.
  destruct (mask_in A (chance w) (slots P n) (bs_len (pp_basis P)) HA Ln HN) as (R & L).
  apply (rotation_planted F Hok) with (b := pp_basis P); try assumption.
  - rewrite Ep. exact Hp.
  - reflexivity.
  - rewrite L, Lz. reflexivity.
Qed.

Lemma accepted_zeros_eq z D : length z = n ->
  accepted_rotation F tbl N n P ws z D = accepted_zeros F tbl N n P ws (fun x U => D x (planted (fp F) (2 ^ bits) P z U)).
Proof.
  intros Lz. apply count_ext_in. intros [w A] Hin. cbn [fst snd]. apply in_prod_iff in Hin. destruct Hin as (Hin & HA).
  rewrite Forall_forall in Hw. rewrite (rotation_value w A z (Hw w Hin) HA Lz). reflexivity.
Qed.

Lemma accepted_random_eq z D : length z = n -> 0 < fp F ->
  accepted_random F N n P ws (fun x U => D x (planted (fp F) (2 ^ bits) P z U)) =
  accepted_random F N n P ws (fun x U => D x (as_key P (map (arranged (pp_basis P)) U))).
Proof.
  intros <- Hp0. unfold accepted_random. rewrite !count_prod. f_equal. apply map_ext. intros w. cbn [fst snd].
  apply (count_planted N (fp F) (2 ^ bits) P z (D (public w)) Hp0).
Qed.

Lemma fp_positive : 0 < fp F.
Proof. destruct (field_ctx BF p k F tbl HB Hp HF HS) as (_ & -> & _). apply prime_ge_2 in Hp. lia. Qed.

Lemma rotation_random z z' D : length z = n -> length z' = n ->
  accepted_random F N n P ws (fun x U => D x (planted (fp F) (2 ^ bits) P z U)) =
  accepted_random F N n P ws (fun x U => D x (planted (fp F) (2 ^ bits) P z' U)).
Proof. intros L L'. pose proof fp_positive. rewrite !accepted_random_eq by assumption. reflexivity. Qed.

Lemma rotation_hiding z z' D : length z = n -> length z' = n ->
  bodies F N n P * (accepted_rotation F tbl N n P ws z D - accepted_rotation F tbl N n P ws z' D) =
  zeros_gap F tbl N n P ws (fun x U => D x (planted (fp F) (2 ^ bits) P z U)) -
  zeros_gap F tbl N n P ws (fun x U => D x (planted (fp F) (2 ^ bits) P z' U)).
Proof.
  intros L L'. unfold zeros_gap. rewrite (rotation_random z z' D L L'), !accepted_zeros_eq by assumption. ring.
Qed.

(** The scaling is right: a test that does not look has no advantage. *)
Lemma zeros_gap_blind (f : X -> bool) : zeros_gap F tbl N n P ws (fun x _ => f x) = 0.
Proof.
  unfold zeros_gap, accepted_zeros, accepted_random. pose proof fp_positive as Hp0.
  rewrite (blind (fun w => f (public w)) _ (shapes (slots P n) (bs_len (pp_basis P)) (all_rows N (fp F))) (bodies F N n P)); [ring|].
  unfold all_masks, bodies. rewrite shapes_length. rewrite (shapes_length (A := list Z)), rows_count, tuples_count by lia.
  rewrite <- !Z.pow_mul_r, <- Z.pow_add_r by lia. f_equal. lia.
Qed.
End Rotation.

(** * Entries shifted in place *)

Lemma combine_each {I A} (h : I -> A -> A) S l : map (fun vu => h (fst vu) (snd vu)) (combine S l) = each (map h S) l.
Proof. revert l. induction S as [|v S IH]; intros [|x l]; try reflexivity. unfold each. cbn [map combine fst snd]. f_equal. apply IH. Qed.
Lemma each_through {I A R T} (f : I -> A -> A) (h : I -> T -> T) (g : R * T -> A) S rs bs :
  (forall i r b, In (r, b) (combine rs bs) -> f i (g (r, b)) = g (r, h i b)) ->
  each (map f S) (map g (combine rs bs)) = map g (combine rs (each (map h S) bs)).
Proof.
  revert rs bs. induction S as [|i S IH]; intros rs bs H; [unfold each; cbn [map combine]; destruct rs; reflexivity|].
  destruct rs as [|r rs]; [reflexivity|]. destruct bs as [|b bs]; [reflexivity|]. unfold each in *. cbn [map combine fst snd]. f_equal.
  - apply H. left. reflexivity.
  - apply IH. intros i' r' b' Hin. apply H. right. exact Hin.
Qed.
Lemma in_lists_combine {R T} (rs : list R) (bs : list T) k (L : list T) r b : In bs (lists k L) -> In (r, b) (combine rs bs) -> In r rs /\ In b L.
Proof.
  intros H Hin. apply lists_in in H. destruct H as (_ & H). rewrite Forall_forall in H. split; [apply (in_combine_l _ _ _ _ Hin)|].
  apply H. apply (in_combine_r _ _ _ _ Hin).
Qed.
Lemma shuffle_each {I A} (h : I -> A -> A) (S : list I) k (L : list A) : length S = k -> (forall i, In i S -> shuffles (h i) L) -> shuffles (each (map h S)) (lists k L).
Proof.
  intros <- H. replace (length S) with (length (map h S)) by apply map_length. apply shuffle_lists. rewrite Forall_map. apply Forall_forall. exact H.
Qed.

(** * The LWE switching key *)

Definition shift_lwe (q base : Z) (s : list Z) (l e : nat) : list (list (list Z)) -> list (list (list Z)) :=
  each (map (fun i => each (map (fun v => each (map (fun t x => (x + Z.of_nat (t + 1) * (secret_word q v * base ^ Z.of_nat i)) mod q) (seq 0 e))) s)) (seq 0 l)).

Lemma shift_lwe_shuffles q base s l N e : 0 < q -> length s = N -> shuffles (shift_lwe q base s l e) (lists l (lists N (lists e (range q)))).
Proof.
  intros Hq Ls. apply shuffle_each; [apply seq_length|]. intros i _. apply shuffle_each; [exact Ls|]. intros v _.
  apply shuffle_each; [apply seq_length|]. intros t _. apply shuffle_range. exact Hq.
Qed.

Lemma planted_lwe_shift q base s l N e rs bs : length rs = l -> Forall (fun r => length r = N /\ Forall (fun es : list (list Z * Z) => length es = e) r) rs ->
  In bs (lists l (lists N (lists e (range q)))) -> planted_lwe q base s (bodies_of rs bs) = bodies_of rs (shift_lwe q base s l e bs).
Proof.
  intros Lr Hr Hb. pose proof (proj1 (lists_in _ _ _) Hb) as (Lb & _). unfold planted_lwe.
  rewrite (numbered_each _ _ l) by (unfold bodies_of; rewrite map_length, combine_length; lia). unfold bodies_of, shift_lwe.
  apply each_through. intros i r b Hin. cbn [fst snd]. destruct (in_lists_combine _ _ _ _ _ _ Hb Hin) as (Ir & Ib). rewrite Forall_forall in Hr.
  destruct (Hr r Ir) as (L1 & H1). pose proof (proj1 (lists_in _ _ _) Ib) as (L2 & _).
  rewrite (combine_each (fun v => numbered (fun t c => mk_lwe (la c) ((lb c + Z.of_nat (t + 1) * (secret_word q v * base ^ Z.of_nat i)) mod q)))).
  apply each_through. intros v es x Hin'. cbn [fst snd]. destruct (in_lists_combine _ _ _ _ _ _ Ib Hin') as (Ie & Ix). rewrite Forall_forall in H1.
  specialize (H1 es Ie). pose proof (proj1 (lists_in _ _ _) Ix) as (L3 & _). rewrite (numbered_each _ _ e) by (unfold with_bodies; rewrite map_length, combine_length; lia).
  unfold with_bodies. apply each_through. intros t ae y _. reflexivity.
Qed.

Section Lwe.
Variables (B bits j : Z).
Hypothesis (Hbits : 1 <= bits <= j) (HjB : j < B).
Local Notation q := (2 ^ j).
Local Notation base := (2 ^ bits).
Variable z : list Z.

Let qp : 0 < q. Proof. apply pow2_pos. lia. Qed.
Let b2 : 2 <= base. Proof. change 2 with (2 ^ 1) at 1. apply Z.pow_le_mono_r; lia. Qed.
Let bB : base < 2 ^ B. Proof. apply Z.pow_lt_mono_r; lia. Qed.
Definition sample (ae : list Z * Z) : lwe := mk_lwe (fst ae) ((dotz (fst ae) z + snd ae) mod q).
Definition ent_ok (ae : list Z * Z) : Prop := length (fst ae) = length z.

Lemma entries_planted v : forall rnd t, Z.of_nat t + 1 + Z.of_nat (length rnd) < 2 ^ B -> Forall ent_ok rnd ->
  lks_entries B (q - 1) z v (Z.of_nat t + 1) rnd =
  Some (num_from t (fun t c => mk_lwe (la c) ((lb c + Z.of_nat (t + 1) * v) mod q)) (map sample rnd)).
Proof.
  induction rnd as [|[a e] rnd IH]; intros t Ho Hr; [reflexivity|]. inversion Hr as [|? ? La Hr']; subst. unfold ent_ok in La. cbn [fst] in La. cbn [length] in Ho.
  cbn [lks_entries map]. rewrite num_from_cons. unfold lwe_zero_sample.
  replace (firstn (length z) a) with a by (rewrite <- La; symmetry; apply firstn_all).
  rewrite (p2_dot_correct B j ltac:(lia)) by exact La. cbn [bind la lb]. rewrite uadd_some by lia. cbn [bind].
  replace (Z.of_nat t + 1 + 1) with (Z.of_nat (S t) + 1) by lia. rewrite IH by (assumption || lia). cbn [bind]. unfold sample at 2. cbn [la lb fst snd]. do 3 f_equal.
  rewrite !(proj1 (proj2 (p2_ops_correct B j _ _ ltac:(lia)))), (proj2 (proj2 (proj2 (proj2 (p2_ops_correct B j _ _ ltac:(lia)))))).
  rewrite Zplus_mod_idemp_r, (Zplus_mod_idemp_l (dotz a z)). f_equal. rewrite Nat2Z.inj_add. reflexivity.
Qed.

Lemma inner_planted zs : forall level, length level = length zs ->
  Forall (fun es => Z.of_nat (length es) = base - 1 /\ Forall ent_ok es) level ->
  lks_inner B (q - 1) base z zs level =
  Some (map (fun vu => numbered (fun t c => mk_lwe (la c) ((lb c + Z.of_nat (t + 1) * fst vu) mod q)) (snd vu)) (combine zs (map (map sample) level))).
Proof.
  intros level L. unfold lks_inner. rewrite assert_true by (apply Nat.eqb_eq; lia). cbn [bind].
  revert level L. induction zs as [|v zs IH]; intros [|es level] L H; try discriminate L; [reflexivity|]. injection L as L. inversion H as [|? ? (Le & He) H']; subst.
  cbn [mapM2 map combine fst snd]. unfold usub at 1. destruct (Z.leb_spec 2 base); [|lia]. cbn [bind]. rewrite assert_true by (apply Z.eqb_eq; exact Le). cbn [bind].
  change 1 with (Z.of_nat 0 + 1) at 2. rewrite entries_planted by (assumption || lia). cbn [bind]. rewrite IH by assumption. reflexivity.
Qed.

Lemma levels_planted s : forall rnd i zs, (forall v d, nth v zs d mod q = nth v (map (fun x => secret_word q x * base ^ Z.of_nat i) s) d mod q) -> length zs = length s ->
  Forall (fun level => length level = length s /\ Forall (fun es => Z.of_nat (length es) = base - 1 /\ Forall ent_ok es) level) rnd ->
  lks_levels B (q - 1) base z zs rnd =
  Some (num_from i (fun i row => map (fun vu => numbered (fun t c =>
    mk_lwe (la c) ((lb c + Z.of_nat (t + 1) * (secret_word q (fst vu) * base ^ Z.of_nat i)) mod q)) (snd vu)) (combine s row)) (map (map (map sample)) rnd)).
Proof.
  induction rnd as [|level rnd IH]; intros i zs Hz Lz H; [reflexivity|]. inversion H as [|? ? (Ll & Hl) H']; subst. cbn [lks_levels map]. rewrite num_from_cons.
  rewrite inner_planted by (assumption || lia). cbn [bind].
  assert (E : lks_levels B (q - 1) base z match rnd with [] => zs | _ => map (fun z => p2_mul B (q - 1) z base) zs end rnd =
    Some (num_from (S i) (fun i row => map (fun vu => numbered (fun t c =>
    mk_lwe (la c) ((lb c + Z.of_nat (t + 1) * (secret_word q (fst vu) * base ^ Z.of_nat i)) mod q)) (snd vu)) (combine s row)) (map (map (map sample)) rnd))).
  { destruct rnd as [|lv rnd]; [reflexivity|]. apply IH; [|rewrite map_length; exact Lz|exact H'].
    intros v d. destruct (Nat.lt_ge_cases v (length zs)) as [Hv|Hv].
    - rewrite (nth_indep _ d (p2_mul B (q - 1) 0 base)) by (rewrite map_length; exact Hv). rewrite (map_nth (fun z => p2_mul B (q - 1) z base)).
      rewrite (proj2 (proj2 (proj2 (proj2 (p2_ops_correct B j _ _ ltac:(lia)))))). rewrite Z.mod_mod by lia.
      specialize (Hz v 0). rewrite <- Zmult_mod_idemp_l, Hz, Zmult_mod_idemp_l.
      rewrite (nth_indep (map _ s) d ((fun x => secret_word q x * base ^ Z.of_nat (S i)) 0)) by (rewrite map_length; lia).
      rewrite (map_nth (fun x => secret_word q x * base ^ Z.of_nat (S i))).
      rewrite (nth_indep (map _ s) 0 ((fun x => secret_word q x * base ^ Z.of_nat i) 0)) by (rewrite map_length; lia).
      rewrite (map_nth (fun x => secret_word q x * base ^ Z.of_nat i)). f_equal. rewrite Nat2Z.inj_succ, Z.pow_succ_r by lia. ring.
    - rewrite !nth_overflow by (rewrite map_length; lia). reflexivity. }
  rewrite E. cbn [bind]. do 2 f_equal. clear -Hz Lz. generalize (map (map sample) level) as row. revert s Hz Lz. induction zs as [|v zs IH]; intros [|x s] Hz Lz row; try discriminate Lz; [reflexivity|].
  injection Lz as Lz. destruct row as [|es row]; [reflexivity|]. cbn [combine map fst snd]. f_equal.
  - apply map_ext. intros [t c]. cbn [fst snd]. f_equal. rewrite <- Zplus_mod_idemp_r, <- Zmult_mod_idemp_r. rewrite (Hz 0%nat 0 : v mod q = _). cbn [map nth].
    rewrite Zmult_mod_idemp_r, Zplus_mod_idemp_r. reflexivity.
  - apply IH; [|exact Lz]. intros i' d. apply (Hz (S i') d).
Qed.

Lemma switch_planted s rnd : length rnd = Z.to_nat ((j + bits - 1) / bits) ->
  Forall (fun level => length level = length s /\ Forall (fun es => Z.of_nat (length es) = base - 1 /\ Forall ent_ok es) level) rnd ->
  lks_generate B q bits z s rnd =
  Some (mk_lwe_ks_key (length z) (q - 1) (mk_wbasis base (length rnd) (base - 1) bits) (planted_lwe q base s (samples_of q z rnd))).
Proof.
  intros Lr Hr. unfold lks_generate.
  assert (Em : p2_new q = Some (q - 1)) by (apply p2_new_correct; [lia|exists j; lia]). rewrite Em; clear Em. cbn [bind]. rewrite wbasis_new_pow2 by lia.
  destruct (Z.leb_spec 1 bits); [|lia]. destruct (Z.leb_spec bits j); [|lia]. cbn [andb bind]. rewrite <- Lr.
  unfold usub at 1. destruct (Z.leb_spec 1 q); [|lia]. cbn [bind wb_len wb_basis]. rewrite assert_true by (apply Nat.eqb_eq; reflexivity). cbn [bind].
  rewrite (levels_planted s rnd 0); [reflexivity| |apply map_length|exact Hr].
  intros v d. f_equal. f_equal. apply map_ext. intros x. unfold to_word, secret_word. cbn [Z.of_nat]. rewrite Z.pow_0_r, Z.mul_1_r. reflexivity.
Qed.
End Lwe.

Section LweGame.
Variables (X : Type) (B bits j : Z) (l N : nat) (P : parameters) (ws : list (kworld X ldraws)).
Local Notation q := (2 ^ j).
Local Notation base := (2 ^ bits).
Local Notation e := (Z.to_nat (base - 1)).
Hypothesis (Hbits : 1 <= bits <= j) (HjB : j < B) (Hl : l = Z.to_nat ((j + bits - 1) / bits)) (Hw : Forall (switch_world q base l N P) ws).
Local Notation made s D := (fun x d U => D x (mk_lwe_ks_key d (q - 1) (mk_wbasis base l (base - 1) bits) (planted_lwe q base s U))).

Lemma switch_value s (w : kworld X ldraws) : length s = N -> switch_world q base l N P w ->
  lks_generate B q bits (kp_lwe (secrets w)) s (chance w) =
  Some (mk_lwe_ks_key (length (kp_lwe (secrets w))) (q - 1) (mk_wbasis base l (base - 1) bits) (planted_lwe q base s (samples_of q (kp_lwe (secrets w)) (chance w)))).
Proof.
  intros Ls (_ & Lr & Hr). rewrite (switch_planted B bits j Hbits HjB); [rewrite Lr; reflexivity|congruence|].
  eapply Forall_impl; [|exact Hr]. intros r (L1 & H1). split; [congruence|]. eapply Forall_impl; [|exact H1]. intros es (L2 & H2). split; [exact L2|].
  eapply Forall_impl; [|exact H2]. intros ae H3. apply H3.
Qed.

Lemma accepted_samples_eq s (D : X -> lwe_ks_key -> bool) : length s = N ->
  accepted_switch B q bits ws s D = accepted_samples q ws (made s D).
Proof.
  intros Ls. unfold accepted_switch, accepted_samples, accepted_ring_switch, accepted_ring_zeros; apply count_ext_in; intros w Hin; cbv beta. rewrite Forall_forall in Hw. pose proof (switch_value s w Ls (Hw w Hin)) as E. unfold ldraws in *. rewrite E. reflexivity.
Qed.

Lemma accepted_bodies_eq s (D : X -> lwe_ks_key -> bool) : length s = N ->
  accepted_bodies q l N e ws (made s D) =
  accepted_bodies q l N e ws (fun x d U => D x (mk_lwe_ks_key d (q - 1) (mk_wbasis base l (base - 1) bits) U)).
Proof.
  intros Ls. unfold accepted_bodies. rewrite !count_prod. f_equal. apply map_ext_in. intros w Hin. cbn [fst snd].
  rewrite Forall_forall in Hw. destruct (Hw w Hin) as (_ & Lr & Hr).
  rewrite (count_ext_in _ (fun bs => D (public w) (mk_lwe_ks_key (length (kp_lwe (secrets w))) (q - 1) (mk_wbasis base l (base - 1) bits)
    (bodies_of (chance w) (shift_lwe q base s l e bs))))).
  - apply (count_shuffle (shift_lwe q base s l e) _ (fun bs => D (public w) (mk_lwe_ks_key (length (kp_lwe (secrets w))) (q - 1) (mk_wbasis base l (base - 1) bits)
      (bodies_of (chance w) bs)))). apply shift_lwe_shuffles; [apply pow2_pos; lia|exact Ls].
  - intros bs Hb. rewrite (planted_lwe_shift q base s l N e); try assumption; [reflexivity|].
    eapply Forall_impl; [|exact Hr]. intros r (L1 & H1). split; [exact L1|]. eapply Forall_impl; [|exact H1]. intros es (L2 & _). lia.
Qed.

Lemma switch_hiding s s' (D : X -> lwe_ks_key -> bool) : length s = N -> length s' = N ->
  q ^ Z.of_nat (l * (N * e)) * (accepted_switch B q bits ws s D - accepted_switch B q bits ws s' D) =
  samples_gap q l N e ws (made s D) - samples_gap q l N e ws (made s' D).
Proof.
  intros L L'. unfold samples_gap. rewrite (accepted_bodies_eq s D L), (accepted_bodies_eq s' D L'), !accepted_samples_eq by assumption. ring.
Qed.

Lemma samples_gap_blind (f : X -> bool) : samples_gap q l N e ws (fun x _ _ => f x) = 0.
Proof.
  pose proof (pow2_pos j ltac:(lia)) as Hq. unfold samples_gap, accepted_samples, accepted_bodies. clear Hw. generalize dependent (2 ^ j). intros Q Hq. generalize e. intros e'.
  rewrite <- (blind1 (fun w => f (public w)) (lists l (lists N (lists e' (range Q)))) ws), !lists_length, range_length, (Z2Nat.id Q), <- !Z.pow_mul_r by lia.
  replace (Z.of_nat e' * (Z.of_nat N * Z.of_nat l)) with (Z.of_nat (l * (N * e'))) by lia. apply Z.sub_diag.
Qed.
End LweGame.

(** * The ring switching key *)

Definition shift_ring (p base : Z) (Ts : list (list Z)) (l : nat) : list (list (list Z)) -> list (list (list Z)) :=
  each (map (fun T => each (map (fun i v => map (fun vt => (fst vt + snd vt) mod p) (combine v (map (fun t => t * base ^ Z.of_nat i) T))) (seq 0 l))) Ts).

Lemma shift_ring_shuffles p base Ts m l n : 0 < p -> length Ts = m -> Forall (fun T => length T = n) Ts ->
  shuffles (shift_ring p base Ts l) (lists m (lists l (tuples n p))).
Proof.
  intros Hp L H. apply shuffle_each; [exact L|]. intros T HT. rewrite Forall_forall in H. specialize (H T HT). apply shuffle_each; [apply seq_length|]. intros i _.
  apply shuffle_vector; [exact Hp|]. rewrite map_length. exact H.
Qed.

Lemma planted_ring_shift p base b Ts m l n rs bs : length rs = m -> Forall (fun r : list (list Z * list Z) => length r = l) rs ->
  In bs (lists m (lists l (tuples n p))) ->
  planted_ring p base b Ts (ring_bodies rs bs) = map (fun rows => mk_gadget rows b) (ring_bodies rs (shift_ring p base Ts l bs)).
Proof.
  intros Lr Hr Hb. unfold planted_ring.
  rewrite <- (map_map (fun tu => numbered (fun i => add_vector p (map (fun t => t * base ^ Z.of_nat i) (fst tu))) (snd tu)) (fun rows => mk_gadget rows b)). f_equal.
  rewrite (combine_each (fun T => numbered (fun i => add_vector p (map (fun t => t * base ^ Z.of_nat i) T)))). unfold ring_bodies, shift_ring.
  apply each_through. intros T r bb Hin. cbn [fst snd]. destruct (in_lists_combine _ _ _ _ _ _ Hb Hin) as (Ir & Ib). rewrite Forall_forall in Hr. specialize (Hr r Ir).
  pose proof (proj1 (lists_in _ _ _) Ib) as (L2 & _). rewrite (numbered_each _ _ l) by (rewrite map_length, combine_length; lia).
  apply each_through. intros i ae v _. reflexivity.
Qed.

Section Ring.
Variable F : field.
Hypothesis Hok : fok F.
Local Notation p := (fp F).
Hypothesis Hp : prime p.
Variables (tbl : tables) (k : nat) (w : Z).
Hypothesis C : ctx F tbl k w.
Hypothesis Hk : (0 < k)%nat.
Local Notation n := (2 ^ k)%nat.
Local Notation ntt := (ntt_of F w k).
Variables (b : basis) (bits : Z).
Hypothesis Hb : basis_new F bits = Some b.
Hypothesis Hbits : 0 <= bits.
Local Notation base := (2 ^ bits).
Let Hp0 : 0 < p := p0 F tbl k w C.
Definition row_ok (ae : list Z * list Z) : Prop := (length (fst ae) = n /\ canonical p (fst ae)) /\ (length (snd ae) = n /\ canonical p (snd ae)).

Lemma vector_added c : forall x T zc, length x = length T -> zc = map (fun t => (t * c) mod p) T ->
  pmod p (padd x zc) = map (fun vt => (fst vt + snd vt) mod p) (combine x (map (fun t => t * c) T)).
Proof.
  induction x as [|v x IH]; intros [|t T] zc L ->; try discriminate L; [reflexivity|]. cbn [map combine fst snd padd pmod]. f_equal; [apply Zplus_mod_idemp_r|].
  apply IH; [cbn in L; lia|reflexivity].
Qed.

Lemma ring_rows_planted t T bv : length t = n -> length T = n -> bv = base mod p -> forall rnd i zc, Forall row_ok rnd ->
  zc = map (fun t => (t * base ^ Z.of_nat i) mod p) T ->
  rks_rows F tbl (ntt t) bv zc rnd = Some (num_from i (fun i => add_vector p (map (fun t => t * base ^ Z.of_nat i) T)) (map (zero_enc F tbl (ntt t)) rnd)).
Proof.
  intros Lt LT Ebv. assert (Hbv : 0 <= bv < p) by (subst bv; apply Z.mod_pos_bound; exact Hp0).
  induction rnd as [|[a e] rnd IH]; intros i zc Hr Ez; [reflexivity|]. inversion Hr as [|? ? (Wa & We) Hr']; subst zc. cbn [fst snd] in Wa, We.
  destruct (zenc_some F Hok tbl k w C Hk t Lt a e Wa We) as (E & Ea & Lb & Cb). cbn [rks_rows map]. rewrite num_from_cons, E. cbn [bind].
  assert (Cz : canonical p (map (fun t => (t * base ^ Z.of_nat i) mod p) T)).
  { unfold canonical. rewrite Forall_map. apply Forall_forall. intros ? _. apply Z.mod_pos_bound. exact Hp0. }
  rewrite (p_add_assign_correct F Hok) by (try assumption; rewrite Lb, map_length; lia). cbn [bind].
  rewrite (vector_added (base ^ Z.of_nat i) _ T _) by (reflexivity || lia).
  assert (HR : (let* z := match rnd with [] => Some (map (fun t => (t * base ^ Z.of_nat i) mod p) T) | _ => p_mul_scalar F (map (fun t => (t * base ^ Z.of_nat i) mod p) T) bv end in
    rks_rows F tbl (ntt t) bv z rnd) = Some (num_from (S i) (fun i => add_vector p (map (fun t => t * base ^ Z.of_nat i) T)) (map (zero_enc F tbl (ntt t)) rnd))).
  { destruct rnd as [|r rnd]; [reflexivity|]. rewrite (p_mul_scalar_correct F Hok) by assumption. cbn [bind]. apply IH; [exact Hr'|].
    unfold pmod, pscale. rewrite !map_map. apply map_ext. intros y. rewrite Ebv. rewrite Nat2Z.inj_succ, Z.pow_succ_r by lia.
    rewrite <- Z.mul_mod by lia. f_equal. ring. }
  destruct (match rnd with [] => _ | _ => _ end) as [z0|]; [|discriminate HR]. cbn [bind] in *. rewrite HR. cbn [bind]. reflexivity.
Qed.

Lemma blocks_value zs : Forall (fun z => length z = n /\ canonical p z) zs -> blocks_of F tbl n (concat zs) = map ntt zs.
Proof.
  intros H. assert (Hn : (0 < n)%nat) by (pose proof (Nat.pow_nonzero 2 k); lia). unfold blocks_of.
  rewrite chunks_concat by (first [exact Hn | eapply Forall_impl; [|exact H]; intros ? A; apply A]).
  rewrite (mapM_some _ ntt); [reflexivity|]. intros z Hz. rewrite Forall_forall in H. destruct (H z Hz). apply (into_ntt_canon F Hok tbl k w C); assumption.
Qed.

Lemma ring_switch_planted z zs S rnd : next_pow2 (length z) = n -> (length z <= n)%nat -> Forall (fun z => length z = n /\ canonical p z) zs -> (0 < length zs)%nat ->
  (length zs = 1%nat -> into_ntt F tbl (concat zs) = Some S) -> length rnd = length zs -> Forall (fun r => length r = bs_len b /\ Forall row_ok r) rnd ->
  rks_generate F tbl bits z (concat zs) S rnd =
  Some (mk_rlwe_ks_key (length z) (planted_ring p base b (map ntt zs) (ring_zeros F tbl (lwe_as_ring F tbl n z) rnd))).
Proof.
  intros Hext Lz Hz Hz0 HS Lr Hr. assert (Hn : (0 < n)%nat) by (pose proof (Nat.pow_nonzero 2 k); lia).
  assert (Hzl : Forall (fun x => length x = n) zs) by (eapply Forall_impl; [|exact Hz]; intros ? A; apply A).
  unfold rks_generate. rewrite Hext, Hb. pose proof (concat_len n zs Hzl) as Lc. rewrite assert_true by (apply Nat.leb_le; nia). cbn [bind].
  rewrite (mapM_some (to_field F) (fun v => if v =? 0 then 0 else if v =? 1 then 1 else p - 1)).
  2:{ intros v _. unfold to_field, usub. destruct (v =? 0); [reflexivity|]. destruct (v =? 1); [reflexivity|]. destruct (Z.leb_spec 1 p); [reflexivity|lia]. }
  cbn [bind]. set (t := map _ z ++ repeat 0 (n - length z)).
  assert (Lt : length t = n) by (unfold t; rewrite app_length, map_length, repeat_length; lia).
  assert (Ct : canonical p t).
  { pose proof (Hp2 F tbl k w C). unfold t, canonical. apply Forall_app. split; [rewrite Forall_map; apply Forall_forall; intros v _; destruct (v =? 0); [|destruct (v =? 1)]; lia|].
    apply Forall_forall. intros v Hv. apply repeat_spec in Hv. lia. }
  assert (Et : lwe_as_ring F tbl n z = ntt t) by (unfold lwe_as_ring; fold t; rewrite (into_ntt_canon F Hok tbl k w C t Lt Ct); reflexivity).
  rewrite (into_ntt_canon F Hok tbl k w C t Lt Ct). cbn [bind]. rewrite Et.
  pose proof (basis_bits F bits b Hok Hb Hbits) as HBB. rewrite (base_eq' F Hok b bits Hb Hbits).
  assert (Hw2 : 0 <= base < 2 ^ fw F) by (split; [apply Z.pow_nonneg; lia|apply Z.pow_lt_mono_r; lia]).
  rewrite (f_new_correct F Hok) by exact Hw2. cbn [bind].
  set (one := fun z r => let* _ := assert (length r =? bs_len b)%nat in let* rows := rks_rows F tbl (ntt t) (base mod p) z r in Some (mk_gadget rows b)).
  assert (Hone : forall x r, length x = n -> length r = bs_len b /\ Forall row_ok r -> one (ntt x) r =
    Some (mk_gadget (numbered (fun i => add_vector p (map (fun t => t * base ^ Z.of_nat i) (ntt x))) (map (zero_enc F tbl (ntt t)) r)) b)).
  { intros x r Lx (L1 & H1). unfold one. rewrite assert_true by (apply Nat.eqb_eq; exact L1). cbn [bind].
    rewrite (ring_rows_planted t (ntt x) (base mod p) Lt (ntt_of_length F w k x) eq_refl r 0); [reflexivity|exact H1|].
    rewrite <- (map_id (ntt x)) at 1. apply map_ext_in. intros v Hv. pose proof (ntt_canon F Hok k w x) as Cx. unfold canonical in Cx. rewrite Forall_forall in Cx.
    cbn [Z.of_nat]. rewrite Z.pow_0_r, Z.mul_1_r. symmetry. apply Z.mod_small. apply Cx. exact Hv. }
  rewrite chunks_concat by assumption.
  assert (HKey : (if (n =? length (concat zs))%nat then let* r := index rnd 0 in let* g := one S r in Some [g]
     else let* _ := assert (length zs =? length rnd)%nat in mapM2 (fun z r => let* z0 := into_ntt F tbl z in one z0 r) zs rnd) =
     Some (planted_ring p base b (map ntt zs) (ring_zeros F tbl (ntt t) rnd))).
  { destruct (Nat.eqb_spec n (length (concat zs))) as [En|En].
    - assert (L1 : length zs = 1%nat) by nia. specialize (HS L1). destruct zs as [|x [|? ?]]; try discriminate L1. destruct rnd as [|r [|? ?]]; try discriminate Lr.
      inversion Hz as [|? ? (Lx & Cx) _]; subst. inversion Hr as [|? ? Hr0 _]; subst. cbn [concat] in *. rewrite app_nil_r in *.
      rewrite (into_ntt_canon F Hok tbl k w C x Lx Cx) in HS. injection HS as <-. unfold index. cbn [nth_error bind]. rewrite (Hone x r Lx Hr0). reflexivity.
    - rewrite assert_true by (apply Nat.eqb_eq; congruence). cbn [bind]. clear HS En Lc Hz0 Hzl. revert rnd Lr Hr. induction Hz as [|x zs (Lx & Cx) Hz IH]; intros [|r rnd] Lr Hr; try discriminate Lr; [reflexivity|].
      injection Lr as Lr. inversion Hr as [|? ? Hr0 Hr']; subst. cbn [mapM2]. rewrite (into_ntt_canon F Hok tbl k w C x Lx Cx). cbn [bind]. rewrite (Hone x r Lx Hr0). cbn [bind].
      rewrite (IH rnd Lr Hr'). reflexivity. }
  unfold one in HKey. rewrite HKey. reflexivity.
Qed.
End Ring.

Section RingGame.
Variables (X : Type) (BF p : Z) (k m : nat) (F : field) (tbl : tables) (bits : Z) (b : basis) (ws : list (kworld X rdraws)).
Local Notation n := (2 ^ k)%nat.
Local Notation l := (bs_len b).
Local Notation base := (2 ^ bits).
Hypothesis (HB : wwidth BF) (Hp : prime p) (HF : derive_field BF p = Some F) (HS : serves F tbl k) (Hk : (0 < k)%nat)
  (H0 : 0 <= bits) (Hb : basis_new F bits = Some b) (Hm : (0 < m)%nat) (Hw : Forall (ring_switch_world F m l n) ws).
Local Notation ring_secret := (ring_secret F tbl m n).
Local Notation made s D := (fun x d U => D x (mk_rlwe_ks_key d (planted_ring (fp F) base b (blocks_of F tbl n s) U))).

Lemma next_pow2_ge a : (a <= next_pow2 a)%nat.
Proof.
  unfold next_pow2. destruct a as [|[|a]]; [cbn; lia|cbn; lia|]. apply Nat.log2_up_spec. lia.
Qed.

Lemma cut s : length s = (m * n)%nat -> canonical (fp F) s -> exists zs, s = concat zs /\ length zs = m /\ Forall (fun z => length z = n /\ canonical (fp F) z) zs.
Proof.
  clear. revert s. induction m as [|m' IH]; intros s L Cs.
  - exists []. destruct s; [|discriminate L]. split; [reflexivity|]. split; [reflexivity|constructor].
  - destruct (IH (skipn n s)) as (zs & E & Lz & H).
    + rewrite skipn_length, L. cbn. lia.
    + apply Forall_skipn. exact Cs.
    + exists (firstn n s :: zs). cbn [concat length]. rewrite <- E, firstn_skipn, Lz. split; [reflexivity|]. split; [reflexivity|]. constructor; [|exact H].
      split; [rewrite firstn_length, L; cbn; lia|apply Forall_firstn; exact Cs].
Qed.

Lemma ring_switch_value s S (w : kworld X rdraws) : ring_secret s S -> ring_switch_world F m l n w ->
  rks_generate F tbl bits (kp_lwe (secrets w)) s S (chance w) =
  Some (mk_rlwe_ks_key (length (kp_lwe (secrets w))) (planted_ring (fp F) base b (blocks_of F tbl n s) (ring_zeros F tbl (lwe_as_ring F tbl n (kp_lwe (secrets w))) (chance w)))).
Proof.
  intros (Ls & Cs & HSS) (En & Lr & Hr). destruct (cut s Ls Cs) as (zs & -> & Lz & Hz). destruct (field_ctx BF p k F tbl HB Hp HF HS) as (Hok & Ep & w0 & C).
  rewrite (blocks_value F Hok tbl k w0 C Hk zs Hz). apply (ring_switch_planted F Hok) with (w := w0) (k := k); try assumption; try lia.
  - rewrite <- En. apply next_pow2_ge.
  - rewrite Lz. exact HSS.
Qed.

Lemma accepted_ring_zeros_eq s S (D : X -> rlwe_ks_key -> bool) : ring_secret s S ->
  accepted_ring_switch F tbl bits ws s S D = accepted_ring_zeros F tbl n ws (made s D).
Proof. intros Hs. unfold accepted_switch, accepted_samples, accepted_ring_switch, accepted_ring_zeros; apply count_ext_in; intros w Hin; cbv beta. rewrite Forall_forall in Hw. pose proof (ring_switch_value s S w Hs (Hw w Hin)) as E. unfold rdraws in *. rewrite E. reflexivity. Qed.

Lemma accepted_ring_bodies_eq s S (D : X -> rlwe_ks_key -> bool) : ring_secret s S ->
  accepted_ring_bodies F m l n ws (made s D) =
  accepted_ring_bodies F m l n ws (fun x d U => D x (mk_rlwe_ks_key d (map (fun rows => mk_gadget rows b) U))).
Proof.
  intros (Ls & Cs & _). destruct (cut s Ls Cs) as (zs & -> & Lz & Hz). destruct (field_ctx BF p k F tbl HB Hp HF HS) as (Hok & Ep & w0 & C).
  pose proof (p0 F tbl k w0 C) as Hp0. rewrite (blocks_value F Hok tbl k w0 C Hk zs Hz). set (Ts := map (ntt_of F w0 k) zs).
  unfold accepted_ring_bodies. rewrite !count_prod. f_equal. apply map_ext_in. intros w Hin. cbn [fst snd].
  rewrite Forall_forall in Hw. destruct (Hw w Hin) as (_ & Lr & Hr).
  rewrite (count_ext_in _ (fun bs => D (public w) (mk_rlwe_ks_key (length (kp_lwe (secrets w)))
    (map (fun rows => mk_gadget rows b) (ring_bodies (chance w) (shift_ring (fp F) base Ts l bs)))))).
  - apply (count_shuffle (shift_ring (fp F) base Ts l) _ (fun bs => D (public w) (mk_rlwe_ks_key (length (kp_lwe (secrets w)))
      (map (fun rows => mk_gadget rows b) (ring_bodies (chance w) bs))))). apply shift_ring_shuffles; [exact Hp0|unfold Ts; rewrite map_length; exact Lz|].
    unfold Ts. rewrite Forall_map. apply Forall_forall. intros x _. apply ntt_of_length.
  - intros bs Hbs. rewrite (planted_ring_shift (fp F) base b Ts m l n); try assumption; [reflexivity|].
    eapply Forall_impl; [|exact Hr]. intros r A. apply A.
Qed.

Lemma ring_switch_hiding s S s' S' (D : X -> rlwe_ks_key -> bool) : ring_secret s S -> ring_secret s' S' ->
  fp F ^ Z.of_nat (m * (l * n)) * (accepted_ring_switch F tbl bits ws s S D - accepted_ring_switch F tbl bits ws s' S' D) =
  ring_gap F tbl m l n ws (made s D) - ring_gap F tbl m l n ws (made s' D).
Proof.
  intros L L'. unfold ring_gap. rewrite (accepted_ring_bodies_eq s S D L), (accepted_ring_bodies_eq s' S' D L'), (accepted_ring_zeros_eq s S D L), (accepted_ring_zeros_eq s' S' D L'). ring.
Qed.

Lemma ring_gap_blind (f : X -> bool) : ring_gap F tbl m l n ws (fun x _ _ => f x) = 0.
Proof.
  destruct (field_ctx BF p k F tbl HB Hp HF HS) as (Hok & Ep & w0 & C). pose proof (p0 F tbl k w0 C) as Hp0. unfold ring_gap, accepted_ring_zeros, accepted_ring_bodies.
  rewrite <- (blind1 (fun w => f (public w)) (lists m (lists l (tuples n (fp F)))) ws), !lists_length, tuples_count, <- !Z.pow_mul_r by lia.
  replace (Z.of_nat n * (Z.of_nat l * Z.of_nat m)) with (Z.of_nat (m * (l * n))) by lia. apply Z.sub_diag.
Qed.
End RingGame.
