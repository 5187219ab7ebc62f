(** The two builds compared, and an implementation of the external crate's contract. *)
From Coq Require Import ZArith List Arith Bool Lia Znumtheory Permutation Setoid Morphisms.
From Verif Require Import Spec.Basic Spec.Poly Spec.ConcreteNtt.
From Verif Require Import Model.Base Model.Shoup Model.Barrett Model.Field Model.NTT Model.Concrete Model.Poly.
From Verif Require Import Proofs.Arith Proofs.NumTheory Proofs.PolyMath Proofs.FieldProofs Proofs.NTTProofs Proofs.NTTTableProofs
  Proofs.ConcreteProofs Proofs.PolyProofs Proofs.MonomialProofs Proofs.PolyMain.
Import ListNotations.
Local Open Scope Z_scope.

(** A plan made of the repository's own table. *)
Definition plan_of (F : field) (T : ntt_table) : plan :=
  mk_plan (nt_root T) (transform_slice F T) (inverse_transform_slice F T) Some
    (transform_monomial F T) (transform_coeff_one_monomial T) (transform_coeff_neg_one_monomial F T).
(** A crate that knows this one plan. *)
Definition crate_of (F : field) (k : nat) (T : ntt_table) : plans :=
  fun n p => if (n =? 2 ^ Z.of_nat k) && (p =? fp F) then Some (plan_of F T) else None.

Section Backend.
Variable F : field.
Hypothesis Hok : fok F.
Local Notation p := (fp F).
Hypothesis Hp : prime p.

Lemma table_gen ext draws k t : build_ok ext -> (forall i, 2 <= draws i <= p - 1) ->
  generate_table F ext draws k = Some (Ok t) ->
  2 < p /\ (k < 63)%nat /\ 0 <= t_root t < p /\ cong p (npow (t_root t) (2 ^ k)) (-1) /\ tab_ok F (t_root t) k t /\
  primitive_root p (2 * 2 ^ Z.of_nat k) (t_root t).
Proof.
  intros Hb Hd E. destruct (generate_table_ok F Hok Hp ext draws k t Hb Hd E) as (H2 & Hk & w & <- & Hw & Cw & HT).
  repeat (split; [assumption|]). rewrite <- pow2_nat. apply (primitive_root_iff p k (t_root t) Hp H2). exact Cw.
Qed.

Lemma gen_transform ext draws k t : build_ok ext -> (forall i, 2 <= draws i <= p - 1) ->
  generate_table F ext draws k = Some (Ok t) -> forall a, length a = (2 ^ k)%nat -> canonical p a ->
  t_transform_slice F t a = Some (evaluations p (t_root t) k a).
Proof.
  intros Hb Hd E a La Ca. destruct (table_gen ext draws k t Hb Hd E) as (H2 & Hk & Hw & Cw & HT & _).
  rewrite (t_transform_correct F Hok (t_root t) k H2 Cw t HT a La Ca), evaluations_ntt. reflexivity.
Qed.
Lemma gen_inverse ext draws k t : build_ok ext -> (forall i, 2 <= draws i <= p - 1) ->
  generate_table F ext draws k = Some (Ok t) -> (1 <= k)%nat -> forall a, length a = (2 ^ k)%nat -> canonical p a ->
  t_inverse_transform_slice F t (evaluations p (t_root t) k a) = Some a.
Proof.
  intros Hb Hd E Hk1 a La Ca. destruct (table_gen ext draws k t Hb Hd E) as (H2 & Hk & Hw & Cw & HT & _).
  rewrite (t_inverse_of_transform F Hok Hp (t_root t) k H2 Cw t HT a); try assumption.
  - f_equal. clear La. unfold canonical in Ca. induction Ca as [|x a Hx _ IH]; [reflexivity|]. cbn [pmod map].
    unfold pmod in IH. rewrite Z.mod_small, IH by lia. reflexivity.
  - rewrite evaluations_ntt. apply ntt_of_length.
  - rewrite evaluations_ntt. apply (canonical_R2 F Hok). apply (ntt_of_canonical F Hok).
  - intros i Hi. rewrite evaluations_ntt, (nth_ntt_of F) by exact Hi. apply cong_mod. lia.
Qed.
Lemma gen_monomials ext draws k t : build_ok ext -> (forall i, 2 <= draws i <= p - 1) ->
  generate_table F ext draws k = Some (Ok t) -> (k <= 31)%nat -> forall d, 0 <= d < 2 * 2 ^ Z.of_nat k ->
  (forall c, 0 <= c < p -> t_transform_monomial F t c d (2 ^ k) = Some (monomial_values p (t_root t) k c d)) /\
  t_transform_coeff_one_monomial t d (2 ^ k) = Some (monomial_values p (t_root t) k 1 d) /\
  t_transform_coeff_neg_one_monomial F t d (2 ^ k) = Some (monomial_values p (t_root t) k (-1) d).
Proof.
  intros Hb Hd E Hk1 d Hdd. destruct (table_gen ext draws k t Hb Hd E) as (H2 & Hk & Hw & Cw & HT & _).
  rewrite <- pow2_nat in Hdd.
  split; [intros c Hc; rewrite (t_mono_correct F Hok _ k t H2 Hk1 Cw HT c d Hc Hdd), monomial_values_ntt by lia; reflexivity|].
  split.
  - rewrite (t_one_correct F Hok _ k t H2 Hk1 Cw HT d Hdd), monomial_values_ntt by lia. reflexivity.
  - rewrite (t_neg_one_correct F Hok _ k t H2 Hk1 Cw HT d Hdd), monomial_values_ntt by lia. reflexivity.
Qed.

(** The evaluation points of any two roots are the same, in some other order. *)
Lemma points_perm k w w' : 2 < p -> cong p (npow w (2 ^ k)) (-1) -> cong p (npow w' (2 ^ k)) (-1) ->
  Permutation (map (fun i => zt w k i mod p) (seq 0 (2 ^ k))) (map (fun i => zt w' k i mod p) (seq 0 (2 ^ k))).
Proof.
  intros H2 Cw Cw'. apply NoDup_Permutation_bis.
  - apply NoDup_map_inj; [|apply seq_NoDup]. intros x y Hx Hy E. apply in_seq in Hx, Hy.
    apply cong_iff in E; [|lia]. unfold zt, zeta in E.
    pose proof (bitrev_bound k x). pose proof (bitrev_bound k y).
    apply (root_pow_inj p w k Hp H2 Cw) in E; [|lia..]. apply (bitrev_inj k); lia.
  - rewrite !map_length, !seq_length. lia.
  - intros z Hz. apply in_map_iff in Hz. destruct Hz as (i & <- & _).
    assert (Cz : cong p (npow (zt w k i) (2 ^ k)) (-1)) by (apply zeta_pow; exact Cw).
    destruct (root_all p w' k Hp H2 Cw' _ Cz) as (j & Hj & Hz).
    apply in_map_iff. exists (bitrev k j). split; [|apply in_seq; pose proof (bitrev_bound k j); lia].
    symmetry. apply cong_iff; [lia|]. unfold zt at 2. rewrite bitrev_involutive by exact Hj. exact Hz.
Qed.
Lemma evaluations_points w k a : evaluations p w k a =
  map (fun z => ev z a mod p) (map (fun i => zt w k i mod p) (seq 0 (2 ^ k))).
Proof.
  pose proof (prime_ge_2 p Hp). unfold evaluations. rewrite map_map. apply map_ext. intros i. rewrite <- zt_pow_Z.
  apply cong_iff; [lia|]. apply ev_cong; [symmetry; apply cong_mod; lia|]. apply pcong_refl.
Qed.
Lemma evaluations_perm k w w' a : 2 < p -> cong p (npow w (2 ^ k)) (-1) -> cong p (npow w' (2 ^ k)) (-1) ->
  Permutation (evaluations p w k a) (evaluations p w' k a).
Proof. intros H2 Cw Cw'. rewrite !evaluations_points. apply Permutation_map, points_perm; assumption. Qed.

(** Root search with plain products and with precomputed ones. *)
Lemma ext_mul_root_eq v r : 0 <= v < p -> 0 <= r < p ->
  ext_mul_root F v (ext_to_root r) = (let* s := to_root F r in mul_root F v s) /\
  ext_mul_root F v (ext_to_root r) = Some ((v * r) mod p).
Proof.
  intros Hv Hr. pose proof (B_facts F Hok). unfold ext_mul_root, ext_to_root. rewrite (f_mul_correct F Hok) by lia.
  destruct (to_root_is F Hok r Hr) as (s & Es & Is). rewrite Es. cbn [bind].
  rewrite (mul_root_correct F Hok s r v Is) by lia. rewrite (Z.mul_comm r v). auto.
Qed.
Lemma ext_min_root_eq draws k : (forall i, 2 <= draws i <= p - 1) ->
  ext_try_minimal_primitive_root F draws (2 * Z.of_nat (2 ^ k)) = try_minimal_primitive_root F draws (2 * Z.of_nat (2 ^ k)).
Proof.
  intros Hd. pose proof (B_facts F Hok). unfold ext_try_minimal_primitive_root, try_minimal_primitive_root.
  destruct (try_primitive_root_spec F Hok draws k Hd) as (r & -> & Sr). cbn [bind]. destruct r as [w|]; [|reflexivity].
  destruct Sr as (_ & Hw & _). rewrite (f_mul_correct F Hok) by lia. cbn [bind].
  set (sq := (w * w) mod p). assert (Hsq : 0 <= sq < p) by (apply Z.mod_pos_bound; lia).
  destruct (to_root_is F Hok sq Hsq) as (g & Eg & Ig). rewrite Eg. cbn [bind].
  assert (G : forall m root cur, 0 <= cur < p ->
    iterM m (ext_min_root_step F (ext_to_root sq)) (root, cur) = iterM m (min_root_step F g) (root, cur)).
  { induction m as [|m IH]; intros root cur Hc; [reflexivity|]. cbn [iterM]. unfold ext_min_root_step at 1, min_root_step at 1.
    rewrite (proj2 (ext_mul_root_eq cur sq Hc Hsq)), (mul_root_correct F Hok g sq cur Ig) by lia. cbn [bind].
    rewrite (Z.mul_comm sq cur). apply IH. apply Z.mod_pos_bound. lia. }
  rewrite G by exact Hw. reflexivity.
Qed.

(** The repository's own tables meet the contract. *)
Lemma plan_of_documented w k T : 2 < p -> (1 <= k <= 31)%nat -> 0 <= w < p -> cong p (npow w (2 ^ k)) (-1) ->
  table_ok F w k T -> plan_documented p k (plan_of F T).
Proof.
  intros H2 Hk Hw Cw HT. assert (Hr : nt_root T = w) by apply (to_r F w k T HT). pose proof (B_facts F Hok).
  split; cbn [plan_of pl_root pl_fwd pl_inv pl_normalize pl_fwd_monomial pl_fwd_coeff_one_monomial pl_fwd_coeff_neg_one_monomial]; rewrite ?Hr.
  - exact Hw.
  - rewrite <- pow2_nat. apply (primitive_root_iff p k w Hp H2). exact Cw.
  - intros a La Ca. rewrite (t_transform_correct F Hok w k H2 Cw (OwnTable T) HT a La Ca : transform_slice F T a = _), evaluations_ntt. reflexivity.
  - intros v Lv Hv. destruct (inverse_correct F Hok w k H2 Cw T v HT ltac:(lia) Lv Hv) as (a & Ea & La & Ca & Ha).
    exists a, a. split; [exact Ea|]. split; [reflexivity|]. split; [exact La|]. split; [exact Ca|].
    rewrite evaluations_ntt. apply (nth_ext _ _ 0 0).
    + rewrite ntt_of_length. unfold pmod. rewrite map_length. congruence.
    + rewrite ntt_of_length. intros i Hi. rewrite (nth_ntt_of F) by exact Hi. unfold pmod.
      rewrite (nth_map_lt _ _ _ 0 0) by lia. apply cong_iff; [lia|]. apply Ha. exact Hi.
  - intros c d Hc Hd. rewrite <- pow2_nat in Hd.
    rewrite (t_mono_correct F Hok w k (OwnTable T) H2 ltac:(lia) Cw HT c d Hc Hd : transform_monomial F T c d _ = _), monomial_values_ntt by lia. reflexivity.
  - intros d Hd. rewrite <- pow2_nat in Hd.
    rewrite (t_one_correct F Hok w k (OwnTable T) H2 ltac:(lia) Cw HT d Hd : transform_coeff_one_monomial T d _ = _), monomial_values_ntt by lia. reflexivity.
  - intros d Hd. rewrite <- pow2_nat in Hd.
    rewrite (t_neg_one_correct F Hok w k (OwnTable T) H2 ltac:(lia) Cw HT d Hd : transform_coeff_neg_one_monomial F T d _ = _), monomial_values_ntt by lia. reflexivity.
Qed.
Lemma crate_of_documented w k T : 2 < p -> (1 <= k <= 31)%nat -> 0 <= w < p -> cong p (npow w (2 ^ k)) (-1) ->
  table_ok F w k T -> crate_documented (crate_of F k T).
Proof.
  intros H2 Hk Hw Cw HT q j P Hq E. unfold crate_of in E.
  destruct (Z.eqb_spec (2 ^ Z.of_nat j) (2 ^ Z.of_nat k)) as [Ej|]; [|discriminate].
  destruct (Z.eqb_spec q p) as [->|]; [|discriminate]. injection E as <-.
  apply Z.pow_inj_r in Ej; [|lia..]. apply Nat2Z.inj in Ej. subst j. eapply plan_of_documented; eassumption.
Qed.
Lemma crate_of_generated draws k T : (1 <= k <= 31)%nat -> (forall i, 2 <= draws i <= p - 1) ->
  generate_ntt_table F draws k = Some (Ok T) -> crate_documented (crate_of F k T).
Proof.
  intros Hk Hd E. destruct (generate_ok F Hok Hp draws k T Hd E) as (H2 & _ & _ & w & (Hw1 & Hw2 & _) & HT).
  eapply crate_of_documented; eassumption.
Qed.
End Backend.
