(** Tables of either build: transforms of [Model/Concrete.v]. *)
From Coq Require Import ZArith List Arith Bool Lia Znumtheory Setoid Morphisms.
From Verif Require Import Spec.Basic Spec.Poly Spec.ConcreteNtt.
From Verif Require Import Model.Base Model.Shoup Model.Barrett Model.Field Model.NTT Model.Concrete.
From Verif Require Import Proofs.Arith Proofs.NumTheory Proofs.FieldProofs Proofs.NTTProofs Proofs.NTTTableProofs.
Import ListNotations.
Local Open Scope Z_scope.

Lemma zt_pow_Z w k i : zt w k i = w ^ (2 * Z.of_nat (bitrev k i) + 1).
Proof. unfold zt, zeta, npow. f_equal. lia. Qed.

Lemma primitive_gt2 p d w : prime p -> 2 <= d -> 0 <= w < p -> primitive_root p d w -> 2 < p /\ d <= p - 1.
Proof.
  intros Hp Hd Hw (H1 & H2). pose proof (prime_ge_2 p Hp).
  assert (Hnz : ~ (p | w)).
  { intros Hdiv. assert (w = 0) by (destruct (Z.eq_dec w 0); [assumption|apply Z.divide_pos_le in Hdiv; lia]). subst w.
    rewrite Z.pow_0_l in H1 by lia. destruct H1 as (z & Hz). assert (p * - z = 1) by lia.
    assert (0 < - z) by nia. nia. }
  pose proof (fermat p w Hp Hnz) as Hf.
  assert (d <= p - 1) by (destruct (Z.le_gt_cases d (p - 1)); [assumption|exfalso; apply (H2 (p - 1)); [lia|exact Hf]]).
  lia.
Qed.

Section Tab.
Variable F : field.
Hypothesis Hok : fok F.
Local Notation p := (fp F).
Hypothesis Hp : prime p.

(** The table transforms with root [w]. *)
Definition tab_ok (w : Z) (k : nat) (t : any_table) : Prop :=
  match t with
  | OwnTable T => table_ok F w k T
  | ExtTable T => pl_root (cn_plan T) = w /\ plan_documented p k (cn_plan T)
  end.

Lemma evaluations_ntt w k a : evaluations p w k a = ntt_of F w k a.
Proof. unfold evaluations, ntt_of. apply map_ext. intros i. rewrite zt_pow_Z. reflexivity. Qed.

Lemma generate_table_ok ext draws k t : build_ok ext -> (forall i, 2 <= draws i <= p - 1) ->
  generate_table F ext draws k = Some (Ok t) ->
  2 < p /\ (k < 63)%nat /\ exists w, t_root t = w /\ 0 <= w < p /\ cong p (npow w (2 ^ k)) (-1) /\ tab_ok w k t.
Proof.
  intros Hb Hd H. unfold generate_table in H. destruct (backend F ext) as [try_new|] eqn:Eb.
  - apply bind_some in H. destruct H as ([T|] & E & [= <-]). unfold concrete_new in E.
    unfold backend in Eb. destruct ((fw F =? 32) || (fw F =? 64)) eqn:Ew; [|discriminate]. subst ext. cbn [build_ok] in Hb.
    apply bind_some in E. destruct E as (n & En & E). unfold ushl in En. destruct (Z.ltb_spec (Z.of_nat k) 64) as [Hk|]; [|discriminate].
    rewrite Z.mul_1_l, Z.mod_small in En by (split; [apply Z.pow_nonneg; lia|apply Z.pow_lt_mono_r; lia]). injection En as <-.
    destruct (try_new (2 ^ Z.of_nat k) p) as [P|] eqn:EP; [|discriminate]. apply bind_some in E. destruct E as (r & Er & [= <-]).
    pose proof (Hb p k P Hp EP) as D. pose proof (pd_root_range _ _ _ D) as Hr.
    unfold f_new in Er. destruct (Z.ltb_spec (pl_root P) p); [|lia]. injection Er as <-.
    assert (Hpow : 2 <= 2 * 2 ^ Z.of_nat k) by (pose proof (Z.pow_pos_nonneg 2 (Z.of_nat k) ltac:(lia) ltac:(lia)); lia).
    destruct (primitive_gt2 p _ _ Hp Hpow Hr (pd_root _ _ _ D)) as (H2 & Hle).
    split; [exact H2|]. split.
    + assert (Hw : p < 2 ^ 64).
      { pose proof (B_facts F Hok) as (_ & _ & HB & _). apply orb_true_iff in Ew.
        assert (2 ^ fw F <= 2 ^ 64) by (apply Z.pow_le_mono_r; destruct Ew as [Ew|Ew]; apply Z.eqb_eq in Ew; lia). lia. }
      assert (2 ^ (1 + Z.of_nat k) < 2 ^ 64) by (rewrite Z.pow_add_r by lia; change (2 ^ 1) with 2; lia).
      apply Z.pow_lt_mono_r_iff in H0; lia.
    + exists (pl_root P). split; [reflexivity|]. split; [exact Hr|]. split; [|split; [reflexivity|exact D]].
      apply primitive_root_iff; [exact Hp|exact H2|]. rewrite pow2_nat. apply D.
  - apply bind_some in H. destruct H as ([T|] & E & [= <-]).
    destruct (generate_ok F Hok Hp draws k T Hd E) as (H2 & Hk & _ & w & (Hw1 & Hw2 & _) & HT).
    split; [exact H2|]. split; [exact Hk|]. exists w. split; [apply (to_r F w k T HT)|]. auto.
Qed.

Section W.
Variables (w : Z) (k : nat).
Hypothesis Hp2 : 2 < p.
Hypothesis Hw : cong p (npow w (2 ^ k)) (-1).
Variable t : any_table.
Hypothesis HT : tab_ok w k t.
Local Notation n := (2 ^ k)%nat.
Local Notation ntt := (ntt_of F w k).

Lemma t_transform_correct a : length a = n -> canonical p a -> t_transform_slice F t a = Some (ntt a).
Proof.
  intros Hl Ha. destruct t as [T|T]; cbn [t_transform_slice tab_ok] in *.
  - apply (transform_correct F Hok w k Hp2 Hw T a HT Hl). apply (R2_R4 F Hok), (canonical_R2 F Hok). exact Ha.
  - destruct HT as (<- & D). unfold concrete_transform_slice. rewrite (pd_fwd _ _ _ D a Hl Ha). rewrite evaluations_ntt. reflexivity.
Qed.

Lemma t_inverse_correct v : (0 < k)%nat -> length v = n -> Forall (R2 F) v ->
  exists a, t_inverse_transform_slice F t v = Some a /\ length a = n /\ canonical p a /\
    forall i, (i < n)%nat -> cong p (ev (zt w k i) a) (nth i v 0).
Proof.
  intros Hk Hl Hv. destruct t as [T|T]; cbn [t_inverse_transform_slice tab_ok] in *.
  - apply (inverse_correct F Hok w k Hp2 Hw T v HT Hk Hl Hv).
  - destruct HT as (Ew & D). unfold concrete_inverse_transform_slice.
    destruct (pd_inv _ _ _ D v Hl Hv) as (u & a & E1 & E2 & La & Ca & Ea). rewrite E1. cbn [bind].
    exists a. split; [exact E2|]. split; [exact La|]. split; [exact Ca|]. intros i Hi.
    rewrite Ew, evaluations_ntt in Ea. pose proof (B_facts F Hok).
    assert (En : nth i (ntt a) 0 = nth i (pmod p v) 0) by (rewrite Ea; reflexivity).
    rewrite nth_ntt_of in En by exact Hi. unfold pmod in En. rewrite (nth_map_lt _ _ _ 0 0) in En by lia.
    apply cong_iff; [lia|exact En].
Qed.

Lemma t_inverse_of_transform a v : (0 < k)%nat -> length a = n -> length v = n ->
  Forall (R2 F) v -> (forall i, (i < n)%nat -> cong p (nth i v 0) (ev (zt w k i) a)) ->
  t_inverse_transform_slice F t v = Some (pmod p a).
Proof.
  intros Hk Ha Hv HP H. destruct (t_inverse_correct v Hk Hv HP) as (out & E & Lo & Co & Ho).
  rewrite E. f_equal. apply pcong_canon; [pose proof (B_facts F Hok); lia|assumption|].
  apply (zt_inj F Hp w k Hp2 Hw); [assumption..|]. intros i Hi. rewrite (Ho i Hi). apply H. exact Hi.
Qed.
End W.
End Tab.
