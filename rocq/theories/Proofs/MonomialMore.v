(** The degrees on which the monomial transforms of a checked build panic. *)
From Coq Require Import ZArith List Arith Bool Lia Znumtheory.
From Verif Require Import Spec.Basic Spec.Poly Model.Base Model.Shoup Model.Field Model.NTT Model.Concrete Model.Poly.
From Verif Require Import Proofs.Arith Proofs.FieldProofs Proofs.NTTProofs Proofs.NTTTableProofs Proofs.PolyProofs Proofs.PolyMain Proofs.SizeProofs.
Import ListNotations.
Local Open Scope Z_scope.

Lemma mapM_none {A C} (f : A -> option C) l x : In x l -> f x = None -> mapM f l = None.
Proof.
  induction l as [|y l IH]; intros Hi Hx; [destruct Hi|]. cbn [mapM]. destruct Hi as [->|Hi].
  - rewrite Hx. reflexivity.
  - destruct (f y); [|reflexivity]. cbn [bind]. rewrite (IH Hi Hx). reflexivity.
Qed.
Lemma bitrev_last k : bitrev k (2 ^ k - 1) = (2 ^ k - 1)%nat.
Proof.
  induction k as [|k IH]; [reflexivity|]. cbn [bitrev].
  assert (H : (2 ^ S k - 1 = 1 + (2 ^ k - 1) * 2)%nat) by (pose proof (Nat.pow_nonzero 2 k ltac:(lia)); cbn [Nat.pow]; lia).
  rewrite H. rewrite Nat.div_add, Nat.mod_add by lia. cbn [Nat.div Nat.modulo Nat.divmod fst snd Nat.add Nat.sub].
  rewrite IH. pose proof (Nat.pow_nonzero 2 k ltac:(lia)). lia.
Qed.
Lemma mono_index_none k d : (2 * Z.of_nat (2 ^ k) - 1) * d >= 2 ^ 64 -> mono_index k (2 ^ k - 1) d = None.
Proof.
  intros H. unfold mono_index. pose proof (Nat.pow_nonzero 2 k ltac:(lia)).
  destruct (usub 64 (Z.of_nat k)) as [s|]; [|reflexivity]; cbn [bind].
  destruct (usub s 1) as [s1|]; [|reflexivity]; cbn [bind].
  destruct (ushr 64 (2 ^ 64 - 1) s1) as [m|]; [|reflexivity]; cbn [bind].
  unfold umul at 1. destruct (Z.ltb_spec (2 * Z.of_nat (2 ^ k - 1)) (2 ^ 64)); [|reflexivity]. cbn [bind].
  unfold uadd. destruct (Z.ltb_spec (2 * Z.of_nat (2 ^ k - 1) + 1) (2 ^ 64)); [|reflexivity]. cbn [bind].
  unfold umul. destruct (Z.ltb_spec ((2 * Z.of_nat (2 ^ k - 1) + 1) * d) (2 ^ 64)) as [Hl|]; [|reflexivity].
  replace (2 * Z.of_nat (2 ^ k - 1) + 1) with (2 * Z.of_nat (2 ^ k) - 1) in Hl by lia. lia.
Qed.
Lemma last_in_rev F w k T : table_ok F w k T -> In (2 ^ k - 1)%nat (firstn (2 ^ k) (nt_rev T)).
Proof.
  intros HT. rewrite (to_rev F w k T HT), firstn_all2 by (rewrite map_length, seq_length; lia).
  apply in_map_iff. exists (2 ^ k - 1)%nat. split; [apply bitrev_last|]. apply in_seq. pose proof (Nat.pow_nonzero 2 k ltac:(lia)). lia.
Qed.

Lemma gen_monomial_panics B p k F T c d : gen_facts B p k F T -> 0 < c < p ->
  2 ^ 64 <= (2 * 2 ^ Z.of_nat k - 1) * d ->
  transform_monomial F T c d (2 ^ k) = None /\
  transform_coeff_one_monomial T d (2 ^ k) = None /\
  transform_coeff_neg_one_monomial F T d (2 ^ k) = None.
Proof.
  intros G Hc Hf. rewrite <- pow2_nat in Hf.
  pose proof (gf_tab _ _ _ _ _ G) as HT. pose proof (to_logn _ _ _ _ HT) as Hk.
  pose proof (last_in_rev _ _ _ _ HT) as Hin. pose proof (mono_index_none k d ltac:(lia)) as Hm.
  assert (H1 : mono_one T d (2 ^ k) = None) by (apply (mapM_none _ _ _ Hin); rewrite Hk, Hm; reflexivity).
  assert (H2 : mono_neg_one T d (2 ^ k) = None) by (apply (mapM_none _ _ _ Hin); rewrite Hk, Hm; reflexivity).
  assert (H3 : mono_gen F T c d (2 ^ k) = None) by (apply (mapM_none _ _ _ Hin); rewrite Hk, Hm; reflexivity).
  assert (Hd : (d =? 0) = false) by (apply Z.eqb_neq; intros ->; lia).
  unfold transform_monomial, transform_coeff_one_monomial, transform_coeff_neg_one_monomial.
  rewrite Hd, Hk, Nat.eqb_refl, H1, H2, H3. replace (c =? 0) with false by (symmetry; apply Z.eqb_neq; lia).
  cbn [assert bind]. split; [|split; reflexivity]. destruct (c =? 1); [reflexivity|]. destruct (c =? f_neg_one F); reflexivity.
Qed.

(** A table of one coefficient: the inverse transform panics, and everything that needs it. *)
Lemma gen_one_coefficient B p F T tbl a b : gen_facts B p 0 F T -> tbl O = Some (OwnTable T) ->
  length a = 1%nat -> length b = 1%nat -> canonical p a ->
  into_native F tbl a = None /\ p_mul_assign F tbl a b = None /\ p_mul_assign_ntt F tbl a b = None /\ p_inv F tbl a = None.
Proof.
  intros G Ht La Lb Ca. pose proof (to_logn _ _ _ _ (gf_tab _ _ _ _ _ G)) as Hk.
  assert (Hinv : forall v, inverse_transform_slice F T v = None).
  { intros v. unfold inverse_transform_slice. rewrite Hk. unfold assert.
    destruct (length v =? 2 ^ 0)%nat; [|reflexivity]. cbn [bind]. destruct (1 <=? length (nt_inv_roots T))%nat; reflexivity. }
  assert (Hnat : forall v, length v = 1%nat -> into_native F tbl v = None).
  { intros v Lv. unfold into_native. rewrite Lv. cbn [len_pow2]. change (len_log 1) with O. rewrite Ht. cbn [bind].
    destruct (len_pow2 1); [|reflexivity]. cbn [bind t_inverse_transform_slice]. apply Hinv. }
  assert (L0 : len_log 1 = O) by reflexivity.
  split; [apply Hnat; exact La|].
  unfold p_mul_assign, p_mul_assign_ntt, same_len. rewrite La, Lb, L0, Ht.
  split; [|split].
  - destruct (assert _); [|reflexivity]. cbn [bind]. destruct (len_pow2 1); [|reflexivity]. cbn [bind t_transform_slice t_inverse_transform_slice].
    destruct (transform_slice F T b); [|reflexivity]. cbn [bind]. destruct (transform_slice F T a); [|reflexivity]. cbn [bind].
    destruct (ntt_mul_assign_fast F _ _); [|reflexivity]. cbn [bind]. apply Hinv.
  - destruct (assert _); [|reflexivity]. cbn [bind]. destruct (len_pow2 1); [|reflexivity]. cbn [bind t_transform_slice t_inverse_transform_slice].
    destruct (transform_slice F T a); [|reflexivity]. cbn [bind].
    destruct (ntt_mul_assign_fast F _ _); [|reflexivity]. cbn [bind]. apply Hinv.
  - unfold p_inv. destruct (into_ntt F tbl a) as [v|] eqn:Ev; [|reflexivity]. cbn [bind].
    destruct (n_inv F v) as [r|] eqn:Er; [|reflexivity]. cbn [bind].
    unfold into_native. destruct (len_pow2 (length r)) eqn:Ep; [|reflexivity]. cbn [bind].
    destruct (tbl (len_log (length r))) as [T'|] eqn:ET; [|reflexivity]. cbn [bind].
    assert (Lr : length r = 1%nat).
    { unfold n_inv in Er. rewrite (mapM_length _ _ _ Er). unfold into_ntt in Ev. rewrite La, L0, Ht in Ev.
      apply bind_some in Ev as (? & _ & Ev). cbn [bind t_transform_slice] in Ev.
      rewrite (gen_transform_ntt _ _ _ _ _ a G La Ca) in Ev. injection Ev as <-. apply ntt_of_length. }
    rewrite Lr, L0, Ht in ET. injection ET as <-. apply Hinv.
Qed.
