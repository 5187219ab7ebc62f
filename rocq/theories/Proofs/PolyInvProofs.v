(** What the polynomial inverse returns on every operand: the pseudo-inverse. *)
From Coq Require Import ZArith List Arith Bool Lia Znumtheory.
From Verif Require Import Spec.Basic Spec.Poly Model.Base Model.Shoup Model.Barrett Model.Field Model.NTT Model.Concrete Model.Poly.
From Verif Require Import Proofs.Arith Proofs.NumTheory Proofs.FieldProofs Proofs.NTTProofs Proofs.NTTTableProofs Proofs.ConcreteProofs Proofs.PolyProofs Proofs.PolyMain.
Import ListNotations.
Local Open Scope Z_scope.

Section F.
Variable F : field.
Hypotheses (Hok : fok F) (Hp : prime (fp F)) (H3 : 3 <= fp F).
Let p := fp F.

Lemma n_inv_pseudo l : canonical p l -> exists r, n_inv F l = Some r /\ length r = length l /\ canonical p r /\
  forall i, (i < length l)%nat -> cong p (nth i r 0 * nth i l 0 * nth i l 0) (nth i l 0) /\ cong p (nth i l 0 * nth i r 0 * nth i r 0) (nth i r 0).
Proof.
  unfold n_inv. induction l as [|x l IH]; intros Hl.
  - exists []. cbn. split; [reflexivity|]. split; [reflexivity|]. split; [constructor|]. intros; lia.
  - inversion Hl as [|? ? Hx Hl']; subst. destruct (IH Hl') as (r & Er & Lr & Cr & Hr).
    assert (Hy : exists y, f_inv F x = Some y /\ 0 <= y < p /\ cong p (y * x * x) x /\ cong p (x * y * y) y).
    { destruct (Z.eq_dec x 0) as [->|Hnz].
      - exists 0. rewrite f_inv_zero by (exact Hok || exact H3). split; [reflexivity|]. split; [unfold p; lia|]. split; apply cong_of_eq; reflexivity.
      - destruct (f_inv_correct F Hok x Hp ltac:(unfold p in Hx; lia)) as (y & Ey & Hy & Cy). exists y. split; [exact Ey|]. split; [exact Hy|].
        assert (C1 : cong p (y * x) 1) by (unfold p; apply cong_iff; [lia|]; rewrite Cy; symmetry; apply Z.mod_small; lia).
        destruct C1 as [q Hq]. split; [exists (q * x)|exists (q * y)]; nia. }
    destruct Hy as (y & Ey & Hyr & C1 & C2). cbn [mapM]. rewrite Ey. cbn [bind]. rewrite Er. cbn [bind].
    exists (y :: r). split; [reflexivity|]. split; [cbn; lia|]. split; [constructor; assumption|].
    intros [|i] Hi; cbn [nth]; [auto|]. apply Hr. cbn in Hi. lia.
Qed.

Variables (tbl : tables) (k : nat) (w : Z).
Hypothesis C : ctx F tbl k w.
Notation n := (2 ^ k)%nat.
Notation ntt := (ntt_of F w k).

Lemma nth_ntt_negacyclic a b i : length a = n -> length b = n -> (i < n)%nat ->
  cong p (nth i (ntt (negacyclic n a b)) 0) (nth i (ntt a) 0 * nth i (ntt b) 0).
Proof.
  intros La Lb Hi. rewrite <- (pcong_nth_inv _ _ _ i (ntt_mul F Hok tbl k w C a b La Lb)).
  rewrite nth_pmul by (rewrite !ntt_of_length; reflexivity). reflexivity.
Qed.
Lemma ntt_pointwise a b : length a = n -> length b = n -> (forall i, (i < n)%nat -> cong p (nth i (ntt a) 0) (nth i (ntt b) 0)) -> pcong p a b.
Proof.
  intros La Lb H. apply (ntt_inj F Hok Hp tbl k w C); [exact La|exact Lb|].
  apply (ntt_ext F Hok); [apply ntt_of_length|]. intros i Hi. rewrite (H i Hi), nth_ntt_of by exact Hi. apply cong_mod. unfold p. lia.
Qed.

Lemma p_inv_pseudo a : (0 < k)%nat -> length a = n -> canonical p a ->
  exists r, p_inv F tbl a = Some r /\ length r = n /\ canonical p r /\
    pmod p (negacyclic n (negacyclic n r a) a) = a /\ pmod p (negacyclic n (negacyclic n a r) r) = r.
Proof.
  intros Hk La Ha. unfold p_inv. rewrite (into_ntt_canon F Hok tbl k w C) by assumption. cbn [bind].
  assert (Cn : canonical p (ntt a)) by apply (ntt_of_canonical F Hok).
  destruct (n_inv_pseudo (ntt a) Cn) as (v & Ev & Lv & Cv & Hv). rewrite Ev. cbn [bind]. rewrite ntt_of_length in Lv, Hv.
  destruct (ntt_surj F Hok tbl k w C v Lv Cv) as (r & Lr & Cr & ->).
  rewrite (into_native_ntt F Hok Hp tbl k w C) by assumption. rewrite pmod_small by assumption.
  exists r. split; [reflexivity|]. split; [exact Lr|]. split; [exact Cr|].
  split; [rewrite <- (pmod_small p a Ha) at 3|rewrite <- (pmod_small p r Cr) at 3]; (apply mod_pcong_eq; [unfold p; lia|]);
    (apply ntt_pointwise; [apply negacyclic_length|assumption|]); intros i Hi;
    rewrite !nth_ntt_negacyclic by (try assumption; apply negacyclic_length); apply (Hv i Hi).
Qed.
End F.

Lemma poly_pseudo B p k F tbl a : wwidth B -> prime p -> derive_field B p = Some F -> serves F tbl k ->
  (0 < k)%nat -> length a = (2 ^ k)%nat -> canonical p a ->
  exists r, p_inv F tbl a = Some r /\ length r = (2 ^ k)%nat /\ canonical p r /\
    pmod p (negacyclic (2 ^ k) (negacyclic (2 ^ k) r a) a) = a /\ pmod p (negacyclic (2 ^ k) (negacyclic (2 ^ k) a r) r) = r /\
    (pmod p (negacyclic (2 ^ k) r a) = monomial (2 ^ k) 1 0 <->
     exists b, length b = (2 ^ k)%nat /\ pmod p (negacyclic (2 ^ k) b a) = monomial (2 ^ k) 1 0).
Proof.
  intros HB Hp HF HS Hk La Ha. destruct (field_ctx B p k F tbl HB Hp HF HS) as (Hok & <- & w & C).
  pose proof (ctx_gt2 F tbl k w C).
  destruct (p_inv_pseudo F Hok Hp ltac:(lia) tbl k w C a Hk La Ha) as (r & Er & Lr & Cr & E1 & E2).
  exists r. split; [exact Er|]. split; [exact Lr|]. split; [exact Cr|]. split; [exact E1|]. split; [exact E2|]. split.
  - intros E. exists r. auto.
  - intros (b & Lb & Eb). destruct (poly_inv B (fp F) k F tbl a b HB Hp HF HS Hk La Ha Lb Eb) as (r' & Er' & _ & _ & E').
    rewrite Er in Er'. injection Er' as <-. exact E'.
Qed.
