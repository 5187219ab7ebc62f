(** Generation of blind rotation keys. *)
From Coq Require Import ZArith Znumtheory List Bool Arith Lia Setoid Morphisms.
From Verif Require Import Spec.Basic Spec.Poly Spec.Ring Spec.Lattice Spec.Blind Model.Base Model.Field Model.NTT Model.Concrete Model.Poly Model.Lwe Model.Rlwe Model.Gadget Model.BlindRotation
  Proofs.Arith Proofs.BarrettProofs Proofs.NumTheory Proofs.FieldProofs Proofs.PolyMath Proofs.NTTProofs Proofs.NTTTableProofs
  Proofs.PolyProofs Proofs.MonomialProofs Proofs.RingProofs Proofs.GadgetProofs Proofs.RlweProofs Proofs.GadgetMain Proofs.RgswProofs Proofs.SampleProofs Proofs.BlindProofs.
Import ListNotations.
Local Open Scope Z_scope.

(** Centred representative of a canonical residue near zero. *)
Definition cen (p E x : Z) : Z := if x <=? E then x else x - p.
Lemma cen_cong p E e : pcong p e (map (cen p E) e).
Proof.
  unfold pcong, cen. induction e as [|x e IH]; cbn [map]; constructor; [|exact IH].
  destruct (x <=? E); [apply cong_refl|]. exists 1. ring.
Qed.
Lemma cen_bounded p E e : 0 < p -> near_zero p E e -> bounded E (map (cen p E) e).
Proof.
  intros P0. unfold bounded. induction 1 as [|x e Hx H IH]; cbn [map]; constructor; [|exact IH]. unfold cen. destruct (Z.leb_spec x E); lia.
Qed.

Lemma genc_econg p n s bb c m rows es es' : genc p n s bb c m rows es -> Forall2 (pcong p) es es' ->
  genc p n s bb c m rows es'.
Proof.
  revert c es es'. induction rows as [|r rows IH]; intros c [|e es] es' H HE; try contradiction H; inversion HE as [|? e' ? es'' He HE']; subst; [exact I|].
  destruct H as (L & P & H). cbn [genc]. split; [rewrite <- L; symmetry; eapply Forall2_len; exact He|].
  split; [|eapply IH; eassumption]. eapply pcong_trans; [exact P|]. apply padd_proper; [apply pcong_refl|exact He].
Qed.

Section Field.
Variable F : field.
Hypothesis Hok : fok F.
Local Notation p := (fp F).
Hypothesis Hp : prime p.
Variables (tbl : tables) (k : nat) (w : Z).
Hypothesis C : ctx F tbl k w.
Hypothesis Hk : (0 < k)%nat.
Local Notation n := (2 ^ k)%nat.
Variables (b : basis) (bits : Z).
Hypothesis Hb : basis_new F bits = Some b.
Hypothesis Hbits : 0 <= bits.
Variable s : list Z.
Hypothesis Ls : length s = n.
Variable E : Z.
Local Notation ntt := (ntt_of F w k).
Local Notation small := (drawn_small p n E (bs_len b)).

Lemma small_rnd r : small r -> rnd_ok F k r /\ length r = bs_len b.
Proof.
  intros (L & H). split; [|exact L]. unfold rnd_ok, pwf. eapply Forall_impl; [|exact H]. cbn beta. tauto.
Qed.
Definition cens (r : list (list Z * list Z)) : list (list Z) := map (fun ae => map (cen p E) (snd ae)) r.
Lemma cens_bounded r : small r -> Forall (bounded E) (cens r).
Proof.
  intros (_ & H). unfold cens. apply Forall_forall. intros e He. apply in_map_iff in He. destruct He as (ae & <- & Hin).
  rewrite Forall_forall in H. apply cen_bounded; [exact (p0 F tbl k w C)|]. apply H. exact Hin.
Qed.
Lemma cens_cong r : Forall2 (pcong p) (map snd r) (cens r).
Proof. unfold cens. induction r; cbn [map]; constructor; [apply cen_cong|assumption]. Qed.
Lemma enc_cens m rows r : gadget_encrypts p n s (2 ^ bits) m rows (map snd r) -> gadget_encrypts p n s (2 ^ bits) m rows (cens r).
Proof. intros H. apply genc_elim. eapply genc_econg; [apply genc_intro; exact H|apply cens_cong]. Qed.

Lemma zero_monomial : repeat 0 n = monomial n 0 0.
Proof. unfold monomial. rewrite <- (map_const_seq 0 0 n). apply map_ext. intros i. destruct (i =? 0 mod n)%nat; [destruct (Nat.even (0 / n))|]; reflexivity. Qed.

Lemma zero_rgsw_of r0 r1 : small r0 -> small r1 -> exists RN, nrgsw_zero_sample F tbl (ntt s) b r0 r1 = Some RN /\
  rgsw_of F tbl n b s E (monomial n 0 0) RN.
Proof.
  intros H0 H1. destruct (small_rnd r0 H0) as (A0 & A1), (small_rnd r1 H1) as (A2 & A3).
  destruct (nrgsw_zero_main F Hok Hp tbl k w C Hk s Ls b bits r0 r1 A0 A2 A1 A3) as (RN & R & E1 & E2 & W & P0 & P1).
  exists RN. split; [exact E1|]. exists R, (cens r0), (cens r1). rewrite <- zero_monomial, (base_eq F Hok b bits Hb Hbits).
  split; [exact E2|]. split; [exact W|]. split; [split; apply enc_cens; assumption|]. split; apply cens_bounded; assumption.
Qed.
Lemma one_rgsw_of r0 r1 : small r0 -> small r1 -> exists RN, nrgsw_one_sample F tbl (ntt s) b r0 r1 = Some RN /\
  rgsw_of F tbl n b s E (monomial n 1 0) RN.
Proof.
  intros H0 H1. destruct (small_rnd r0 H0) as (A0 & A1), (small_rnd r1 H1) as (A2 & A3).
  destruct (nrgsw_one_main F Hok Hp tbl k w C Hk s Ls b bits Hb Hbits r0 r1 A0 A2 A1 A3) as (RN & R & E1 & E2 & W & P0 & P1).
  exists RN. split; [exact E1|]. exists R, (cens r0), (cens r1). rewrite (base_eq F Hok b bits Hb Hbits).
  split; [exact E2|]. split; [exact W|]. split; [split; apply enc_cens; assumption|]. split; apply cens_bounded; assumption.
Qed.

Lemma binary_generate_correct z rnd : Forall (fun x => x = 0 \/ x = 1) z -> length rnd = length z ->
  Forall (fun r => small (fst r) /\ small (snd r)) rnd ->
  exists key, binary_generate F tbl z (ntt s) b rnd = Some key /\ binary_key F tbl n b s E z key.
Proof.
  intros Hz. revert rnd. unfold binary_generate, binary_key. induction Hz as [|x z Hx Hz IH]; intros [|r rnd] L Hr; try discriminate L.
  - exists []. split; [reflexivity|constructor].
  - injection L as L. inversion Hr as [|? ? (S0 & S1) Hr']; subst. destruct (IH rnd L Hr') as (key & E1 & K). cbn [mapM2].
    destruct Hx as [-> | ->]; cbn [Z.eqb].
    + destruct (zero_rgsw_of _ _ S0 S1) as (RN & E2 & P). rewrite E2. cbn [bind]. rewrite E1. cbn [bind]. eexists. split; [reflexivity|].
      constructor; [split; [left; reflexivity|exact P]|exact K].
    + destruct (one_rgsw_of _ _ S0 S1) as (RN & E2 & P). rewrite E2. cbn [bind]. rewrite E1. cbn [bind]. eexists. split; [reflexivity|].
      constructor; [split; [right; reflexivity|exact P]|exact K].
Qed.

Lemma ternary_generate_correct q z rnd : 2 < q -> Forall (fun x => x = 0 \/ x = 1 \/ x = -1) z -> length rnd = length z ->
  Forall (fun r => (small (fst (fst r)) /\ small (snd (fst r))) /\ small (fst (snd r)) /\ small (snd (snd r))) rnd ->
  exists key, ternary_generate F tbl (map (fun x => x mod q) z) (ntt s) b rnd = Some key /\ ternary_key F tbl n b s E z key.
Proof.
  intros Hq Hz. revert rnd. unfold ternary_generate, ternary_key. induction Hz as [|x z Hx Hz IH]; intros [|r rnd] L Hr; try discriminate L.
  - exists []. split; [reflexivity|constructor].
  - injection L as L. inversion Hr as [|? ? ((S0 & S1) & S2 & S3) Hr']; subst. destruct (IH rnd L Hr') as (key & E1 & K). cbn [mapM2 map].
    destruct r as [[r0 r0'] [r1 r1']]. cbn [fst snd] in *.
    destruct (zero_rgsw_of _ _ S0 S1) as (Z0 & EZ0 & PZ0). destruct (zero_rgsw_of _ _ S2 S3) as (Z1 & EZ1 & PZ1).
    destruct (one_rgsw_of _ _ S0 S1) as (O0 & EO0 & PO0). destruct (one_rgsw_of _ _ S2 S3) as (O1 & EO1 & PO1).
    destruct Hx as [-> | [-> | ->]].
    + rewrite Zmod_0_l. cbn [Z.eqb]. rewrite EZ0. cbn [bind]. rewrite EZ1. cbn [bind]. rewrite E1. cbn [bind]. eexists. split; [reflexivity|].
      constructor; [|exact K]. cbn [Z.eqb fst snd]. tauto.
    + rewrite Z.mod_1_l by lia. cbn [Z.eqb Pos.eqb]. rewrite EO0. cbn [bind]. rewrite EZ1. cbn [bind]. rewrite E1. cbn [bind]. eexists. split; [reflexivity|].
      constructor; [|exact K]. cbn [Z.eqb Pos.eqb fst snd]. tauto.
    + assert (Em : -1 mod q = q - 1) by (symmetry; apply (Z.mod_unique _ _ (-1)); lia). rewrite Em.
      replace (q - 1 =? 1) with false by (symmetry; apply Z.eqb_neq; lia). replace (q - 1 =? 0) with false by (symmetry; apply Z.eqb_neq; lia).
      rewrite EZ0. cbn [bind]. rewrite EO1. cbn [bind]. rewrite E1. cbn [bind]. eexists. split; [reflexivity|].
      constructor; [|exact K]. cbn [Z.eqb Pos.eqb fst snd]. tauto.
Qed.
End Field.
