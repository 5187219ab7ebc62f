(** Gadget product, external product and fresh samples: packaged statements. *)
From Coq Require Import ZArith Znumtheory List Bool Arith Lia Setoid Morphisms.
From Verif Require Import Spec.Basic Spec.Poly Spec.Ring Model.Base Model.Field Model.NTT Model.Concrete Model.Poly Model.Rlwe Model.Gadget
  Proofs.Arith Proofs.BarrettProofs Proofs.NumTheory Proofs.FieldProofs Proofs.PolyMath Proofs.NTTProofs Proofs.NTTTableProofs
  Proofs.PolyProofs Proofs.MonomialProofs Proofs.RingProofs Proofs.GadgetProofs Proofs.RlweProofs.
Import ListNotations.
Local Open Scope Z_scope.

Lemma gsum_cong p n X Y ds Gs : rl_len n X -> rl_len n Y -> rl_cong p X Y -> rl_cong p (gsum n X ds Gs) (gsum n Y ds Gs).
Proof.
  revert X Y Gs. induction ds as [|d ds IH]; intros X Y [|G Gs] LX LY H; cbn; try exact H.
  apply IH; try (apply rl_add_len; [assumption|apply rl_mul_len]).
  destruct H as (H1 & H2). split; cbn [ra rb rl_add]; [rewrite H1|rewrite H2]; apply pcong_refl.
Qed.

Lemma len_padd n a b : length a = n -> length b = n -> length (padd a b) = n.
Proof. intros H1 H2. rewrite padd_length; congruence. Qed.
Lemma len_psub n a b : length a = n -> length b = n -> length (psub a b) = n.
Proof. intros H1 H2. rewrite psub_length; congruence. Qed.
Lemma len_pneg n a : length a = n -> length (pneg a) = n.
Proof. intros H1. rewrite pneg_length; congruence. Qed.
Lemma len_pscale n c a : length a = n -> length (pscale c a) = n.
Proof. intros H1. rewrite pscale_length; congruence. Qed.
Lemma len_pmod n p a : length a = n -> length (pmod p a) = n.
Proof. intros H1. unfold pmod. rewrite map_length. exact H1. Qed.
Ltac len0 n :=
  try match goal with |- length _ = length _ => transitivity n; [|symmetry] end;
  repeat first [assumption | apply len_padd | apply len_psub | apply len_pneg | apply len_pscale | apply len_pmod
    | apply negacyclic_length | apply lincomb_len | apply repeat_length | apply rphase_len | split ].

Tactic Notation "len" constr(n) := len0 n.

Section Field.
Variable F : field.
Hypothesis Hok : fok F.
Local Notation p := (fp F).
Hypothesis Hp : prime p.
Variables (tbl : tables) (k : nat) (w : Z).
Hypothesis C : ctx F tbl k w.
Local Notation n := (2 ^ k)%nat.
Local Notation ntt := (ntt_of F w k).
Local Notation nform := (nform F k w).
Variables (b : basis) (bits : Z).
Hypothesis Hb : basis_new F bits = Some b.
Hypothesis Hbits : 0 <= bits.
Local Notation gprod := (gprod k bits).

Lemma base_eq : bs_basis b = 2 ^ bits. Proof. apply (basis_bits F bits b Hok Hb Hbits). Qed.

Lemma rl_cong_phase s X Y : rl_len n X -> rl_len n Y -> length s = n -> rl_cong p X Y -> pcong p (rphase n s X) (rphase n s Y).
Proof.
  intros LX LY Ls (H1 & H2). apply (EQ_pcong p w k Hp (Hp2 F tbl k w C) (Hw F tbl k w C)); try (apply rphase_len; assumption).
  intros z Hz. rewrite (ev_rphase p k z s X), (ev_rphase p k z s Y) by assumption.
  apply cong_sub; [apply ev_cong; [apply cong_refl|exact H2]|]. apply cong_mul; [apply ev_cong; [apply cong_refl|exact H1]|apply cong_refl].
Qed.
Lemma rl_mod_len X : rl_len n X -> rl_len n (rl_mod p X).
Proof. intros L. apply (wf_len p), rl_mod_wf; [exact (p0 F tbl k w C)|exact L]. Qed.
Lemma rl_mod_phase s X : rl_len n X -> length s = n -> pcong p (rphase n s (rl_mod p X)) (rphase n s X).
Proof.
  intros LX Ls. apply rl_cong_phase; try assumption; [apply rl_mod_len; exact LX|]. apply rl_mod_cong. pose proof (p0 F tbl k w C). lia.
Qed.

Lemma gprod_product X f rows : rl_len n X -> length rows = bs_len b -> Forall (rl_len n) rows -> length f = n -> canonical p f ->
  gadget_product p n (2 ^ bits) rows X f (rl_mod p (gprod X f rows)).
Proof.
  intros LX Hl HG Lf Hf. pose proof (Hp2 F tbl k w C) as H2. split; [apply rl_mod_wf; [lia|apply gprod_len; exact LX]|].
  exists (pdigs bits (length rows) f). split; [apply (gprod_digits F Hok b bits Hb Hbits); assumption|].
  intros s m es Ls Lm HE. eapply pcong_trans; [apply rl_mod_phase; [apply gprod_len; exact LX|exact Ls]|].
  eapply pcong_trans; [apply (gprod_phase F Hp tbl k w C bits); assumption|].
  apply padd_proper; [apply pcong_refl|].
  apply (genc_combine p w k Hp H2 (Hw F tbl k w C) s (2 ^ bits)); try assumption; [apply genc_intro; exact HE|].
  apply (gprod_digits F Hok b bits Hb Hbits); assumption.
Qed.
(** External product. *)
Definition extp (x : rlwe) (G0 G1 : list rlwe) : rlwe := gprod (gprod (rlwe_zero n) (ra x) G0) (rb x) G1.
Lemma extp_len x G0 G1 : rl_len n (extp x G0 G1).
Proof. apply gprod_len, gprod_len. split; apply repeat_length. Qed.

Lemma phase_zero s : length s = n -> pcong p (rphase n s (rlwe_zero n)) (repeat 0 n).
Proof.
  intros Ls. apply (EQ_pcong p w k Hp (Hp2 F tbl k w C) (Hw F tbl k w C)).
  - apply rphase_len. split; apply repeat_length.
  - apply repeat_length.
  - intros z Hz. rewrite (ev_rphase p k z) by (try assumption; split; apply repeat_length).
    cbn [ra rb rlwe_zero]. rewrite ev_zeros. apply cong_of_eq. ring.
Qed.

(** Its phase, with the digits named. *)
Lemma extp_phase R x s m es es' : rgsw_wf p n b R -> rlwe_wf p n x -> length s = n -> length m = n -> rgsw_encrypts p n s (2 ^ bits) m R es es' ->
  pcong p (rphase n s (rl_mod p (extp x (gd (c_neg R)) (gd (c_m R)))))
    (padd (negacyclic n m (rphase n s x)) (padd (lincomb n (pdigs bits (length (gd (c_neg R))) (ra x)) es) (lincomb n (pdigs bits (length (gd (c_m R))) (rb x)) es'))).
Proof.
  intros ((E0 & L0 & W0) & (E1 & L1 & W1)) (La & Lb & Ca & Cb) Ls Lm (HE0 & HE1). pose proof (Hp2 F tbl k w C) as H2.
  pose proof (gprod_digits F Hok b bits Hb Hbits (ra x) (gd (c_neg R)) L0 Ca) as D0.
  pose proof (gprod_digits F Hok b bits Hb Hbits (rb x) (gd (c_m R)) L1 Cb) as D1.
  pose proof (wf_lens F k _ W0) as V0. pose proof (wf_lens F k _ W1) as V1.
  assert (LZ : rl_len n (rlwe_zero n)) by (split; apply repeat_length).
  eapply pcong_trans; [apply rl_mod_phase; [apply extp_len|exact Ls]|].
  unfold extp. eapply pcong_trans; [apply (gprod_phase F Hp tbl k w C bits); try assumption; apply gprod_len; exact LZ|].
  pose proof (gprod_phase F Hp tbl k w C bits s (rlwe_zero n) (ra x) _ LZ V0 La Ls) as P0. fold (gprod (rlwe_zero n) (ra x) (gd (c_neg R))).
  pose proof (genc_combine p w k Hp H2 (Hw F tbl k w C) s (2 ^ bits) (pneg (negacyclic n m s)) (ra x) _ _ es
    ltac:(rewrite pneg_length; apply negacyclic_length) La V0 (genc_intro _ _ _ _ _ _ _ HE0) D0) as Q0.
  pose proof (genc_combine p w k Hp H2 (Hw F tbl k w C) s (2 ^ bits) m (rb x) _ _ es' Lm Lb V1 (genc_intro _ _ _ _ _ _ _ HE1) D1) as Q1.
  rewrite P0, Q0, Q1, (phase_zero s Ls).
  assert (LN : forall u v, length (negacyclic n u v) = n) by (intros; apply negacyclic_length).
  assert (LL : forall u v, length (lincomb n u v) = n) by (intros; apply lincomb_len).
  assert (LP : length (rphase n s x) = n) by (apply rphase_len; split; assumption).
  apply (EQ_pcong p w k Hp H2 (Hw F tbl k w C)); [len n..|].
  intros z Hz.
  rewrite !ev_add by len n.
  rewrite ev_zeros, !(ev_negacyclic p z n) by (rewrite ?pneg_length, ?LN; first [assumption|reflexivity|exact Hz]).
  rewrite ev_neg, !(ev_negacyclic p z n) by (first [assumption|exact Hz]).
  rewrite (ev_rphase p k z) by (try assumption; split; assumption). apply cong_of_eq. ring.
Qed.
Lemma extp_external R x : rgsw_wf p n b R -> rlwe_wf p n x ->
  external_product p n (2 ^ bits) R x (rl_mod p (extp x (gd (c_neg R)) (gd (c_m R)))).
Proof.
  intros HR Hx. pose proof (Hp2 F tbl k w C) as H2.
  split; [apply rl_mod_wf; [lia|apply extp_len]|].
  exists (pdigs bits (length (gd (c_neg R))) (ra x)), (pdigs bits (length (gd (c_m R))) (rb x)).
  split; [apply (gprod_digits F Hok b bits Hb Hbits); [apply HR|apply Hx]|]. split; [apply (gprod_digits F Hok b bits Hb Hbits); [apply HR|apply Hx]|].
  intros s m es es' Ls Lm HE. apply extp_phase; assumption.
Qed.
End Field.
