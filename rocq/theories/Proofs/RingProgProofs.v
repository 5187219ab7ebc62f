(** Proofs about straight-line programs on ring ciphertexts. *)
From Coq Require Import ZArith Znumtheory List Bool Arith Lia Setoid Morphisms.
From Verif Require Import Spec.Basic Spec.Poly Spec.Ring Spec.LinProg Spec.RingProg Model.Base Model.Field Model.NTT Model.Concrete Model.Poly Model.Rlwe Model.Gadget
  Proofs.Arith Proofs.BarrettProofs Proofs.NumTheory Proofs.FieldProofs Proofs.PolyMath Proofs.NTTProofs Proofs.NTTTableProofs
  Proofs.PolyProofs Proofs.MonomialProofs Proofs.RingProofs Proofs.GadgetProofs Proofs.RlweProofs Proofs.GadgetMain Proofs.RgswProofs Proofs.LinearProofs
  Proofs.BlindProofs Proofs.NoiseProofs Proofs.LinProgProofs.
Import ListNotations.
Local Open Scope Z_scope.

(** ** Two runs *)
Section Rel.
  Context {A C K L : Type} (R : A -> C -> Prop) (Q : K -> L -> Prop).
  Definition simk (f : A -> K -> option A) (g : C -> L -> option C) : Prop :=
    forall a k c l v, R a c -> Q k l -> g c l = Some v -> exists x, f a k = Some x /\ R x v.
  Lemma rstep_rel f1 f2 f3 f4 f5 f6 f7 f8 g1 g2 g3 g4 g5 g6 g7 g8 ks ls op r r' v : Forall2 R r r' -> Forall2 Q ks ls ->
    sim2 R f1 g1 -> sim2 R f2 g2 -> sim2 R f3 g3 -> sim2 R f4 g4 -> simk f5 g5 -> simk f6 g6 ->
    (forall d, sim1 R (fun a => f7 a d) (fun a => g7 a d)) -> (forall d, sim2 R (fun a b => f8 a b d) (fun a b => g8 a b d)) ->
    rstep_with g1 g2 g3 g4 g5 g6 g7 g8 ls op r' = Some v -> exists u, rstep_with f1 f2 f3 f4 f5 f6 f7 f8 ks op r = Some u /\ Forall2 R u v.
  Proof.
    intros H HK S1 S2 S3 S4 S5 S6 S7 S8 E.
    assert (P : forall x w, R x w -> Forall2 R (r ++ [x]) (r' ++ [w])) by (intros; apply Forall2_app; [assumption|repeat constructor; assumption]).
    destruct op as [x y|x y|x y|x y|x y|x y|x d|x y d]; cbn [rstep_with] in E |- *;
      destruct (nth_error r' x) as [c|] eqn:Ex; try discriminate; destruct (rel_nth R _ _ _ _ H Ex) as (a & -> & Ha).
    1-4, 8: destruct (nth_error r' y) as [e|] eqn:Ey; try discriminate; destruct (rel_nth R _ _ _ _ H Ey) as (b & -> & Hb).
    6, 7: destruct (nth_error ls y) as [e|] eqn:Ey; try discriminate; destruct (rel_nth Q _ _ _ _ HK Ey) as (b & -> & Hb).
    - destruct (g1 c e) as [w|] eqn:Ew; [|discriminate]. injection E as <-. destruct (S1 _ _ _ _ _ Ha Hb Ew) as (z & -> & Hz). eexists. split; [reflexivity|apply P, Hz].
    - destruct (g2 c e) as [w|] eqn:Ew; [|discriminate]. destruct (S2 _ _ _ _ _ Ha Hb Ew) as (z & -> & Hz). exact (rel_set R _ _ _ _ _ _ H Hz E).
    - destruct (g3 c e) as [w|] eqn:Ew; [|discriminate]. injection E as <-. destruct (S3 _ _ _ _ _ Ha Hb Ew) as (z & -> & Hz). eexists. split; [reflexivity|apply P, Hz].
    - destruct (g4 c e) as [w|] eqn:Ew; [|discriminate]. destruct (S4 _ _ _ _ _ Ha Hb Ew) as (z & -> & Hz). exact (rel_set R _ _ _ _ _ _ H Hz E).
    - destruct (g8 c e d) as [w|] eqn:Ew; [|discriminate]. destruct (S8 d _ _ _ _ _ Ha Hb Ew) as (z & Ez & Hz). cbv beta in Ez. rewrite Ez. exact (rel_set R _ _ _ _ _ _ H Hz E).
    - destruct (g5 c e) as [w|] eqn:Ew; [|discriminate]. injection E as <-. destruct (S5 _ _ _ _ _ Ha Hb Ew) as (z & -> & Hz). eexists. split; [reflexivity|apply P, Hz].
    - destruct (g6 c e) as [w|] eqn:Ew; [|discriminate]. destruct (S6 _ _ _ _ _ Ha Hb Ew) as (z & -> & Hz). exact (rel_set R _ _ _ _ _ _ H Hz E).
    - destruct (g7 c d) as [w|] eqn:Ew; [|discriminate]. injection E as <-. destruct (S7 d _ _ _ Ha Ew) as (z & Ez & Hz). cbv beta in Ez. rewrite Ez. eexists. split; [reflexivity|apply P, Hz].
  Qed.
  Lemma rrun_rel (f : ringop -> list A -> option (list A)) (g : ringop -> list C -> option (list C)) p r r' v :
    (forall op r r' v, Forall2 R r r' -> g op r' = Some v -> exists u, f op r = Some u /\ Forall2 R u v) ->
    Forall2 R r r' -> rrun g p r' = Some v -> exists u, rrun f p r = Some u /\ Forall2 R u v.
  Proof.
    intros S. revert r r'. induction p as [|op p IH]; intros r r' H E; cbn [rrun] in E |- *; [injection E as <-; exists r; auto|].
    destruct (g op r') as [w|] eqn:Ew; [|discriminate]. destruct (S op r r' w H Ew) as (u & -> & Hu). exact (IH u w Hu E).
  Qed.
End Rel.

(** ** Noise of a product with a small polynomial *)
Lemma norm1_sum m n : length m = n -> norm1 m = zsum (fun i => Z.abs (nth i m 0)) n.
Proof.
  revert n. induction m as [|x m IH]; intros [|n] L; cbn in L; try lia; [reflexivity|]. rewrite zsum_shift. cbn [norm1 fold_right nth].
  fold (norm1 m). rewrite (IH n) by lia. reflexivity.
Qed.
Lemma norm1_nonneg m : 0 <= norm1 m.
Proof. induction m; cbn; [lia|]. fold (norm1 m). lia. Qed.
Lemma zsum_abs_le f g n : (forall i, (i < n)%nat -> Z.abs (f i) <= g i) -> Z.abs (zsum f n) <= zsum g n.
Proof. induction n; intros H; cbn [zsum]; [lia|]. pose proof (IHn ltac:(auto)). pose proof (H n ltac:(lia)). lia. Qed.
Lemma bounded_product n E m e : 0 <= E -> length m = n -> bounded E e -> bounded (norm1 m * E) (negacyclic n m e).
Proof.
  intros HE L H. pose proof (proj1 (BlindProofs.bounded_nth E e HE) H) as He. unfold bounded. apply Forall_forall. intros x Hx. unfold negacyclic in Hx.
  apply in_map_iff in Hx. destruct Hx as (j & <- & _). unfold negacyclic_coeff. rewrite (norm1_sum m n L), <- zsum_mul_r. apply zsum_abs_le. intros i _.
  destruct (i <=? j)%nat; rewrite ?Z.abs_opp, Z.abs_mul; apply Z.mul_le_mono_nonneg_l; (lia || apply He).
Qed.
Lemma bounded_psub E1 E2 x y : bounded E1 x -> bounded E2 y -> bounded (E1 + E2) (psub x y).
Proof. exact (bounded_op E1 E2 true x y). Qed.
Lemma bounded_pos E (e : list Z) : (0 < length e)%nat -> bounded E e -> 0 <= E.
Proof. intros L H. destruct H; cbn in L; lia. Qed.

Ltac pl := repeat first [rewrite padd_length|rewrite psub_length|rewrite negacyclic_length|rewrite BlindProofs.monomial_length|rewrite lincomb_len]; try assumption; try congruence.

(** ** The operations *)
Section Field.
Variable F : field.
Hypothesis Hok : fok F.
Local Notation p := (fp F).
Hypothesis Hp : prime p.
Variables (tbl : tables) (k : nat) (w : Z).
Hypothesis C : ctx F tbl k w.
Hypothesis Hk : (0 < k)%nat.
Local Notation n := (2 ^ k)%nat.
Variables (b : basis) (bits E : Z).
Hypothesis Hb : basis_new F bits = Some b.
Hypothesis Hbits : 0 <= bits.
Hypothesis HE : 0 <= E.
Variable s : list Z.
Hypothesis Ls : length s = n.
Local Notation holds := (rlwe_holds p n s).
Local Notation kholds := (rgsw_holds F tbl p n b s (2 ^ bits) E).
Definition gain : Z := 2 * (Z.of_nat (bs_len b) * (Z.of_nat n * ((2 ^ bits - 1) * E))).

Lemma npos : (0 < n)%nat. Proof. pose proof (Nat.pow_nonzero 2 k). lia. Qed.
Lemma pc a c : length a = n -> length c = n -> EQ p k a c -> pcong p a c.
Proof. apply (EQ_pcong p w k Hp (Hp2 F tbl k w C) (Hw F tbl k w C)). Qed.
Lemma ev_holds z x v e : root p k z -> length v = n -> length e = n -> pcong p (rphase n s x) (padd v e) -> cong p (ev z (rphase n s x)) (ev z v + ev z e).
Proof. intros Hz Lv Le H. rewrite (ev_cong p z z _ _ (cong_refl p z) H). rewrite ev_add by congruence. reflexivity. Qed.

Lemma op_holds sg x y u v : holds x u -> holds y v -> holds (rl_mod p (rl_op sg x y)) (op sg (fst u) (fst v), snd u + snd v).
Proof.
  destruct u as [u Eu], v as [v Ev]. intros (Wx & Lu & e & Le & Be & Pe) (Wy & Lv & f & Lf & Bf & Pf). cbn [fst snd].
  split; [apply (op_wf F tbl k w C); assumption|]. split; [apply len_op; assumption|]. exists (op sg e f). split; [apply len_op; assumption|].
  split; [apply bounded_op; assumption|]. eapply pcong_trans; [apply (op_phase F Hp tbl k w C); assumption|].
  pose proof (rphase_len k s x (wf_len p n x Wx)) as L1. pose proof (rphase_len k s y (wf_len p n y Wy)) as L2.
  apply pc; [apply len_op; assumption|rewrite padd_length; rewrite !(len_op n); congruence|]. intros z Hz.
  rewrite ev_op by congruence. rewrite (ev_holds z x u e), (ev_holds z y v f) by assumption. rewrite ev_add by (rewrite !(len_op n); congruence).
  rewrite !ev_op by congruence. apply cong_of_eq. ring.
Qed.
Lemma rl_holds X x v : rl_len n X -> holds x v -> forall m u E', length m = n -> length u = n ->
  (forall z, root p k z -> cong p (ev z (rphase n s X)) (ev z u + ev z m)) -> bounded E' m -> holds (rl_mod p X) (u, E').
Proof.
  intros LX _ m u E' Lm Lu H B. split; [apply rl_mod_wf; [exact (p0 F tbl k w C)|exact LX]|]. split; [exact Lu|]. exists m. split; [exact Lm|]. split; [exact B|].
  eapply pcong_trans; [apply (rl_mod_phase F Hp tbl k w C); assumption|]. apply pc; [apply rphase_len; exact LX|pl|]. intros z Hz.
  rewrite ev_add by congruence. apply H, Hz.
Qed.

Lemma add_sim : sim2 holds (rlwe_add_ref F) (fun a c => Some (padd (fst a) (fst c), snd a + snd c)) /\
  sim2 holds (rlwe_add_assign F) (fun a c => Some (padd (fst a) (fst c), snd a + snd c)).
Proof.
  split; intros x y u v o Hx Hy [= <-]; exists (rl_mod p (rl_op false x y));
    destruct (ops_correct F Hok k false x y) as (A1 & A2 & _); try (destruct u, v; apply Hx || apply Hy);
    (split; [first [exact A1|exact A2]|apply (op_holds false); assumption]).
Qed.
Lemma sub_sim : sim2 holds (rlwe_sub_ref F) (fun a c => Some (psub (fst a) (fst c), snd a + snd c)) /\
  sim2 holds (rlwe_sub_assign F) (fun a c => Some (psub (fst a) (fst c), snd a + snd c)).
Proof.
  split; intros x y u v o Hx Hy [= <-]; exists (rl_mod p (rl_op true x y));
    destruct (ops_correct F Hok k true x y) as (A1 & A2 & _); try (destruct u, v; apply Hx || apply Hy);
    (split; [first [exact A1|exact A2]|apply (op_holds true); assumption]).
Qed.
Lemma ext_sim med : rl_len n med ->
  simk holds kholds (rlwe_mul_ntt_rgsw F tbl) (fun a m => Some (negacyclic n m (fst a), norm1 m * snd a + gain)) /\
  simk holds kholds (fun x R => rlwe_mul_assign_ntt_rgsw F tbl x R n n med) (fun a m => Some (negacyclic n m (fst a), norm1 m * snd a + gain)).
Proof.
  intros Lmed.
  assert (G : forall x RN u m, holds x u -> kholds RN m -> exists ct, rlwe_mul_ntt_rgsw F tbl x RN = Some ct /\
    rlwe_mul_assign_ntt_rgsw F tbl x RN n n med = Some ct /\ holds ct (negacyclic n m (fst u), norm1 m * snd u + gain)).
  { intros x RN [u Eu] m (Wx & Lu & e & Le & Be & Pe) (Lm & R & es & es' & WR & ER & HR & Bs & Bs').
    destruct (external_main F Hok Hp tbl k w C Hk b bits Hb Hbits R x WR Wx) as (RN' & ct & ER' & _ & (Wct & da & db & Da & Db & HP) & E1 & E2).
    rewrite ER in ER'. injection ER' as <-. exists ct. split; [exact E1|]. split; [exact (proj1 (E2 med Lmed))|]. cbn [fst snd].
    split; [exact Wct|]. split; [pl|]. exists (padd (negacyclic n m e) (padd (lincomb n da es) (lincomb n db es'))).
    assert (LN : length (padd (negacyclic n m e) (padd (lincomb n da es) (lincomb n db es'))) = n) by pl.
    split; [exact LN|]. split.
    - destruct WR as ((_ & L0 & _) & (_ & L1 & _)). destruct HR as ((Q0 & _) & (Q1 & _)). destruct Wx as (X1 & X2 & _).
      apply bounded_padd; [apply bounded_product; [apply (bounded_pos Eu e); [rewrite Le; apply npos|exact Be]|exact Lm|exact Be]|].
      unfold gain. rewrite L0 in Da. rewrite L1 in Db. apply (external_noise_bound n (2 ^ bits) E (bs_len b) x); try assumption; try congruence.
      pose proof (Z.pow_pos_nonneg 2 bits ltac:(lia) Hbits). lia.
    - eapply pcong_trans; [apply (HP s m es es'); assumption|]. pose proof (rphase_len k s x (wf_len p n x Wx)) as LX.
      apply pc; [pl|pl|]. intros z Hz. rewrite !ev_add by (pl). rewrite !(evn p k z) by assumption. rewrite (ev_holds z x u e) by assumption. apply cong_of_eq. ring. }
  split; intros x RN u m o Hx HK [= <-]; destruct (G x RN u m Hx HK) as (ct & E1 & E2 & H); exists ct; split; assumption.
Qed.
Lemma rot_sim r : sim1 holds (fun x => mul_monic_monomial_sub_one F x n r (rlwe_zero n))
  (fun a => if (r <=? 2 * n)%nat then Some (psub (negacyclic n (monomial n 1 r) (fst a)) (fst a), 2 * snd a) else None).
Proof.
  intros x [u Eu] o Hx. destruct (Nat.leb_spec r (2 * n)) as [Hr|]; [|discriminate]. intros [= <-]. cbn [fst snd]. pose proof Hx as (Wx & Lu & e & Le & Be & Pe).
  pose proof (wf_len p n x Wx) as Lx. pose proof (rphase_len k s x Lx) as LX. pose proof (BlindProofs.monomial_length n 1 r) as LM.
  eexists. split; [apply (mono_sub_one_correct F Hok n r x (rlwe_zero n)); [apply npos|exact Wx|split; apply repeat_length|exact Hr]|].
  apply (rl_holds _ x (u, Eu)) with (m := psub (negacyclic n (monomial n 1 r) e) e); try assumption; try (pl; fail).
  - destruct Lx. split; cbn; pl.
  - intros z Hz. destruct Lx as (X1 & X2). rewrite (ev_rphase p k z) by (try assumption; split; cbn; pl). cbn [rl_sub rl_mul ra rb].
    rewrite !ev_sub by pl. rewrite !(evn p k z) by assumption. pose proof (ev_holds z x u e Hz Lu Le Pe) as Q. rewrite (ev_rphase p k z) in Q by (try assumption; split; assumption).
    set (M := ev z (monomial n 1 r)). set (A := ev z (ra x)) in *. set (Bb := ev z (rb x)) in *. set (S := ev z s) in *.
    transitivity ((M - 1) * (Bb - A * S)); [apply cong_of_eq; ring|]. rewrite Q. apply cong_of_eq. ring.
  - match goal with |- bounded ?X _ => change X with (2 * Eu) end. replace (2 * Eu) with (Eu + Eu) by ring. apply bounded_psub; [|exact Be]. apply BlindProofs.bounded_mono; [apply npos| |exact Le|exact Be].
    apply (bounded_pos Eu e); [rewrite Le; apply npos|exact Be].
Qed.
Lemma addrot_sim r : sim2 holds (fun x y => add_assign_rhs_mul_monomial F x y n r)
  (fun a c => if (r <=? 2 * n)%nat then Some (padd (fst a) (negacyclic n (monomial n 1 r) (fst c)), snd a + snd c) else None).
Proof.
  intros x y [u Eu] [v Ev] o Hx Hy. destruct (Nat.leb_spec r (2 * n)) as [Hr|]; [|discriminate]. intros [= <-]. cbn [fst snd].
  pose proof Hx as (Wx & Lu & e & Le & Be & Pe). pose proof Hy as (Wy & Lv & f & Lf & Bf & Pf).
  pose proof (wf_len p n x Wx) as Lx. pose proof (wf_len p n y Wy) as Ly. pose proof (BlindProofs.monomial_length n 1 r) as LM.
  eexists. split; [apply (add_mono_correct F Hok n r x y); [apply npos|exact Wx|exact Wy|exact Hr]|].
  apply (rl_holds _ x (u, Eu)) with (m := padd e (negacyclic n (monomial n 1 r) f)); try assumption; try (pl; fail).
  - destruct Lx, Ly. split; cbn; pl.
  - intros z Hz. destruct Lx as (X1 & X2), Ly as (Y1 & Y2). rewrite (ev_rphase p k z) by (try assumption; split; cbn; pl). cbn [rl_add rl_mul ra rb].
    rewrite !ev_add by pl. rewrite !(evn p k z) by assumption. pose proof (ev_holds z x u e Hz Lu Le Pe) as Q. pose proof (ev_holds z y v f Hz Lv Lf Pf) as Q'.
    rewrite (ev_rphase p k z) in Q, Q' by (try assumption; split; assumption).
    set (M := ev z (monomial n 1 r)). set (A := ev z (ra x)) in *. set (Bb := ev z (rb x)) in *. set (A' := ev z (ra y)) in *. set (B' := ev z (rb y)) in *. set (S := ev z s) in *.
    transitivity ((Bb - A * S) + M * (B' - A' * S)); [apply cong_of_eq; ring|]. rewrite Q, Q'. apply cong_of_eq. ring.
  - apply bounded_padd; [exact Be|]. apply BlindProofs.bounded_mono; [apply npos| |exact Lf|exact Bf].
    apply (bounded_pos Ev f); [rewrite Lf; apply npos|exact Bf].
Qed.

Theorem ring_program med RNs ms prog cts us vs : rl_len n med -> Forall2 kholds RNs ms -> Forall2 holds cts us ->
  rrun (plain_step n gain ms) prog us = Some vs ->
  exists out, rrun (rlwe_step F tbl n med RNs) prog cts = Some out /\ Forall2 holds out vs.
Proof.
  intros Lmed HK HC HV. apply (rrun_rel holds (rlwe_step F tbl n med RNs) (plain_step n gain ms) prog cts us vs); [|exact HC|exact HV].
  intros op r r' v H X. destruct add_sim as (S1 & S2), sub_sim as (S3 & S4), (ext_sim med Lmed) as (S5 & S6).
  exact (rstep_rel holds kholds _ _ _ _ _ _ _ _ _ _ _ _ _ _ _ _ RNs ms op r r' v H HK S1 S2 S3 S4 S5 S6 rot_sim addrot_sim X).
Qed.
End Field.

(** ** Multiplexers *)
Section Mux.
Variable F : field.
Hypothesis Hok : fok F.
Local Notation p := (fp F).
Hypothesis Hp : prime p.
Variables (tbl : tables) (k : nat) (w : Z).
Hypothesis C : ctx F tbl k w.
Hypothesis Hk : (0 < k)%nat.
Local Notation n := (2 ^ k)%nat.
Variables (b : basis) (bits E : Z).
Hypothesis Hb : basis_new F bits = Some b.
Hypothesis Hbits : 0 <= bits.
Hypothesis HE : 0 <= E.
Variable s : list Z.
Hypothesis Ls : length s = n.
Variable med : rlwe.
Hypothesis Lmed : rl_len n med.
Local Notation holds := (rlwe_holds p n s).
Local Notation kholds := (rgsw_holds F tbl p n b s (2 ^ bits) E).
Local Notation gain := (gain k b bits E).

Lemma bit_poly_ev z c : ev z (bit_poly n c) = if c then 1 else 0.
Proof.
  unfold bit_poly. assert (Hn' : n <> O) by (apply Nat.pow_nonzero; discriminate). revert Hn'. generalize (2 ^ k)%nat. intros n0 Hn'. unfold monomial. rewrite (Nat.mod_0_l n0 Hn'), (Nat.div_0_l n0 Hn'). cbn [Nat.even].
  destruct n0 as [|m]; [lia|]. cbn [seq map ev Nat.eqb].
  assert (Z0 : forall l, Forall (fun i => (0 < i)%nat) l -> ev z (map (fun i => if (i =? 0)%nat then (if c then 1 else 0) else 0) l) = 0).
  { intros l H. induction H as [|i l Hi H IH]; [reflexivity|]. cbn [map ev]. rewrite IH. destruct (Nat.eqb_spec i 0); [lia|]. lia. }
  rewrite Z0; [lia|]. apply Forall_forall. intros i Hi. apply in_seq in Hi. lia.
Qed.
Lemma gain_nonneg : 0 <= gain.
Proof.
  unfold RingProgProofs.gain. pose proof (Z.pow_pos_nonneg 2 bits ltac:(lia) Hbits).
  repeat apply Z.mul_nonneg_nonneg; lia.
Qed.
Lemma cmux_exact R c x y : kholds R (bit_poly n c) -> rlwe_wf p n x -> rlwe_wf p n y ->
  exists z, cmux F tbl n med R x y = Some z /\ holds z (rphase n s (if c then y else x), gain).
Proof.
  intros HR Wx Wy. pose proof (rphase_len k s x (wf_len p n x Wx)) as LX. pose proof (rphase_len k s y (wf_len p n y Wy)) as LY.
  assert (Hz : forall x, rlwe_wf p n x -> holds x (rphase n s x, 0)).
  { intros x0 W. pose proof (rphase_len k s x0 (wf_len p n x0 W)) as L0. split; [exact W|]. split; [exact L0|]. exists (repeat 0 n). split; [apply repeat_length|].
    split; [apply BlindProofs.bounded_zeros|]. apply (pc F Hp tbl k w C); [exact L0|rewrite padd_length; rewrite ?repeat_length; congruence|].
    intros z _. rewrite ev_add by (rewrite repeat_length; exact L0). rewrite ev_zeros. apply cong_of_eq. ring. }
  set (m := bit_poly n c) in *. assert (Lm : length m = n) by apply BlindProofs.monomial_length.
  destruct (ring_program F Hok Hp tbl k w C Hk b bits E Hb Hbits HE s Ls med [R] [m] [RSub 1 0; RExtTo 2 0; RAddTo 2 0] [x; y]
    [(rphase n s x, 0); (rphase n s y, 0)]
    [(rphase n s x, 0); (rphase n s y, 0); (padd (negacyclic n m (psub (rphase n s y) (rphase n s x))) (rphase n s x), norm1 m * (0 + 0) + gain + 0)])
    as (out & Eo & Ho); [exact Lmed|constructor; [exact HR|constructor]|constructor; [apply Hz, Wx|constructor; [apply Hz, Wy|constructor]]|reflexivity|].
  inversion Ho as [|a ? o1 ? _ Ho1]; subst. inversion Ho1 as [|a' ? o2 ? _ Ho2]; subst. inversion Ho2 as [|z ? o3 ? Hz3 Ho3]; subst. inversion Ho3; subst.
  unfold cmux. rewrite Eo. exists z. split; [reflexivity|]. destruct Hz3 as (Wz & Lv & e & Le & Be & Pe). split; [exact Wz|].
  split; [destruct c; assumption|]. exists e. split; [exact Le|]. split; [eapply BlindProofs.bounded_weaken; [|exact Be]; lia|].
  eapply pcong_trans; [exact Pe|]. apply (pc F Hp tbl k w C); [rewrite padd_length; congruence|rewrite padd_length; destruct c; congruence|].
  intros t Ht. rewrite !ev_add by (try congruence; try (destruct c; congruence); rewrite negacyclic_length; congruence).
  rewrite (evn p k t) by (try assumption; rewrite psub_length; congruence). rewrite ev_sub by congruence. unfold m. rewrite bit_poly_ev.
  apply cong_of_eq. destruct c; ring.
Qed.
Lemma cmux_holds R c x y u v Ex : kholds R (bit_poly n c) -> holds x (u, Ex) -> holds y (v, Ex) ->
  exists z, cmux F tbl n med R x y = Some z /\ holds z (if c then v else u, Ex + gain).
Proof.
  intros HR (Wx & Lu & e & Le & Be & Pe) (Wy & Lv & f & Lf & Bf & Pf).
  destruct (cmux_exact R c x y HR Wx Wy) as (z & Ez & Wz & LP & g & Lg & Bg & Pg). exists z. split; [exact Ez|].
  split; [exact Wz|]. split; [destruct c; assumption|]. exists (padd (if c then f else e) g).
  assert (Lh : length (if c then f else e) = n) by (destruct c; assumption). assert (Lw : length (if c then v else u) = n) by (destruct c; assumption).
  split; [rewrite padd_length; congruence|]. split; [apply bounded_padd; [destruct c; assumption|exact Bg]|].
  eapply pcong_trans; [exact Pg|]. apply (pc F Hp tbl k w C); [rewrite padd_length; congruence|rewrite padd_length; rewrite ?padd_length; congruence|].
  intros t Ht. rewrite !ev_add by (rewrite ?padd_length; congruence).
  assert (Q : cong p (ev t (rphase n s (if c then y else x))) (ev t (if c then v else u) + ev t (if c then f else e))) by (destruct c; apply (ev_holds F k s t); assumption).
  rewrite Q. apply cong_of_eq. ring.
Qed.

Lemma layer_holds R c Ex l vs m : kholds R (bit_poly n c) -> length vs = (2 * m)%nat -> Forall2 (fun x v => holds x (v, Ex)) l vs ->
  exists l' vs', cmux_layer F tbl n med R l = Some l' /\ length vs' = m /\ Forall2 (fun x v => holds x (v, Ex + gain)) l' vs' /\
    forall i d, (i < m)%nat -> nth i vs' d = nth ((if c then 1 else 0) + 2 * i) vs d.
Proof.
  intros HR. revert l vs. induction m as [|m IH]; intros l vs L H.
  - destruct vs; [|cbn in L; lia]. inversion H; subst. exists [], []. repeat split; [constructor|]. intros; lia.
  - destruct vs as [|u [|v vs]]; cbn in L; try lia. inversion H as [|x ? l1 ? Hx H1]; subst. inversion H1 as [|y ? l2 ? Hy H2]; subst.
    destruct (IH l2 vs ltac:(lia) H2) as (l' & vs' & El & L' & Hl & Hn). destruct (cmux_holds R c x y u v Ex HR Hx Hy) as (z & Ez & Hz).
    exists (z :: l'), ((if c then v else u) :: vs'). cbn [cmux_layer]. rewrite Ez. cbn [bind]. rewrite El. cbn [bind]. split; [reflexivity|].
    split; [cbn; lia|]. split; [constructor; assumption|]. intros [|i] d Hi; [destruct c; reflexivity|].
    cbn [nth]. rewrite Hn by lia. replace ((if c then 1 else 0) + 2 * S i)%nat with (S (S ((if c then 1 else 0) + 2 * i))) by lia. reflexivity.
Qed.
Lemma selected_bound bs : (selected bs < 2 ^ length bs)%nat.
Proof. induction bs as [|c bs IH]; cbn [selected length Nat.pow]; [lia|]. destruct c; lia. Qed.
Theorem tree_holds Rs bs Ex l vs : Forall2 (fun R c => kholds R (bit_poly n c)) Rs bs -> length vs = (2 ^ length bs)%nat ->
  Forall2 (fun x v => holds x (v, Ex)) l vs ->
  exists z, cmux_tree F tbl n med Rs l = Some z /\ holds z (nth (selected bs) vs [], Ex + Z.of_nat (length bs) * gain).
Proof.
  intros HR. revert Ex l vs. induction HR as [|R c Rs bs HRc HR IH]; intros Ex l vs L H; cbn [cmux_tree selected length] in *.
  - destruct vs as [|v [|]]; cbn in L; try lia. inversion H as [|x ? l' ? Hx H']; subst. inversion H'; subst. exists x. split; [reflexivity|]. cbn [nth Z.of_nat].
    replace (Ex + 0 * gain) with Ex by ring. exact Hx.
  - destruct (layer_holds R c Ex l vs (2 ^ length bs) HRc ltac:(cbn in L; lia) H) as (l' & vs' & El & L' & Hl & Hn). rewrite El. cbn [bind].
    destruct (IH (Ex + gain) l' vs' L' Hl) as (z & Ez & Hz). exists z. split; [exact Ez|]. rewrite Hn in Hz by apply selected_bound.
    replace (Ex + Z.of_nat (S (length bs)) * gain) with (Ex + gain + Z.of_nat (length bs) * gain) by lia. exact Hz.
Qed.
End Mux.

(** ** Extraction of the constant coefficient *)
Lemma holds_extract F (Hok : fok F) n s x v E : (0 < n)%nat -> length s = n -> rlwe_holds (fp F) n s x (v, E) ->
  exists z e, extract_lwe F x = Some z /\ Lattice.lwe_wf (fp F) n z /\ Z.abs e <= E /\ Lattice.phase (fp F) s z = (nth 0 v 0 + e) mod fp F.
Proof.
  intros Hn Ls (Wx & Lv & e & Le & Be & Pe). destruct (extract_phase F Hok n s x Hn Wx Ls) as (z & Ez & _ & Wz & Pz).
  exists z, (nth 0 e 0). split; [exact Ez|]. split; [exact Wz|]. split; [destruct Be; cbn in *; lia|]. rewrite Pz.
  assert (0 < fp F) by (destruct Wx as (L1 & _ & C1 & _); destruct C1; cbn in *; lia).
  apply cong_iff; [lia|]. rewrite <- nth_padd by congruence. apply pcong_nth_inv. exact Pe.
Qed.
