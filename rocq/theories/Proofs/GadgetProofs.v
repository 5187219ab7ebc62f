(** The gadget and external products of the model compute the ring combinations of [RingProofs]. *)
From Coq Require Import ZArith Znumtheory List Bool Arith Lia Setoid Morphisms.
From Verif Require Import Spec.Basic Spec.Poly Spec.Ring Model.Base Model.Field Model.NTT Model.Concrete Model.Poly Model.Rlwe Model.Gadget
  Proofs.Arith Proofs.BarrettProofs Proofs.NumTheory Proofs.FieldProofs Proofs.PolyMath Proofs.NTTProofs Proofs.NTTTableProofs
  Proofs.ConcreteProofs Proofs.PolyProofs Proofs.MonomialProofs Proofs.RingProofs.
Import ListNotations.
Local Open Scope Z_scope.

(** Rows with explicit scale. *)
Fixpoint genc (p : Z) (n : nat) (s : list Z) (b c : Z) (m : list Z) (rows : list rlwe) (es : list (list Z)) : Prop :=
  match rows, es with
  | r :: rows', e :: es' => length e = n /\ pcong p (rphase n s r) (padd (pscale c m) e) /\ genc p n s b (c * b) m rows' es'
  | [], [] => True
  | _, _ => False
  end.
Lemma genc_intro_gen p n s b m rows es j : length es = length rows ->
  (forall i, (i < length rows)%nat -> length (nth i es []) = n /\
    pcong p (rphase n s (nth i rows (mk_rlwe [] []))) (padd (pscale (b ^ Z.of_nat (j + i)) m) (nth i es []))) ->
  genc p n s b (b ^ Z.of_nat j) m rows es.
Proof.
  revert es j. induction rows as [|r rows IH]; intros [|e es] j Hl H; cbn in Hl; try lia; cbn; [exact I|].
  destruct (H O ltac:(cbn; lia)) as (H1 & H2). cbn in H1, H2. rewrite Nat.add_0_r in H2.
  split; [exact H1|]. split; [exact H2|].
  replace (b ^ Z.of_nat j * b) with (b ^ Z.of_nat (S j)) by (rewrite Nat2Z.inj_succ, Z.pow_succ_r by lia; ring).
  apply IH; [lia|]. intros i Hi. specialize (H (S i) ltac:(cbn; lia)). cbn [nth] in H.
  replace (S j + i)%nat with (j + S i)%nat by lia. exact H.
Qed.
Lemma genc_intro p n s b m rows es : gadget_encrypts p n s b m rows es -> genc p n s b 1 m rows es.
Proof. intros (Hl & H). change 1 with (b ^ Z.of_nat 0). apply genc_intro_gen; assumption. Qed.
Lemma genc_elim_gen p n s b m rows es j : genc p n s b (b ^ Z.of_nat j) m rows es -> length es = length rows /\
  (forall i, (i < length rows)%nat -> length (nth i es []) = n /\
    pcong p (rphase n s (nth i rows (mk_rlwe [] []))) (padd (pscale (b ^ Z.of_nat (j + i)) m) (nth i es []))).
Proof.
  revert es j. induction rows as [|r rows IH]; intros [|e es] j H; cbn in H; try contradiction.
  - split; [reflexivity|]. cbn. intros; lia.
  - destruct H as (H1 & H2 & H3).
    replace (b ^ Z.of_nat j * b) with (b ^ Z.of_nat (S j)) in H3 by (rewrite Nat2Z.inj_succ, Z.pow_succ_r by lia; ring).
    destruct (IH _ _ H3) as (L & H). split; [cbn; lia|]. intros [|i] Hi; cbn [nth].
    + rewrite Nat.add_0_r. split; assumption.
    + replace (j + S i)%nat with (S j + i)%nat by lia. apply H. cbn in Hi. lia.
Qed.
Lemma genc_elim p n s b m rows es : genc p n s b 1 m rows es -> gadget_encrypts p n s b m rows es.
Proof. intros H. change 1 with (b ^ Z.of_nat 0) in H. apply genc_elim_gen in H. exact H. Qed.

Section Ring.
Variables (p w : Z) (k : nat).
Hypothesis Hp : prime p.
Hypothesis Hp2 : 2 < p.
Hypothesis Hw : cong p (npow w (2 ^ k)) (-1).
Local Notation n := (2 ^ k)%nat.

Lemma ev_genc z s b c m rows es ds : root p k z -> length m = n -> Forall (rl_len n) rows ->
  genc p n s b c m rows es -> length ds = length rows -> Forall (fun d => length d = n) ds ->
  cong p (ev z (lincomb n ds (map (rphase n s) rows))) (c * ev z m * digits_value b (map (ev z) ds) + ev z (lincomb n ds es)).
Proof.
  intros Hz Lm HG H Hl Hd. revert c rows es HG H Hl. induction Hd as [|d ds Ld Hd IH]; intros c rows es HG H Hl.
  - destruct rows; cbn in Hl; try lia. destruct es; cbn in H; try contradiction. cbn. rewrite !ev_zeros. apply cong_of_eq. ring.
  - destruct rows as [|r rows]; cbn in Hl; try lia. destruct es as [|e es]; cbn in H; try contradiction.
    destruct H as (Le & He & H). inv HG. cbn [lincomb map digits_value].
    rewrite !ev_add by (rewrite negacyclic_length, lincomb_len; reflexivity).
    rewrite (IH (c * b) rows es) by (assumption || lia).
    rewrite !evn by (try assumption; apply rphase_len; assumption).
    assert (E : cong p (ev z (rphase n s r)) (c * ev z m + ev z e)).
    { eapply cong_trans; [apply ev_cong; [reflexivity|exact He]|]. rewrite ev_add, ev_scale by (rewrite pscale_length; congruence). reflexivity. }
    rewrite E. apply cong_of_eq. ring.
Qed.
Lemma genc_combine s b m f ds rows es : length m = n -> length f = n -> Forall (rl_len n) rows ->
  genc p n s b 1 m rows es -> gadget_digits b (length rows) f ds ->
  pcong p (lincomb n ds (map (rphase n s) rows)) (padd (negacyclic n m f) (lincomb n ds es)).
Proof.
  intros Lm Lf HG H (Hl & Hd & Hv).
  assert (Hd' : Forall (fun d => length d = n) ds) by (eapply Forall_impl; [|exact Hd]; cbv beta; intros d Hd1; rewrite <- Lf; apply Hd1).
  apply (EQ_pcong p w k Hp Hp2 Hw).
  - apply lincomb_len.
  - rewrite padd_length; rewrite ?negacyclic_length, ?lincomb_len; reflexivity.
  - intros z Hz. rewrite (ev_genc z s b 1 m rows es ds) by assumption.
    rewrite ev_add by (rewrite negacyclic_length, lincomb_len; reflexivity).
    rewrite evn by assumption. rewrite <- (digits_ev z b n f ds Lf Hd') by (rewrite <- Lf; exact Hv).
    apply cong_of_eq. ring.
Qed.
End Ring.

Section Field.
Variable F : field.
Hypothesis Hok : fok F.
Local Notation p := (fp F).
Hypothesis Hp : prime p.
Variables (tbl : tables) (k : nat) (w : Z).
Hypothesis C : ctx F tbl k w.
Local Notation n := (2 ^ k)%nat.
Local Notation ntt := (ntt_of F w k).

Lemma Hp2 : 2 < p. Proof. apply C. Qed.
Lemma Hw : cong p (npow w n) (-1). Proof. apply C. Qed.
Lemma p0 : 0 < p. Proof. pose proof Hp2. lia. Qed.
Lemma pn0 : p <> 0. Proof. pose proof Hp2. lia. Qed.

(** [x] is the transform form of [X]. *)
Definition nform (X : rlwe) : rlwe := mk_rlwe (ntt (ra X)) (ntt (rb X)).
(** [acc] represents [X] with entries in the range [P]. *)
Definition rep (P : Z -> Prop) (acc X : rlwe) : Prop :=
  rl_len n X /\ Forall P (ra acc) /\ Forall P (rb acc) /\ pcong p (ra acc) (ntt (ra X)) /\ pcong p (rb acc) (ntt (rb X)).
Definition canon (x : Z) : Prop := 0 <= x < p.
Lemma canon_R2 x : canon x -> R2 F x.
Proof. pose proof p0. unfold canon, R2. lia. Qed.

Lemma rep_lens P acc X : rep P acc X -> length (ra acc) = n /\ length (rb acc) = n.
Proof.
  intros (_ & _ & _ & H1 & H2). split; [rewrite (pcong_length _ _ _ H1)|rewrite (pcong_length _ _ _ H2)]; apply ntt_of_length.
Qed.
Lemma rep_weaken acc X : rep canon acc X -> rep (R2 F) acc X.
Proof.
  intros (L & H1 & H2 & H). split; [exact L|].
  split; [|split; [|exact H]]; (eapply Forall_impl; [exact canon_R2|assumption]).
Qed.
Lemma rep_cong P acc X Y : rep P acc X -> rl_len n Y -> rl_cong p X Y -> rep P acc Y.
Proof.
  intros (L & H1 & H2 & H3 & H4) LY (E1 & E2). split; [exact LY|]. split; [exact H1|]. split; [exact H2|].
  rewrite <- (ntt_proper F Hok k w _ _ E1), <- (ntt_proper F Hok k w _ _ E2). split; assumption.
Qed.
Lemma nform_rep X : rl_len n X -> rep canon (nform X) X.
Proof.
  intros L. split; [exact L|]. cbn [ra rb nform]. split; [apply ntt_canon; exact Hok|]. split; [apply ntt_canon; exact Hok|].
  split; apply pcong_refl.
Qed.
Lemma rep_nform acc X : rep canon acc X -> acc = nform X.
Proof.
  intros (L & H1 & H2 & H3 & H4). destruct acc as [a b]. unfold nform. cbn [ra rb] in *. f_equal;
  (apply (pcong_eq p); [assumption|apply (ntt_canon F Hok)|assumption]).
Qed.
Lemma zero_rep m m' : m = n -> m' = n -> rep canon (mk_rlwe (repeat 0 m) (repeat 0 m')) (rlwe_zero n).
Proof.
  intros -> ->. pose proof p0.
  assert (H0 : Forall canon (repeat 0 n)) by (apply Forall_forall; intros x Hx; apply repeat_spec in Hx; subst; unfold canon; lia).
  assert (H1 : pcong p (repeat 0 n) (ntt (repeat 0 n))).
  { apply ntt_ext; [exact Hok|apply repeat_length|]. intros i Hi. rewrite ev_zeros, nth_repeat. reflexivity. }
  split; [apply rl_zero_len|]. cbn [ra rb rlwe_zero]. repeat split; assumption.
Qed.

Lemma rlwe_to_ntt_correct X : rlwe_wf p n X -> rlwe_to_ntt F tbl X = Some (nform X).
Proof.
  intros (L1 & L2 & H1 & H2). unfold rlwe_to_ntt.
  rewrite (into_ntt_canon F Hok tbl k w C) by assumption. cbn [bind].
  rewrite (into_ntt_canon F Hok tbl k w C) by assumption. reflexivity.
Qed.
Lemma rlwe_from_ntt_correct acc X : (0 < k)%nat -> rep (R2 F) acc X -> rlwe_from_ntt F tbl acc = Some (rl_mod p X).
Proof.
  intros Hk ((L1 & L2) & H1 & H2 & H3 & H4). unfold rlwe_from_ntt.
  rewrite (into_native_correct F Hok Hp tbl k w C _ (ra X)) by assumption. cbn [bind].
  rewrite (into_native_correct F Hok Hp tbl k w C _ (rb X)) by assumption. reflexivity.
Qed.
Lemma lookup_ok f : length f = n -> exists T, lookup tbl f = Some T /\ tbl k = Some T /\ tab_ok F w k T.
Proof.
  intros Lf. destruct C as (_ & _ & _ & T & ET & HT). exists T. unfold lookup. rewrite Lf, len_pow2_ok, len_log_pow2. cbn [bind].
  split; [exact ET|]. split; assumption.
Qed.
Lemma inverse_inplace_correct acc X dst : (0 < k)%nat -> rep (R2 F) acc X -> rl_len n dst ->
  inverse_transform_inplace F tbl acc dst = Some (rl_mod p X).
Proof.
  intros Hk R (D1 & D2). pose proof (rep_lens _ _ _ R) as (A1 & A2). pose proof (rlwe_from_ntt_correct acc X Hk R) as E.
  unfold inverse_transform_inplace. rewrite D1, len_pow2_ok, len_log_pow2. cbn [bind].
  destruct C as (_ & _ & _ & T & ET & HT). rewrite ET. cbn [bind].
  rewrite !same_len_ok by congruence. cbn [bind].
  unfold rlwe_from_ntt, into_native in E. rewrite A1, A2, len_pow2_ok, len_log_pow2, ET in E. cbn [bind] in E. exact E.
Qed.

Lemma tr_ok T vals : tab_ok F w k T -> length vals = n -> canonical p vals -> t_transform_slice F T vals = Some (ntt vals).
Proof. intros HT L H. apply (t_transform_correct F Hok w k Hp2 Hw T HT vals L H). Qed.

(** One step of the loop. *)
Definition step_ok (P : Z -> Prop) (Q : rlwe -> rlwe -> Prop) (step : rlwe -> rlwe -> list Z -> option rlwe) : Prop :=
  forall acc X g G d, rep P acc X -> Q g G -> rl_len n G -> length d = n ->
  exists acc', step acc g (ntt d) = Some acc' /\ rep P acc' (rl_add X (rl_mul n d G)).
Definition Qntt (g G : rlwe) : Prop := g = nform G.
Definition Qnat (g G : rlwe) : Prop := g = G /\ rlwe_wf p n G.

Lemma pml a b : length (pmul (ntt a) (ntt b)) = n.
Proof. rewrite pmul_length; rewrite ?ntt_of_length; reflexivity. Qed.
Lemma mac_pcong x a g d : length a = n -> length g = n -> length d = n -> pcong p x (ntt a) ->
  pcong p (padd x (pmul (ntt g) (ntt d))) (ntt (padd a (negacyclic n d g))).
Proof.
  intros La Lg Ld Hx. assert (Lx : length x = n) by (rewrite (pcong_length _ _ _ Hx); apply ntt_of_length).
  apply ntt_ext; [exact Hok|rewrite padd_length; rewrite ?pml; congruence|]. intros i Hi.
  rewrite nth_padd by (rewrite pml; congruence).
  rewrite nth_pmul by (rewrite !ntt_of_length; reflexivity).
  rewrite !(ntt_nth F Hok k w _ i Hi). rewrite (pcong_nth_inv _ _ _ i Hx), (ntt_nth F Hok k w _ i Hi).
  rewrite ev_add by (rewrite negacyclic_length; exact La).
  rewrite ev_negacyclic; [|exact Ld|exact Lg|apply zt_pow_n; exact Hw]. apply cong_of_eq. ring.
Qed.
Lemma ntt_word a : Forall (word F) (ntt a).
Proof. apply (canonical_word F Hok), (ntt_canon F Hok). Qed.

Lemma step_exact_R2 acc X g G d : rep (R2 F) acc X -> Qntt g G -> rl_len n G -> length d = n ->
  exists acc', nrlwe_add_mul F acc g (ntt d) = Some acc' /\ rep canon acc' (rl_add X (rl_mul n d G)).
Proof.
  intros R -> (G1 & G2) Ld. pose proof (rep_lens _ _ _ R) as (A1 & A2). destruct R as ((L1 & L2) & H1 & H2 & H3 & H4).
  unfold nrlwe_add_mul. cbn [ra rb nform].
  rewrite (ntt_add_mul_assign_correct F Hok (ra acc)) by (rewrite ?ntt_of_length; first [exact A1|apply ntt_word|apply (R2_word F Hok); exact H1]).
  cbn [bind].
  rewrite (ntt_add_mul_assign_correct F Hok (rb acc)) by (rewrite ?ntt_of_length; first [exact A2|apply ntt_word|apply (R2_word F Hok); exact H2]).
  cbn [bind]. eexists. split; [reflexivity|].
  split; [apply rl_add_len; [split; assumption|apply rl_mul_len]|]. cbn [ra rb rl_add rl_mul].
  split; [apply pmod_canonical, p0|]. split; [apply pmod_canonical, p0|].
  split; (eapply pcong_trans; [apply pcong_pmod, pn0|apply mac_pcong; assumption]).
Qed.
Lemma step_exact_c : step_ok canon Qntt (nrlwe_add_mul F).
Proof. intros acc X g G d R HQ LG Ld. apply step_exact_R2; [apply rep_weaken; exact R|assumption..]. Qed.
Lemma step_exact_l : step_ok (R2 F) Qntt (nrlwe_add_mul F).
Proof.
  intros acc X g G d R HQ LG Ld. destruct (step_exact_R2 acc X g G d R HQ LG Ld) as (acc' & E & R').
  exists acc'. split; [exact E|apply rep_weaken; exact R'].
Qed.
Lemma step_fast : step_ok (R2 F) Qntt (nrlwe_add_mul_fast F).
Proof.
  intros acc X g G d R -> (G1 & G2) Ld. pose proof (rep_lens _ _ _ R) as (A1 & A2). destruct R as ((L1 & L2) & H1 & H2 & H3 & H4).
  unfold nrlwe_add_mul_fast. cbn [ra rb nform].
  destruct (ntt_add_mul_assign_fast_correct F Hok (ra acc) (ntt (ra G)) (ntt d)) as (ua & Ea & La & Ra & Ca);
    [rewrite ntt_of_length; exact A1|rewrite ntt_of_length; exact A1|apply (R2_word F Hok); exact H1|apply ntt_word|apply ntt_word|].
  destruct (ntt_add_mul_assign_fast_correct F Hok (rb acc) (ntt (rb G)) (ntt d)) as (ub & Eb & Lb & Rb & Cb);
    [rewrite ntt_of_length; exact A2|rewrite ntt_of_length; exact A2|apply (R2_word F Hok); exact H2|apply ntt_word|apply ntt_word|].
  rewrite Ea. cbn [bind]. rewrite Eb. cbn [bind]. eexists. split; [reflexivity|].
  split; [apply rl_add_len; [split; assumption|apply rl_mul_len]|]. cbn [ra rb rl_add rl_mul].
  split; [exact Ra|]. split; [exact Rb|].
  split; (eapply pcong_trans; [eassumption|apply mac_pcong; assumption]).
Qed.
Lemma step_native : step_ok canon Qnat (mul_then_add F tbl n).
Proof.
  intros acc X g G d R (-> & (G1 & G2 & G3 & G4)) LG Ld. pose proof (rep_lens _ _ _ R) as (A1 & A2).
  destruct R as ((L1 & L2) & H1 & H2 & H3 & H4).
  unfold mul_then_add, rlwe_mul_ntt_poly. rewrite ntt_of_length, len_pow2_ok, len_log_pow2. cbn [bind].
  destruct C as (_ & _ & Cw & T & ET & HT). rewrite ET. cbn [bind ra rb rlwe_zero].
  rewrite !same_len_ok by (rewrite repeat_length; congruence). cbn [bind].
  rewrite (tr_ok T (ra G) HT G1 G3). cbn [bind].
  rewrite (tr_ok T (rb G) HT G2 G4). cbn [bind].
  rewrite !(n_mul_assign_correct F Hok) by (rewrite ?ntt_of_length; reflexivity || apply (ntt_canon F Hok)).
  cbn [bind]. unfold rlwe_add_assign, on_both. cbn [ra rb].
  rewrite !(p_add_assign_correct F Hok) by (rewrite ?pmod_length, ?pml; first [exact A1|exact A2|assumption|apply pmod_canonical, p0]).
  cbn [bind]. eexists. split; [reflexivity|].
  split; [apply rl_add_len; [split; assumption|apply rl_mul_len]|]. cbn [ra rb rl_add rl_mul].
  split; [apply pmod_canonical, p0|]. split; [apply pmod_canonical, p0|].
  split; (eapply pcong_trans; [apply pcong_pmod, pn0|]; rewrite (pcong_pmod p _ pn0); apply mac_pcong; assumption).
Qed.

(** The loop. *)
Section Loop.
Variables (b : basis) (bits : Z).
Hypothesis Hb : basis_new F bits = Some b.
Hypothesis Hbits : 0 <= bits.

Lemma digit_canon f : canonical p f -> canonical p (map (fun v => v mod 2 ^ bits) f).
Proof.
  intros Hf. apply Forall_forall. intros x Hx. apply in_map_iff in Hx. destruct Hx as (v & <- & Hv).
  unfold canonical in Hf. rewrite Forall_forall in Hf. apply Hf in Hv. pose proof (pow2_pos bits Hbits).
  pose proof (Z.mod_pos_bound v (2 ^ bits)). pose proof (Z.mod_le v (2 ^ bits)). lia.
Qed.
Lemma rest_canon f : canonical p f -> canonical p (map (fun v => v / 2 ^ bits) f).
Proof.
  intros Hf. apply Forall_forall. intros x Hx. apply in_map_iff in Hx. destruct Hx as (v & <- & Hv).
  unfold canonical in Hf. rewrite Forall_forall in Hf. apply Hf in Hv. pose proof (pow2_pos bits Hbits).
  split; [apply Z.div_pos; lia|]. apply Z.div_lt_upper_bound; nia.
Qed.

Lemma loop_correct P Q step T rows Gs f acc X : step_ok P Q step -> tab_ok F w k T ->
  Forall2 Q rows Gs -> Forall (rl_len n) Gs -> length f = n -> canonical p f -> rep P acc X ->
  exists acc', gadget_loop F T step b n rows f acc = Some acc' /\ rep P acc' (gsum n X (pdigs bits (length rows) f) Gs).
Proof.
  intros Hs HT HQ. revert f acc X. induction HQ as [|g G rows Gs Hg HQ IH]; intros f acc X HL Lf Hf HR.
  - exists acc. split; [reflexivity|exact HR].
  - inv HL. destruct (basis_bits F bits b Hok Hb Hbits) as (Hr & B1 & B2 & B3 & B4). cbn [gadget_loop length pdigs gsum].
    rewrite Lf, Nat.eqb_refl. cbn [assert bind]. rewrite B2, B3. rewrite (poly_lsb_correct F) by lia. cbn [bind fst snd].
    rewrite (tr_ok T _ HT) by (rewrite ?map_length; exact Lf || (apply digit_canon; exact Hf)). cbn [bind].
    destruct (Hs acc X g G (map (fun v => v mod 2 ^ bits) f) HR Hg) as (acc' & E & R'); [assumption|rewrite map_length; exact Lf|].
    rewrite E. cbn [bind]. apply IH; [assumption|rewrite map_length; exact Lf|apply rest_canon; exact Hf|exact R'].
Qed.

(** Any gadget product: the result represents [X] plus the digit combination of the rows. *)
Definition gprod (X : rlwe) (f : list Z) (Gs : list rlwe) : rlwe := gsum n X (pdigs bits (length Gs) f) Gs.
Lemma gprod_len X f Gs : rl_len n X -> rl_len n (gprod X f Gs).
Proof. apply gsum_len. Qed.

Lemma Forall2_refl_nat Gs : Forall (rlwe_wf p n) Gs -> Forall2 Qnat Gs Gs.
Proof. induction 1; constructor; [split; [reflexivity|assumption]|assumption]. Qed.
Lemma Forall2_nform Gs : Forall2 Qntt (map nform Gs) Gs.
Proof. induction Gs; constructor; [reflexivity|assumption]. Qed.
Lemma wf_lens Gs : Forall (rlwe_wf p n) Gs -> Forall (rl_len n) Gs.
Proof. apply Forall_impl. intros x H. eapply wf_len. exact H. Qed.

Lemma gadget_to_ntt_correct Gs bb : Forall (rlwe_wf p n) Gs ->
  gadget_to_ntt F tbl (mk_gadget Gs bb) = Some (mk_gadget (map nform Gs) bb).
Proof.
  intros H. unfold gadget_to_ntt. cbn [gd gb]. rewrite (mapM_some _ nform); [reflexivity|].
  intros x Hx. apply rlwe_to_ntt_correct. rewrite Forall_forall in H. apply H. exact Hx.
Qed.

Lemma g_mul_polynomial_correct Gs f : (0 < k)%nat -> Forall (rlwe_wf p n) Gs -> length f = n -> canonical p f ->
  g_mul_polynomial F tbl (mk_gadget Gs b) f = Some (rl_mod p (gprod (rlwe_zero n) f Gs)).
Proof.
  intros Hk HG Lf Hf. unfold g_mul_polynomial. destruct (lookup_ok f Lf) as (T & E & ET & HT). rewrite E. cbn [bind gd gb]. rewrite Lf.
  destruct (loop_correct canon Qnat _ T Gs Gs f (rlwe_zero n) (rlwe_zero n) step_native HT
    (Forall2_refl_nat Gs HG) (wf_lens Gs HG) Lf Hf (zero_rep n n eq_refl eq_refl)) as (acc & Ea & Ra).
  rewrite Ea. cbn [bind]. apply rlwe_from_ntt_correct; [exact Hk|apply rep_weaken; exact Ra].
Qed.
Lemma g_mul_polynomial_add_correct Gs f x : (0 < k)%nat -> Forall (rlwe_wf p n) Gs -> length f = n -> canonical p f -> rlwe_wf p n x ->
  g_mul_polynomial_add_rlwe F tbl (mk_gadget Gs b) f x = Some (rl_mod p (gprod x f Gs)).
Proof.
  intros Hk HG Lf Hf Hx. unfold g_mul_polynomial_add_rlwe. destruct (lookup_ok f Lf) as (T & E & ET & HT). rewrite E. cbn [bind gd gb]. rewrite Lf.
  rewrite rlwe_to_ntt_correct by exact Hx. cbn [bind].
  destruct (loop_correct canon Qnat _ T Gs Gs f (nform x) x step_native HT
    (Forall2_refl_nat Gs HG) (wf_lens Gs HG) Lf Hf (nform_rep x (wf_len _ _ _ Hx))) as (acc & Ea & Ra).
  rewrite Ea. cbn [bind]. apply rlwe_from_ntt_correct; [exact Hk|apply rep_weaken; exact Ra].
Qed.
Lemma ng_mul_polynomial_correct Gs f : Forall (rl_len n) Gs -> length f = n -> canonical p f ->
  ng_mul_polynomial F tbl (mk_gadget (map nform Gs) b) f = Some (nform (gprod (rlwe_zero n) f Gs)).
Proof.
  intros HG Lf Hf. unfold ng_mul_polynomial. destruct (lookup_ok f Lf) as (T & E & ET & HT). rewrite E. cbn [bind gd gb]. rewrite Lf.
  destruct (loop_correct canon Qntt _ T _ Gs f (rlwe_zero n) (rlwe_zero n) step_exact_c HT
    (Forall2_nform Gs) HG Lf Hf (zero_rep n n eq_refl eq_refl)) as (acc & Ea & Ra).
  rewrite Ea. f_equal. rewrite map_length in Ra. apply rep_nform. exact Ra.
Qed.
Lemma ng_mul_polynomial_inplace_correct Gs f dst : Forall (rl_len n) Gs -> length f = n -> canonical p f -> rl_len n dst ->
  ng_mul_polynomial_inplace F tbl (mk_gadget (map nform Gs) b) f n n dst = Some (nform (gprod (rlwe_zero n) f Gs)).
Proof.
  intros HG Lf Hf (D1 & D2). unfold ng_mul_polynomial_inplace, ng_mul_polynomial_inplace_with.
  destruct (lookup_ok f Lf) as (T & E & ET & HT). rewrite E. cbn [bind gd gb]. rewrite Lf, Nat.eqb_refl. cbn [assert bind].
  destruct (loop_correct canon Qntt _ T _ Gs f _ (rlwe_zero n) step_exact_c HT
    (Forall2_nform Gs) HG Lf Hf (zero_rep _ _ D1 D2)) as (acc & Ea & Ra).
  rewrite Ea. f_equal. rewrite map_length in Ra. apply rep_nform. exact Ra.
Qed.
Lemma ng_mul_polynomial_fast_correct Gs f dst : Forall (rl_len n) Gs -> length f = n -> canonical p f -> rl_len n dst ->
  exists acc, ng_mul_polynomial_inplace_fast F tbl (mk_gadget (map nform Gs) b) f n n dst = Some acc /\
    rep (R2 F) acc (gprod (rlwe_zero n) f Gs).
Proof.
  intros HG Lf Hf (D1 & D2). unfold ng_mul_polynomial_inplace_fast, ng_mul_polynomial_inplace_with.
  destruct (lookup_ok f Lf) as (T & E & ET & HT). rewrite E. cbn [bind gd gb]. rewrite Lf, Nat.eqb_refl. cbn [assert bind].
  destruct (loop_correct (R2 F) Qntt _ T _ Gs f _ (rlwe_zero n) step_fast HT
    (Forall2_nform Gs) HG Lf Hf (rep_weaken _ _ (zero_rep _ _ D1 D2))) as (acc & Ea & Ra).
  rewrite map_length in Ra. exists acc. split; [exact Ea|exact Ra].
Qed.
Lemma add_gadget_correct P step Gs f acc X : step_ok P Qntt (step F) -> Forall (rl_len n) Gs -> length f = n -> canonical p f -> rep P acc X ->
  exists acc', nrlwe_add_gadget_mul_with step F tbl acc (mk_gadget (map nform Gs) b) f n n = Some acc' /\ rep P acc' (gprod X f Gs).
Proof.
  intros Hs HG Lf Hf R. unfold nrlwe_add_gadget_mul_with. rewrite Lf, Nat.eqb_refl. cbn [assert bind].
  destruct (lookup_ok f Lf) as (T & E & ET & HT). rewrite E. cbn [bind gd gb].
  destruct (loop_correct P Qntt _ T _ Gs f acc X Hs HT (Forall2_nform Gs) HG Lf Hf R) as (acc' & Ea & Ra).
  rewrite map_length in Ra. exists acc'. split; assumption.
Qed.
Lemma add_gadget_inplace_correct Gs f acc X : Forall (rl_len n) Gs -> length f = n -> canonical p f -> rep (R2 F) acc X ->
  exists acc', nrlwe_add_gadget_mul_inplace_fast F tbl acc (mk_gadget (map nform Gs) b) f n = Some acc' /\ rep (R2 F) acc' (gprod X f Gs).
Proof.
  intros HG Lf Hf R. unfold nrlwe_add_gadget_mul_inplace_fast.
  destruct (lookup_ok f Lf) as (T & E & ET & HT). rewrite E. cbn [bind gd gb].
  destruct (loop_correct (R2 F) Qntt _ T _ Gs f acc X step_fast HT (Forall2_nform Gs) HG Lf Hf R) as (acc' & Ea & Ra).
  rewrite map_length in Ra. exists acc'. split; assumption.
Qed.
Lemma sub_gadget_correct P step Gs f acc X : step_ok P Qntt (step F) -> Forall (rl_len n) Gs -> length f = n -> canonical p f -> rep P acc X ->
  exists acc', nrlwe_sub_gadget_mul_with step F tbl acc (mk_gadget (map nform Gs) b) f n = Some acc' /\
    rep P acc' (gprod X (pmod p (pneg f)) Gs).
Proof.
  intros Hs HG Lf Hf R. unfold nrlwe_sub_gadget_mul_with.
  destruct (lookup_ok f Lf) as (T & E & ET & HT). rewrite E. cbn [bind gd gb].
  rewrite (p_neg_correct F) by exact Hf. cbn [bind].
  assert (Lf' : length (pmod p (pneg f)) = n) by (rewrite pmod_length, pneg_length; exact Lf).
  destruct (loop_correct P Qntt _ T _ Gs _ acc X Hs HT (Forall2_nform Gs) HG Lf' (pmod_canonical p _ p0) R) as (acc' & Ea & Ra).
  rewrite map_length in Ra. exists acc'. split; assumption.
Qed.

(** The digits used are the gadget digits. *)
Lemma basis_len_cover l : l = bs_len b -> forall f, canonical p f -> Forall (fun v => 0 <= v < 2 ^ (bits * Z.of_nat l)) f.
Proof.
  intros -> f Hf. destruct (basis_bits F bits b Hok Hb Hbits) as (Hr & _).
  destruct (basis_new_correct F Hok bits Hr) as (b' & Eb & _ & _ & _ & Hl). rewrite Hb in Eb. injection Eb as <-.
  eapply Forall_impl; [|exact Hf]. cbv beta. intros v Hv. split; [lia|].
  eapply Z.lt_le_trans; [apply (eff_bits_cover F Hok v Hv)|]. apply Z.pow_le_mono_r; [lia|].
  rewrite Hl. apply ceil_div; [pose proof (eff_bits_pos F Hok)|]; lia.
Qed.
Lemma gprod_digits f (Gs : list rlwe) : length Gs = bs_len b -> canonical p f -> gadget_digits (2 ^ bits) (length Gs) f (pdigs bits (length Gs) f).
Proof. intros Hl Hf. apply pdigs_digits; [exact Hbits|]. apply basis_len_cover; assumption. Qed.
Lemma pdigs_lens l f : length f = n -> Forall (fun d => length d = n) (pdigs bits l f).
Proof.
  revert f. induction l; intros f Lf; constructor; [rewrite map_length; exact Lf|].
  apply IHl. rewrite map_length. exact Lf.
Qed.

Lemma gprod_phase s X f Gs : rl_len n X -> Forall (rl_len n) Gs -> length f = n -> length s = n ->
  pcong p (rphase n s (gprod X f Gs)) (padd (rphase n s X) (lincomb n (pdigs bits (length Gs) f) (map (rphase n s) Gs))).
Proof.
  intros LX HG Lf Ls. apply (rphase_gsum p w k Hp Hp2 Hw); [exact LX|exact HG|apply pdigs_lens; exact Lf|exact Ls].
Qed.
End Loop.
End Field.
