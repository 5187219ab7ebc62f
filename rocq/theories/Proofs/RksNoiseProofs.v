(** Switching with a ring key of one block: the exact error, and the law of the mask. *)
From Coq Require Import ZArith Znumtheory List Bool Arith Lia Setoid Morphisms.
From Verif Require Import Spec.Basic Spec.Poly Spec.Ring Spec.Lattice Spec.Blind Spec.Moment Spec.Noise Spec.SubGauss Spec.Count Spec.Boot Model.Base Model.Field Model.NTT Model.Concrete Model.Poly Model.Lwe Model.Rlwe Model.Gadget Model.BlindRotation Model.KeySwitch
  Proofs.Arith Proofs.BarrettProofs Proofs.NumTheory Proofs.FieldProofs Proofs.PolyMath Proofs.NTTProofs Proofs.NTTTableProofs
  Proofs.PolyProofs Proofs.MonomialProofs Proofs.RingProofs Proofs.GadgetProofs Proofs.RlweProofs Proofs.GadgetMain Proofs.RgswProofs Proofs.SampleProofs Proofs.BlindProofs Proofs.BlindKeyProofs Proofs.MomentProofs Proofs.SubGaussProofs Proofs.NoiseProofs
  Proofs.UniformProofs Proofs.InterpProofs Proofs.SlotProofs Proofs.DeadProofs Proofs.PotProofs Proofs.AliveProofs Proofs.RingSwitchProofs Proofs.RingSwitchKeyProofs Proofs.TopProofs.
Import ListNotations.
Local Open Scope Z_scope.


Section Field.
Variable F : field.
Hypothesis Hok : fok F.
Local Notation p := (fp F).
Hypothesis Hp : prime p.
Variables (tbl : tables) (k : nat) (w : Z).
Hypothesis C : ctx F tbl k w.
Hypothesis Hk : (0 < k)%nat.
Local Notation n := (2 ^ k)%nat.
Variables (b : basis) (bits : Z).
Hypothesis Hb : basis_new F bits = Some b.
Hypothesis Hbits : 0 <= bits.
Variable s : list Z.
Hypothesis Ls : length s = n.
Hypothesis Cs : canonical p s.
Variable z : list Z.
Hypothesis Lz : (length z <= n)%nat.
Hypothesis Hext : next_pow2 (length z) = n.
Local Notation ntt := (ntt_of F w k).
Local Notation l := (bs_len b).
Local Notation zt := (zt w k).
Local Notation pz := (pad n z).
Let P0 : 0 < p := p0 F tbl k w C.
Let N0 : (0 < n)%nat := nn0 k.

Lemma Lpz : length pz = n.
Proof. unfold pad. rewrite app_length, repeat_length. lia. Qed.

(** What is decomposed: the negated mask of the input. *)
Definition kneg (ct : rlwe) : list Z := pmod p (pneg (ra ct)).
Definition kdig (ct : rlwe) (i : nat) : list Z := map (ev (zt i)) (pdigs bits l (kneg ct)).
Definition kslot (ct : rlwe) (vs : list (list Z)) (i : nat) : Z := dotz (kdig ct i) (col i vs) mod p.
(** The mask polynomial of the switched sample, from its slots. *)
Definition kmask (ct : rlwe) (vs : list (list Z)) : list Z :=
  match into_native F tbl (map (kslot ct vs) (seq 0 n)) with Some a => a | None => [] end.
Lemma kmask_spec ct vs : length (kmask ct vs) = n /\ canonical p (kmask ct vs) /\ forall i, (i < n)%nat -> cong p (ev (zt i) (kmask ct vs)) (dotz (kdig ct i) (col i vs)).
Proof.
  set (v := map (kslot ct vs) (seq 0 n)). assert (Lv : length v = n) by (unfold v; rewrite map_length, seq_length; reflexivity).
  assert (Cv : canonical p v) by (apply Forall_forall; intros x Hx; apply in_map_iff in Hx; destruct Hx as (i & <- & _); apply Z.mod_pos_bound; exact P0).
  destruct (ntt_surj F Hok tbl k w C v Lv Cv) as (a & La & Ca & Ea). unfold kmask. fold v. rewrite Ea, (into_native_ntt F Hok Hp tbl k w C a Hk La).
  split; [rewrite pmod_length; exact La|]. split; [apply pmod_canonical; exact P0|]. intros i Hi. rewrite ev_pmod by lia.
  rewrite <- (ntt_nth F Hok k w a i Hi), <- Ea. unfold v. rewrite (nth_indep _ 0 (kslot ct vs 0)) by (rewrite map_length, seq_length; exact Hi).
  rewrite (map_nth (kslot ct vs)), seq_nth by exact Hi. unfold kslot. apply cong_mod. lia.
Qed.
Lemma kmask_unique ct vs a : length a = n -> canonical p a -> (forall i, (i < n)%nat -> cong p (ev (zt i) a) (dotz (kdig ct i) (col i vs))) -> a = kmask ct vs.
Proof.
  intros La Ca Ha. destruct (kmask_spec ct vs) as (Lm & Cm & Hm). apply (pcong_eq p); [exact Ca|exact Cm|].
  apply (zt_inj F Hp w k (ctx_gt2 F tbl k w C) (ctx_root F tbl k w C) a _ La Lm). intros i Hi. rewrite (Ha i Hi), (Hm i Hi). reflexivity.
Qed.

Lemma rks_rows_masks bv : forall rnd zc rows, rks_rows F tbl (ntt pz) bv zc rnd = Some rows -> map ra rows = map fst rnd.
Proof.
  induction rnd as [|[a e] rnd IH]; intros zc rows E; cbn [rks_rows] in E; [injection E as <-; reflexivity|].
  unfold nrlwe_zero_sample in E. destruct (into_ntt F tbl e) as [v|]; [|discriminate E]. cbn [bind] in E.
  destruct (ntt_add_mul_assign F v a (ntt pz)) as [y|]; [|discriminate E]. cbn [bind ra rb] in E.
  destruct (p_add_assign F y zc) as [y'|]; [|discriminate E]. cbn [bind] in E.
  destruct (match rnd with [] => Some zc | _ :: _ => p_mul_scalar F zc bv end) as [zc'|]; [|discriminate E]. cbn [bind] in E.
  destruct (rks_rows F tbl (ntt pz) bv zc' rnd) as [rest|] eqn:Er; [|discriminate E]. cbn [bind] in E. injection E as <-. cbn [map ra fst]. f_equal. apply (IH _ _ Er).
Qed.

(** The noise the switch adds. *)
Definition knoise (ct : rlwe) (fs : list (list Z)) : Z := nth 0 (lincomb n (pdigs bits l (kneg ct)) fs) 0.

Definition good_v (vs : list (list Z)) : Prop := length vs = l /\ Forall (fun a => length a = n /\ canonical p a) vs.
Definition good_f (fs : list (list Z)) : Prop := length fs = l /\ Forall (fun a => length a = n /\ True) fs.
Lemma rks_exact q vs fs ct : 2 < q -> Forall (fun x => x = 0 \/ x = 1 \/ x = -1) z -> good_v vs -> good_f fs -> rlwe_wf p n ct ->
  exists key, rks_generate F tbl bits (map (fun x => x mod q) z) s (ntt s) [combine vs (map (pmod p) fs)] = Some key /\
  exists y, rks_key_switch_rlwe F tbl key ct = Some y /\ lwe_wf p (length z) y /\ la y = firstn (length z) (ext F (kmask ct vs)) /\
    cong p (phase p z y) (nth 0 (rphase n s ct) 0 + knoise ct fs).
Proof.
  intros Hq Hz (Lv & Gv) (Lf & Gf) (La & Lb & Ca & Cb). pose proof Lpz as Lp.
  destruct (half_draw F tbl k w C Hk b s Ls vs fs Lv Gv Lf Gf) as (Rok & Rl & Rs). set (rnd := combine vs (map (pmod p) fs)) in *.
  assert (Rf : map fst rnd = vs) by (apply map_fst_combine; rewrite map_length; congruence).
  unfold rks_generate. rewrite map_length, Hext, Hb, Ls. rewrite assert_true by (apply Nat.leb_le; lia). cbn [bind].
  assert (Es : mapM (to_field F) (map (fun x => x mod q) z) = Some (pmod p z)).
  { clear - Hz Hq C Hk P0. induction Hz as [|x z Hx Hz IH]; [reflexivity|]. cbn [map mapM]. rewrite (to_field_correct F tbl k w C Hk q x Hq Hx). cbn [bind]. rewrite IH. reflexivity. }
  rewrite Es. cbn [bind].
  assert (Ep : pmod p z ++ repeat 0 (n - length z) = pmod p pz).
  { unfold pad. rewrite pmod_app. f_equal. symmetry. apply pmod_id. apply Forall_forall. intros x Hx. apply repeat_spec in Hx. lia. }
  rewrite Ep. rewrite (into_ntt_canon F Hok tbl k w C) by (rewrite ?pmod_length; assumption || (apply pmod_canonical; exact P0)). cbn [bind].
  rewrite (ntt_pmod F Hok). pose proof (basis_bits F bits b Hok Hb Hbits) as HBB. rewrite (base_eq F Hok b bits Hb Hbits).
  assert (Hw2 : 0 <= 2 ^ bits < 2 ^ fw F) by (split; [apply Z.pow_nonneg; lia|apply Z.pow_lt_mono_r; lia]).
  rewrite (f_new_correct F Hok) by exact Hw2. cbn [bind].
  assert (Hbv : 0 <= 2 ^ bits mod p < p) by (apply Z.mod_pos_bound; exact P0). assert (Cbv : cong p (2 ^ bits mod p) (2 ^ bits)) by (apply cong_mod; lia).
  rewrite Nat.eqb_refl. unfold index. cbn [nth_error bind]. rewrite assert_true by (apply Nat.eqb_eq; exact Rl). cbn [bind].
  destruct (rks_rows_correct F Hok Hp tbl k w C Hk bits Hbits pz Lp s (2 ^ bits mod p) Ls Hbv Cbv rnd 1 (ntt s) Rok (ntt_canon F Hok k w s)) as (rows & E1 & L1 & W1 & G1).
  { rewrite (ntt_proper F Hok k w (pscale 1 s) s); [apply pcong_refl|]. apply pcong_nth; [apply pscale_length|]. intros i _. rewrite nth_pscale. apply cong_of_eq. ring. }
  rewrite E1. cbn [bind]. eexists. split; [reflexivity|].
  pose proof (rks_rows_masks _ _ _ _ E1) as Hmask. rewrite Rf in Hmask.
  rewrite Rs in G1. pose proof (genc_econg _ _ _ _ _ _ _ _ _ G1 (pmod_congs F tbl k w C Hk s Ls fs)) as G2. clear G1.
  rewrite Rl in L1. pose proof (wf_lens F k rows W1) as VG.
  unfold rks_key_switch_rlwe. cbn [rk_dim rk_key]. rewrite Hext, La, Nat.eqb_refl.
  assert (Ei : nth_error (rb ct) 0 = Some (nth 0 (rb ct) 0)) by (destruct (rb ct); [cbn in Lb; lia|reflexivity]). unfold index. rewrite Ei. cbn [bind].
  pose proof (nth0_canon F _ (rb ct) N0 Lb Cb) as B0.
  destruct (chunks_spec n 1 (ra ct) N0 ltac:(lia)) as (L2 & C2 & _). destruct (chunks n (ra ct)) as [|c [|? ?]]; try discriminate L2. cbn [concat] in C2. rewrite app_nil_r in C2. subst c.
  unfold rks_inner. cbn [rk_key rk_dim rks_loop].
  destruct (init_rep F tbl k w C Hk z Lz (nth 0 (rb ct) 0) B0) as (X & RX & PX).
  destruct (sub_gadget_correct F Hok tbl k w C b bits Hb Hbits _ nrlwe_add_mul_fast rows (ra ct) _ X (step_fast F Hok tbl k w C) VG La Ca RX) as (acc' & E2 & R').
  unfold nrlwe_sub_gadget_mul_fast. rewrite E2. cbn [bind]. fold (kneg ct) in R'. set (f := kneg ct) in *. set (X' := gprod k bits X f rows) in *.
  assert (Lf' : length f = n) by (unfold f, kneg; rewrite pmod_length, pneg_length; exact La). assert (Cf : canonical p f) by (apply pmod_canonical; exact P0).
  rewrite (rlwe_from_ntt_correct F Hok Hp tbl k w C acc' X' Hk R'). cbn [bind].
  destruct R' as (LX' & _). assert (Wm : rlwe_wf p n (rl_mod p X')) by (apply rl_mod_wf; assumption).
  destruct (extract_partial_phase F Hok n z (rl_mod p X') N0 Wm Lz) as (y & E3 & Wy & Py). exists y. split; [exact E3|]. split; [exact Wy|].
  destruct (extract_lwe_correct F Hok n (rl_mod p X') N0 Wm) as (_ & _ & E4). rewrite E4 in E3. injection E3 as <-. cbn [la]. split.
  - do 2 f_equal. destruct Wm as (Wm1 & _ & Wm2 & _). apply kmask_unique; [exact Wm1|exact Wm2|]. intros i Hi.
    cbn [rl_mod ra]. rewrite ev_pmod by lia. unfold X', gprod. destruct RX as (LX & _ & _ & RX & _).
    rewrite (ev_gsum F k (zt i)); [|apply (zt_root F tbl k w C)|exact LX|exact VG|apply pdigs_lens; exact Lf'].
    assert (E0 : cong p (ev (zt i) (ra X)) 0).
    { rewrite <- (ntt_nth F Hok k w (ra X) i Hi). rewrite <- (pcong_nth_inv p _ _ i RX). cbn [ra]. rewrite nth_repeat. reflexivity. }
    rewrite E0. unfold kdig. rewrite L1. rewrite Z.add_0_l. apply RingSwitchProofs.dotz_cong. rewrite <- Hmask. unfold col. rewrite !map_map. clear - Hi Hok.
    induction rows as [|r rows IH]; cbn [map]; constructor; [|exact IH]. unfold nform. cbn [ra]. symmetry. apply (ntt_nth F Hok k w). exact Hi.
  - rewrite Py. rewrite cong_mod by lia. rewrite (pcong_nth_inv p _ _ 0%nat (rl_mod_phase F Hp tbl k w C pz X' LX' Lp)).
    destruct RX as (LX & _).
    pose proof (gprod_phase F Hp tbl k w C bits pz X f rows LX VG Lf' Lp) as P1.
    pose proof (gprod_digits F Hok b bits Hb Hbits f rows L1 Cf) as HD.
    pose proof (genc_combine p w k Hp (Hp2 F tbl k w C) (Hw F tbl k w C) pz (2 ^ bits) s f _ rows fs Ls Lf' VG G2 HD) as P2.
    pose proof (pcong_nth_inv p _ _ 0%nat P1) as Q1. pose proof (pcong_nth_inv p _ _ 0%nat P2) as Q2.
    rewrite nth_padd in Q1 by (rewrite lincomb_len; apply rphase_len; exact LX). rewrite nth_padd in Q2 by (rewrite lincomb_len; apply negacyclic_length).
    unfold X'. rewrite Q1, Q2, PX. rewrite nth_negacyclic by exact N0. rewrite const_coeff_rev by (assumption || exact N0).
    assert (Q3 : cong p (dotz s (revkey f)) (- dotz s (revkey (ra ct)))).
    { unfold f, kneg. rewrite (RingSwitchProofs.dotz_cong p _ _ s (revkey_proper p _ _ (pcong_pmod p (pneg (ra ct)) ltac:(lia)))). rewrite revkey_pneg, dotz_neg_r. apply cong_refl. }
    rewrite Q3. rewrite nth0_rphase by (exact N0 || split; assumption). rewrite const_coeff_rev by (assumption || exact N0). rewrite dotz_revkey by congruence.
    unfold knoise. fold f. rewrite L1. apply cong_of_eq. ring.
Qed.

Lemma irregular_zero ct i : rlwe_wf p n ct -> Forall (fun x => (p | x)) (kdig ct i) -> sv F k w (ra ct) i = 0.
Proof.
  intros (La & _ & Ca & _) H. assert (Lf' : length (kneg ct) = n) by (unfold kneg; rewrite pmod_length, pneg_length; exact La). assert (Cf : canonical p (kneg ct)) by (apply pmod_canonical; exact P0).
  assert (D : (p | ev (zt i) (kneg ct))) by (apply (digits_dead F Hok k b bits Hb Hbits (kneg ct) (zt i) Lf' Cf); exact H).
  unfold sv. apply Z.mod_divide; [lia|]. apply cong_0. apply cong_0 in D. unfold kneg in D. rewrite ev_pmod, ev_neg in D by lia.
  transitivity (- - ev (zt i) (ra ct)); [apply cong_of_eq; ring|]. rewrite D. apply cong_of_eq. ring.
Qed.
Lemma mask_sg ct r (f : list Z -> Z) V : rlwe_wf p n ct -> (zeros F k w ct <= r)%nat -> (r <= n)%nat ->
  sg (each (n - r) (uniform p)) f V -> sg (each l (each n (uniform p))) (fun vs => f (top F r (kmask ct vs))) V.
Proof.
  intros Wct Hr Hrn Hf. apply (sg_law p P0 _ (fun vs => top F r (kmask ct vs)) (n - r) f V); [apply nonneg_each, nonneg_each, uniform_nonneg| | |exact Hf].
  - intros vs wt _. destruct (kmask_spec ct vs) as (Lm & _). split; [apply (top_length F k); exact Lm|apply pmod_canonical; exact P0].
  - intros t Lt Ct. set (I := filter (fun i => negb (isreg p Hp (kdig ct i))) (seq 0 n)).
    assert (HI : forall i, In i I -> (i < n)%nat /\ Forall (fun x => (p | x)) (kdig ct i)).
    { intros i Hi. apply filter_In in Hi. destruct Hi as (Hi & Hn). apply in_seq in Hi. apply negb_true_iff in Hn. split; [lia|apply (isreg_false p Hp); exact Hn]. }
    assert (LI : (length I <= r)%nat).
    { eapply Nat.le_trans; [|exact Hr]. unfold zeros, I. apply filter_length_impl. intros i Hi Hn. apply negb_true_iff in Hn. apply Z.eqb_eq. apply irregular_zero; [exact Wct|apply (isreg_false p Hp); exact Hn]. }
    destruct (interpolate_high p r (map zt I) (rev (pneg t)) Hp) as (Q & LQ & SQ & VQ).
    { apply (zt_incong F Hok tbl k w C); [apply NoDup_filter, seq_NoDup|intros i Hi; apply HI; exact Hi]. }
    { rewrite map_length. exact LI. }
    rewrite rev_length, pneg_length, Lt in LQ. replace (r + (n - r))%nat with n in LQ by lia.
    destruct (shift_exists p n Hp l (kdig ct) (fun i => ev (zt i) Q)) as (sh & Lsh & Fsh & Esh).
    { intros i _. unfold kdig. rewrite map_length. apply pdigs_length. }
    { intros i Hi. destruct (isreg p Hp (kdig ct i)) eqn:Ei; [left; apply (isreg_true p Hp); exact Ei|right]. apply VQ. apply in_map. apply filter_In. split; [apply in_seq; lia|]. rewrite Ei. reflexivity. }
    exists (fun vs => addm p vs sh). split; [rewrite <- Lsh; apply inv_addm; assumption|].
    intros vs wt Hvs. apply (in_masks p n) in Hvs. destruct Hvs as (Lvs & Fvs). assert (Fvs' : Forall (fun a => length a = n) vs) by (eapply Forall_impl; [|exact Fvs]; cbn; tauto).
    destruct (kmask_spec ct vs) as (Lm & Cm & Hm). rewrite <- (top_shift F tbl k w C r (kmask ct vs) Q t Lm LQ SQ). f_equal. symmetry. apply kmask_unique.
    + unfold addv. rewrite pmod_length, padd_length by congruence. exact Lm.
    + apply pmod_canonical. exact P0.
    + intros i Hi. unfold addv. rewrite ev_pmod by lia. rewrite ev_add by congruence. rewrite (Hm i Hi), <- (Esh i Hi).
      rewrite <- dotz_padd by (rewrite !col_length; congruence). apply RingSwitchProofs.dotz_cong. symmetry. apply (col_addm p n Hp); try assumption. congruence.
Qed.
End Field.
