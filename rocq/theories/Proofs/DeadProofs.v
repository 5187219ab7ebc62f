(** How often the mask of a blind rotation vanishes in a slot of the transform, over the masks of the key. *)
From Coq Require Import ZArith Znumtheory List Bool Arith Lia Setoid Morphisms.
From Verif Require Import Spec.Basic Spec.Poly Spec.Ring Spec.Lattice Spec.Blind Spec.Moment Spec.Noise Spec.SubGauss Spec.Count Spec.Boot Model.Base Model.Field Model.NTT Model.Concrete Model.Poly Model.Lwe Model.Rlwe Model.Gadget Model.BlindRotation
  Proofs.Arith Proofs.BarrettProofs Proofs.NumTheory Proofs.FieldProofs Proofs.PolyMath Proofs.NTTProofs Proofs.NTTTableProofs
  Proofs.PolyProofs Proofs.MonomialProofs Proofs.RingProofs Proofs.GadgetProofs Proofs.RlweProofs Proofs.GadgetMain Proofs.RgswProofs Proofs.SampleProofs Proofs.BlindProofs Proofs.BlindKeyProofs Proofs.MomentProofs Proofs.SubGaussProofs Proofs.NoiseProofs
  Proofs.UniformProofs Proofs.InterpProofs Proofs.SlotProofs.
Import ListNotations.
Local Open Scope Z_scope.

Section Field.
Variable F : field.
Hypothesis Hok : fok F.
Local Notation p := (fp F).
Hypothesis Hp : prime p.
Variables (tbl : tables) (k : nat) (w : Z).
Hypothesis C : ctx F tbl k w.
Hypothesis Hk : (0 < k)%nat.
Local Notation n := (2 ^ k)%nat.
Variables (b : basis) (bits : Z).
Hypothesis Hb : basis_new F bits = Some b.
Hypothesis Hbits : 0 <= bits.
Variable s : list Z.
Hypothesis Ls : length s = n.
Local Notation ntt := (ntt_of F w k).
Local Notation l := (bs_len b).
Local Notation zt := (zt w k).
Local Notation stepx := (stepx F k).
Local Notation next := (next F tbl k).
Local Notation rgsw_is := (rgsw_is F tbl k b bits s).
Local Notation bin_entry := (bin_entry F tbl k w b s).
Local Notation good_u := (good_u F k b).
Local Notation good_e := (good_e k b).
Local Notation digs := (digs b bits).
Let P0 : 0 < p := p0 F tbl k w C.

Lemma zt_root i : root p k (zt i).
Proof. apply (zt_pow_n F w k (Hw F tbl k w C)). Qed.

(** The masks of an RGSW ciphertext in transform slot [i]. *)
Definition mcol (i : nat) (R : rgsw) : list Z := map (fun r => nth i (ra r) 0) (gd (c_neg R) ++ gd (c_m R)).
(** The digits decomposed against them. *)
Definition dcol (i : nat) (x : rlwe) : list Z := map (ev (zt i)) (digs (ra x) ++ digs (rb x)).
Lemma dcol_length i x : length (dcol i x) = (l + l)%nat.
Proof. unfold dcol. rewrite map_length, app_length, !digs_length. reflexivity. Qed.

Lemma ev_gsum z X ds Gs : root p k z -> rl_len n X -> Forall (rl_len n) Gs -> Forall (fun d => length d = n) ds ->
  cong p (ev z (ra (gsum n X ds Gs))) (ev z (ra X) + dotz (map (ev z) ds) (map (fun G => ev z (ra G)) Gs)).
Proof.
  intros Hz LX HG Hd. revert X LX Gs HG. induction Hd as [|d ds Ld Hd IH]; intros X LX Gs HG.
  - destruct Gs; cbn [gsum map dotz]; apply cong_of_eq; ring.
  - destruct HG as [|G Gs LG HG]; cbn [gsum map dotz]; [apply cong_of_eq; ring|].
    assert (LX' : rl_len n (rl_add X (rl_mul n d G))) by (apply rl_add_len; [exact LX|apply rl_mul_len]).
    rewrite (IH _ LX' Gs HG). destruct LX as (A1 & _), LG as (B1 & _). cbn [rl_add rl_mul ra]. rewrite ev_add by (rewrite negacyclic_length; exact A1).
    rewrite (ev_negacyclic p z n d (ra G) Ld B1 Hz). apply cong_of_eq. ring.
Qed.
Lemma mcol_ntt i R : (i < n)%nat -> rgsw_wf p n b R -> pcong p (mcol i (nrgsw F k w b R)) (map (fun G => ev (zt i) (ra G)) (gd (c_neg R) ++ gd (c_m R))).
Proof.
  intros Hi _. unfold mcol, nrgsw. cbn [c_neg c_m gd]. rewrite <- map_app, map_map. induction (gd (c_neg R) ++ gd (c_m R)) as [|G Gs IH]; cbn [map]; constructor; [|exact IH].
  unfold nform. cbn [ra]. apply (ntt_nth F Hok k w). exact Hi.
Qed.
Lemma dotz_app a : forall a' c c', length a = length c -> dotz (a ++ a') (c ++ c') = dotz a c + dotz a' c'.
Proof. induction a as [|x a IH]; intros a' [|y c] c' H; try discriminate H; [reflexivity|]. cbn [app dotz]. rewrite IH by (injection H; auto). ring. Qed.

Lemma next_wf_slot m RN e acc a i : rgsw_is m RN e -> rlwe_wf p n acc -> (i < n)%nat ->
  rlwe_wf p n (next RN a acc) /\ cong p (ev (zt i) (ra (next RN a acc))) (ev (zt i) (ra acc) + dotz (dcol i (stepx a acc)) (mcol i RN)).
Proof.
  intros (R & HN & WR & _) Wacc Hi. pose proof (wf_len p n acc Wacc) as Lacc. pose proof (stepx_wf F tbl k w C a acc Wacc) as W1.
  pose proof (rgsw_to_ntt_correct F Hok tbl k w C b R WR) as EN. rewrite HN in EN. injection EN as ->.
  set (x := stepx a acc) in *. pose proof (wf_len p n x W1) as Lx.
  assert (HM : rlwe_mul_assign_ntt_rgsw F tbl x (nrgsw F k w b R) n n (rlwe_zero n) = Some (rl_mod p (extp k bits x (gd (c_neg R)) (gd (c_m R))))).
  { apply (mul_ntt_rgsw_inplace_correct F Hok Hp tbl k w C Hk b bits Hb Hbits); try assumption. apply zero_len. }
  unfold NoiseProofs.next. fold x. rewrite HM. set (ct := extp k bits x (gd (c_neg R)) (gd (c_m R))).
  assert (Lct : rl_len n (rl_mod p ct)) by (apply (wf_len p), rl_mod_wf; [exact P0|apply extp_len]).
  split; [apply rl_mod_wf; [exact P0|apply rl_add_len; assumption]|].
  cbn [rl_mod rl_add ra]. rewrite ev_pmod by lia. destruct Lacc as (A1 & _). destruct Lct as (B1 & _). cbn [rl_mod ra] in B1. rewrite ev_add by congruence. rewrite ev_pmod by lia.
  apply cong_add; [reflexivity|]. rewrite (dotz_cong p _ _ _ (mcol_ntt i R Hi WR)). unfold ct, extp, gprod.
  destruct WR as ((_ & L0 & W0) & (_ & L1' & W0')). destruct Lx as (X1 & X2). pose proof (zt_root i) as Hz.
  assert (LZ : rl_len n (rlwe_zero n)) by apply zero_len.
  rewrite ev_gsum; [|exact Hz|apply gsum_len; exact LZ|eapply Forall_impl; [|exact W0']; apply wf_len|apply pdigs_lens; exact X2].
  rewrite ev_gsum; [|exact Hz|exact LZ|eapply Forall_impl; [|exact W0]; apply wf_len|apply pdigs_lens; exact X1].
  unfold dcol. rewrite !map_app, dotz_app by (rewrite !map_length, digs_length; lia).
  assert (E0 : ev (zt i) (ra (rlwe_zero n)) = 0) by (cbn [rlwe_zero ra]; apply ev_zeros). rewrite E0. unfold NoiseProofs.digs. rewrite L0, L1'. apply cong_of_eq. ring.
Qed.

(** The masks of the entries. *)
Lemma zero_rows_masks sk rnd G : zero_rows (nrlwe_zero_sample F tbl sk) b rnd = Some G -> map ra (gd G) = map fst (firstn l rnd).
Proof.
  unfold zero_rows. destruct (mapM _ _) as [d|] eqn:E; [|discriminate]. cbn [bind]. intros H. injection H as <-. cbn [gd]. revert d E.
  induction (firstn l rnd) as [|[a e] r IH]; intros d E; cbn [mapM] in E; [injection E as <-; reflexivity|].
  unfold nrlwe_zero_sample at 1 in E. cbn [fst snd] in E. destruct (into_ntt F tbl e) as [v|]; [|discriminate E]. cbn [bind] in E.
  destruct (ntt_add_mul_assign F v a sk) as [y|]; [|discriminate E]. cbn [bind] in E.
  destruct (mapM _ r) as [d'|] eqn:E'; [|discriminate E]. cbn [bind] in E. injection E as <-. cbn [map ra fst]. f_equal. apply IH. reflexivity.
Qed.
Lemma peeled_masks (row : Z -> list Z -> list Z -> option rlwe) bv rnd : (forall c a e r, row c a e = Some r -> ra r = a) ->
  forall c rows, power_rows_peeled F row bv c rnd = Some rows -> map ra rows = map fst rnd.
Proof.
  intros Hr. induction rnd as [|[a e] rnd IH]; intros c rows E; [discriminate E|]. destruct rnd as [|ae rnd].
  - cbn [power_rows_peeled] in E. destruct (row c a e) as [r|] eqn:Er; [|discriminate E]. cbn [bind] in E. injection E as <-. cbn [map fst]. rewrite (Hr _ _ _ _ Er). reflexivity.
  - change (power_rows_peeled F row bv c ((a, e) :: ae :: rnd)) with
      (let* r := row c a e in let* power := umul (fw F) c bv in let* t := power_rows_peeled F row bv power (ae :: rnd) in Some (r :: t)) in E.
    destruct (row c a e) as [r|] eqn:Er; [|discriminate E]. cbn [bind] in E. destruct (umul (fw F) c bv) as [c'|]; [|discriminate E]. cbn [bind] in E.
    destruct (power_rows_peeled F row bv c' (ae :: rnd)) as [t|] eqn:Et; [|discriminate E]. cbn [bind] in E. injection E as <-.
    cbn [map fst]. rewrite (Hr _ _ _ _ Er). f_equal. apply (IH _ _ Et).
Qed.
Lemma value_mask sk c a e r : nrlwe_value_sample F tbl sk a e c = Some r -> ra r = a.
Proof.
  unfold nrlwe_value_sample. destruct (add_at_0 F e c); [|discriminate]. cbn [bind]. destruct (into_ntt F tbl _); [|discriminate]. cbn [bind].
  destruct (ntt_add_mul_assign F _ a sk); [|discriminate]. cbn [bind]. intros H. injection H as <-. reflexivity.
Qed.
Fixpoint pows (c bv : Z) (m : nat) : list Z := match m with O => [] | S m' => c :: pows (c * bv) bv m' end.
Lemma pows_length c bv m : length (pows c bv m) = m.
Proof. revert c. induction m; intros c; cbn; [reflexivity|]. rewrite IHm. reflexivity. Qed.
Lemma neg_masks sk i rnd : (i < n)%nat -> Forall (fun ae => length (fst ae) = n /\ canonical p (fst ae)) rnd -> forall c rows, powers_ok F bits c (length rnd) ->
  power_rows_peeled F (fun power a e =>
      let* r := nrlwe_zero_sample F tbl sk a e in
      let* a := mapM (fun v => f_add F v power) (ra r) in Some (mk_rlwe a (rb r))) (2 ^ bits) c rnd = Some rows ->
  pcong p (map (fun r => nth i (ra r) 0) rows) (padd (map (fun ae => nth i (fst ae) 0) rnd) (pows c (2 ^ bits) (length rnd))).
Proof.
  intros Hi. set (row := fun power a e => let* r := nrlwe_zero_sample F tbl sk a e in let* a := mapM (fun v => f_add F v power) (ra r) in Some (mk_rlwe a (rb r))).
  assert (Hrow : forall c a e r, 0 <= c < p -> length a = n -> canonical p a -> row c a e = Some r -> cong p (nth i (ra r) 0) (nth i a 0 + c)).
  { intros c a e r Hc La Ca E. unfold row, nrlwe_zero_sample in E. destruct (into_ntt F tbl e) as [v|]; [|discriminate E]. cbn [bind] in E.
    destruct (ntt_add_mul_assign F v a sk) as [y|]; [|discriminate E]. cbn [bind ra rb] in E.
    rewrite (mapM_some _ (fun x => (x + c) mod p)) in E.
    2:{ intros x Hx. apply (f_add_correct F Hok); [|exact Hc]. unfold canonical in Ca. rewrite Forall_forall in Ca. apply Ca. exact Hx. }
    cbn [bind] in E. injection E as <-. cbn [ra]. rewrite (nth_indep _ 0 ((fun x => (x + c) mod p) 0)) by (rewrite map_length, La; exact Hi).
    rewrite (map_nth (fun x => (x + c) mod p)). apply cong_mod. lia. }
  induction 1 as [|[a e] rnd (La & Ca) Hrnd IH]; intros c rows Hpw E; [discriminate E|]. cbn [length] in Hpw. destruct (powers_S F tbl k w C Hk s Ls bits Hbits c _ Hpw) as (Hc0 & Hc1).
  cbn [fst] in La, Ca. destruct rnd as [|ae rnd].
  - cbn [power_rows_peeled] in E. destruct (row c a e) as [r|] eqn:Er; [|discriminate E]. cbn [bind] in E. injection E as <-.
    cbn [map fst length pows padd]. constructor; [apply (Hrow c a e r); assumption|constructor].
  - change (power_rows_peeled F row (2 ^ bits) c ((a, e) :: ae :: rnd)) with
      (let* r := row c a e in let* power := umul (fw F) c (2 ^ bits) in let* t := power_rows_peeled F row (2 ^ bits) power (ae :: rnd) in Some (r :: t)) in E.
    destruct (row c a e) as [r|] eqn:Er; [|discriminate E]. cbn [bind] in E. destruct (umul (fw F) c (2 ^ bits)) as [c'|] eqn:Eu; [|discriminate E]. cbn [bind] in E.
    unfold umul in Eu. destruct (c * 2 ^ bits <? 2 ^ fw F); [|discriminate Eu]. injection Eu as <-.
    destruct (power_rows_peeled F row (2 ^ bits) (c * 2 ^ bits) (ae :: rnd)) as [t|] eqn:Et; [|discriminate E]. cbn [bind] in E. injection E as <-.
    remember (ae :: rnd) as q. cbn [map fst length pows padd]. constructor; [apply (Hrow c a e r); assumption|]. apply IH; assumption.
Qed.
Definition kap (m : Z) : list Z := if m =? 0 then repeat 0 (l + l) else pows 1 (2 ^ bits) l ++ repeat 0 l.
Lemma kap_length m : length (kap m) = (l + l)%nat.
Proof. unfold kap. destruct (m =? 0); [apply repeat_length|]. rewrite app_length, pows_length, repeat_length. reflexivity. Qed.
Lemma padd_zeros a : padd a (repeat 0 (length a)) = a.
Proof. induction a as [|x a IH]; cbn [length repeat padd]; [reflexivity|]. rewrite IH. f_equal. ring. Qed.
Lemma map_fst_combine {A B : Type} (x : list A) : forall y : list B, length x = length y -> map fst (combine x y) = x.
Proof. induction x as [|a x IH]; intros [|c y] H; try discriminate H; [reflexivity|]. cbn [combine map fst]. rewrite IH by (injection H; auto). reflexivity. Qed.
Lemma bin_entry_masks m u e i : m = 0 \/ m = 1 -> good_u u -> good_e e -> (i < n)%nat ->
  pcong p (mcol i (bin_entry m u e)) (padd (cols2 i u) (kap m)).
Proof.
  intros Hm Gu Ge Hi. destruct (bin_entry_is F Hok Hp tbl k w C Hk b bits Hb Hbits s Ls m u e Hm Gu Ge) as (E & _).
  set (RN := bin_entry m u e) in *. clearbody RN. destruct Gu as ((U1 & U2) & (U3 & U4)), Ge as ((E1 & _) & (E3 & _)).
  assert (LC : forall (x y : list (list Z)), length x = l -> length y = l -> length (combine x (map (pmod p) y)) = l) by (intros; rewrite combine_length, map_length; lia).
  assert (MF : forall (x y : list (list Z)), length x = l -> length y = l -> map fst (firstn l (combine x (map (pmod p) y))) = x).
  { intros x y Lx Ly. rewrite firstn_all2 by (rewrite LC by assumption; lia). apply map_fst_combine. rewrite map_length. congruence. }
  assert (NM : forall (G : gadget) (x : list (list Z)), map ra (gd G) = x -> map (fun r => nth i (ra r) 0) (gd G) = col i x) by (intros G x <-; unfold col; rewrite map_map; reflexivity).
  cbn [draw fst snd] in E. unfold mcol, cols2, kap. rewrite map_app, col_app. destruct Hm as [-> | ->]; cbn [Z.eqb] in *.
  - unfold nrgsw_zero_sample, ng_zero_sample in E. destruct (zero_rows _ b (combine (fst u) _)) as [G0|] eqn:H0; [|discriminate E]. cbn [bind] in E.
    destruct (zero_rows _ b (combine (snd u) _)) as [G1|] eqn:H1; [|discriminate E]. cbn [bind] in E. injection E as <-. cbn [c_neg c_m].
    apply zero_rows_masks in H0, H1. rewrite MF in H0, H1 by assumption. rewrite (NM G0 _ H0), (NM G1 _ H1).
    assert (LL : length (col i (fst u) ++ col i (snd u)) = (l + l)%nat) by (rewrite app_length, !col_length; lia). rewrite <- LL, padd_zeros. apply pcong_refl.
  - unfold nrgsw_one_sample, ng_neg_secret_sample, ng_one_sample in E. rewrite (base_eq' F Hok b bits Hb Hbits) in E.
    destruct (power_rows_peeled F _ (2 ^ bits) 1 (firstn l (combine (fst u) _))) as [g0|] eqn:H0; [|discriminate E]. cbn [bind] in E.
    destruct (power_rows_peeled F _ (2 ^ bits) 1 (firstn l (combine (snd u) _))) as [g1|] eqn:H1; [|discriminate E]. cbn [bind] in E. injection E as <-. cbn [c_neg c_m gd].
    rewrite firstn_all2 in H0, H1 by (rewrite LC by assumption; lia).
    apply (peeled_masks _ _ _ (fun c a e r => value_mask (ntt s) c a e r)) in H1. rewrite map_fst_combine in H1 by (rewrite map_length; congruence).
    pose proof (NM (mk_gadget g1 b) _ H1) as NM1. cbn [gd] in NM1. rewrite NM1.
    assert (Hr : Forall (fun ae : list Z * list Z => length (fst ae) = n /\ canonical p (fst ae)) (combine (fst u) (map (pmod p) (fst e)))).
    { apply Forall_forall. intros [a e'] Ha. apply in_combine_l in Ha. rewrite Forall_forall in U2. apply U2. exact Ha. }
    pose proof (neg_masks (ntt s) i _ Hi Hr 1 g0) as HN. rewrite LC in HN by assumption.
    specialize (HN (powers_basis F Hok Hp tbl k w C Hk s Ls b bits Hb Hbits l (le_n l)) H0).
    rewrite RlweProofs.padd_app by (rewrite col_length, pows_length; exact U1). apply Forall2_app.
    + replace (map (fun ae => nth i (fst ae) 0) (combine (fst u) (map (pmod p) (fst e)))) with (col i (fst u)) in HN; [exact HN|].
      unfold col. rewrite <- (map_fst_combine (fst u) (map (pmod p) (fst e))) at 1 by (rewrite map_length; congruence). rewrite map_map. reflexivity.
    + assert (LL : length (col i (snd u)) = l) by (rewrite col_length; exact U3). rewrite <- LL, padd_zeros. apply pcong_refl.
Qed.
Lemma pscale_cong c x y : pcong p x y -> pcong p (pscale c x) (pscale c y).
Proof. induction 1 as [|u v x y H _ IH]; cbn; constructor; [apply cong_mul; [reflexivity|exact H]|exact IH]. Qed.
Lemma ek_masks v m0 m1 R0 R1 e0 e1 i : length v = n -> rgsw_is m0 R0 e0 -> rgsw_is m1 R1 e1 -> (i < n)%nat ->
  pcong p (mcol i (ek_of F k w b v R0 R1)) (padd (mcol i R0) (pscale (ev (zt i) v) (mcol i R1))).
Proof.
  intros Lv (X & N0 & W0 & _) (Y & N1 & W1 & _) Hi.
  pose proof (rgsw_to_ntt_correct F Hok tbl k w C b X W0) as T0. pose proof (rgsw_to_ntt_correct F Hok tbl k w C b Y W1) as T1.
  rewrite N0 in T0. injection T0 as ->. rewrite N1 in T1. injection T1 as ->.
  assert (EE : ek_of F k w b v (nrgsw F k w b X) (nrgsw F k w b Y) = nrgsw F k w b (rcomb F k b v X Y)).
  { unfold ek_of. rewrite (rgsw_comb F Hok Hp tbl k w C b) by (try assumption; apply zero_space). reflexivity. }
  rewrite EE. pose proof (rcomb_wf F tbl k w C b v X Y W0 W1) as WC.
  eapply pcong_trans; [apply mcol_ntt; assumption|].
  eapply pcong_trans; [|apply pcong_sym; apply padd_proper; [apply mcol_ntt; assumption|apply pscale_cong; apply mcol_ntt; assumption]].
  destruct W0 as ((_ & A0 & W0) & (_ & A1 & W0')), W1 as ((_ & A2 & W1) & (_ & A3 & W1')).
  cbn [rcomb c_neg c_m gd].
  assert (H : forall xs gs, Forall (rlwe_wf p n) xs -> Forall (rlwe_wf p n) gs -> length xs = length gs ->
     pcong p (map (fun G => ev (zt i) (ra G)) (combs F k v xs gs)) (padd (map (fun G => ev (zt i) (ra G)) xs) (pscale (ev (zt i) v) (map (fun G => ev (zt i) (ra G)) gs)))).
  { clear - P0 Lv C Hok. intros xs gs Hx. revert gs. induction Hx as [|x xs Wx Hx IH]; intros gs Hg HL; [constructor|]. destruct Hg as [|g gs Wg Hg]; [discriminate HL|].
    cbn [combs map pscale padd]. constructor; [|apply IH; [exact Hg|injection HL; auto]].
    destruct (wf_len p n x Wx) as (Lx & _), (wf_len p n g Wg) as (Lg & _). unfold comb. cbn [rl_mod rl_add rl_mul ra]. rewrite ev_pmod by lia. rewrite ev_add by (rewrite negacyclic_length; exact Lx).
    rewrite (ev_negacyclic p (zt i) n v (ra g) Lv Lg (zt_root i)). reflexivity. }
  rewrite !map_app. unfold pscale. rewrite map_app. rewrite RlweProofs.padd_app by (rewrite !map_length; congruence).
  apply Forall2_app; apply H; try assumption; congruence.
Qed.

(** A slot whose digits all vanish is dead: the accumulator itself vanishes there. *)
Definition dead (acc : rlwe) (i : nat) : Prop := (p | ev (zt i) (ra acc)) /\ (p | ev (zt i) (rb acc)).
Lemma digits_dead f z : length f = n -> canonical p f -> Forall (fun x => (p | x)) (map (ev z) (digs f)) -> (p | ev z f).
Proof.
  intros Lf Cf H. assert (D : gadget_digits (2 ^ bits) l f (digs f)).
  { unfold NoiseProofs.digs. apply pdigs_digits; [exact Hbits|]. apply (basis_len_cover F Hok b bits Hb Hbits l eq_refl f Cf). }
  destruct D as (_ & D1 & D2). rewrite (digits_ev z (2 ^ bits) n f (digs f) Lf).
  - clear D1 D2. induction H as [|x d Hx H IH]; cbn [digits_value]; [apply Z.divide_0_r|]. apply Z.divide_add_r; [exact Hx|]. apply Z.divide_mul_r. exact IH.
  - apply pdigs_lens. exact Lf.
  - rewrite <- Lf. exact D2.
Qed.
Lemma irregular_dead acc a i : rlwe_wf p n acc -> (0 < a < 2 * n)%nat -> Forall (fun x => (p | x)) (dcol i (stepx a acc)) -> dead acc i.
Proof.
  intros Wacc Ha H. pose proof (stepx_wf F tbl k w C a acc Wacc) as (L1 & L2 & C1 & C2). unfold dcol in H. rewrite map_app in H. apply Forall_app in H. destruct H as (H1 & H2).
  apply digits_dead in H1; try assumption. apply digits_dead in H2; try assumption. pose proof (zt_root i) as Hz. destruct (wf_len p n acc Wacc) as (A1 & A2).
  assert (NZ : ~ (p | npow (zt i) a - 1)) by (intros D; apply (root_order p (zt i) k (ctx_gt2 F tbl k w C) Hz a Ha); exact D).
  assert (G : forall f, length f = n -> (p | ev (zt i) (pmod p (psub (negacyclic n (monomial n 1 a) f) f))) -> (p | ev (zt i) f)).
  { intros f Lf D. assert (E : cong p (ev (zt i) (pmod p (psub (negacyclic n (monomial n 1 a) f) f))) ((npow (zt i) a - 1) * ev (zt i) f)).
    { rewrite ev_pmod by lia. rewrite ev_sub by (rewrite negacyclic_length; congruence). rewrite (ev_negacyclic p (zt i) n _ _ (monomial_length _ _ _) Lf Hz).
      rewrite (ev_monomial p (zt i) n 1 a) by (try exact Hz; pose proof (nn0 k); lia). apply cong_of_eq. ring. }
    assert (D' : (p | (npow (zt i) a - 1) * ev (zt i) f)).
    { apply cong_0. rewrite <- E. apply cong_0. exact D. }
    apply prime_mult in D'; [|exact Hp]. destruct D' as [D'|D']; [contradiction|exact D']. }
  split; apply G; assumption.
Qed.
End Field.
