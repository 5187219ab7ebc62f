(** Key switching with a ring key. *)
From Coq Require Import ZArith Znumtheory List Bool Arith Lia Setoid Morphisms.
From Verif Require Import Spec.Basic Spec.Poly Spec.Ring Spec.Lattice Spec.Blind Spec.Switch Model.Base Model.Field Model.NTT Model.Concrete Model.Poly Model.Lwe Model.Rlwe Model.Gadget Model.KeySwitch
  Proofs.Arith Proofs.BarrettProofs Proofs.NumTheory Proofs.FieldProofs Proofs.PolyMath Proofs.NTTProofs Proofs.NTTTableProofs
  Proofs.PolyProofs Proofs.MonomialProofs Proofs.LweProofs Proofs.RingProofs Proofs.GadgetProofs Proofs.RlweProofs Proofs.GadgetMain Proofs.RgswProofs Proofs.SampleProofs Proofs.BlindProofs Proofs.BlindKeyProofs.
Import ListNotations.
Local Open Scope Z_scope.

(** Chunks. *)
Lemma chunks_exact_spec m fuel : (0 < m)%nat -> forall c l, length l = (c * m)%nat -> (c <= fuel)%nat ->
  exists cs, chunks_exact fuel m l = cs /\ length cs = c /\ concat cs = l /\ Forall (fun x => length x = m) cs.
Proof.
  intros Hm. induction fuel as [|fuel IH]; intros c l L Hc.
  - assert (c = 0)%nat by lia. subst. destruct l; [|discriminate L]. exists []. cbn. auto.
  - cbn [chunks_exact]. destruct c as [|c].
    + destruct l; [|discriminate L]. destruct (Nat.leb_spec m (length (@nil Z))) as [H|]; [cbn in H; lia|]. exists []. cbn. auto.
    + cbn [Nat.mul] in L. destruct (Nat.leb_spec m (length l)); [|lia].
      destruct (IH c (skipn m l)) as (cs & -> & Lc & Ec & Hf); [rewrite skipn_length; lia|lia|].
      eexists. split; [reflexivity|]. cbn [length concat]. rewrite Lc, Ec, firstn_skipn. split; [reflexivity|]. split; [reflexivity|].
      constructor; [rewrite firstn_length; lia|exact Hf].
Qed.
Lemma chunks_spec m c l : (0 < m)%nat -> length l = (c * m)%nat ->
  length (chunks m l) = c /\ concat (chunks m l) = l /\ Forall (fun x => length x = m) (chunks m l).
Proof.
  intros Hm L. destruct (chunks_exact_spec m (length l) Hm c l L ltac:(nia)) as (cs & E & H). unfold chunks. rewrite E. exact H.
Qed.
Lemma concat_len m (zs : list (list Z)) : Forall (fun x => length x = m) zs -> length (concat zs) = (length zs * m)%nat.
Proof. induction 1 as [|z zs Hz H IH]; [reflexivity|]. cbn [concat length Nat.mul]. rewrite app_length, Hz, IH. reflexivity. Qed.
Lemma canonical_concat q cs : canonical q (concat cs) -> Forall (canonical q) cs.
Proof.
  induction cs as [|c cs IH]; [constructor|]. cbn [concat]. unfold canonical. intros H. apply Forall_app in H as (H1 & H2). constructor; [exact H1|apply IH; exact H2].
Qed.
Lemma dotz_app a b x y : length a = length x -> dotz (a ++ b) (x ++ y) = dotz a x + dotz b y.
Proof. revert x. induction a; intros [|c x] H; try discriminate H; cbn [app dotz]; [lia|]. injection H as H. rewrite IHa by exact H. ring. Qed.
Lemma dotz_cong p a b x : pcong p a b -> cong p (dotz x a) (dotz x b).
Proof.
  intros H. revert x. induction H; intros [|c t]; cbn [dotz]; try apply cong_refl. apply cong_add; [apply cong_mul; [apply cong_refl|assumption]|apply IHForall2].
Qed.
Lemma dotz_revkey a z : length a = length z -> dotz z (revkey a) = dotz a (revkey z).
Proof.
  destruct a as [|a0 a], z as [|z0 z]; intros L; try discriminate L; [reflexivity|]. cbn [revkey dotz]. rewrite !dotz_neg_r. injection L as L.
  rewrite <- dotz_rev by congruence.
  assert (H : forall u v, dotz u v = dotz v u) by (induction u as [|x u IH]; intros [|y v]; cbn; try reflexivity; rewrite IH; ring).
  rewrite (H (rev z) a). ring.
Qed.
Lemma revkey_pneg a : revkey (pneg a) = pneg (revkey a).
Proof. destruct a as [|x r]; [reflexivity|]. cbn [revkey pneg map]. f_equal. unfold pneg. rewrite <- map_rev. reflexivity. Qed.
Lemma pneg_invol a : pneg (pneg a) = a.
Proof. unfold pneg. rewrite map_map. rewrite <- (map_id a) at 2. apply map_ext. intros; ring. Qed.
Lemma pcong_rev p a b : pcong p a b -> pcong p (rev a) (rev b).
Proof. intros H. induction H; cbn [rev]; [constructor|]. apply Forall2_app; [assumption|]. constructor; [assumption|constructor]. Qed.
Lemma revkey_proper p a b : pcong p a b -> pcong p (revkey a) (revkey b).
Proof. intros H. destruct H as [|x y a b Hx H]; [constructor|]. cbn [revkey]. constructor; [exact Hx|]. apply pneg_proper, pcong_rev. exact H. Qed.

Section Field.
Variable F : field.
Hypothesis Hok : fok F.
Local Notation p := (fp F).
Hypothesis Hp : prime p.
Variables (tbl : tables) (k : nat) (w : Z).
Hypothesis C : ctx F tbl k w.
Hypothesis Hk : (0 < k)%nat.
Local Notation n := (2 ^ k)%nat.
Local Notation ntt := (ntt_of F w k).
Local Notation nform := (nform F k w).
Local Notation rep := (rep F k w).
Variables (b : basis) (bits : Z).
Hypothesis Hb : basis_new F bits = Some b.
Hypothesis Hbits : 0 <= bits.
Variable s : list Z.
Hypothesis Ls : (length s <= n)%nat.
Local Notation ps := (pad n s).
Local Notation gprod := (gprod k bits).

Local Lemma n0 : (0 < n)%nat.
Proof. pose proof (Nat.pow_nonzero 2 k). lia. Qed.
Local Lemma Lps : length ps = n.
Proof. unfold pad. rewrite app_length, repeat_length. lia. Qed.

(** Noise of one gadget product, per coefficient. *)
Definition gp_noise (E : Z) : Z := Z.of_nat (bs_len b) * (Z.of_nat n * ((2 ^ bits - 1) * E)).
Lemma gp_noise_nonneg E : 0 <= E -> 0 <= gp_noise E.
Proof. intros H. unfold gp_noise. pose proof (Z.pow_pos_nonneg 2 bits ltac:(lia) Hbits). repeat (apply Z.mul_nonneg_nonneg; try lia). Qed.

Lemma step_phase E z GN c acc X : 0 <= E -> length z = n -> gadget_of F tbl n b ps E z GN -> length c = n -> canonical p c -> rep (R2 F) acc X ->
  exists acc' X' e, nrlwe_sub_gadget_mul_fast F tbl acc GN c n = Some acc' /\ rep (R2 F) acc' X' /\ Z.abs e <= gp_noise E /\
    cong p (nth 0 (rphase n ps X') 0) (nth 0 (rphase n ps X) 0 - dotz z (revkey c) + e).
Proof.
  intros HE Lz (G & es & EN & WG & HEnc & HB) Lc Cc R. pose proof (p0 F tbl k w C) as P0. pose proof Lps as Lp.
  rewrite (gadget_wf_eq F k b G WG) in EN. pose proof (wf_lens F k (gd G) (proj2 (proj2 WG))) as VG.
  rewrite (gadget_to_ntt_correct F Hok tbl k w C) in EN by apply WG. injection EN as <-.
  destruct (sub_gadget_correct F Hok tbl k w C b bits Hb Hbits _ nrlwe_add_mul_fast (gd G) c acc X (step_fast F Hok tbl k w C) VG Lc Cc R) as (acc' & E1 & R').
  set (f := pmod p (pneg c)) in *. assert (Lf : length f = n) by (unfold f; len n). assert (Cf : canonical p f) by (apply pmod_canonical; exact P0).
  pose proof WG as (_ & LG & _). rewrite (base_eq F Hok b bits Hb Hbits) in HEnc.
  pose proof (gprod_digits F Hok b bits Hb Hbits f (gd G) LG Cf) as HD.
  exists acc', (gprod X f (gd G)), (nth 0 (lincomb n (pdigs bits (length (gd G)) f) es) 0).
  split; [exact E1|]. split; [exact R'|]. destruct R as (LX & _).
  assert (Hn : (0 < n)%nat) by apply n0.
  split.
  { pose proof (enc_lens F k Hk bits ps Lps (gd G) z es E HEnc HB) as HL. destruct HEnc as (Le & _).
    destruct HD as (Hl & Hd & _).
    rewrite LG in *. assert (Bd : bounded (Z.of_nat (length (pdigs bits (bs_len b) f)) * (Z.of_nat n * ((2 ^ bits - 1) * E))) (lincomb n (pdigs bits (bs_len b) f) es)).
    { apply lincomb_bound; [exact HE|pose proof (Z.pow_pos_nonneg 2 bits); lia|congruence| |exact HL].
      eapply Forall_impl; [|exact Hd]. cbv beta. intros d (Hd1 & Hd2). split; [congruence|exact Hd2]. }
    rewrite Hl in Bd. apply (proj1 (bounded_nth (gp_noise E) _ (gp_noise_nonneg E HE)) Bd). }
  pose proof (gprod_phase F Hp tbl k w C bits ps X f (gd G) LX VG Lf Lp) as P1.
  pose proof (genc_combine p w k Hp (Hp2 F tbl k w C) (Hw F tbl k w C) ps (2 ^ bits) z f _ (gd G) es Lz Lf VG (genc_intro _ _ _ _ _ _ _ HEnc) HD) as P2.
  pose proof (pcong_nth_inv p _ _ 0%nat P1) as Q1. pose proof (pcong_nth_inv p _ _ 0%nat P2) as Q2.
  rewrite nth_padd in Q1 by (rewrite lincomb_len; apply rphase_len; exact LX). rewrite nth_padd in Q2 by (rewrite lincomb_len; apply negacyclic_length).
  rewrite Q1, Q2. rewrite nth_negacyclic by exact Hn. rewrite const_coeff_rev by (assumption || exact Hn).
  assert (Q3 : cong p (dotz z (revkey f)) (- dotz z (revkey c))).
  { unfold f. rewrite (dotz_cong p _ _ z (revkey_proper p _ _ (pcong_pmod p (pneg c) ltac:(lia)))). rewrite revkey_pneg, dotz_neg_r. apply cong_refl. }
  rewrite Q3. apply cong_of_eq. ring.
Qed.

(** The sum over the chunks. *)
Fixpoint csum (zs cs : list (list Z)) : Z :=
  match zs, cs with z :: zs', c :: cs' => dotz z (revkey c) + csum zs' cs' | _, _ => 0 end.

Lemma loop_phase E : 0 <= E -> forall zs key cs acc X, ring_switch_key F tbl n b s E zs key -> length cs = length zs ->
  Forall (fun c => length c = n /\ canonical p c) cs -> rep (R2 F) acc X ->
  exists acc' X' e, rks_loop F tbl n key cs acc = Some acc' /\ rep (R2 F) acc' X' /\ Z.abs e <= Z.of_nat (length zs) * gp_noise E /\
    cong p (nth 0 (rphase n ps X') 0) (nth 0 (rphase n ps X) 0 - csum zs cs + e).
Proof.
  intros HE zs key cs acc X HK. revert cs acc X. induction HK as [|z GN zs key (Lz & HG) HK IH]; intros cs acc X Lc Hc R.
  - exists acc, X, 0. destruct cs; [|discriminate Lc]. cbn. split; [reflexivity|]. split; [exact R|]. split; [lia|]. apply cong_of_eq. ring.
  - destruct cs as [|c cs]; [discriminate Lc|]. injection Lc as Lc. inversion Hc as [|? ? (L & Cc) Hc']; subst.
    destruct (step_phase E z GN c acc X HE Lz HG L Cc R) as (acc1 & X1 & e1 & E1 & R1 & B1 & P1). cbn [rks_loop]. rewrite E1. cbn [bind].
    destruct (IH cs acc1 X1 Lc Hc' R1) as (acc' & X' & e & E2 & R2' & B2 & P2). exists acc', X', (e1 + e). split; [exact E2|]. split; [exact R2'|].
    split; [cbn [length]; lia|]. rewrite P2, P1. apply cong_of_eq. cbn [csum]. ring.
Qed.

Lemma init_rep b0 : 0 <= b0 < p -> exists X, rep (R2 F) (mk_rlwe (repeat 0 n) (repeat b0 n)) X /\ nth 0 (rphase n ps X) 0 = b0.
Proof.
  intros H0. pose proof (p0 F tbl k w C) as P0. assert (Hn : (0 < n)%nat) by apply n0.
  exists (mk_rlwe (repeat 0 n) (b0 :: repeat 0 (n - 1))).
  assert (LX : rl_len n (mk_rlwe (repeat 0 n) (b0 :: repeat 0 (n - 1)))) by (split; cbn [ra rb length]; rewrite repeat_length; lia).
  split.
  - split; [exact LX|]. cbn [ra rb].
    assert (Hf : forall v, 0 <= v < p -> Forall (R2 F) (repeat v n)) by (intros v Hv; apply Forall_forall; intros x Hx; apply repeat_spec in Hx; subst; unfold R2; lia).
    split; [apply Hf; lia|]. split; [apply Hf; lia|].
    split; apply pcong_nth; try (rewrite repeat_length, ntt_of_length; reflexivity); intros i Hi; rewrite repeat_length in Hi; rewrite nth_ntt_of by exact Hi.
    + rewrite ev_zeros, Z.mod_0_l, nth_repeat by lia. apply cong_refl.
    + cbn [ev]. rewrite ev_zeros. rewrite (nth_indep _ 0 b0) by (rewrite repeat_length; lia). rewrite nth_repeat. apply cong_sym. rewrite cong_mod by lia. apply cong_of_eq. ring.
  - rewrite nth0_rphase by assumption. cbn [ra rb nth]. rewrite const_coeff_rev by (rewrite ?repeat_length; exact Lps || lia).
    assert (E0 : forall m x, dotz (repeat 0 m) x = 0) by (induction m; intros [|y x]; cbn; try reflexivity; rewrite IHm; ring).
    rewrite E0. ring.
Qed.

Lemma inner_phase E zs key cs b0 : 0 <= E -> ring_switch_key F tbl n b s E zs key -> length cs = length zs ->
  Forall (fun c => length c = n /\ canonical p c) cs -> 0 <= b0 < p ->
  exists y e, rks_inner F tbl (mk_rlwe_ks_key (length s) key) n (mk_rlwe (repeat 0 n) (repeat b0 n)) cs = Some y /\ lwe_wf p (length s) y /\
    Z.abs e <= Z.of_nat (length zs) * gp_noise E /\ cong p (phase p s y) (b0 - csum zs cs + e).
Proof.
  intros HE HK Lc Hc H0. pose proof (p0 F tbl k w C) as P0. destruct (init_rep b0 H0) as (X & R & PX).
  destruct (loop_phase E HE zs key cs _ X HK Lc Hc R) as (acc & X' & e & E1 & R1 & B1 & P1). unfold rks_inner. cbn [rk_key rk_dim].
  rewrite E1. cbn [bind]. rewrite (rlwe_from_ntt_correct F Hok Hp tbl k w C acc X' Hk R1). cbn [bind].
  destruct R1 as (LX' & _). assert (Wm : rlwe_wf p n (rl_mod p X')) by (apply rl_mod_wf; assumption).
  destruct (extract_partial_phase F Hok n s (rl_mod p X') n0 Wm Ls) as (y & E2 & W & P2). exists y, e. split; [exact E2|]. split; [exact W|]. split; [exact B1|].
  rewrite P2. rewrite cong_mod by lia.
  rewrite (pcong_nth_inv p _ _ 0%nat (rl_mod_phase F Hp tbl k w C ps X' LX' Lps)). rewrite P1, PX. apply cong_refl.
Qed.

(** The rewritten chunks. *)
Lemma neg_head_rev_tail_correct c : (0 < length c)%nat -> canonical p c -> neg_head_rev_tail F c = Some (pmod p (pneg (revkey c))).
Proof.
  intros L H. pose proof (p0 F tbl k w C) as P0. destruct H as [|x r Hx H]; [cbn in L; lia|]. unfold neg_head_rev_tail. rewrite (f_neg_correct F) by exact Hx. cbn [bind revkey pneg map pmod].
  do 2 f_equal. fold (pneg (pneg (rev r))). rewrite pneg_invol. symmetry. apply pmod_id. apply canonical_rev. exact H.
Qed.
Lemma rev_neg_tail_correct c : (0 < length c)%nat -> canonical p c -> rev_neg_tail F c = Some (pmod p (revkey c)).
Proof.
  intros L H. destruct H as [|x r Hx H]; [cbn in L; lia|]. unfold rev_neg_tail. change (mapM (f_neg F) (rev r)) with (p_neg F (rev r)).
  rewrite (p_neg_correct F) by (apply canonical_rev; exact H). cbn [bind revkey pmod map]. rewrite Z.mod_small by exact Hx. reflexivity.
Qed.
Lemma csum_ext zs cs : Forall (fun z => length z = n) zs -> length cs = length zs ->
  forall h (u : Z), (forall z c, length c = n -> cong p (dotz z (revkey (h c))) (u * dotz z c)) -> Forall (fun c => length c = n) cs ->
  cong p (csum zs (map h cs)) (u * dotz (concat zs) (concat cs)).
Proof.
  intros Hz L h u Hh Hc. revert zs Hz L. induction Hc as [|c cs Lc Hc IH]; intros [|z zs] Hz L; try discriminate L; cbn [map csum concat].
  - cbn [dotz]. apply cong_of_eq. ring.
  - injection L as L. inversion Hz as [|? ? Lz Hz']; subst. rewrite dotz_app by congruence. rewrite (Hh z c Lc), (IH zs Hz' L). apply cong_of_eq. ring.
Qed.
Lemma ks_zs E zs key : ring_switch_key F tbl n b s E zs key -> Forall (fun z => length z = n) zs.
Proof. induction 1 as [|z g zs key (Lz & _) H IH]; constructor; assumption. Qed.

Lemma map_chunks g cs : (forall c, (0 < length c)%nat -> canonical p c -> g c = Some (pmod p (pneg (revkey c)))) ->
  Forall (fun c => length c = n /\ canonical p c) cs -> mapM g cs = Some (map (fun c => pmod p (pneg (revkey c))) cs).
Proof.
  intros Hg H. apply mapM_some. intros c Hc. rewrite Forall_forall in H. destruct (H c Hc) as (L & Cc). apply Hg; [rewrite L; apply n0|exact Cc].
Qed.
Lemma map_chunks' g cs : (forall c, (0 < length c)%nat -> canonical p c -> g c = Some (pmod p (revkey c))) ->
  Forall (fun c => length c = n /\ canonical p c) cs -> mapM g cs = Some (map (fun c => pmod p (revkey c)) cs).
Proof.
  intros Hg H. apply mapM_some. intros c Hc. rewrite Forall_forall in H. destruct (H c Hc) as (L & Cc). apply Hg; [rewrite L; apply n0|exact Cc].
Qed.
Lemma chunks_ok m a : length a = (m * n)%nat -> canonical p a -> Forall (fun c => length c = n /\ canonical p c) (chunks n a).
Proof.
  intros L H. destruct (chunks_spec n m a n0 L) as (_ & E & Hl). rewrite <- E in H. apply canonical_concat in H.
  rewrite Forall_forall in *. intros c Hc. split; [apply Hl; exact Hc|apply H; exact Hc].
Qed.
Lemma mapped_ok h cs : (forall c, length (h c) = length c) -> Forall (fun c => length c = n /\ canonical p c) cs ->
  Forall (fun c => length c = n /\ canonical p c) (map (fun c => pmod p (h c)) cs).
Proof.
  intros Hh H. pose proof (p0 F tbl k w C) as P0. apply Forall_forall. intros c Hc. apply in_map_iff in Hc. destruct Hc as (c0 & <- & Hc). rewrite Forall_forall in H. destruct (H c0 Hc) as (L & _).
  split; [rewrite pmod_length, Hh; exact L|apply pmod_canonical; exact P0].
Qed.

Hypothesis Hext : next_pow2 (length s) = n.

Lemma rks_lwe_correct E zs key ct : 0 <= E -> ring_switch_key F tbl n b s E zs key -> (0 < length zs)%nat -> lwe_wf p (length (concat zs)) ct ->
  exists y e, rks_key_switch_lwe F tbl (mk_rlwe_ks_key (length s) key) ct = Some y /\ lwe_wf p (length s) y /\
    Z.abs e <= Z.of_nat (length zs) * gp_noise E /\ phase p s y = (phase p (concat zs) ct + e) mod p.
Proof.
  intros HE HK Hz0 (La & Ca & Bb). pose proof (p0 F tbl k w C) as P0. pose proof (ks_zs E zs key HK) as Hz. rewrite (concat_len n zs Hz) in La.
  unfold rks_key_switch_lwe. cbn [rk_dim]. rewrite Hext.
  destruct (chunks_spec n (length zs) (la ct) n0 La) as (Lc & Ec & Hc). pose proof (chunks_ok _ _ La Ca) as Hck.
  set (g := fun c => pmod p (revkey c)).
  assert (ECS : (if (length (la ct) =? n)%nat then let* a := rev_neg_tail F (la ct) in Some (chunks n a) else mapM (rev_neg_tail F) (chunks n (la ct)))
     = Some (map g (chunks n (la ct)))).
  { destruct (Nat.eqb_spec (length (la ct)) n) as [E1|E1].
    - rewrite rev_neg_tail_correct by (try assumption; rewrite E1; apply n0). cbn [bind]. f_equal. fold (g (la ct)).
      assert (Lg : length (g (la ct)) = (1 * n)%nat) by (unfold g; rewrite pmod_length, revkey_length; lia).
      destruct (chunks_spec n 1 (g (la ct)) n0 Lg) as (L1 & C1 & _). destruct (chunks_spec n 1 (la ct) n0 ltac:(lia)) as (L2 & C2 & _).
      destruct (chunks n (g (la ct))) as [|u [|? ?]]; try discriminate L1. destruct (chunks n (la ct)) as [|v [|? ?]]; try discriminate L2.
      cbn [concat] in C1, C2. rewrite app_nil_r in C1, C2. subst. reflexivity.
    - apply map_chunks'; [exact rev_neg_tail_correct|exact Hck]. }
  rewrite ECS. cbn [bind].
  assert (Hm : Forall (fun c => length c = n /\ canonical p c) (map g (chunks n (la ct)))) by (apply mapped_ok; [apply revkey_length|exact Hck]).
  destruct (inner_phase E zs key (map g (chunks n (la ct))) (lb ct) HE HK ltac:(rewrite map_length; exact Lc) Hm Bb) as (y & e & E1 & W & B1 & P1).
  exists y, e. split; [exact E1|]. split; [exact W|]. split; [exact B1|].
  pose proof (csum_ext zs (chunks n (la ct)) Hz Lc g 1) as HS.
  assert (HS' : cong p (csum zs (map g (chunks n (la ct)))) (1 * dotz (concat zs) (concat (chunks n (la ct))))).
  { apply HS; [|exact Hc]. intros z c _. unfold g. rewrite (dotz_cong p _ _ z (revkey_proper p _ _ (pcong_pmod p (revkey c) ltac:(lia)))).
    rewrite revkey_invol. apply cong_of_eq. ring. }
  rewrite HS', Ec in P1. unfold phase in *. rewrite cong_mod in P1 by lia. apply cong_iff; [exact P0|]. rewrite P1. rewrite (cong_mod p (lb ct - _)) by lia.
  assert (Hcm : forall u v, dotz u v = dotz v u) by (induction u as [|x u IH]; intros [|y0 v]; cbn; try reflexivity; rewrite IH; ring).
  rewrite (Hcm (concat zs)). apply cong_of_eq. ring.
Qed.

Lemma rks_rlwe_correct E zs key ct : 0 <= E -> ring_switch_key F tbl n b s E zs key -> (0 < length zs)%nat -> rlwe_wf p (length (concat zs)) ct ->
  exists y e, rks_key_switch_rlwe F tbl (mk_rlwe_ks_key (length s) key) ct = Some y /\ lwe_wf p (length s) y /\
    Z.abs e <= Z.of_nat (length zs) * gp_noise E /\ phase p s y = (nth 0 (rphase (length (concat zs)) (concat zs) ct) 0 + e) mod p.
Proof.
  intros HE HK Hz0 W. pose proof W as (La & Lb & Ca & Cb). pose proof (p0 F tbl k w C) as P0. pose proof (ks_zs E zs key HK) as Hz.
  pose proof n0 as Hn. assert (Lz : length (concat zs) = (length zs * n)%nat) by (apply concat_len; exact Hz).
  assert (HN : (0 < length (concat zs))%nat) by (rewrite Lz; nia).
  unfold rks_key_switch_rlwe. cbn [rk_dim]. rewrite Hext.
  pose proof (nth0_canon F _ (rb ct) HN Lb Cb) as B0.
  assert (Ei : index (rb ct) 0 = Some (nth 0 (rb ct) 0)) by (destruct (rb ct); [cbn in Lb; lia|reflexivity]). rewrite Ei. cbn [bind].
  rewrite nth0_rphase by (exact HN || split; assumption). rewrite const_coeff_rev by (assumption || reflexivity).
  set (b0 := nth 0 (rb ct) 0) in *.
  assert (HCS : exists cs, (if (length (ra ct) =? n)%nat then Some (chunks n (ra ct)) else let* a := neg_head_rev_tail F (ra ct) in mapM (neg_head_rev_tail F) (chunks n a)) = Some cs /\
     length cs = length zs /\ Forall (fun c => length c = n /\ canonical p c) cs /\ cong p (csum zs cs) (dotz (ra ct) (revkey (concat zs)))).
  { destruct (Nat.eqb_spec (length (ra ct)) n) as [E1|E1].
    - exists (chunks n (ra ct)). assert (L1 : length zs = 1%nat) by nia.
      destruct (chunks_spec n 1 (ra ct) Hn ltac:(lia)) as (L2 & C2 & _). split; [reflexivity|]. split; [lia|]. split; [apply (chunks_ok 1); [lia|exact Ca]|].
      destruct zs as [|z [|? ?]]; try discriminate L1. destruct (chunks n (ra ct)) as [|v [|? ?]]; try discriminate L2.
      cbn [concat csum] in *. rewrite app_nil_r in *. subst v. rewrite dotz_revkey by exact La. apply cong_of_eq. ring.
    - rewrite neg_head_rev_tail_correct by (try assumption; lia). cbn [bind]. set (a' := pmod p (pneg (revkey (ra ct)))).
      assert (La' : length a' = (length zs * n)%nat) by (unfold a'; rewrite pmod_length, pneg_length, revkey_length; lia).
      assert (Ca' : canonical p a') by (apply pmod_canonical; exact P0).
      destruct (chunks_spec n (length zs) a' Hn La') as (Lc & Ec & Hc). pose proof (chunks_ok _ _ La' Ca') as Hck.
      rewrite map_chunks by (try exact Hck; exact neg_head_rev_tail_correct). eexists. split; [reflexivity|]. split; [rewrite map_length; exact Lc|].
      split; [apply (mapped_ok (fun c => pneg (revkey c))); [intros c; rewrite pneg_length; apply revkey_length|exact Hck]|].
      pose proof (csum_ext zs (chunks n a') Hz Lc (fun c => pmod p (pneg (revkey c))) (-1)) as HS.
      rewrite HS; [|intros z c _|exact Hc].
      + rewrite Ec. unfold a'. rewrite (dotz_cong p _ _ _ (pcong_pmod p (pneg (revkey (ra ct))) ltac:(lia))). rewrite dotz_neg_r, dotz_revkey by exact La. apply cong_of_eq. ring.
      + rewrite (dotz_cong p _ _ z (revkey_proper p _ _ (pcong_pmod p (pneg (revkey c)) ltac:(lia)))). rewrite revkey_pneg, revkey_invol, dotz_neg_r. apply cong_of_eq. ring. }
  destruct HCS as (cs & ECS & Lc & Hc & HS). rewrite ECS. cbn [bind].
  destruct (inner_phase E zs key cs b0 HE HK Lc Hc B0) as (y & e & E1 & Wy & B1 & P1). exists y, e. split; [exact E1|]. split; [exact Wy|]. split; [exact B1|].
  rewrite HS in P1. unfold phase in *. rewrite cong_mod in P1 by lia. apply cong_iff; [exact P0|]. exact P1.
Qed.
End Field.
