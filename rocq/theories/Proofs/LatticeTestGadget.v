(** The randomised tests of gadget and RGSW products. *)
From Coq Require Import ZArith Znumtheory List Bool Arith Lia SpecFloat.
From Verif Require Import Spec.Basic Spec.Poly Spec.Switch Spec.Lattice Spec.Ring Spec.LatticeTest.
From Verif Require Import Model.Base Model.PowOf2 Model.Field Model.NTT Model.Concrete Model.Poly Model.Lwe Model.Rlwe Model.Gadget Model.ModSwitch Model.UnitTests Model.RingTests.
From Verif Require Import Proofs.Arith Proofs.NumTheory Proofs.PolyMath Proofs.FieldProofs Proofs.NTTProofs Proofs.ConcreteProofs
  Proofs.PolyProofs Proofs.PolyMain Proofs.RingProofs Proofs.GadgetProofs Proofs.GadgetMain Proofs.RgswProofs Proofs.UnitTestProofs Proofs.RingTestProofs Proofs.LatticeTestProofs.
Import ListNotations.
Local Open Scope Z_scope.

Lemma mapM_each {A X} (f : A -> option X) (Q : nat -> X -> Prop) (d0 : A) (dx : X) l :
  (forall i, (i < length l)%nat -> exists y, f (nth i l d0) = Some y /\ Q i y) ->
  exists r, mapM f l = Some r /\ length r = length l /\ forall i, (i < length l)%nat -> Q i (nth i r dx).
Proof.
  revert Q. induction l as [|x l IH]; intros Q H.
  - exists []. split; [reflexivity|]. split; [reflexivity|]. cbn. lia.
  - destruct (H O ltac:(cbn; lia)) as (y & Ey & Qy). cbn [nth] in Ey.
    destruct (IH (fun i => Q (S i))) as (r & Er & Lr & Hr); [intros i Hi; apply (H (S i)); cbn; lia|].
    exists (y :: r). cbn [mapM]. rewrite Ey. cbn [bind]. rewrite Er. cbn [bind length]. split; [reflexivity|]. split; [congruence|].
    intros [|i] Hi; cbn [nth]; [exact Qy|apply Hr; lia].
Qed.
Lemma nth_enum {A} (l : list A) d i : (i < length l)%nat -> nth i (combine (seq 0 (length l)) l) (O, d) = (i, nth i l d).
Proof. intros Hi. rewrite combine_nth by (rewrite seq_length; reflexivity). rewrite seq_nth by exact Hi. reflexivity. Qed.

Lemma pscale_one_ l : pscale 1 l = l.
Proof. unfold pscale. rewrite <- (map_id l) at 2. apply map_ext. intros x. apply Z.mul_1_l. Qed.

Section Gadget.
Variable F : field.
Hypothesis Hok : fok F.
Local Notation p := (fp F).
Hypothesis Hp : prime p.
Variables (tbl : tables) (k : nat) (w : Z).
Hypothesis C : ctx F tbl k w.
Hypothesis Hk : (0 < k)%nat.
Local Notation n := (2 ^ k)%nat.
Variables (t bits : Z) (b : basis).
Hypothesis Hfw : fw F <= 64.
Hypothesis Ht : 2 <= t <= p.
Hypothesis H52 : p * t <= 2 ^ 52.
Hypothesis Hbits : 0 <= bits.
Hypothesis Hb : basis_new F bits = Some b.

Lemma basis_eq : bs_basis b = 2 ^ bits. Proof. apply (basis_bits F bits b Hok Hb Hbits). Qed.
Lemma bits1 : 1 <= bits. Proof. destruct (basis_bits F bits b Hok Hb Hbits) as (H & _). lia. Qed.
Lemma pfacts : 2 < p /\ 4 * p < 2 ^ fw F. Proof. exact (p_facts F Hok tbl k w C Hk). Qed.
Local Notation peq := (pEQ F Hp tbl k w C).

(** The noises drawn, as integers. *)
Lemma noises E rnd : Forall (row_draw p E n) rnd -> exists es, length es = length rnd /\ Forall (fun e => length e = n /\ bounded E e) es /\
  forall i, (i < length rnd)%nat -> pcong p (snd (nth i rnd ([], []))) (nth i es []).
Proof.
  induction 1 as [|r rnd (_ & _ & Hr) _ (es & L & Hes & H)]; [exists []; repeat split; [constructor|cbn; lia]|].
  destruct (small_facts F Hok tbl k w C Hk E _ Hr) as (e & Le & Be & Pe & _). exists (e :: es). cbn [length]. split; [congruence|].
  split; [constructor; [split; assumption|assumption]|]. intros [|i] Hi; cbn [nth]; [exact Pe|apply H; lia].
Qed.
Definition noise_of (rnd : list (list Z * list Z)) (es : list (list Z)) : Prop :=
  length es = length rnd /\ forall i, (i < length rnd)%nat -> length (nth i es []) = n /\ pcong p (snd (nth i rnd ([], []))) (nth i es []).

Lemma scale_ok m i : length m = n -> canonical p m -> (i < bs_len b)%nat ->
  exists cm, (let* c := base_pow F (2 ^ bits) i in p_mul_scalar F m c) = Some cm /\ length cm = n /\ canonical p cm /\ pcong p cm (pscale ((2 ^ bits) ^ Z.of_nat i) m).
Proof.
  intros Lm Hm Hi. pose proof pfacts as R. rewrite (base_pow_ok F Hok bits i Hfw Hbits) by (eapply basis_room; eassumption). cbn [bind].
  rewrite p_mul_scalar_correct by (assumption || apply Z.mod_pos_bound; lia). eexists. split; [reflexivity|].
  split; [rewrite pmod_length, pscale_length; exact Lm|]. split; [apply pmod_canonical; lia|].
  eapply pcong_trans; [apply pcong_pmod; lia|]. apply pcong_nth; [rewrite !pscale_length; reflexivity|]. intros j Hj.
  rewrite !nth_pscale. apply cong_mul; [apply cong_mod; lia|reflexivity].
Qed.
Lemma row_facts E rnd i : Forall (row_draw p E n) rnd -> (i < length rnd)%nat ->
  length (fst (nth i rnd ([], []))) = n /\ canonical p (fst (nth i rnd ([], []))) /\ length (snd (nth i rnd ([], []))) = n /\ canonical p (snd (nth i rnd ([], []))).
Proof.
  intros H Hi. rewrite Forall_forall in H. destruct (H (nth i rnd ([], [])) (nth_In _ _ Hi)) as (L & Cn & Sm). destruct (small_facts F Hok tbl k w C Hk E _ Sm) as (e' & _ & _ & _ & L' & C'). auto.
Qed.
Lemma wf_nth rows m : length rows = m -> (forall i, (i < m)%nat -> rlwe_wf p n (nth i rows (mk_rlwe [] []))) -> Forall (rlwe_wf p n) rows.
Proof.
  intros L H. apply Forall_forall. intros x Hx. apply (In_nth _ _ (mk_rlwe [] [])) in Hx as (i & Hi & <-). apply H. lia.
Qed.

Lemma rt_rows_ok E s m rnd : length s = n -> canonical p s -> length m = n -> canonical p m -> Forall (row_draw p E n) rnd -> (length rnd <= bs_len b)%nat ->
  exists rows, rt_rows F tbl s m (2 ^ bits) rnd = Some rows /\ length rows = length rnd /\ Forall (rlwe_wf p n) rows /\
    forall es, noise_of rnd es -> gadget_encrypts p n s (2 ^ bits) m rows es.
Proof.
  intros Ls Hs Lm Hm Hr Hl. unfold rt_rows. set (L := combine _ _).
  assert (LL : length L = length rnd) by (unfold L; rewrite combine_length, seq_length; lia).
  destruct (mapM_each (fun ir => let* c := base_pow F (2 ^ bits) (fst ir) in let* cm := p_mul_scalar F m c in rt_encrypt F tbl s cm (fst (snd ir)) (snd (snd ir)))
    (fun i x => rlwe_wf p n x /\ pcong p (rphase n s x) (padd (pscale ((2 ^ bits) ^ Z.of_nat i) m) (snd (nth i rnd ([], []))))) (O, ([], [])) (mk_rlwe [] []) L) as (rows & Er & Lr & H).
  { intros i Hi. rewrite LL in Hi. unfold L. rewrite nth_enum by exact Hi. cbn [fst snd]. destruct (row_facts E rnd i Hr Hi) as (A1 & A2 & A3 & A4).
    destruct (scale_ok m i Lm Hm ltac:(lia)) as (cm & Ec & Lc & Cc & Pc). apply bind_some in Ec as (c & E1 & E2). rewrite E1. cbn [bind]. rewrite E2. cbn [bind].
    destruct (rt_encrypt_ok F Hok Hp tbl k w C Hk s cm _ _ Ls Lc A1 A3 Hs Cc A2 A4) as (x & X & W & _ & P). exists x. split; [exact X|]. split; [exact W|].
    eapply pcong_trans; [exact P|]. apply pcong_padd; [exact Pc|apply pcong_refl]. }
  rewrite LL in Lr, H. exists rows. split; [exact Er|]. split; [exact Lr|]. split; [apply (wf_nth rows (length rnd) Lr); intros i Hi; apply H, Hi|].
  intros es (Les & Hes). split; [congruence|]. intros i Hi. rewrite Lr in Hi. destruct (Hes i Hi) as (N1 & N2). split; [exact N1|].
  eapply pcong_trans; [apply H, Hi|]. apply pcong_padd; [apply pcong_refl|exact N2].
Qed.
Lemma rt_mask_rows_ok E s m rnd : length s = n -> canonical p s -> length m = n -> canonical p m -> Forall (row_draw p E n) rnd -> (length rnd <= bs_len b)%nat ->
  exists rows, rt_mask_rows F tbl s m (2 ^ bits) rnd = Some rows /\ length rows = length rnd /\ Forall (rlwe_wf p n) rows /\
    forall es, noise_of rnd es -> gadget_encrypts p n s (2 ^ bits) (pneg (negacyclic n m s)) rows es.
Proof.
  intros Ls Hs Lm Hm Hr Hl. pose proof pfacts as R. unfold rt_mask_rows. set (L := combine _ _).
  assert (LL : length L = length rnd) by (unfold L; rewrite combine_length, seq_length; lia).
  match goal with |- context [mapM ?g L] => set (f := g) end.
  destruct (mapM_each f
    (fun i x => rlwe_wf p n x /\ pcong p (rphase n s x) (padd (pscale ((2 ^ bits) ^ Z.of_nat i) (pneg (negacyclic n m s))) (snd (nth i rnd ([], []))))) (O, ([], [])) (mk_rlwe [] []) L) as (rows & Er & Lr & H).
  { intros i Hi. rewrite LL in Hi. unfold L. rewrite nth_enum by exact Hi. unfold f. cbn [fst snd]. destruct (row_facts E rnd i Hr Hi) as (A1 & A2 & A3 & A4).
    set (a := fst (nth i rnd ([], []))) in *. set (e := snd (nth i rnd ([], []))) in *.
    rewrite (p_mul_assign_correct F Hok Hp tbl k w C a s Hk A1 Ls A2 Hs). cbn [bind].
    rewrite p_add_assign_correct by (try assumption; rewrite ?pmod_length, ?negacyclic_length; try congruence; apply pmod_canonical; lia). cbn [bind].
    destruct (scale_ok m i Lm Hm ltac:(lia)) as (cm & Ec & Lc & Cc & Pc). apply bind_some in Ec as (c & E1 & E2). rewrite E1. cbn [bind]. rewrite E2. cbn [bind].
    rewrite p_add_assign_correct by (try assumption; congruence). cbn [bind].
    set (bb := pmod p (padd (pmod p (negacyclic n a s)) e)). set (aa := pmod p (padd a cm)).
    assert (Lb : length bb = n) by (unfold bb; rewrite pmod_length, padd_length; rewrite ?pmod_length, ?negacyclic_length; congruence).
    assert (La : length aa = n) by (unfold aa; rewrite pmod_length, padd_length; congruence).
    unfold rlwe_new. rewrite same_len_ok by congruence. cbn [bind]. eexists. split; [reflexivity|].
    split; [repeat split; cbn [ra rb]; try assumption; apply pmod_canonical; lia|].
    apply peq; [apply rphase_len; split; assumption|rewrite padd_length; rewrite ?pscale_length, ?pneg_length, ?negacyclic_length; congruence|]. intros z Hz.
    rewrite (ev_rphase p k z) by (try assumption; split; assumption). cbn [ra rb]. unfold aa, bb. rewrite !ev_pmod by lia.
    rewrite !ev_add by (rewrite ?pmod_length, ?pscale_length, ?pneg_length, ?negacyclic_length; congruence). rewrite ev_pmod by lia. rewrite ev_scale, ev_neg, !(evn p k z) by assumption.
    assert (PE : cong p (ev z cm) ((2 ^ bits) ^ Z.of_nat i * ev z m)) by (rewrite <- ev_scale; apply ev_cong; [reflexivity|exact Pc]).
    rewrite PE. apply cong_of_eq. ring. }
  rewrite LL in Lr, H. exists rows. split; [exact Er|]. split; [exact Lr|]. split; [apply (wf_nth rows (length rnd) Lr); intros i Hi; apply H, Hi|].
  intros es (Les & Hes). split; [congruence|]. intros i Hi. rewrite Lr in Hi. destruct (Hes i Hi) as (N1 & N2). split; [exact N1|].
  eapply pcong_trans; [apply H, Hi|]. apply pcong_padd; [apply pcong_refl|exact N2].
Qed.
Lemma rt_rgsw_ok E s m rnd rnd' : length s = n -> canonical p s -> length m = n -> canonical p m -> Forall (row_draw p E n) rnd -> Forall (row_draw p E n) rnd' ->
  length rnd = bs_len b -> length rnd' = bs_len b ->
  exists R, rt_rgsw F tbl s m b rnd rnd' = Some R /\ rgsw_wf p n b R /\
    forall es es', noise_of rnd' es -> noise_of rnd es' -> rgsw_encrypts p n s (2 ^ bits) m R es es'.
Proof.
  intros Ls Hs Lm Hm H1 H2 L1 L2. unfold rt_rgsw. rewrite basis_eq.
  destruct (rt_rows_ok E s m rnd Ls Hs Lm Hm H1 ltac:(lia)) as (r1 & E1 & R1 & W1 & G1). destruct (rt_mask_rows_ok E s m rnd' Ls Hs Lm Hm H2 ltac:(lia)) as (r2 & E2 & R2 & W2 & G2).
  rewrite E1. cbn [bind]. rewrite E2. cbn [bind]. unfold gadget_new. rewrite !assert_true by (apply Nat.eqb_eq; congruence). cbn [bind].
  eexists. split; [reflexivity|]. split; [repeat split; cbn [c_neg c_m gd gb]; try reflexivity; try congruence; assumption|].
  intros es es' N1 N2. split; cbn [c_neg c_m gd]; [apply G2, N1|apply G1, N2].
Qed.

(** ** External products *)
Definition dec (l : list Z) : list Z := map (nearest p t) l.

(** The phase of the external product of an encryption of [u] with noise [e] and an RGSW encryption of [m]. *)
Lemma ext_form s m R x ct u e e' es es' : length s = n -> length m = n -> length u = n -> length e' = n -> rlwe_wf p n x -> external_product p n (2 ^ bits) R x ct ->
  rgsw_encrypts p n s (2 ^ bits) m R es es' -> pcong p (rphase n s x) (padd u e) -> pcong p e e' ->
  exists da db, gadget_digits (2 ^ bits) (length (gd (c_neg R))) (ra x) da /\ gadget_digits (2 ^ bits) (length (gd (c_m R))) (rb x) db /\
  forall m', length m' = n -> pcong p m m' ->
    pcong p (rphase n s ct) (padd (negacyclic n u m) (padd (negacyclic n m' e') (padd (lincomb n da es) (lincomb n db es')))).
Proof.
  intros Ls Lm Lu Le' Wx (_ & da & db & Da & Db & HP) HR Px Pe. exists da, db. split; [exact Da|]. split; [exact Db|]. intros m' Lm' Pm.
  eapply pcong_trans; [apply (HP s m es es' Ls Lm HR)|].
  assert (LL : length (padd (lincomb n da es) (lincomb n db es')) = n) by (rewrite padd_length; rewrite !lincomb_len; reflexivity).
  assert (LX : forall y, length (padd (negacyclic n m y) (padd (lincomb n da es) (lincomb n db es'))) = n) by (intros y; rewrite padd_length; rewrite negacyclic_length; congruence).
  assert (LX' : length (padd (negacyclic n m' e') (padd (lincomb n da es) (lincomb n db es'))) = n) by (rewrite padd_length; rewrite negacyclic_length; congruence).
  assert (Le : length e = n) by (rewrite (pcong_length _ _ _ Pe); exact Le').
  apply peq; [apply LX|rewrite padd_length; rewrite negacyclic_length; congruence|]. intros z Hz.
  rewrite (ev_add z (negacyclic n m _)) by (rewrite negacyclic_length; congruence).
  rewrite (ev_add z (negacyclic n u m)) by (rewrite negacyclic_length; congruence).
  rewrite (ev_add z (negacyclic n m' e')) by (rewrite negacyclic_length; congruence).
  rewrite !(evn p k z) by (try assumption; apply rphase_len, (wf_len p), Wx).
  rewrite (ev_cong p z z _ _ (cong_refl p z) Px), (ev_cong p z z _ _ (cong_refl p z) (pcong_sym _ _ _ Pm)), (ev_cong p z z _ _ (cong_refl p z) (pcong_sym _ _ _ Pe)).
  rewrite ev_add by congruence. apply cong_of_eq. ring.
Qed.
Definition ext_noise (M E : Z) : Z := Z.of_nat n * (M * E) + 2 * (Z.of_nat (bs_len b) * (Z.of_nat n * ((2 ^ bits - 1) * E))).
Lemma bounded_nth E y i : 0 <= E -> bounded E y -> Z.abs (nth i y 0) <= E.
Proof.
  intros HE Hy. destruct (Nat.lt_ge_cases i (length y)) as [H|H]; [|rewrite nth_overflow by exact H; cbn; exact HE].
  unfold bounded in Hy. rewrite Forall_forall in Hy. apply Hy, nth_In, H.
Qed.
Lemma ext_bound M E m e x da db es es' : 0 <= M -> 0 <= E -> length e = n -> bounded M m -> bounded E e -> rlwe_wf p n x ->
  gadget_digits (2 ^ bits) (bs_len b) (ra x) da -> gadget_digits (2 ^ bits) (bs_len b) (rb x) db -> length es = bs_len b -> length es' = bs_len b ->
  Forall (fun y => length y = n /\ bounded E y) es -> Forall (fun y => length y = n /\ bounded E y) es' ->
  bounded (ext_noise M E) (padd (negacyclic n m e) (padd (lincomb n da es) (lincomb n db es'))).
Proof.
  intros HM HE Le Hm He (La & Lb & _) Da Db Les Les' Hes Hes'. apply bounded_padd.
  - apply Forall_forall. intros y Hy. apply (In_nth _ _ 0) in Hy as (i & _ & <-). apply negacyclic_abs; intros j; apply bounded_nth; assumption.
  - apply (external_noise_bound n (2 ^ bits) E (bs_len b) x); try assumption. pose proof (Z.pow_pos_nonneg 2 bits). lia.
Qed.
(** Noise too small to matter. *)
Lemma ext_dec M E s m R x ct u e es es' : 0 <= M -> 0 <= E -> length s = n -> small p M n m -> length u = n -> small p E n e -> rgsw_wf p n b R -> rlwe_wf p n x ->
  external_product p n (2 ^ bits) R x ct -> rgsw_encrypts p n s (2 ^ bits) m R es es' -> pcong p (rphase n s x) (padd u e) ->
  Forall (fun y => length y = n /\ bounded E y) es -> Forall (fun y => length y = n /\ bounded E y) es' ->
  far_from_boundary p t (ext_noise M E) (pmod p (negacyclic n u m)) -> dec (pmod p (rphase n s ct)) = dec (pmod p (negacyclic n u m)).
Proof.
  intros HM HE Ls Sm Lu Se WR Wx X HR Px Hes Hes' Hfar. pose proof pfacts as R0.
  destruct (small_facts F Hok tbl k w C Hk M _ Sm) as (m' & Lm' & Bm & Pm & Lm & Cm). destruct (small_facts F Hok tbl k w C Hk E _ Se) as (e' & Le' & Be & Pe & Le & Ce).
  destruct (ext_form s m R x ct u e e' es es' Ls Lm Lu Le' Wx X HR Px Pe) as (da & db & Da & Db & HP). specialize (HP m' Lm' Pm).
  destruct WR as ((_ & LN & _) & (_ & LM & _)). rewrite LN in Da. rewrite LM in Db. destruct HR as ((E1 & _) & (E2 & _)).
  apply (nearest_far p t n (ext_noise M E) (negacyclic n u m) (padd (negacyclic n m' e') (padd (lincomb n da es) (lincomb n db es')))); try lia; try assumption.
  - apply negacyclic_length.
  - rewrite padd_length; rewrite negacyclic_length; [reflexivity|]. rewrite padd_length; rewrite !lincomb_len; reflexivity.
  - apply (ext_bound M E m' e' x da db es es'); try assumption; congruence.
  - eapply pcong_trans; [apply pcong_pmod; lia|exact HP].
Qed.
(** ** RGSW times RLWE *)
Lemma rgsw_rlwe_form E m0 m1 s rnd rnd' a e : length s = n -> canonical p s -> length m0 = n -> canonical p m0 -> length m1 = n -> canonical p m1 ->
  Forall (row_draw p E n) rnd -> Forall (row_draw p E n) rnd' -> length rnd = bs_len b -> length rnd' = bs_len b -> row_draw p E n (a, e) ->
  exists R x ct, rgsw_wf p n b R /\ rlwe_wf p n x /\ external_product p n (2 ^ bits) R x ct /\ pcong p (rphase n s x) (padd m0 e) /\
    (forall es es', noise_of rnd' es -> noise_of rnd es' -> rgsw_encrypts p n s (2 ^ bits) m1 R es es') /\
    rt_rgsw_rlwe F tbl t bits m0 m1 s rnd rnd' a e = assert_poly (dec (pmod p (negacyclic n m0 m1))) (dec (pmod p (rphase n s ct))).
Proof.
  intros Ls Hs L0 H0 L1 H1 Hr Hr' Lr Lr' (La & Ca & Se). cbn [fst snd] in *. pose proof pfacts as R0. destruct (small_facts F Hok tbl k w C Hk E _ Se) as (_ & _ & _ & _ & Le & Ce).
  destruct (rt_rgsw_ok E s m1 rnd rnd' Ls Hs L1 H1 Hr Hr' Lr Lr') as (R & ER & WR & GR).
  destruct (rt_encrypt_ok F Hok Hp tbl k w C Hk s m0 a e Ls L0 La Le Hs H0 Ca Ce) as (x & X & Wx & _ & Px).
  destruct (external_main F Hok Hp tbl k w C Hk b bits Hb Hbits R x WR Wx) as (RN & ct & _ & Ect & XP & _).
  exists R, x, ct. split; [exact WR|]. split; [exact Wx|]. split; [exact XP|]. split; [exact Px|]. split; [exact GR|].
  unfold rt_rgsw_rlwe. rewrite (p_mul_assign_correct F Hok Hp tbl k w C m0 m1 Hk L0 L1 H0 H1). cbn [bind]. rewrite Hb. cbn [bind].
  rewrite !firstn_all2 by lia. rewrite ER. cbn [bind]. rewrite X. cbn [bind]. rewrite Ect. cbn [bind].
  rewrite (rt_phase_ok F Hok Hp tbl k w C Hk s ct Ls Hs (proj1 XP)). cbn [bind].
  rewrite (decode_list F Hok tbl k w C Hk t Hfw Ht H52) by (apply pmod_canonical; lia). cbn [bind].
  rewrite (decode_list F Hok tbl k w C Hk t Hfw Ht H52) by (apply pmod_canonical; lia). reflexivity.
Qed.
Lemma noises_of E rnd : Forall (row_draw p E n) rnd -> exists es, noise_of rnd es /\ Forall (fun e => length e = n /\ bounded E e) es.
Proof.
  intros H. destruct (noises E rnd H) as (es & L & Hes & Hp'). exists es. split; [|exact Hes]. split; [exact L|]. intros i Hi. split; [|apply Hp', Hi].
  rewrite Forall_forall in Hes. apply (Hes (nth i es [])), nth_In. lia.
Qed.
Lemma rt_rgsw_rlwe_ok M E m0 m1 s rnd rnd' a e : 0 <= M -> 0 <= E -> length s = n -> canonical p s -> length m0 = n -> canonical p m0 -> small p M n m1 ->
  Forall (row_draw p E n) rnd -> Forall (row_draw p E n) rnd' -> length rnd = bs_len b -> length rnd' = bs_len b -> row_draw p E n (a, e) ->
  far_from_boundary p t (ext_noise M E) (pmod p (negacyclic n m0 m1)) -> rt_rgsw_rlwe F tbl t bits m0 m1 s rnd rnd' a e = Some tt.
Proof.
  intros HM HE Ls Hs L0 H0 Sm Hr Hr' Lr Lr' D Hfar. destruct (small_facts F Hok tbl k w C Hk M _ Sm) as (_ & _ & _ & _ & L1 & H1).
  destruct (rgsw_rlwe_form E m0 m1 s rnd rnd' a e Ls Hs L0 H0 L1 H1 Hr Hr' Lr Lr' D) as (R & x & ct & WR & Wx & XP & Px & GR & ->).
  destruct (noises_of E rnd Hr) as (es & N1 & B1). destruct (noises_of E rnd' Hr') as (es' & N2 & B2).
  rewrite (ext_dec M E s m1 R x ct m0 e es' es HM HE Ls Sm L0 (proj2 (proj2 D)) WR Wx XP (GR _ _ N2 N1) Px B2 B1 Hfar). apply assert_poly_refl.
Qed.

(** ** RGSW times RGSW *)
Lemma rgsw_rgsw_form E m0 m1 s rnd1 rnd1' rnd0 rnd0' : length s = n -> canonical p s -> length m0 = n -> canonical p m0 -> length m1 = n -> canonical p m1 ->
  Forall (row_draw p E n) rnd1 -> Forall (row_draw p E n) rnd1' -> length rnd1 = bs_len b -> length rnd1' = bs_len b ->
  Forall (row_draw p E n) rnd0 -> Forall (row_draw p E n) rnd0' -> length rnd0 = bs_len b -> length rnd0' = bs_len b -> (0 < bs_len b)%nat ->
  exists R x ct x' ct', rgsw_wf p n b R /\ rlwe_wf p n x /\ rlwe_wf p n x' /\ external_product p n (2 ^ bits) R x ct /\ external_product p n (2 ^ bits) R x' ct' /\
    pcong p (rphase n s x) (padd m0 (snd (nth 0 rnd0 ([], [])))) /\
    pcong p (rphase n s x') (padd (pneg (negacyclic n m0 s)) (snd (nth 0 rnd0' ([], [])))) /\
    (forall es es', noise_of rnd1' es -> noise_of rnd1 es' -> rgsw_encrypts p n s (2 ^ bits) m1 R es es') /\
    rt_rgsw_rgsw F tbl t bits m0 m1 s rnd1 rnd1' rnd0 rnd0' =
      let* _ := assert_poly (dec (pmod p (negacyclic n m0 m1))) (dec (pmod p (rphase n s ct))) in
      assert_poly (dec (pmod p (negacyclic n (pneg (negacyclic n m0 s)) m1))) (dec (pmod p (rphase n s ct'))).
Proof.
  intros Ls Hs L0 H0 L1 H1 Hr1 Hr1' Lr1 Lr1' Hr0 Hr0' Lr0 Lr0' Hl. pose proof pfacts as R0.
  destruct (rt_rgsw_ok E s m1 rnd1 rnd1' Ls Hs L1 H1 Hr1 Hr1' Lr1 Lr1') as (R1 & ER1 & WR1 & GR1).
  destruct (rt_rgsw_ok E s m0 rnd0 rnd0' Ls Hs L0 H0 Hr0 Hr0' Lr0 Lr0') as (R & ER & WR & GR).
  destruct (rgsw_mul_main F Hok Hp tbl k w C Hk b bits Hb Hbits R R1 WR WR1) as (SN & T & _ & ET & _ & WT & X0 & X1).
  destruct (noises_of E rnd0 Hr0) as (es & N1 & B1). destruct (noises_of E rnd0' Hr0') as (es' & N2 & B2).
  destruct (GR es' es N2 N1) as ((_ & GA) & (_ & GB)). destruct WR as ((_ & LN & WN) & (_ & LM & WM)).
  destruct N1 as (N1 & N1'). destruct N2 as (N2 & N2').
  destruct (gd (c_neg R)) as [|x' tn] eqn:EN; [cbn in LN; lia|]. destruct (gd (c_m R)) as [|x tm] eqn:EM; [cbn in LM; lia|].
  inversion X0 as [|? ct' ? tn' P0 _ ET0 ET0']; subst. inversion X1 as [|? ct ? tm' P1 _ ET1 ET1']; subst.
  exists R1, x, ct, x', ct'. split; [exact WR1|]. split; [inversion WM; assumption|]. split; [inversion WN; assumption|]. split; [exact P1|]. split; [exact P0|].
  destruct (GA O ltac:(cbn; lia)) as (LA & PA). destruct (GB O ltac:(cbn; lia)) as (LB & PB). cbn [nth] in PA, PB. change ((2 ^ bits) ^ Z.of_nat 0) with 1 in PA, PB.
  rewrite pscale_one_ in PA, PB.
  split; [eapply pcong_trans; [exact PB|apply pcong_padd; [apply pcong_refl|apply pcong_sym, N1'; lia]]|].
  split; [eapply pcong_trans; [exact PA|apply pcong_padd; [apply pcong_refl|apply pcong_sym, N2'; lia]]|].
  split; [exact GR1|].
  unfold rt_rgsw_rgsw. rewrite (p_mul_assign_correct F Hok Hp tbl k w C m0 m1 Hk L0 L1 H0 H1). cbn [bind]. rewrite Hb. cbn [bind].
  rewrite !firstn_all2 by lia. rewrite ER1. cbn [bind]. rewrite ER. cbn [bind]. rewrite ET. cbn [bind]. rewrite <- ET0', <- ET1'. unfold index. cbn [nth_error bind].
  rewrite (rt_phase_ok F Hok Hp tbl k w C Hk s ct Ls Hs (proj1 P1)), (rt_phase_ok F Hok Hp tbl k w C Hk s ct' Ls Hs (proj1 P0)). cbn [bind].
  rewrite (decode_list F Hok tbl k w C Hk t Hfw Ht H52) by (apply pmod_canonical; lia). cbn [bind].
  rewrite (decode_list F Hok tbl k w C Hk t Hfw Ht H52) by (apply pmod_canonical; lia). cbn [bind]. fold dec.
  destruct (assert_poly _ _); [|reflexivity]. cbn [bind]. rewrite f_new_correct by (assumption || lia). cbn [bind]. rewrite (Z.mod_small (p - 1) p) by lia.
  rewrite p_mul_scalar_correct by (assumption || lia). cbn [bind].
  rewrite (p_mul_assign_correct F Hok Hp tbl k w C _ _ Hk) by (rewrite ?pmod_length, ?negacyclic_length, ?pscale_length; try exact Ls; try reflexivity; apply pmod_canonical; lia). cbn [bind].
  rewrite (decode_list F Hok tbl k w C Hk t Hfw Ht H52) by (apply pmod_canonical; lia). cbn [bind].
  rewrite (decode_list F Hok tbl k w C Hk t Hfw Ht H52) by (apply pmod_canonical; lia). cbn [bind]. fold dec.
  assert (LS : length (pmod p (pscale (p - 1) s)) = n) by (rewrite pmod_length, pscale_length; exact Ls).
  assert (LP : length (pmod p (negacyclic n m0 m1)) = n) by (rewrite pmod_length; apply negacyclic_length).
  assert (LQ : length (pneg (negacyclic n m0 s)) = n) by (rewrite pneg_length; apply negacyclic_length).
  f_equal. unfold dec. f_equal. apply mod_pcong_eq; [lia|]. apply peq; try apply negacyclic_length. intros z Hz.
  rewrite !(evn p k z) by assumption. rewrite !ev_pmod by lia. rewrite ev_neg, ev_scale. rewrite !(evn p k z) by assumption.
  exists (ev z m0 * ev z m1 * ev z s). ring.
Qed.
Lemma rt_rgsw_rgsw_ok M E m0 m1 s rnd1 rnd1' rnd0 rnd0' : 0 <= M -> 0 <= E -> length s = n -> canonical p s -> length m0 = n -> canonical p m0 -> small p M n m1 ->
  Forall (row_draw p E n) rnd1 -> Forall (row_draw p E n) rnd1' -> length rnd1 = bs_len b -> length rnd1' = bs_len b ->
  Forall (row_draw p E n) rnd0 -> Forall (row_draw p E n) rnd0' -> length rnd0 = bs_len b -> length rnd0' = bs_len b -> (0 < bs_len b)%nat ->
  far_from_boundary p t (ext_noise M E) (pmod p (negacyclic n m0 m1)) ->
  far_from_boundary p t (ext_noise M E) (pmod p (negacyclic n (pneg (negacyclic n m0 s)) m1)) ->
  rt_rgsw_rgsw F tbl t bits m0 m1 s rnd1 rnd1' rnd0 rnd0' = Some tt.
Proof.
  intros HM HE Ls Hs L0 H0 Sm Hr1 Hr1' Lr1 Lr1' Hr0 Hr0' Lr0 Lr0' Hl F1 F2. destruct (small_facts F Hok tbl k w C Hk M _ Sm) as (_ & _ & _ & _ & L1 & H1).
  destruct (rgsw_rgsw_form E m0 m1 s rnd1 rnd1' rnd0 rnd0' Ls Hs L0 H0 L1 H1 Hr1 Hr1' Lr1 Lr1' Hr0 Hr0' Lr0 Lr0' Hl) as (R & x & ct & x' & ct' & WR & Wx & Wx' & XP & XP' & Px & Px' & GR & ->).
  destruct (noises_of E rnd1 Hr1) as (es & N1 & B1). destruct (noises_of E rnd1' Hr1') as (es' & N2 & B2).
  assert (S0 : forall r, Forall (row_draw p E n) r -> length r = bs_len b -> small p E n (snd (nth 0 r ([], [])))).
  { intros r Hr Lr. rewrite Forall_forall in Hr. apply (Hr (nth 0 r ([], []))), nth_In. lia. }
  rewrite (ext_dec M E s m1 R x ct m0 _ es' es HM HE Ls Sm L0 (S0 _ Hr0 Lr0) WR Wx XP (GR _ _ N2 N1) Px B2 B1 F1). rewrite assert_poly_refl. cbn [bind].
  rewrite (ext_dec M E s m1 R x' ct' _ _ es' es HM HE Ls Sm ltac:(rewrite pneg_length; apply negacyclic_length) (S0 _ Hr0' Lr0') WR Wx' XP' (GR _ _ N2 N1) Px' B2 B1 F2). apply assert_poly_refl.
Qed.

(** ** The gadget product *)
Lemma cabs_cong v u : cong p v u -> cabs p v = cabs p u.
Proof. intros H. destruct H as (q & H). unfold cabs. replace v with (u + q * p) by lia. rewrite Z_mod_plus_full. reflexivity. Qed.
Lemma cabs_opp v : cabs p (- v) = cabs p v.
Proof.
  pose proof pfacts as R. unfold cabs. destruct (Z.eq_dec (v mod p) 0) as [H|H]; [rewrite (Z.mod_opp_l_z v p) by lia; rewrite H; reflexivity|].
  rewrite (Z.mod_opp_l_nz v p) by lia. rewrite Z.min_comm. f_equal. ring.
Qed.
Lemma cabs_list x y : length y = length x -> (forall i, (i < length x)%nat -> cong p (nth i x 0) (- nth i y 0)) -> map (cabs p) x = map (cabs p) y.
Proof.
  intros L H. apply (nth_ext _ _ (cabs p 0) (cabs p 0)); [rewrite !map_length; congruence|]. intros i Hi. rewrite map_length in Hi. rewrite !map_nth.
  rewrite (cabs_cong _ _ (H i Hi)). apply cabs_opp.
Qed.
Lemma min_to_zero_list x : mapM (min_to_zero F) (pmod p x) = Some (map (cabs p) x).
Proof.
  pose proof pfacts as R. induction x as [|v x IH]; [reflexivity|]. cbn [pmod map mapM]. pose proof (Z.mod_pos_bound v p ltac:(lia)).
  unfold min_to_zero at 1. unfold usub. rewrite (proj2 (Z.leb_le _ _)) by lia. cbn [bind]. fold (pmod p x). rewrite IH. reflexivity.
Qed.
Lemma mul_row_ok x f : rlwe_wf p n x -> length f = n -> canonical p f ->
  exists np d, into_ntt F tbl f = Some np /\ rlwe_mul_ntt_poly F tbl x np (rlwe_zero n) = Some d /\
    rlwe_from_ntt F tbl d = Some (rl_mod p (mk_rlwe (negacyclic n (ra x) f) (negacyclic n (rb x) f))).
Proof.
  intros (L1 & L3 & H1 & H3) Lr Hr. pose proof pfacts as R. eexists. eexists. split; [apply (into_ntt_canon F Hok tbl k w C f Lr Hr)|].
  unfold rlwe_mul_ntt_poly, rlwe_zero. cbn [ra rb].
  rewrite (ntt_len F), len_pow2_ok, len_log_pow2. cbn [bind]. pose proof C as C0. destruct C0 as (C2 & _ & Cw & T & ET & HT). rewrite ET. cbn [bind].
  rewrite !same_len_ok by (rewrite repeat_length; congruence). cbn [bind].
  rewrite (t_transform_correct F Hok w k C2 Cw T HT _ L1 H1), (t_transform_correct F Hok w k C2 Cw T HT _ L3 H3). cbn [bind].
  rewrite !n_mul_assign_correct by (try assumption; rewrite ?(ntt_len F); try reflexivity; apply (ntt_canon F Hok)). cbn [bind]. split; [reflexivity|].
  apply (rlwe_from_ntt_correct F Hok Hp tbl k w C); [exact Hk|]. split; [split; apply negacyclic_length|].
  cbn [ra rb]. repeat split; try (apply (canonical_R2 F Hok), pmod_canonical; lia).
  - eapply pcong_trans; [apply pcong_pmod; lia|]. apply (ntt_mul F Hok tbl k w C); assumption.
  - eapply pcong_trans; [apply pcong_pmod; lia|]. apply (ntt_mul F Hok tbl k w C); assumption.
Qed.
Lemma sub_phase a u e : length a = n -> length u = n -> length e = n -> pcong p a (padd u e) -> exists d, p_sub F (pmod p u) (pmod p a) = Some (pmod p d) /\ map (cabs p) d = map (cabs p) e.
Proof.
  intros La Lu Le H. pose proof pfacts as R. exists (psub (pmod p u) (pmod p a)). split; [apply p_sub_correct; try assumption; try (apply pmod_canonical; lia); rewrite !pmod_length; congruence|].
  apply cabs_list; [rewrite psub_length; rewrite ?pmod_length; congruence|]. intros i Hi. rewrite nth_psub by (rewrite !pmod_length; congruence). rewrite !nth_pmod_ by lia.
  eapply cong_trans; [apply cong_sub; [apply cong_mod; lia|eapply cong_trans; [apply cong_mod; lia|apply pcong_nth_inv; exact H]]|]. rewrite nth_padd by congruence. apply cong_of_eq. ring.
Qed.
Lemma rt_gadget_form E m poly s rnd : length s = n -> canonical p s -> length m = n -> canonical p m -> length poly = n -> canonical p poly ->
  Forall (row_draw p E n) rnd -> length rnd = bs_len b -> (0 < bs_len b)%nat ->
  exists ds, gadget_digits (2 ^ bits) (bs_len b) poly ds /\ forall es, noise_of rnd es ->
    rt_gadget F tbl t bits m poly s rnd =
      let* _ := assert (SFltb (std_dev (map (cabs p) (lincomb n ds es))) (std_dev (map (cabs p) (negacyclic n poly (nth 0 es []))))) in
      assert_poly (dec (pmod p (padd (negacyclic n poly m) (lincomb n ds es)))) (dec (pmod p (negacyclic n poly m))).
Proof.
  intros Ls Hs Lm Hm Lf Hf Hr Lr Hl. pose proof pfacts as R0.
  destruct (rt_rows_ok E s m rnd Ls Hs Lm Hm Hr ltac:(lia)) as (rows & ER & LR & WR & GR).
  destruct (gadget_mul_main F Hok Hp tbl k w C Hk b bits Hb Hbits (mk_gadget rows b) poly ltac:(repeat split; cbn [gb gd]; try assumption; congruence) Lf Hf) as (GN & good & _ & _ & EG & (Wg & ds & Dg & HP) & _).
  cbn [gd] in *. rewrite LR, Lr in Dg. exists ds. split; [exact Dg|]. intros es Hes. specialize (GR es Hes). specialize (HP s m es Ls Lm GR).
  destruct rows as [|x rows]; [cbn in LR; lia|]. assert (Wx : rlwe_wf p n x) by (inversion WR; assumption).
  destruct GR as (LE & GR). destruct (GR O ltac:(cbn; lia)) as (L0 & P0). cbn [nth] in P0. change ((2 ^ bits) ^ Z.of_nat 0) with 1 in P0. rewrite pscale_one_ in P0.
  destruct (mul_row_ok x poly Wx Lf Hf) as (np & d & E1 & E2 & E3). set (y := mk_rlwe _ _) in E3.
  assert (Ly : rl_len n y) by (split; apply negacyclic_length).
  assert (Py : pcong p (rphase n s (rl_mod p y)) (padd (negacyclic n poly m) (negacyclic n poly (nth 0 es [])))).
  { eapply pcong_trans; [apply (rl_mod_phase F Hp tbl k w C); assumption|]. apply peq; [apply rphase_len; exact Ly|rewrite padd_length; rewrite !negacyclic_length; reflexivity|]. intros z Hz.
    rewrite (ev_rphase p k z) by assumption. unfold y. cbn [ra rb]. rewrite ev_add by (rewrite !negacyclic_length; reflexivity). destruct Wx as (La & Lb & Ca & Cb).
    rewrite !(evn p k z) by (assumption || apply L0). pose proof (ev_cong p z z _ _ (cong_refl p z) P0) as Q. rewrite (ev_rphase p k z) in Q by (try assumption; split; assumption).
    rewrite ev_add in Q by congruence.
    transitivity (ev z poly * (ev z (rb x) - ev z (ra x) * ev z s)); [apply cong_of_eq; ring|]. rewrite Q. apply cong_of_eq. ring. }
  assert (LL : length (lincomb n ds es) = n) by apply lincomb_len.
  assert (Pg : pcong p (rphase n s good) (padd (negacyclic n poly m) (lincomb n ds es))).
  { eapply pcong_trans; [exact HP|]. pose proof (phase_zero F Hp tbl k w C s Ls) as PZ.
    assert (L1 : length (padd (negacyclic n m poly) (lincomb n ds es)) = n) by (rewrite padd_length; rewrite negacyclic_length; congruence).
    assert (LZ : length (rphase n s (rlwe_zero n)) = n) by (rewrite (pcong_length _ _ _ PZ); apply repeat_length).
    apply peq; [rewrite padd_length; congruence|rewrite padd_length; rewrite negacyclic_length; congruence|]. intros z Hz.
    rewrite (ev_add z (rphase _ _ _)) by congruence. rewrite !(ev_add z (negacyclic _ _ _)) by (rewrite negacyclic_length; congruence).
    rewrite (ev_cong p z z _ _ (cong_refl p z) PZ). rewrite ev_zeros. rewrite !(evn p k z) by assumption. apply cong_of_eq. ring. }
  assert (Wm : rlwe_wf p n (rl_mod p y)) by (apply rl_mod_wf; [lia|exact Ly]).
  unfold rt_gadget. rewrite (p_mul_assign_correct F Hok Hp tbl k w C poly m Hk Lf Lm Hf Hm). cbn [bind]. rewrite Hb. cbn [bind].
  rewrite firstn_all2 by lia. rewrite ER. cbn [bind]. rewrite E1. cbn [bind]. unfold index at 1. cbn [nth_error bind]. rewrite Lf, E2. cbn [bind]. rewrite E3. cbn [bind].
  rewrite (rt_phase_ok F Hok Hp tbl k w C Hk s _ Ls Hs Wm). cbn [bind]. unfold gadget_new. rewrite assert_true by (apply Nat.eqb_eq; congruence). cbn [bind].
  rewrite EG. cbn [bind]. rewrite (rt_phase_ok F Hok Hp tbl k w C Hk s _ Ls Hs Wg). cbn [bind].
  destruct (sub_phase (rphase n s good) (negacyclic n poly m) (lincomb n ds es)) as (d1 & D1 & D1'); try assumption; try apply negacyclic_length; [apply rphase_len, (wf_len p), Wg|].
  destruct (sub_phase (rphase n s (rl_mod p y)) (negacyclic n poly m) (negacyclic n poly (nth 0 es []))) as (d2 & D2 & D2'); try assumption; try apply negacyclic_length; [apply rphase_len, (wf_len p), Wm|].
  rewrite D1. cbn [bind]. rewrite min_to_zero_list. cbn [bind]. rewrite D2. cbn [bind]. rewrite min_to_zero_list. cbn [bind]. rewrite D1', D2'.
  destruct (assert _); [|reflexivity]. cbn [bind].
  rewrite (decode_list F Hok tbl k w C Hk t Hfw Ht H52) by (apply pmod_canonical; lia). cbn [bind].
  rewrite (decode_list F Hok tbl k w C Hk t Hfw Ht H52) by (apply pmod_canonical; lia). cbn [bind]. fold dec.
  rewrite (mod_pcong_eq p _ _ ltac:(lia) Pg). reflexivity.
Qed.
End Gadget.
(** ** Square roots are not negative *)
Lemma SFltb_zero x : SFltb (SFsqrt 53 1024 x) (S754_zero false) = false.
Proof.
  destruct x as [sx| sx| |sx mx ex]; try (destruct sx; reflexivity); [reflexivity|]. destruct sx; [reflexivity|]. cbn [SFsqrt].
  destruct (SFsqrt_core_binary _ _ _ _) as ((mz, ez), lz). unfold binary_round_aux.
  destruct (shr_fexp 53 1024 mz ez lz) as (mrs', e'). destruct (shr_fexp 53 1024 _ e' loc_Exact) as (mrs'', e'').
  destruct (shr_m mrs''); try reflexivity. destruct (Zle_bool _ _); reflexivity.
Qed.
Lemma std_dev_zero l : Forall (fun v => v = 0) l -> std_dev l = S754_zero false.
Proof. intros H. unfold std_dev. replace (fold_left _ l _) with (S754_zero false); [reflexivity|]. induction H as [|v l -> _ IH]; [reflexivity|exact IH]. Qed.
Lemma std_dev_fails l l' : Forall (fun v => v = 0) l' -> SFltb (std_dev l) (std_dev l') = false.
Proof. intros H. rewrite (std_dev_zero l' H). unfold std_dev. apply SFltb_zero. Qed.

Lemma Forall2_nth_ {A X} (R : A -> X -> Prop) da dx l : forall l', length l = length l' -> (forall i, (i < length l)%nat -> R (nth i l da) (nth i l' dx)) -> Forall2 R l l'.
Proof.
  induction l as [|a l IH]; intros [|x l'] L H; cbn [length] in L; try discriminate; constructor; [exact (H O ltac:(cbn; lia))|].
  apply IH; [congruence|]. intros i Hi. apply (H (S i)). cbn. lia.
Qed.
Lemma nth_repeat_ {A} (x d : A) m : forall i, (i < m)%nat -> nth i (repeat x m) d = x.
Proof. induction m as [|m IH]; intros [|i] Hi; try lia; cbn; [reflexivity|apply IH; lia]. Qed.
Lemma nth_snd (l : list (list Z * list Z)) i : nth i (map snd l) [] = snd (nth i l ([], [])).
Proof. exact (map_nth snd l ([], []) i). Qed.
Lemma negacyclic_pcong_r q m d e e' : pcong q e e' -> pcong q (negacyclic m d e) (negacyclic m d e').
Proof.
  intros H. apply pcong_nth; [rewrite !negacyclic_length; reflexivity|]. intros i Hi. rewrite negacyclic_length in Hi. rewrite !nth_negacyclic by exact Hi.
  apply zsum_cong. intros j _. destruct (j <=? i)%nat; [|apply cong_opp]; (apply cong_mul; [reflexivity|apply pcong_nth_inv; exact H]).
Qed.
Lemma lincomb_pcong q m ds : forall es es', Forall2 (pcong q) es es' -> pcong q (lincomb m ds es) (lincomb m ds es').
Proof.
  induction ds as [|d ds IH]; intros es es' H; [apply pcong_refl|]. destruct H as [|e e' es es' He H]; [apply pcong_refl|]. cbn [lincomb].
  apply pcong_padd; [|apply IH, H]. apply negacyclic_pcong_r. exact He.
Qed.

Lemma basis_len_pos F bits b : fok F -> 0 <= bits -> basis_new F bits = Some b -> (0 < bs_len b)%nat.
Proof.
  intros Hok H0 Hb. destruct (basis_bits F bits b Hok Hb H0) as (H1 & _). destruct (basis_new_correct F Hok bits H1) as (b' & E & _ & _ & _ & EL).
  rewrite Hb in E. injection E as <-. pose proof (eff_bits_pos F Hok). assert (1 <= (eff_bits F + bits - 1) / bits) by (apply Z.div_le_lower_bound; lia). lia.
Qed.

Section Outcomes.
Variable F : field.
Hypothesis Hok : fok F.
Local Notation p := (fp F).
Hypothesis Hp : prime p.
Variables (tbl : tables) (k : nat) (w : Z).
Hypothesis C : ctx F tbl k w.
Hypothesis Hk : (0 < k)%nat.
Local Notation n := (2 ^ k)%nat.
Variables (t bits : Z) (b : basis).
Hypothesis Hfw : fw F <= 64.
Hypothesis Ht : 2 <= t <= p.
Hypothesis H52 : p * t <= 2 ^ 52.
Hypothesis Hbits : 0 <= bits.
Hypothesis Hb : basis_new F bits = Some b.
Local Notation Pf := (pfacts F Hok tbl k w C Hk).

Lemma n_pos : (0 < n)%nat. Proof. pose proof (Nat.pow_nonzero 2 k). lia. Qed.
Lemma noise_self E rnd : Forall (row_draw p E n) rnd -> noise_of F k rnd (map snd rnd).
Proof.
  intros H. split; [apply map_length|]. intros i Hi. rewrite nth_snd. split; [|apply pcong_refl].
  apply (row_facts F Hok tbl k w C Hk E rnd i H Hi).
Qed.
Lemma rt_gadget_iff E m poly s rnd : 0 <= E -> length s = n -> canonical p s -> length m = n -> canonical p m -> length poly = n -> canonical p poly ->
  Forall (row_draw p E n) rnd -> length rnd = bs_len b -> (0 < bs_len b)%nat ->
  far_from_boundary p t (Z.of_nat (bs_len b) * (Z.of_nat n * ((2 ^ bits - 1) * E))) (pmod p (negacyclic n poly m)) ->
  exists ds, gadget_digits (2 ^ bits) (bs_len b) poly ds /\ (rt_gadget F tbl t bits m poly s rnd = Some tt <->
    SFltb (std_dev (map (cabs p) (lincomb n ds (map snd rnd)))) (std_dev (map (cabs p) (negacyclic n poly (nth 0 (map snd rnd) [])))) = true).
Proof.
  intros HE Ls Hs Lm Hm Lf Hf Hr Lr Hl Far. pose proof Pf as R0.
  destruct (rt_gadget_form F Hok Hp tbl k w C Hk t bits b Hfw Ht H52 Hbits Hb E m poly s rnd Ls Hs Lm Hm Lf Hf Hr Lr Hl) as (ds & Dg & HF). exists ds. split; [exact Dg|].
  rewrite (HF _ (noise_self E rnd Hr)). destruct (SFltb _ _) eqn:ES; [|split; discriminate]. cbn [assert bind]. split; [reflexivity|intros _]. apply assert_poly_iff. unfold dec.
  destruct (noises_of F Hok tbl k w C Hk E rnd Hr) as (es & (LE & NE) & BE).
  assert (PL : pcong p (lincomb n ds (map snd rnd)) (lincomb n ds es)).
  { assert (FF : Forall2 (pcong p) (map snd rnd) es).
    { apply (Forall2_nth_ _ [] []); [rewrite map_length; congruence|]. intros i Hi. rewrite map_length in Hi. rewrite nth_snd. apply NE, Hi. }
    apply lincomb_pcong. exact FF. }
  destruct Dg as (LD & DD & _). apply (nearest_far p t n (Z.of_nat (bs_len b) * (Z.of_nat n * ((2 ^ bits - 1) * E))) (negacyclic n poly m) (lincomb n ds es)); try lia; try assumption.
  - apply negacyclic_length.
  - apply lincomb_len.
  - rewrite <- LD at 1. rewrite Lf in DD. apply lincomb_bound; try assumption; [pose proof (Z.pow_pos_nonneg 2 bits); lia|congruence].
  - eapply pcong_trans; [apply pcong_pmod; lia|]. apply pcong_padd; [apply pcong_refl|exact PL].
Qed.
Lemma rt_gadget_none E m poly s rnd : length s = n -> canonical p s -> length m = n -> canonical p m -> length poly = n -> canonical p poly ->
  Forall (row_draw p E n) rnd -> length rnd = bs_len b -> (0 < bs_len b)%nat ->
  Forall (fun c => (p | c)) (negacyclic n poly (nth 0 (map snd rnd) [])) -> rt_gadget F tbl t bits m poly s rnd = None.
Proof.
  intros Ls Hs Lm Hm Lf Hf Hr Lr Hl HZ.
  destruct (rt_gadget_form F Hok Hp tbl k w C Hk t bits b Hfw Ht H52 Hbits Hb E m poly s rnd Ls Hs Lm Hm Lf Hf Hr Lr Hl) as (ds & Dg & HF).
  rewrite (HF _ (noise_self E rnd Hr)). rewrite std_dev_fails; [reflexivity|]. rewrite Forall_map. eapply Forall_impl; [|exact HZ]. intros c (q & ->). unfold cabs.
  pose proof Pf as R0. rewrite Z_mod_mult. lia.
Qed.

(** Constants. *)
Definition cst (c : Z) : list Z := c :: repeat 0 (n - 1).
Lemma cst_len c : length (cst c) = n. Proof. cbn [cst length]. rewrite repeat_length. pose proof n_pos. lia. Qed.
Lemma cst_ev z c : ev z (cst c) = c. Proof. cbn [cst ev]. rewrite ev_zeros. ring. Qed.
Lemma cst_mul c d : pcong p (negacyclic n (cst c) (cst d)) (cst (c * d)).
Proof.
  apply (pEQ F Hp tbl k w C); [apply negacyclic_length|apply cst_len|]. intros z Hz. rewrite (evn p k z) by (try assumption; apply cst_len). rewrite !cst_ev. reflexivity.
Qed.
Lemma cst_canon c : 0 <= c < p -> canonical p (cst c).
Proof. intros Hc. constructor; [exact Hc|]. apply Forall_forall. intros x Hx. apply repeat_spec in Hx. subst. lia. Qed.
Lemma cst_small E c : 0 <= c < p -> c <= E -> small p E n (cst c).
Proof.
  intros Hc HE. exists (cst c). split; [apply cst_len|]. split; [|symmetry; apply (pmod_small p (cst c)), cst_canon, Hc].
  constructor; [lia|]. apply Forall_forall. intros x Hx. apply repeat_spec in Hx. subst. cbn. lia.
Qed.
Lemma zeros_cst : repeat 0 n = cst 0. Proof. unfold cst. pose proof n_pos. destruct n; [lia|]. cbn [repeat Nat.sub]. rewrite Nat.sub_0_r. reflexivity. Qed.
Definition zrow : list Z * list Z := (repeat 0 n, repeat 0 n).
Lemma zrow_draw E : 0 <= E -> row_draw p E n zrow.
Proof.
  intros HE. pose proof Pf as R. unfold zrow. rewrite zeros_cst. split; [apply cst_len|]. split; [apply cst_canon; lia|apply cst_small; lia].
Qed.
Lemma zrows_draw E l : 0 <= E -> Forall (row_draw p E n) (repeat zrow l).
Proof. intros HE. apply Forall_forall. intros x Hx. apply repeat_spec in Hx. subst. apply zrow_draw, HE. Qed.
Lemma flip R x ct es es' : rlwe_wf p n x -> external_product p n (2 ^ bits) R x ct -> rgsw_encrypts p n (repeat 0 n) (2 ^ bits) (cst 1) R es es' ->
  pcong p (rphase n (repeat 0 n) x) (padd (cst (p / (2 * t))) (cst 1)) -> Forall (fun y => length y = n /\ bounded 0 y) es -> Forall (fun y => length y = n /\ bounded 0 y) es' ->
  dec F t (pmod p (negacyclic n (cst (p / (2 * t))) (cst 1))) = dec F t (pmod p (rphase n (repeat 0 n) ct)) -> False.
Proof.
  intros Wx X HR Px Hes Hes' E. pose proof Pf as R0. set (v := p / (2 * t)) in *.
  destruct (ext_form F Hp tbl k w C bits (repeat 0 n) (cst 1) R x ct (cst v) (cst 1) (cst 1) es es' (repeat_length _ _) (cst_len 1) (cst_len v) (cst_len 1) Wx X HR Px (pcong_refl _ _))
    as (da & db & Da & Db & HP). specialize (HP (cst 1) (cst_len 1) (pcong_refl _ _)).
  assert (LB : forall ds f rows es0 m0, length f = n -> gadget_digits (2 ^ bits) (length rows) f ds -> gadget_encrypts p n (repeat 0 n) (2 ^ bits) m0 rows es0 ->
    Forall (fun y => length y = n /\ bounded 0 y) es0 -> nth 0 (lincomb n ds es0) 0 = 0).
  { intros ds f rows es0 m0 Lf (L & D & _) (Le & _) H. rewrite Lf in D.
    assert (Bd : bounded (Z.of_nat (length ds) * (Z.of_nat n * ((2 ^ bits - 1) * 0))) (lincomb n ds es0)) by (pose proof (Z.pow_pos_nonneg 2 bits); apply lincomb_bound; lia || assumption).
    replace (Z.of_nat (length ds) * (Z.of_nat n * ((2 ^ bits - 1) * 0))) with 0 in Bd by ring. pose proof (bounded_nth 0 _ 0%nat ltac:(lia) Bd). lia. }
  destruct Wx as (La & Lb & _). pose proof (LB _ _ _ _ _ La Da (proj1 HR) Hes) as Z1. pose proof (LB _ _ _ _ _ Lb Db (proj2 HR) Hes') as Z2. clear LB.
  apply (f_equal (fun l => nth 0 l (nearest p t 0))) in E. unfold dec in E. rewrite !map_nth, !nth_pmod_ in E by lia.
  pose proof (pcong_nth_inv p _ _ 0%nat HP) as Q.
  assert (LL : length (padd (lincomb n da es) (lincomb n db es')) = n) by (rewrite padd_length; rewrite !lincomb_len; reflexivity).
  rewrite nth_padd in Q by (rewrite negacyclic_length, padd_length; rewrite negacyclic_length; congruence).
  rewrite nth_padd in Q by (rewrite negacyclic_length; congruence). rewrite nth_padd in Q by (rewrite !lincomb_len; reflexivity). rewrite Z1, Z2 in Q.
  pose proof (pcong_nth_inv p _ _ 0%nat (cst_mul v 1)) as Q1. pose proof (pcong_nth_inv p _ _ 0%nat (cst_mul 1 1)) as Q2. cbn [cst nth] in Q1, Q2.
  assert (V1 : 2 * (t * v) <= p) by (pose proof (Z.mul_div_le p (2 * t) ltac:(lia)); unfold v; lia).
  assert (V2 : p < 2 * (t * v) + 2 * t) by (pose proof (Z.mul_succ_div_gt p (2 * t) ltac:(lia)); unfold v; lia).
  assert (V3 : 2 * (t * v) <> p).
  { intros EV. assert (D2 : (2 | p)) by (exists (t * v); lia). apply prime_divisors in D2; [lia|exact Hp]. }
  assert (V0 : 0 <= v) by (apply Z.div_pos; lia). assert (0 <= t * v) by nia.
  rewrite (nearest_close p t _ v 0) in E; [|lia|lia|eapply cong_trans; [apply cong_mod; lia|]; rewrite Q1; apply cong_of_eq; ring|rewrite Z.abs_eq; lia].
  rewrite (nearest_close p t _ (v + 1) 1) in E; [|lia|lia|eapply cong_trans; [apply cong_mod; lia|]; rewrite Q, Q1, Q2; apply cong_of_eq; ring|].
  2:{ replace (t * (v + 1)) with (t * v + t) by ring. lia. }
  rewrite Z.mod_0_l, Z.mod_1_l in E; lia.
Qed.
Lemma zrows_noise l : noise_of F k (repeat zrow l) (repeat (repeat 0 n) l) /\ Forall (fun y => length y = n /\ bounded 0 y) (repeat (repeat 0 n) l).
Proof.
  split; [split; [rewrite !repeat_length; reflexivity|]|].
  - intros i Hi. rewrite repeat_length in Hi. rewrite !nth_repeat_ by exact Hi. split; [apply repeat_length|apply pcong_refl].
  - apply Forall_forall. intros y Hy. apply repeat_spec in Hy. subst. split; [apply repeat_length|]. apply Forall_forall. intros x Hx. apply repeat_spec in Hx. subst. cbn. lia.
Qed.
Lemma v_range : 0 <= p / (2 * t) < p.
Proof. pose proof Pf. split; [apply Z.div_pos; lia|]. apply Z.div_lt_upper_bound; nia. Qed.
Lemma rt_rgsw_rlwe_none : rt_rgsw_rlwe F tbl t bits (cst (p / (2 * t))) (cst 1) (repeat 0 n) (repeat zrow (bs_len b)) (repeat zrow (bs_len b)) (repeat 0 n) (cst 1) = None.
Proof.
  pose proof Pf as R0. pose proof v_range as VR.
  destruct (rgsw_rlwe_form F Hok Hp tbl k w C Hk t bits b Hfw Ht H52 Hbits Hb 1 (cst (p / (2 * t))) (cst 1) (repeat 0 n) (repeat zrow (bs_len b)) (repeat zrow (bs_len b)) (repeat 0 n) (cst 1))
    as (R & x & ct & WR & Wx & XP & Px & GR & ->); try apply cst_len; try apply repeat_length; try (apply cst_canon; lia); try (apply zrows_draw; lia); try (rewrite zeros_cst; apply cst_canon; lia).
  { split; [apply repeat_length|]. split; [cbn [fst]; rewrite zeros_cst; apply cst_canon; lia|apply cst_small; lia]. }
  destruct (zrows_noise (bs_len b)) as (N & B0).
  destruct (assert_poly _ _) as [[]|] eqn:EA; [exfalso|reflexivity]. apply assert_poly_iff in EA.
  exact (flip R x ct _ _ Wx XP (GR _ _ N N) Px B0 B0 EA).
Qed.
Lemma rt_rgsw_rgsw_none : (0 < bs_len b)%nat ->
  rt_rgsw_rgsw F tbl t bits (cst (p / (2 * t))) (cst 1) (repeat 0 n) (repeat zrow (bs_len b)) (repeat zrow (bs_len b)) ((repeat 0 n, cst 1) :: repeat zrow (bs_len b - 1)) (repeat zrow (bs_len b)) = None.
Proof.
  intros Hl. pose proof Pf as R0. pose proof v_range as VR.
  destruct (rgsw_rgsw_form F Hok Hp tbl k w C Hk t bits b Hfw Ht H52 Hbits Hb 1 (cst (p / (2 * t))) (cst 1) (repeat 0 n) (repeat zrow (bs_len b)) (repeat zrow (bs_len b)) ((repeat 0 n, cst 1) :: repeat zrow (bs_len b - 1)) (repeat zrow (bs_len b)))
    as (R & x & ct & x' & ct' & WR & Wx & _ & XP & _ & Px & _ & GR & ->); try apply cst_len; try apply repeat_length; try (apply cst_canon; lia); try (apply zrows_draw; lia); try (rewrite zeros_cst; apply cst_canon; lia); try exact Hl.
  { constructor; [|apply zrows_draw; lia]. split; [apply repeat_length|]. split; [cbn [fst]; rewrite zeros_cst; apply cst_canon; lia|apply cst_small; lia]. }
  { cbn [length]. rewrite repeat_length. lia. }
  destruct (zrows_noise (bs_len b)) as (N & B0).
  destruct (assert_poly (dec F t (pmod p (negacyclic n _ _))) (dec F t (pmod p (rphase n _ ct)))) as [[]|] eqn:EA; [exfalso|reflexivity]. apply assert_poly_iff in EA.
  exact (flip R x ct _ _ Wx XP (GR _ _ N N) Px B0 B0 EA).
Qed.
Lemma rgsw_rlwe_fails : exists m0 m1 s rnd rnd' a e, length m0 = n /\ canonical p m0 /\ small p 1 n m1 /\ length s = n /\ canonical p s /\
  Forall (row_draw p 1 n) rnd /\ Forall (row_draw p 1 n) rnd' /\ length rnd = bs_len b /\ length rnd' = bs_len b /\ row_draw p 1 n (a, e) /\
  rt_rgsw_rlwe F tbl t bits m0 m1 s rnd rnd' a e = None.
Proof.
  pose proof Pf as R0. pose proof v_range as VR.
  exists (cst (p / (2 * t))), (cst 1), (repeat 0 n), (repeat zrow (bs_len b)), (repeat zrow (bs_len b)), (repeat 0 n), (cst 1).
  split; [apply cst_len|]. split; [apply cst_canon; lia|]. split; [apply cst_small; lia|]. split; [apply repeat_length|]. split; [rewrite zeros_cst; apply cst_canon; lia|].
  split; [apply zrows_draw; lia|]. split; [apply zrows_draw; lia|]. split; [apply repeat_length|]. split; [apply repeat_length|]. split; [|exact rt_rgsw_rlwe_none].
  split; [apply repeat_length|]. split; [cbn [fst]; rewrite zeros_cst; apply cst_canon; lia|apply cst_small; lia].
Qed.
Lemma rgsw_rgsw_fails : exists m0 m1 s rnd1 rnd1' rnd0 rnd0', length m0 = n /\ canonical p m0 /\ small p 1 n m1 /\ length s = n /\ canonical p s /\
  Forall (fun rnd => Forall (row_draw p 1 n) rnd /\ length rnd = bs_len b) [rnd1; rnd1'; rnd0; rnd0'] /\
  rt_rgsw_rgsw F tbl t bits m0 m1 s rnd1 rnd1' rnd0 rnd0' = None.
Proof.
  pose proof Pf as R0. pose proof v_range as VR. pose proof (basis_len_pos F bits b Hok Hbits Hb) as Hl.
  exists (cst (p / (2 * t))), (cst 1), (repeat 0 n), (repeat zrow (bs_len b)), (repeat zrow (bs_len b)), ((repeat 0 n, cst 1) :: repeat zrow (bs_len b - 1)), (repeat zrow (bs_len b)).
  split; [apply cst_len|]. split; [apply cst_canon; lia|]. split; [apply cst_small; lia|]. split; [apply repeat_length|]. split; [rewrite zeros_cst; apply cst_canon; lia|].
  split; [|exact (rt_rgsw_rgsw_none Hl)].
  assert (Z1 : Forall (row_draw p 1 n) (repeat zrow (bs_len b)) /\ length (repeat zrow (bs_len b)) = bs_len b) by (split; [apply zrows_draw; lia|apply repeat_length]).
  constructor; [exact Z1|]. constructor; [exact Z1|]. constructor; [|constructor; [exact Z1|constructor]]. split; [|cbn [length]; rewrite repeat_length; lia].
  constructor; [|apply zrows_draw; lia]. split; [apply repeat_length|]. split; [cbn [fst]; rewrite zeros_cst; apply cst_canon; lia|apply cst_small; lia].
Qed.
End Outcomes.

(** ** What a derived field and a served degree give *)
Lemma test_ctx B p k F tbl : wwidth B -> prime p -> derive_field B p = Some F -> serves F tbl k ->
  fok F /\ fp F = p /\ fw F = B /\ exists w, ctx F tbl k w /\ forall T, tbl k = Some T -> tab_ok F w k T.
Proof.
  intros HB Hp HF HS. destruct (field_ctx B p k F tbl HB Hp HF HS) as (Hok & E & w & C). pose proof (prime_ge_2 p Hp).
  destruct (derive_field_ok B p F HB ltac:(lia) HF) as (_ & EB & _). split; [exact Hok|]. split; [exact E|]. split; [exact EB|].
  exists w. split; [exact C|]. intros T ET. destruct C as (_ & _ & _ & T' & ET' & HT). rewrite ET in ET'. injection ET' as ->. exact HT.
Qed.
