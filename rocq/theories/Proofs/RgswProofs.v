(** Packaged statements about gadget products, external products and fresh samples. *)
From Coq Require Import ZArith Znumtheory List Bool Arith Lia Setoid Morphisms.
From Verif Require Import Spec.Basic Spec.Poly Spec.Ring Model.Base Model.Field Model.NTT Model.Concrete Model.Poly Model.Rlwe Model.Gadget
  Proofs.Arith Proofs.BarrettProofs Proofs.NumTheory Proofs.FieldProofs Proofs.PolyMath Proofs.NTTProofs Proofs.NTTTableProofs
  Proofs.PolyProofs Proofs.MonomialProofs Proofs.RingProofs Proofs.GadgetProofs Proofs.RlweProofs Proofs.GadgetMain.
Import ListNotations.
Local Open Scope Z_scope.

Section Field.
Variable F : field.
Hypothesis Hok : fok F.
Local Notation p := (fp F).
Hypothesis Hp : prime p.
Variables (tbl : tables) (k : nat) (w : Z).
Hypothesis C : ctx F tbl k w.
Hypothesis Hk : (0 < k)%nat.
Local Notation n := (2 ^ k)%nat.
Local Notation ntt := (ntt_of F w k).
Local Notation nform := (nform F k w).
Local Notation rep := (rep F k w).
Variables (b : basis) (bits : Z).
Hypothesis Hb : basis_new F bits = Some b.
Hypothesis Hbits : 0 <= bits.
Local Notation gprod := (gprod k bits).
Local Notation extp := (extp k bits).

Lemma zero_len : rl_len n (rlwe_zero n). Proof. split; apply repeat_length. Qed.

Lemma to_from X : rl_len n X -> rlwe_from_ntt F tbl (nform X) = Some (rl_mod p X).
Proof. intros L. apply (rlwe_from_ntt_correct F Hok Hp tbl k w C); [exact Hk|]. apply (rep_weaken F tbl k w C). apply (nform_rep F Hok); exact L. Qed.
Lemma nform_mod X : nform (rl_mod p X) = nform X.
Proof. unfold GadgetProofs.nform, rl_mod. cbn [ra rb]. rewrite !(ntt_pmod F Hok). reflexivity. Qed.
Lemma mod_to X : rl_len n X -> rlwe_to_ntt F tbl (rl_mod p X) = Some (nform X).
Proof.
  intros L. rewrite (rlwe_to_ntt_correct F Hok tbl k w C); [rewrite nform_mod; reflexivity|].
  apply rl_mod_wf; [exact (p0 F tbl k w C)|exact L].
Qed.
Lemma gadget_wf_eq G : gadget_wf p n b G -> G = mk_gadget (gd G) b.
Proof. intros (E & _). destruct G as [d b']. cbn in *. congruence. Qed.

Lemma gadget_mul_main G f : gadget_wf p n b G -> length f = n -> canonical p f ->
  exists GN ct y, gadget_to_ntt F tbl G = Some GN /\
    g_mul_polynomial F tbl G f = Some ct /\ gadget_product p n (2 ^ bits) (gd G) (rlwe_zero n) f ct /\
    ng_mul_polynomial F tbl GN f = Some y /\ rlwe_to_ntt F tbl ct = Some y /\ rlwe_from_ntt F tbl y = Some ct /\
    forall dst, rl_len n dst ->
      ng_mul_polynomial_inplace F tbl GN f n n dst = Some y /\
      exists y', ng_mul_polynomial_inplace_fast F tbl GN f n n dst = Some y' /\ rlwe_from_ntt F tbl y' = Some ct.
Proof.
  intros HG Lf Cf. pose proof (gadget_wf_eq G HG) as EG. destruct HG as (_ & LG & WG).
  pose proof (wf_lens F k _ WG) as VG. rewrite EG. cbn [gd].
  exists (mk_gadget (map nform (gd G)) b), (rl_mod p (gprod (rlwe_zero n) f (gd G))), (nform (gprod (rlwe_zero n) f (gd G))).
  assert (LP : rl_len n (gprod (rlwe_zero n) f (gd G))) by (apply gprod_len, zero_len).
  split; [apply (gadget_to_ntt_correct F Hok tbl k w C); exact WG|].
  split; [apply (g_mul_polynomial_correct F Hok Hp tbl k w C b bits Hb Hbits); assumption|].
  split; [apply (gprod_product F Hok Hp tbl k w C b bits Hb Hbits); first [assumption|apply zero_len]|].
  split; [apply (ng_mul_polynomial_correct F Hok tbl k w C b bits Hb Hbits); assumption|].
  split; [apply mod_to; exact LP|]. split; [apply to_from; exact LP|].
  intros dst Ld. split; [apply (ng_mul_polynomial_inplace_correct F Hok tbl k w C b bits Hb Hbits); assumption|].
  destruct (ng_mul_polynomial_fast_correct F Hok tbl k w C b bits Hb Hbits (gd G) f dst VG Lf Cf Ld) as (acc & E & R).
  exists acc. split; [exact E|]. apply (rlwe_from_ntt_correct F Hok Hp tbl k w C); assumption.
Qed.

Lemma gadget_add_main G f x : gadget_wf p n b G -> length f = n -> canonical p f -> rlwe_wf p n x ->
  exists GN xn ct, gadget_to_ntt F tbl G = Some GN /\ rlwe_to_ntt F tbl x = Some xn /\
    g_mul_polynomial_add_rlwe F tbl G f x = Some ct /\ gadget_product p n (2 ^ bits) (gd G) x f ct /\
    (exists y, nrlwe_add_gadget_mul F tbl xn GN f = Some y /\ nrlwe_add_gadget_mul_assign F tbl xn GN f n n = Some y /\
       rlwe_from_ntt F tbl y = Some ct) /\
    (exists y, nrlwe_add_gadget_mul_assign_fast F tbl xn GN f n n = Some y /\ rlwe_from_ntt F tbl y = Some ct) /\
    (exists y, nrlwe_add_gadget_mul_inplace_fast F tbl xn GN f n = Some y /\ rlwe_from_ntt F tbl y = Some ct).
Proof.
  intros HG Lf Cf Wx. pose proof (gadget_wf_eq G HG) as EG. destruct HG as (_ & LG & WG).
  pose proof (wf_lens F k _ WG) as VG. rewrite EG. cbn [gd]. pose proof (wf_len _ _ _ Wx) as Lx.
  exists (mk_gadget (map nform (gd G)) b), (nform x), (rl_mod p (gprod x f (gd G))).
  assert (LP : rl_len n (gprod x f (gd G))) by (apply gprod_len, Lx).
  pose proof (nform_rep F Hok k w x Lx) as Rc. pose proof (rep_weaken F tbl k w C _ _ Rc) as R2x.
  split; [apply (gadget_to_ntt_correct F Hok tbl k w C); exact WG|].
  split; [apply (rlwe_to_ntt_correct F Hok tbl k w C); exact Wx|].
  split; [apply (g_mul_polynomial_add_correct F Hok Hp tbl k w C b bits Hb Hbits); assumption|].
  split; [apply (gprod_product F Hok Hp tbl k w C b bits Hb Hbits); assumption|].
  split; [|split].
  - destruct (add_gadget_correct F Hok tbl k w C b bits Hb Hbits _ nrlwe_add_mul (gd G) f _ x (step_exact_c F Hok tbl k w C) VG Lf Cf Rc) as (y & E & R).
    exists y. unfold nrlwe_add_gadget_mul, nrlwe_add_gadget_mul_assign. rewrite Lf. split; [exact E|]. split; [exact E|].
    apply (rlwe_from_ntt_correct F Hok Hp tbl k w C); [exact Hk|]. apply (rep_weaken F tbl k w C). exact R.
  - destruct (add_gadget_correct F Hok tbl k w C b bits Hb Hbits _ nrlwe_add_mul_fast (gd G) f _ x (step_fast F Hok tbl k w C) VG Lf Cf R2x) as (y & E & R).
    exists y. split; [exact E|]. apply (rlwe_from_ntt_correct F Hok Hp tbl k w C); assumption.
  - destruct (add_gadget_inplace_correct F Hok tbl k w C b bits Hb Hbits (gd G) f _ x VG Lf Cf R2x) as (y & E & R).
    exists y. split; [exact E|]. apply (rlwe_from_ntt_correct F Hok Hp tbl k w C); assumption.
Qed.

Lemma gadget_sub_main G f x : gadget_wf p n b G -> length f = n -> canonical p f -> rlwe_wf p n x ->
  exists GN xn ct, gadget_to_ntt F tbl G = Some GN /\ rlwe_to_ntt F tbl x = Some xn /\
    rlwe_wf p n ct /\
    (exists ds, gadget_digits (2 ^ bits) (length (gd G)) (pmod p (pneg f)) ds /\
      forall s m es, length s = n -> length m = n -> gadget_encrypts p n s (2 ^ bits) m (gd G) es ->
        pcong p (rphase n s ct) (padd (psub (rphase n s x) (negacyclic n m f)) (lincomb n ds es))) /\
    (exists y, nrlwe_sub_gadget_mul F tbl xn GN f n = Some y /\ rlwe_from_ntt F tbl y = Some ct) /\
    (exists y, nrlwe_sub_gadget_mul_fast F tbl xn GN f n = Some y /\ rlwe_from_ntt F tbl y = Some ct).
Proof.
  intros HG Lf Cf Wx. pose proof (gadget_wf_eq G HG) as EG. destruct HG as (_ & LG & WG).
  pose proof (wf_lens F k _ WG) as VG. rewrite EG. cbn [gd]. pose proof (wf_len _ _ _ Wx) as Lx.
  pose proof (p0 F tbl k w C) as Hp0. pose proof (Hp2 F tbl k w C) as H2.
  set (g := pmod p (pneg f)).
  assert (Lg : length g = n) by (len n). assert (Cg : canonical p g) by (apply pmod_canonical; exact Hp0).
  exists (mk_gadget (map nform (gd G)) b), (nform x), (rl_mod p (gprod x g (gd G))).
  assert (LP : rl_len n (gprod x g (gd G))) by (apply gprod_len, Lx).
  pose proof (nform_rep F Hok k w x Lx) as Rc. pose proof (rep_weaken F tbl k w C _ _ Rc) as R2x.
  split; [apply (gadget_to_ntt_correct F Hok tbl k w C); exact WG|].
  split; [apply (rlwe_to_ntt_correct F Hok tbl k w C); exact Wx|].
  destruct (gprod_product F Hok Hp tbl k w C b bits Hb Hbits x g (gd G) Lx LG VG Lg Cg) as (Wc & ds & D & Ph).
  split; [exact Wc|]. split; [|split].
  - exists ds. split; [exact D|]. intros s m es Ls Lm HE. rewrite (Ph s m es Ls Lm HE).
    assert (LR : length (rphase n s x) = n) by (apply rphase_len; exact Lx).
    apply (EQ_pcong p w k Hp H2 (Hw F tbl k w C)); [len n..|]. intros z Hz.
    rewrite !ev_add by len n. rewrite ev_sub by len n.
    rewrite !(ev_negacyclic p z n) by first [assumption|exact Hz].
    unfold g. rewrite (ev_pmod p z) by lia. rewrite ev_neg. apply cong_of_eq. ring.
  - destruct (sub_gadget_correct F Hok tbl k w C b bits Hb Hbits _ nrlwe_add_mul (gd G) f _ x (step_exact_c F Hok tbl k w C) VG Lf Cf Rc) as (y & E & R).
    exists y. split; [exact E|]. apply (rlwe_from_ntt_correct F Hok Hp tbl k w C); [exact Hk|]. apply (rep_weaken F tbl k w C). exact R.
  - destruct (sub_gadget_correct F Hok tbl k w C b bits Hb Hbits _ nrlwe_add_mul_fast (gd G) f _ x (step_fast F Hok tbl k w C) VG Lf Cf R2x) as (y & E & R).
    exists y. split; [exact E|]. apply (rlwe_from_ntt_correct F Hok Hp tbl k w C); assumption.
Qed.

(** External product. *)
Definition nrgsw (R : rgsw) : rgsw := mk_rgsw (mk_gadget (map nform (gd (c_neg R))) b) (mk_gadget (map nform (gd (c_m R))) b).

Lemma rgsw_to_ntt_correct R : rgsw_wf p n b R -> rgsw_to_ntt F tbl R = Some (nrgsw R).
Proof.
  intros (W0 & W1). unfold rgsw_to_ntt. rewrite (gadget_wf_eq _ W0), (gadget_wf_eq _ W1).
  destruct W0 as (_ & _ & W0), W1 as (_ & _ & W1).
  rewrite (gadget_to_ntt_correct F Hok tbl k w C) by exact W0. cbn [bind].
  rewrite (gadget_to_ntt_correct F Hok tbl k w C) by exact W1. reflexivity.
Qed.

Lemma mul_rgsw_correct R x : rgsw_wf p n b R -> rlwe_wf p n x ->
  rlwe_mul_rgsw F tbl x R = Some (rl_mod p (extp x (gd (c_neg R)) (gd (c_m R)))).
Proof.
  intros (W0 & W1) (La & Lb & Ca & Cb). unfold rlwe_mul_rgsw. rewrite (gadget_wf_eq _ W0), (gadget_wf_eq _ W1). cbn [gd].
  destruct W0 as (_ & _ & W0), W1 as (_ & _ & W1).
  rewrite (g_mul_polynomial_correct F Hok Hp tbl k w C b bits Hb Hbits) by assumption. cbn [bind].
  assert (L0 : rl_len n (gprod (rlwe_zero n) (ra x) (gd (c_neg R)))) by (apply gprod_len, zero_len).
  pose proof (rl_mod_wf p n _ (p0 F tbl k w C) L0) as W.
  rewrite (g_mul_polynomial_add_correct F Hok Hp tbl k w C b bits Hb Hbits) by assumption. f_equal.
  apply rl_mod_eq; [exact (p0 F tbl k w C)|]. apply gsum_cong; [apply (wf_len p); exact W|exact L0|].
  apply rl_mod_cong. pose proof (p0 F tbl k w C). lia.
Qed.

Lemma mul_ntt_rgsw_correct R x : rgsw_wf p n b R -> rlwe_wf p n x ->
  rlwe_mul_ntt_rgsw F tbl x (nrgsw R) = Some (rl_mod p (extp x (gd (c_neg R)) (gd (c_m R)))).
Proof.
  intros ((_ & _ & W0) & (_ & _ & W1)) (La & Lb & Ca & Cb). unfold rlwe_mul_ntt_rgsw, nrgsw. cbn [c_neg c_m].
  pose proof (wf_lens F k _ W0) as V0. pose proof (wf_lens F k _ W1) as V1.
  rewrite (ng_mul_polynomial_correct F Hok tbl k w C b bits Hb Hbits) by assumption. cbn [bind].
  assert (L0 : rl_len n (gprod (rlwe_zero n) (ra x) (gd (c_neg R)))) by (apply gprod_len, zero_len).
  destruct (add_gadget_correct F Hok tbl k w C b bits Hb Hbits _ nrlwe_add_mul (gd (c_m R)) (rb x) _ _
    (step_exact_c F Hok tbl k w C) V1 Lb Cb (nform_rep F Hok k w _ L0)) as (y & E & Ry).
  unfold nrlwe_add_gadget_mul, nrlwe_add_gadget_mul_assign. rewrite Lb, E. cbn [bind].
  apply (rlwe_from_ntt_correct F Hok Hp tbl k w C); [exact Hk|]. apply (rep_weaken F tbl k w C). exact Ry.
Qed.

Lemma mul_ntt_rgsw_inplace_correct R x med dst : rgsw_wf p n b R -> rlwe_wf p n x -> rl_len n med -> rl_len n dst ->
  rlwe_mul_ntt_rgsw_inplace F tbl x (nrgsw R) n n med dst = Some (rl_mod p (extp x (gd (c_neg R)) (gd (c_m R)))).
Proof.
  intros ((_ & _ & W0) & (_ & _ & W1)) (La & Lb & Ca & Cb) Lm Ld. unfold rlwe_mul_ntt_rgsw_inplace, nrgsw. cbn [c_neg c_m].
  pose proof (wf_lens F k _ W0) as V0. pose proof (wf_lens F k _ W1) as V1.
  destruct (ng_mul_polynomial_fast_correct F Hok tbl k w C b bits Hb Hbits (gd (c_neg R)) (ra x) med V0 La Ca Lm) as (y0 & E0 & R0).
  rewrite E0. cbn [bind].
  destruct (add_gadget_correct F Hok tbl k w C b bits Hb Hbits _ nrlwe_add_mul_fast (gd (c_m R)) (rb x) _ _
    (step_fast F Hok tbl k w C) V1 Lb Cb R0) as (y & E & Ry).
  unfold nrlwe_add_gadget_mul_assign_fast. rewrite E. cbn [bind].
  apply (inverse_inplace_correct F Hok Hp tbl k w C); assumption.
Qed.

Lemma external_main R x : rgsw_wf p n b R -> rlwe_wf p n x ->
  exists RN ct, rgsw_to_ntt F tbl R = Some RN /\
    rlwe_mul_rgsw F tbl x R = Some ct /\ external_product p n (2 ^ bits) R x ct /\
    rlwe_mul_ntt_rgsw F tbl x RN = Some ct /\
    forall med, rl_len n med ->
      rlwe_mul_assign_ntt_rgsw F tbl x RN n n med = Some ct /\
      forall dst, rl_len n dst -> rlwe_mul_ntt_rgsw_inplace F tbl x RN n n med dst = Some ct.
Proof.
  intros WR Wx. exists (nrgsw R), (rl_mod p (extp x (gd (c_neg R)) (gd (c_m R)))).
  split; [apply rgsw_to_ntt_correct; exact WR|]. split; [apply mul_rgsw_correct; assumption|].
  split; [apply (extp_external F Hok Hp tbl k w C b bits Hb Hbits); assumption|].
  split; [apply mul_ntt_rgsw_correct; assumption|].
  intros med Lm. split; [apply mul_ntt_rgsw_inplace_correct; try assumption; apply (wf_len p); exact Wx|].
  intros dst Ld. apply mul_ntt_rgsw_inplace_correct; assumption.
Qed.

Lemma mapM_ext_product S rows : rgsw_wf p n b S -> Forall (rlwe_wf p n) rows ->
  exists out, mapM (fun x => rlwe_mul_ntt_rgsw F tbl x (nrgsw S)) rows = Some out /\
    Forall2 (external_product p n (2 ^ bits) S) rows out.
Proof.
  intros WS HR. induction HR as [|x rows Hx HR IH]; [exists []; split; [reflexivity|constructor]|].
  destruct IH as (out & E & P). cbn [mapM]. rewrite mul_ntt_rgsw_correct by assumption. cbn [bind]. rewrite E. cbn [bind].
  eexists. split; [reflexivity|]. constructor; [|exact P].
  apply (extp_external F Hok Hp tbl k w C b bits Hb Hbits); assumption.
Qed.
Lemma Forall2_len {A D} (R : A -> D -> Prop) l l' : Forall2 R l l' -> length l = length l'.
Proof. induction 1; cbn; congruence. Qed.

Lemma rgsw_mul_main R S : rgsw_wf p n b R -> rgsw_wf p n b S ->
  exists SN T, rgsw_to_ntt F tbl S = Some SN /\ rgsw_mul_small F tbl R S = Some T /\ rgsw_mul_small_ntt F tbl R SN = Some T /\
    rgsw_wf p n b T /\
    Forall2 (external_product p n (2 ^ bits) S) (gd (c_neg R)) (gd (c_neg T)) /\
    Forall2 (external_product p n (2 ^ bits) S) (gd (c_m R)) (gd (c_m T)).
Proof.
  intros WR WS. destruct WR as ((B0 & L0 & W0) & (B1 & L1 & W1)).
  destruct (mapM_ext_product S _ WS W0) as (o0 & E0 & P0).
  destruct (mapM_ext_product S _ WS W1) as (o1 & E1 & P1).
  assert (E : rgsw_mul_small_ntt F tbl R (nrgsw S) = Some (mk_rgsw (mk_gadget o0 b) (mk_gadget o1 b))).
  { unfold rgsw_mul_small_ntt. rewrite E0. cbn [bind]. unfold gadget_new.
    rewrite <- (Forall2_len _ _ _ P0), B0, L0, Nat.eqb_refl. cbn [assert bind]. rewrite E1. cbn [bind].
    rewrite <- (Forall2_len _ _ _ P1), L1, Nat.eqb_refl. reflexivity. }
  exists (nrgsw S), (mk_rgsw (mk_gadget o0 b) (mk_gadget o1 b)).
  split; [apply rgsw_to_ntt_correct; exact WS|].
  split; [unfold rgsw_mul_small; rewrite rgsw_to_ntt_correct by exact WS; exact E|]. split; [exact E|].
  assert (HF : forall l l', Forall2 (external_product p n (2 ^ bits) S) l l' -> Forall (rlwe_wf p n) l').
  { intros l l' H. induction H; constructor; [apply H|assumption]. }
  split; [|split; [exact P0|exact P1]].
  split; (split; [reflexivity|]; split; cbn [c_neg c_m gd]; [|eapply HF; eassumption]).
  - rewrite <- (Forall2_len _ _ _ P0). exact L0.
  - rewrite <- (Forall2_len _ _ _ P1). exact L1.
Qed.
End Field.

Lemma bounded_padd E1 E2 x y : bounded E1 x -> bounded E2 y -> bounded (E1 + E2) (padd x y).
Proof.
  intros Hx. revert y. induction Hx as [|u x Hu Hx IH]; intros y Hy; [constructor|]. inversion Hy as [|v y' Hv Hy']; subst; cbn; [constructor|].
  constructor; [lia|apply IH; exact Hy'].
Qed.
Lemma external_noise_bound (n : nat) (base E : Z) (l : nat) (x : rlwe) (da db es es' : list (list Z)) :
  0 <= E -> 1 <= base -> length (ra x) = n -> length (rb x) = n ->
  gadget_digits base l (ra x) da -> gadget_digits base l (rb x) db -> length es = l -> length es' = l ->
  Forall (fun e => length e = n /\ bounded E e) es -> Forall (fun e => length e = n /\ bounded E e) es' ->
  bounded (2 * (Z.of_nat l * (Z.of_nat n * ((base - 1) * E)))) (padd (lincomb n da es) (lincomb n db es')).
Proof.
  intros HE Hb La Lb (L0 & D0 & _) (L1 & D1 & _) Le Le' He He'.
  replace (2 * (Z.of_nat l * (Z.of_nat n * ((base - 1) * E)))) with
    (Z.of_nat l * (Z.of_nat n * ((base - 1) * E)) + Z.of_nat l * (Z.of_nat n * ((base - 1) * E))) by ring.
  rewrite La in D0. rewrite Lb in D1.
  apply bounded_padd; [rewrite <- L0 at 1|rewrite <- L1 at 1]; apply lincomb_bound; congruence || assumption.
Qed.
