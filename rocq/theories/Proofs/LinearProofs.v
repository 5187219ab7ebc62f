(** Addition, subtraction and scaling of ring, gadget and RGSW ciphertexts. *)
From Coq Require Import ZArith Znumtheory List Bool Arith Lia Setoid Morphisms.
From Verif Require Import Spec.Basic Spec.Poly Spec.Ring Model.Base Model.Field Model.NTT Model.Concrete Model.Poly Model.Rlwe Model.Gadget
  Proofs.Arith Proofs.BarrettProofs Proofs.NumTheory Proofs.FieldProofs Proofs.PolyMath Proofs.NTTProofs Proofs.NTTTableProofs
  Proofs.PolyProofs Proofs.MonomialProofs Proofs.RingProofs Proofs.GadgetProofs Proofs.RlweProofs Proofs.GadgetMain Proofs.RgswProofs.
Import ListNotations.
Local Open Scope Z_scope.

(** [op false] adds, [op true] subtracts. *)
Definition op (sg : bool) (a b : list Z) : list Z := if sg then psub a b else padd a b.
Definition sign (sg : bool) : Z := if sg then -1 else 1.
Definition rl_op (sg : bool) (x y : rlwe) : rlwe := mk_rlwe (op sg (ra x) (ra y)) (op sg (rb x) (rb y)).
Definition zipw {A : Type} (f : A -> A -> A) (l r : list A) : list A := map (fun u => f (fst u) (snd u)) (combine l r).

Lemma len_op n sg a b : length a = n -> length b = n -> length (op sg a b) = n.
Proof. destruct sg; [apply len_psub|apply len_padd]. Qed.
Lemma ev_op z sg a b : length a = length b -> ev z (op sg a b) = ev z a + sign sg * ev z b.
Proof. intros L. destruct sg; cbn [op sign]; [rewrite ev_sub by exact L|rewrite ev_add by exact L]; ring. Qed.
Lemma rl_op_len n sg x y : rl_len n x -> rl_len n y -> rl_len n (rl_op sg x y).
Proof. intros (A & A') (D & D'). split; apply len_op; assumption. Qed.
Lemma zipw_len {A} (f : A -> A -> A) l r : length l = length r -> length (zipw f l r) = length l.
Proof. intros L. unfold zipw. rewrite map_length, combine_length. lia. Qed.
Lemma nth_zipw {A} (f : A -> A -> A) l r d d1 d2 i : length l = length r -> (i < length l)%nat -> nth i (zipw f l r) d = f (nth i l d1) (nth i r d2).
Proof.
  intros L Hi. unfold zipw. set (g := fun u : A * A => f (fst u) (snd u)). rewrite (nth_indep _ d (g (d1, d2))) by (rewrite map_length, combine_length; lia).
  rewrite map_nth, combine_nth by exact L. reflexivity.
Qed.
Lemma bounded_op E1 E2 sg x y : bounded E1 x -> bounded E2 y -> bounded (E1 + E2) (op sg x y).
Proof.
  destruct sg; cbn [op]; [|apply bounded_padd]. intros H. revert y. induction H as [|u x Hu H IH]; intros [|v y] Hy; cbn; try constructor;
    inversion Hy; subst; [lia|]. apply IH. assumption.
Qed.

Section Field.
Variable F : field.
Hypothesis Hok : fok F.
Local Notation p := (fp F).
Hypothesis Hp : prime p.
Variables (tbl : tables) (k : nat) (w : Z).
Hypothesis C : ctx F tbl k w.
Local Notation n := (2 ^ k)%nat.
Local Notation ntt := (ntt_of F w k).
Local Notation nform := (nform F k w).

Local Notation wf := (rlwe_wf p n).

Lemma pmod_id a : canonical p a -> pmod p a = a.
Proof. intros H. unfold pmod. induction H as [|x a Hx H IH]; cbn; [reflexivity|]. rewrite IH, Z.mod_small by exact Hx. reflexivity. Qed.
Lemma nform_wf x : wf (nform x).
Proof. split; [apply ntt_of_length|]. split; [apply ntt_of_length|]. split; apply (ntt_canon F Hok). Qed.

Definition ref_of (sg : bool) := if sg then rlwe_sub_ref F else rlwe_add_ref F.
Definition assign_of (sg : bool) := if sg then rlwe_sub_assign F else rlwe_add_assign F.
Definition inplace_of (sg : bool) := if sg then rlwe_sub_inplace F else rlwe_add_inplace F.

Lemma ops_correct sg x y : wf x -> wf y ->
  ref_of sg x y = Some (rl_mod p (rl_op sg x y)) /\ assign_of sg x y = Some (rl_mod p (rl_op sg x y)) /\
  forall d, rl_len n d -> inplace_of sg x y d = Some (rl_mod p (rl_op sg x y)).
Proof.
  intros (Xa & Xb & Ca & Cb) (Ya & Yb & Da & Db).
  destruct sg; cbn [ref_of assign_of inplace_of];
    unfold rlwe_sub_ref, rlwe_add_ref, rlwe_sub_assign, rlwe_add_assign, rlwe_sub_inplace, rlwe_add_inplace, on_both, on_both3; (split; [|split]).
  - rewrite !(p_sub_correct F Hok) by (assumption || congruence). reflexivity.
  - rewrite !(p_sub_assign_correct F Hok) by (assumption || congruence). reflexivity.
  - intros d (Ld & Ld'). rewrite !(p_sub_inplace_correct F Hok) by (assumption || congruence). reflexivity.
  - rewrite !(p_add_correct F Hok) by (assumption || congruence). reflexivity.
  - rewrite !(p_add_assign_correct F Hok) by (assumption || congruence). reflexivity.
  - intros d (Ld & Ld'). rewrite !(p_add_inplace_correct F Hok) by (assumption || congruence). reflexivity.
Qed.
Lemma op_wf sg x y : wf x -> wf y -> wf (rl_mod p (rl_op sg x y)).
Proof. intros Wx Wy. apply rl_mod_wf; [exact (p0 F tbl k w C)|]. apply rl_op_len; apply (wf_len p); assumption. Qed.

Lemma op_phase sg s x y : length s = n -> wf x -> wf y ->
  pcong p (rphase n s (rl_mod p (rl_op sg x y))) (op sg (rphase n s x) (rphase n s y)).
Proof.
  intros Ls Wx Wy. pose proof (wf_len p n x Wx) as Lx. pose proof (wf_len p n y Wy) as Ly.
  pose proof (rl_op_len n sg x y Lx Ly) as Lo.
  eapply pcong_trans; [apply (rl_mod_phase F Hp tbl k w C); assumption|].
  assert (LX : length (rphase n s x) = n) by (apply rphase_len; exact Lx).
  assert (LY : length (rphase n s y) = n) by (apply rphase_len; exact Ly).
  apply (EQ_pcong p w k Hp (Hp2 F tbl k w C) (Hw F tbl k w C)); [apply rphase_len; exact Lo|apply len_op; assumption|]. intros z Hz.
  rewrite ev_op by congruence. rewrite !(ev_rphase p k z) by assumption. cbn [rl_op ra rb].
  destruct Lx as (X1 & X2), Ly as (Y1 & Y2). rewrite !ev_op by congruence. apply cong_of_eq. ring.
Qed.
Lemma op_ntt sg a b : length a = n -> length b = n -> pmod p (op sg (ntt a) (ntt b)) = ntt (pmod p (op sg a b)).
Proof.
  intros La Lb. rewrite (ntt_pmod F Hok). rewrite <- (pmod_id (ntt (op sg a b))) by apply (ntt_canon F Hok).
  apply pmod_eq; [exact (p0 F tbl k w C)|]. destruct sg; cbn [op]; [apply (ntt_sub F Hok)|apply (ntt_add F Hok)]; assumption.
Qed.
Lemma op_nform sg x y : wf x -> wf y -> nform (rl_mod p (rl_op sg x y)) = rl_mod p (rl_op sg (nform x) (nform y)).
Proof.
  intros (Xa & Xb & _) (Ya & Yb & _). unfold GadgetProofs.nform, rl_mod, rl_op. cbn [ra rb]. rewrite !op_ntt by assumption. reflexivity.
Qed.

Theorem rlwe_op_main sg x y : wf x -> wf y ->
  exists z xN yN zN, ref_of sg x y = Some z /\ assign_of sg x y = Some z /\
    (forall d, rl_len n d -> inplace_of sg x y d = Some z) /\ wf z /\
    (forall s, length s = n -> pcong p (rphase n s z) (op sg (rphase n s x) (rphase n s y))) /\
    rlwe_to_ntt F tbl x = Some xN /\ rlwe_to_ntt F tbl y = Some yN /\ rlwe_to_ntt F tbl z = Some zN /\
    ref_of sg xN yN = Some zN /\ assign_of sg xN yN = Some zN /\ (forall d, rl_len n d -> inplace_of sg xN yN d = Some zN).
Proof.
  intros Wx Wy. set (z := rl_mod p (rl_op sg x y)). pose proof (op_wf sg x y Wx Wy) as Wz. fold z in Wz.
  exists z, (nform x), (nform y), (nform z). destruct (ops_correct sg x y Wx Wy) as (A1 & A2 & A3).
  destruct (ops_correct sg _ _ (nform_wf x) (nform_wf y)) as (B1 & B2 & B3). rewrite <- (op_nform sg x y Wx Wy) in B1, B2, B3.
  split; [exact A1|]. split; [exact A2|]. split; [exact A3|]. split; [exact Wz|].
  split; [intros s Ls; apply op_phase; assumption|].
  rewrite !(rlwe_to_ntt_correct F Hok tbl k w C) by assumption. auto 10.
Qed.

(** * Gadget ciphertexts *)
Variables (b : basis) (bits : Z).
Definition rows_op (sg : bool) := zipw (fun x y => rl_mod p (rl_op sg x y)).

Lemma rows_op_wf sg xs ys : Forall wf xs -> Forall wf ys -> Forall wf (rows_op sg xs ys).
Proof.
  intros Hx. revert ys. induction Hx as [|x xs Wx Hx IH]; intros ys Hy; [constructor|]. inversion Hy; subst; cbn; constructor; [|apply IH; assumption].
  apply op_wf; assumption.
Qed.
Lemma rows_op_correct sg xs ys : Forall wf xs -> Forall wf ys -> length ys = length xs ->
  forall dst, length dst = length xs -> Forall (rl_len n) dst -> rows_inplace (inplace_of sg) xs ys dst = Some (rows_op sg xs ys).
Proof.
  intros Hx. revert ys. induction Hx as [|x xs Wx Hx IH]; intros ys Hy L1 dst L2 Hd.
  { destruct dst; [|discriminate L2]. destruct ys; [|discriminate L1]. reflexivity. }
  destruct Hy as [|y ys Wy Hy]; [discriminate L1|]. destruct Hd as [|d dst Ld Hd]; [discriminate L2|].
  cbn [rows_inplace]. rewrite (proj2 (proj2 (ops_correct sg x y Wx Wy)) d Ld). cbn [bind].
  injection L1 as L1. injection L2 as L2. rewrite IH by assumption. reflexivity.
Qed.
Lemma rows_op_nform sg xs ys : Forall wf xs -> Forall wf ys -> length ys = length xs ->
  map nform (rows_op sg xs ys) = rows_op sg (map nform xs) (map nform ys).
Proof.
  intros Hx. revert ys. induction Hx as [|x xs Wx Hx IH]; intros ys Hy L1; [reflexivity|].
  destruct Hy as [|y ys Wy Hy]; [discriminate L1|]. unfold rows_op, zipw in *. cbn [map combine fst snd]. rewrite op_nform by assumption.
  f_equal. apply IH; [assumption|]. injection L1. auto.
Qed.
Lemma map_nform_wf xs : Forall wf (map nform xs).
Proof. apply Forall_forall. intros x Hx. apply in_map_iff in Hx. destruct Hx as (y & <- & _). apply nform_wf. Qed.

Lemma rows_op_enc sg s base m m' xs ys es es' : length s = n -> length m = n -> length m' = n -> Forall wf xs -> Forall wf ys -> length ys = length xs ->
  gadget_encrypts p n s base m xs es -> gadget_encrypts p n s base m' ys es' ->
  gadget_encrypts p n s base (op sg m m') (rows_op sg xs ys) (zipw (op sg) es es').
Proof.
  intros Ls Lm Lm' Wx Wy L (Le & H) (Le' & H'). unfold rows_op.
  split; [rewrite !zipw_len; congruence|]. rewrite zipw_len by congruence. intros i Hi.
  destruct (H i Hi) as (E1 & P1). assert (Hi2 : (i < length ys)%nat) by (rewrite L; exact Hi). destruct (H' i Hi2) as (E2 & P2).
  rewrite (nth_zipw _ es es' [] [] []) by (rewrite ?Le, ?Le'; congruence || lia).
  rewrite (nth_zipw _ xs ys _ (mk_rlwe [] []) (mk_rlwe [] [])) by (congruence || lia).
  split; [apply len_op; assumption|].
  rewrite Forall_forall in Wx, Wy. pose proof (Wx _ (nth_In xs (mk_rlwe [] []) Hi)) as W1.
  pose proof (Wy _ (nth_In ys (mk_rlwe [] []) Hi2)) as W2.
  eapply pcong_trans; [apply op_phase; assumption|].
  set (x := nth i xs (mk_rlwe [] [])) in *. set (y := nth i ys (mk_rlwe [] [])) in *.
  pose proof (wf_len p n x W1) as Lx. pose proof (wf_len p n y W2) as Ly.
  assert (LX : length (rphase n s x) = n) by (apply rphase_len; exact Lx).
  assert (LY : length (rphase n s y) = n) by (apply rphase_len; exact Ly).
  apply (EQ_pcong p w k Hp (Hp2 F tbl k w C) (Hw F tbl k w C)); [apply len_op; assumption|apply len_padd; [apply len_pscale|]; apply len_op; assumption|].
  intros z Hz. rewrite ev_op by congruence.
  pose proof (ev_cong p z z _ _ (cong_refl p z) P1) as Q1. pose proof (ev_cong p z z _ _ (cong_refl p z) P2) as Q2.
  rewrite Q1, Q2. rewrite !ev_add by (rewrite !(len_pscale n) by (assumption || (apply len_op; assumption)); symmetry; try apply len_op; assumption).
  rewrite !ev_scale, !ev_op by congruence. apply cong_of_eq. ring.
Qed.

Definition gspace (D : gadget) : Prop := gb D = b /\ length (gd D) = bs_len b /\ Forall (rl_len n) (gd D).
Definition gop (sg : bool) (G H : gadget) : gadget := mk_gadget (rows_op sg (gd G) (gd H)) b.
Lemma gop_wf sg G H : gadget_wf p n b G -> gadget_wf p n b H -> gadget_wf p n b (gop sg G H).
Proof.
  intros (_ & L & W) (_ & L' & W'). split; [reflexivity|]. cbn [gop gd]. split; [unfold rows_op; rewrite zipw_len; congruence|]. apply rows_op_wf; assumption.
Qed.
Lemma gop_correct sg G H D : gadget_wf p n b G -> gadget_wf p n b H -> gspace D -> gadget_op_inplace (inplace_of sg) G H D = Some (gop sg G H).
Proof.
  intros (E & L & W) (E' & L' & W') (E'' & L'' & W''). unfold gadget_op_inplace. rewrite E, E', Z.eqb_refl. cbn [assert bind].
  rewrite rows_op_correct by (assumption || congruence). cbn [bind]. rewrite E''. reflexivity.
Qed.
Definition ngad (G : gadget) : gadget := mk_gadget (map nform (gd G)) b.
Lemma ngad_wf G : gadget_wf p n b G -> gadget_wf p n b (ngad G).
Proof. intros (_ & L & W). split; [reflexivity|]. split; [cbn; rewrite map_length; exact L|]. apply map_nform_wf. Qed.
Lemma ngad_op sg G H : gadget_wf p n b G -> gadget_wf p n b H -> ngad (gop sg G H) = gop sg (ngad G) (ngad H).
Proof.
  intros (E & L & W) (E' & L' & W'). unfold ngad, gop. cbn [gd]. rewrite rows_op_nform by (assumption || congruence). reflexivity.
Qed.
Lemma to_ngad G : gadget_wf p n b G -> gadget_to_ntt F tbl G = Some (ngad G).
Proof. intros W. rewrite (gadget_wf_eq F k b G W). destruct W as (_ & _ & W). apply (gadget_to_ntt_correct F Hok tbl k w C). exact W. Qed.

Theorem gadget_op_main sg G H : gadget_wf p n b G -> gadget_wf p n b H ->
  exists Z0 GN HN ZN, gadget_wf p n b Z0 /\
    (forall D, gspace D -> gadget_op_inplace (inplace_of sg) G H D = Some Z0) /\
    (forall s m m' es es', length s = n -> length m = n -> length m' = n ->
      gadget_encrypts p n s (2 ^ bits) m (gd G) es -> gadget_encrypts p n s (2 ^ bits) m' (gd H) es' ->
      gadget_encrypts p n s (2 ^ bits) (op sg m m') (gd Z0) (zipw (op sg) es es')) /\
    gadget_to_ntt F tbl G = Some GN /\ gadget_to_ntt F tbl H = Some HN /\ gadget_to_ntt F tbl Z0 = Some ZN /\
    (forall D, gspace D -> gadget_op_inplace (inplace_of sg) GN HN D = Some ZN).
Proof.
  intros WG WH. pose proof (gop_wf sg G H WG WH) as WZ. exists (gop sg G H), (ngad G), (ngad H), (ngad (gop sg G H)).
  split; [exact WZ|]. split; [intros D HD; apply gop_correct; assumption|]. split.
  { intros s m m' es es' Ls Lm Lm' H1 H2. destruct WG as (_ & L & W), WH as (_ & L' & W'). apply rows_op_enc; try assumption. congruence. }
  rewrite !to_ngad by assumption. do 3 (split; [reflexivity|]). intros D HD. rewrite ngad_op by assumption. apply gop_correct; [apply ngad_wf|apply ngad_wf|]; assumption.
Qed.

Theorem rgsw_op_main sg R S : rgsw_wf p n b R -> rgsw_wf p n b S ->
  exists T RN SN TN, rgsw_wf p n b T /\
    (forall D, gspace (c_neg D) /\ gspace (c_m D) -> rgsw_op_inplace (inplace_of sg) R S D = Some T) /\
    (forall s m m' es es' fs fs', length s = n -> length m = n -> length m' = n ->
      rgsw_encrypts p n s (2 ^ bits) m R es es' -> rgsw_encrypts p n s (2 ^ bits) m' S fs fs' ->
      rgsw_encrypts p n s (2 ^ bits) (op sg m m') T (zipw (op sg) es fs) (zipw (op sg) es' fs')) /\
    rgsw_to_ntt F tbl R = Some RN /\ rgsw_to_ntt F tbl S = Some SN /\ rgsw_to_ntt F tbl T = Some TN /\
    (forall D, gspace (c_neg D) /\ gspace (c_m D) -> rgsw_op_inplace (inplace_of sg) RN SN D = Some TN).
Proof.
  intros (R0 & R1) (S0 & S1).
  destruct (gadget_op_main sg _ _ R0 S0) as (Z0 & A0 & B0 & C0 & WZ0 & O0 & P0 & T0 & U0 & V0 & N0).
  destruct (gadget_op_main sg _ _ R1 S1) as (Z1 & A1 & B1 & C1 & WZ1 & O1 & P1 & T1 & U1 & V1 & N1).
  exists (mk_rgsw Z0 Z1), (mk_rgsw A0 A1), (mk_rgsw B0 B1), (mk_rgsw C0 C1).
  split; [split; assumption|]. split.
  { intros D (D0 & D1). unfold rgsw_op_inplace. rewrite (O1 _ D1). cbn [bind]. rewrite (O0 _ D0). reflexivity. }
  split.
  { intros s m m' es es' fs fs' Ls Lm Lm' (H0 & H1) (K0 & K1). split; cbn [c_neg c_m]; [|apply P1; assumption].
    pose proof (P0 s _ _ es fs Ls (len_pneg _ _ (negacyclic_length _ _ _)) (len_pneg _ _ (negacyclic_length _ _ _)) H0 K0) as Q.
    destruct Q as (L & Q). split; [exact L|]. intros i Hi. destruct (Q i Hi) as (Le & Pi). split; [exact Le|].
    eapply pcong_trans; [exact Pi|].
    apply (EQ_pcong p w k Hp (Hp2 F tbl k w C) (Hw F tbl k w C));
      [apply len_padd; [apply len_pscale, len_op; apply len_pneg, negacyclic_length|exact Le]
      |apply len_padd; [apply len_pscale, len_pneg, negacyclic_length|exact Le]|].
    intros z Hz. rewrite !ev_add by (rewrite (len_pscale n); [symmetry; exact Le|]; first [apply len_op; apply len_pneg, negacyclic_length|apply len_pneg, negacyclic_length]).
    rewrite !ev_scale, ev_op, !ev_neg by (rewrite !(len_pneg n) by apply negacyclic_length; reflexivity).
    rewrite !(ev_negacyclic p z n) by (assumption || (apply len_op; assumption)). rewrite ev_op by congruence. apply cong_of_eq. ring. }
  unfold rgsw_to_ntt. cbn [c_neg c_m]. rewrite T0, T1, U0, U1, V0, V1. cbn [bind]. do 3 (split; [reflexivity|]).
  intros D (D0 & D1). unfold rgsw_op_inplace. cbn [c_neg c_m]. rewrite (N1 _ D1). cbn [bind]. rewrite (N0 _ D0). reflexivity.
Qed.

(** * Scaling by a polynomial *)
Lemma scale_ntt v a : length v = n -> length a = n -> pmod p (pmul (ntt a) (ntt v)) = ntt (pmod p (negacyclic n v a)).
Proof.
  intros Lv La. rewrite (ntt_pmod F Hok). rewrite <- (pmod_id (ntt (negacyclic n v a))) by apply (ntt_canon F Hok).
  apply pmod_eq; [exact (p0 F tbl k w C)|]. eapply pcong_trans; [apply (ntt_mul F Hok tbl k w C); assumption|].
  erewrite (ntt_proper F Hok); [apply pcong_refl|].
  apply (EQ_pcong p w k Hp (Hp2 F tbl k w C) (Hw F tbl k w C)); [len n|len n|]. intros z Hz.
  rewrite !(ev_negacyclic p z n) by assumption. apply cong_of_eq. ring.
Qed.
Definition scaled (v : list Z) (x : rlwe) : rlwe := rl_mod p (rl_mul n v x).
Lemma scaled_wf v x : wf (scaled v x).
Proof. apply rl_mod_wf; [exact (p0 F tbl k w C)|]. apply rl_mul_len. Qed.
Lemma scaled_correct v x : length v = n -> wf x ->
  nrlwe_mul_assign F (nform x) (ntt v) = Some (nform (scaled v x)) /\
  forall d, rl_len n d -> nrlwe_mul_inplace F (nform x) (ntt v) d = Some (nform (scaled v x)).
Proof.
  intros Lv (Xa & Xb & _). assert (LN : forall u, length (ntt u) = n) by (intros; apply ntt_of_length).
  unfold nrlwe_mul_assign, nrlwe_mul_inplace, scaled, rl_mod, rl_mul, GadgetProofs.nform. cbn [ra rb]. split.
  - rewrite !(n_mul_assign_correct F Hok) by (rewrite ?LN; reflexivity || apply (ntt_canon F Hok)). cbn [bind].
    rewrite !scale_ntt by assumption. reflexivity.
  - intros d (Ld & Ld'). rewrite !(n_mul_inplace_correct F Hok) by (rewrite ?LN; assumption || reflexivity || apply (ntt_canon F Hok)). cbn [bind].
    rewrite !scale_ntt by assumption. reflexivity.
Qed.
Lemma scaled_phase s v x : length s = n -> length v = n -> wf x ->
  pcong p (rphase n s (scaled v x)) (negacyclic n v (rphase n s x)).
Proof.
  intros Ls Lv Wx. pose proof (wf_len p n x Wx) as Lx.
  eapply pcong_trans; [apply (rl_mod_phase F Hp tbl k w C); [apply rl_mul_len|assumption]|].
  assert (LX : length (rphase n s x) = n) by (apply rphase_len; exact Lx).
  apply (EQ_pcong p w k Hp (Hp2 F tbl k w C) (Hw F tbl k w C)); [apply rphase_len, rl_mul_len|len n|]. intros z Hz.
  rewrite !(ev_negacyclic p z n) by assumption. rewrite !(ev_rphase p k z) by (assumption || apply rl_mul_len). cbn [rl_mul ra rb].
  destruct Lx as (X1 & X2). rewrite !(ev_negacyclic p z n) by assumption. apply cong_of_eq. ring.
Qed.
Theorem scale_main v x : length v = n -> canonical p v -> wf x ->
  exists z vN xN zN, wf z /\ into_ntt F tbl v = Some vN /\ rlwe_to_ntt F tbl x = Some xN /\ rlwe_to_ntt F tbl z = Some zN /\
    nrlwe_mul_assign F xN vN = Some zN /\ (forall d, rl_len n d -> nrlwe_mul_inplace F xN vN d = Some zN) /\
    forall s, length s = n -> pcong p (rphase n s z) (negacyclic n v (rphase n s x)).
Proof.
  intros Lv Cv Wx. exists (scaled v x), (ntt v), (nform x), (nform (scaled v x)). pose proof (scaled_wf v x) as Wz.
  split; [exact Wz|]. split; [apply (into_ntt_canon F Hok tbl k w C); assumption|].
  rewrite !(rlwe_to_ntt_correct F Hok tbl k w C) by assumption. destruct (scaled_correct v x Lv Wx) as (A & D).
  do 2 (split; [reflexivity|]). split; [exact A|]. split; [exact D|]. intros s Ls. apply scaled_phase; assumption.
Qed.
Lemma scaled_rows v rows : length v = n -> Forall wf rows ->
  mapM (fun x => nrlwe_mul_assign F x (ntt v)) (map nform rows) = Some (map nform (map (scaled v) rows)).
Proof.
  intros Lv H. induction H as [|x rows Wx H IH]; [reflexivity|]. cbn [map mapM]. rewrite (proj1 (scaled_correct v x Lv Wx)). cbn [bind]. rewrite IH. reflexivity.
Qed.
Lemma scaled_enc s base v m rows es : length s = n -> length v = n -> length m = n -> Forall wf rows ->
  gadget_encrypts p n s base m rows es -> gadget_encrypts p n s base (negacyclic n v m) (map (scaled v) rows) (map (negacyclic n v) es).
Proof.
  intros Ls Lv Lm W (L & H). split; [rewrite !map_length; exact L|]. rewrite map_length. intros i Hi. destruct (H i Hi) as (Le & P).
  rewrite (nth_indep (map (negacyclic n v) es) [] (negacyclic n v [])) by (rewrite map_length; lia). rewrite map_nth.
  rewrite (nth_indep (map (scaled v) rows) _ (scaled v (mk_rlwe [] []))) by (rewrite map_length; lia). rewrite map_nth.
  split; [apply negacyclic_length|]. rewrite Forall_forall in W. pose proof (W _ (nth_In rows (mk_rlwe [] []) Hi)) as Wx.
  eapply pcong_trans; [apply scaled_phase; assumption|].
  assert (LX : length (rphase n s (nth i rows (mk_rlwe [] []))) = n) by (apply rphase_len; apply (wf_len p); exact Wx).
  apply (EQ_pcong p w k Hp (Hp2 F tbl k w C) (Hw F tbl k w C)); [len n|len n|]. intros z Hz.
  pose proof (ev_cong p z z _ _ (cong_refl p z) P) as Q.
  rewrite (ev_negacyclic p z n) by assumption. rewrite Q. rewrite !ev_add by (len n). rewrite !ev_scale. rewrite !(ev_negacyclic p z n) by assumption.
  apply cong_of_eq. ring.
Qed.
Theorem rgsw_scale_main v R : length v = n -> canonical p v -> rgsw_wf p n b R ->
  exists T vN RN TN, rgsw_wf p n b T /\ into_ntt F tbl v = Some vN /\ rgsw_to_ntt F tbl R = Some RN /\ rgsw_to_ntt F tbl T = Some TN /\
    nrgsw_mul_assign F RN vN = Some TN /\
    forall s m es es', length s = n -> length m = n -> rgsw_encrypts p n s (2 ^ bits) m R es es' ->
      rgsw_encrypts p n s (2 ^ bits) (negacyclic n v m) T (map (negacyclic n v) es) (map (negacyclic n v) es').
Proof.
  intros Lv Cv WR. set (T := mk_rgsw (mk_gadget (map (scaled v) (gd (c_neg R))) b) (mk_gadget (map (scaled v) (gd (c_m R))) b)).
  assert (WT : rgsw_wf p n b T).
  { destruct WR as ((_ & L0 & W0) & (_ & L1 & W1)). split; (split; [reflexivity|]; split; [cbn [T c_neg c_m gd]; rewrite map_length; assumption|]);
    apply Forall_forall; intros x Hx; apply in_map_iff in Hx; destruct Hx as (y & <- & _); apply scaled_wf. }
  exists T, (ntt v), (nrgsw F k w b R), (nrgsw F k w b T). split; [exact WT|].
  split; [apply (into_ntt_canon F Hok tbl k w C); assumption|].
  rewrite !(rgsw_to_ntt_correct F Hok tbl k w C b) by assumption. do 2 (split; [reflexivity|]).
  destruct WR as ((_ & L0 & W0) & (_ & L1 & W1)). split.
  { unfold nrgsw_mul_assign, nrgsw. cbn [c_neg c_m gd gb]. rewrite !scaled_rows by assumption. reflexivity. }
  intros s m es es' Ls Lm (H0 & H1). split; cbn [T c_neg c_m gd]; [|apply scaled_enc; assumption].
  pose proof (scaled_enc s _ v _ _ _ Ls Lv (len_pneg _ _ (negacyclic_length _ _ _)) W0 H0) as (L & Q).
  split; [exact L|]. intros i Hi. destruct (Q i Hi) as (Le & Pi). split; [exact Le|]. eapply pcong_trans; [exact Pi|].
  apply (EQ_pcong p w k Hp (Hp2 F tbl k w C) (Hw F tbl k w C));
    [apply len_padd; [apply len_pscale, negacyclic_length|exact Le]|apply len_padd; [apply len_pscale, len_pneg, negacyclic_length|exact Le]|].
  intros z Hz. rewrite !ev_add by (rewrite (len_pscale n); [symmetry; exact Le|]; first [apply negacyclic_length|apply len_pneg, negacyclic_length]).
  rewrite !ev_scale, ev_neg. rewrite !(ev_negacyclic p z n) by (assumption || apply negacyclic_length || (apply len_pneg, negacyclic_length)).
  rewrite ev_neg. rewrite !(ev_negacyclic p z n) by (assumption || apply negacyclic_length). apply cong_of_eq. ring.
Qed.
End Field.

(** Different bases, or different dimensions, are refused. *)
Theorem basis_mismatch f G H D : bs_basis (gb G) <> bs_basis (gb H) -> gadget_op_inplace f G H D = None.
Proof. intros N. unfold gadget_op_inplace. apply Z.eqb_neq in N. rewrite N. reflexivity. Qed.
Lemma same_len_no a b : length a <> length b -> same_len a b = None.
Proof. intros N. unfold same_len. apply Nat.eqb_neq in N. rewrite N. reflexivity. Qed.
Theorem dim_mismatch F x y : length (ra x) <> length (ra y) ->
  rlwe_add_ref F x y = None /\ rlwe_add_assign F x y = None /\ rlwe_sub_ref F x y = None /\ rlwe_sub_assign F x y = None /\
  forall v, length (ra x) <> length v -> nrlwe_mul_assign F x v = None.
Proof.
  intros N. unfold rlwe_add_ref, rlwe_add_assign, rlwe_sub_ref, rlwe_sub_assign, on_both, p_add, p_add_assign, p_sub, p_sub_assign, nrlwe_mul_assign, n_mul_assign.
  rewrite (same_len_no _ _ N). repeat (split; [reflexivity|]). intros v Nv. rewrite (same_len_no _ _ Nv). reflexivity.
Qed.
