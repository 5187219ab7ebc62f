(** The gadget loop computes the ring combination of rows and digits. *)
From Coq Require Import ZArith Znumtheory List Bool Arith Lia Setoid Morphisms.
From Verif Require Import Spec.Basic Spec.Poly Spec.Ring Model.Base Model.Field Model.NTT Model.Concrete Model.Poly Model.Rlwe Model.Gadget
  Proofs.Arith Proofs.BarrettProofs Proofs.NumTheory Proofs.FieldProofs Proofs.PolyMath Proofs.NTTProofs Proofs.NTTTableProofs
  Proofs.PolyProofs Proofs.MonomialProofs.
Import ListNotations.
Local Open Scope Z_scope.

Definition rl_add (x y : rlwe) : rlwe := mk_rlwe (padd (ra x) (ra y)) (padd (rb x) (rb y)).
Definition rl_sub (x y : rlwe) : rlwe := mk_rlwe (psub (ra x) (ra y)) (psub (rb x) (rb y)).
Definition rl_mul (n : nat) (d : list Z) (x : rlwe) : rlwe := mk_rlwe (negacyclic n d (ra x)) (negacyclic n d (rb x)).
Definition rl_mod (p : Z) (x : rlwe) : rlwe := mk_rlwe (pmod p (ra x)) (pmod p (rb x)).
Definition rl_len (n : nat) (x : rlwe) : Prop := length (ra x) = n /\ length (rb x) = n.
Definition rl_cong (p : Z) (x y : rlwe) : Prop := pcong p (ra x) (ra y) /\ pcong p (rb x) (rb y).
Fixpoint gsum (n : nat) (X : rlwe) (ds : list (list Z)) (Gs : list rlwe) : rlwe :=
  match ds, Gs with
  | d :: ds', G :: Gs' => gsum n (rl_add X (rl_mul n d G)) ds' Gs'
  | _, _ => X
  end.

Lemma wf_len p n x : rlwe_wf p n x -> rl_len n x.
Proof. intros (H1 & H2 & _). split; assumption. Qed.
Lemma rl_add_len n x y : rl_len n x -> rl_len n y -> rl_len n (rl_add x y).
Proof. intros (H1 & H2) (H3 & H4). split; cbn; rewrite padd_length; congruence. Qed.
Lemma rl_sub_len n x y : rl_len n x -> rl_len n y -> rl_len n (rl_sub x y).
Proof. intros (H1 & H2) (H3 & H4). split; cbn; rewrite psub_length; congruence. Qed.
Lemma rl_mul_len n d x : rl_len n (rl_mul n d x).
Proof. split; cbn; apply negacyclic_length. Qed.
Lemma gsum_len n X ds Gs : rl_len n X -> rl_len n (gsum n X ds Gs).
Proof.
  revert X Gs. induction ds as [|d ds IH]; intros X [|G Gs] H; cbn; try exact H.
  apply IH. apply rl_add_len; [exact H|apply rl_mul_len].
Qed.
Lemma rl_mod_wf p n x : 0 < p -> rl_len n x -> rlwe_wf p n (rl_mod p x).
Proof.
  intros Hp (H1 & H2). unfold rlwe_wf, rl_mod. cbn [ra rb]. rewrite !pmod_length.
  split; [exact H1|]. split; [exact H2|]. split; apply pmod_canonical; exact Hp.
Qed.
Lemma rl_mod_small p n x : rlwe_wf p n x -> rl_mod p x = x.
Proof. intros (_ & _ & H1 & H2). destruct x as [a b]. unfold rl_mod. cbn [ra rb] in *. rewrite !pmod_small by assumption. reflexivity. Qed.
Lemma rl_mod_eq p x y : 0 < p -> rl_cong p x y -> rl_mod p x = rl_mod p y.
Proof. intros Hp (H1 & H2). unfold rl_mod. f_equal; apply pmod_eq; assumption. Qed.
Lemma rl_mod_cong p x : p <> 0 -> rl_cong p (rl_mod p x) x.
Proof. intros Hp. split; cbn; apply pcong_pmod; exact Hp. Qed.
Lemma rl_zero_len n : rl_len n (rlwe_zero n).
Proof. split; cbn; apply repeat_length. Qed.

Lemma lincomb_len n ds es : length (lincomb n ds es) = n.
Proof.
  revert es. induction ds as [|d ds IH]; intros [|e es]; cbn; try apply repeat_length.
  rewrite padd_length; rewrite ?negacyclic_length; congruence.
Qed.

(** * Identities in the ring, proved by evaluation at the roots of X^n + 1 *)
Section Ring.
Variables (p w : Z) (k : nat).
Hypothesis Hp : prime p.
Hypothesis Hp2 : 2 < p.
Hypothesis Hw : cong p (npow w (2 ^ k)) (-1).
Local Notation n := (2 ^ k)%nat.
Definition root (z : Z) : Prop := cong p (npow z n) (-1).
Definition EQ := fun (a b : list Z) => forall z, root z -> cong p (ev z a) (ev z b).

Lemma EQ_pcong a b : length a = n -> length b = n -> EQ a b -> pcong p a b.
Proof. intros Ha Hb H. apply (ev_inj_root p w k Hp Hp2 Hw); assumption. Qed.
Lemma evn z a b : root z -> length a = n -> length b = n -> cong p (ev z (negacyclic n a b)) (ev z a * ev z b).
Proof. intros Hz Ha Hb. apply ev_negacyclic; assumption. Qed.

Lemma rphase_len s x : rl_len n x -> length (rphase n s x) = n.
Proof. intros (H1 & H2). unfold rphase. rewrite psub_length; rewrite ?negacyclic_length; assumption. Qed.
Lemma ev_rphase z s x : root z -> rl_len n x -> length s = n ->
  cong p (ev z (rphase n s x)) (ev z (rb x) - ev z (ra x) * ev z s).
Proof.
  intros Hz (H1 & H2) Hs. unfold rphase. rewrite ev_sub by (rewrite negacyclic_length; exact H2).
  rewrite evn by assumption. reflexivity.
Qed.
Lemma rphase_gsum s X ds Gs : rl_len n X -> Forall (rl_len n) Gs -> Forall (fun d => length d = n) ds -> length s = n ->
  pcong p (rphase n s (gsum n X ds Gs)) (padd (rphase n s X) (lincomb n ds (map (rphase n s) Gs))).
Proof.
  intros HX HG Hd Hs. apply EQ_pcong.
  - apply rphase_len, gsum_len, HX.
  - rewrite padd_length; rewrite ?lincomb_len; apply rphase_len; exact HX.
  - intros z Hz. revert X HX Gs HG. induction Hd as [|d ds Ld Hd IH]; intros X HX Gs HG.
    { destruct Gs; cbn; rewrite ev_add by (rewrite repeat_length; apply rphase_len; exact HX);
      rewrite ev_zeros; apply cong_of_eq; ring. }
    destruct HG as [|G Gs LG HG]; cbn.
    { rewrite ev_add by (rewrite repeat_length; apply rphase_len; exact HX); rewrite ev_zeros; apply cong_of_eq; ring. }
    assert (LX' : rl_len n (rl_add X (rl_mul n d G))) by (apply rl_add_len; [exact HX|apply rl_mul_len]).
    rewrite (IH _ LX' Gs HG).
    rewrite ev_add by (rewrite lincomb_len; apply rphase_len; exact LX').
    rewrite ev_add by (rewrite padd_length; rewrite ?negacyclic_length, ?lincomb_len; [apply rphase_len; exact HX|reflexivity]).
    rewrite ev_add by (rewrite negacyclic_length, lincomb_len; reflexivity).
    rewrite !ev_rphase by assumption. rewrite evn; [|assumption|assumption|apply rphase_len; assumption].
    rewrite ev_rphase by assumption.
    destruct HX as (A1 & A2), LG as (B1 & B2). cbn [ra rb rl_add rl_mul].
    rewrite !ev_add by (rewrite negacyclic_length; assumption). rewrite !evn by assumption.
    apply cong_of_eq. ring.
Qed.
Lemma ev_lincomb_cong z ds es es' : root z -> Forall (fun d => length d = n) ds ->
  Forall2 (fun e e' => length e = n /\ length e' = n /\ pcong p e e') es es' ->
  cong p (ev z (lincomb n ds es)) (ev z (lincomb n ds es')).
Proof.
  intros Hz Hd H. revert ds Hd. induction H as [|e e' es es' (L1 & L2 & He) H IH]; intros [|d ds] Hd; cbn; try reflexivity.
  inv Hd. rewrite !ev_add by (rewrite negacyclic_length, lincomb_len; reflexivity).
  rewrite !evn by assumption. apply cong_add; [|apply IH; assumption]. apply cong_mul; [reflexivity|].
  apply ev_cong; [reflexivity|exact He].
Qed.
End Ring.

Lemma digits_ev z b n (f : list Z) ds : length f = n -> Forall (fun d => length d = n) ds ->
  (forall i, (i < n)%nat -> digits_value b (map (fun d => nth i d 0) ds) = nth i f 0) ->
  ev z f = digits_value b (map (ev z) ds).
Proof.
  intros Hf Hd H. rewrite (ev_nth z f n Hf). rewrite (zsum_ext _ (fun i => digits_value b (map (fun d => nth i d 0) ds) * npow z i)).
  2:{ intros i Hi. rewrite H by exact Hi. reflexivity. }
  clear H Hf. induction Hd as [|d ds Ld Hd IH]; cbn; [apply zsum_zero|].
  rewrite (zsum_ext _ (fun i => nth i d 0 * npow z i + b * (digits_value b (map (fun d => nth i d 0) ds) * npow z i)))
    by (intros; ring).
  rewrite zsum_add, zsum_mul, IH, <- (ev_nth z d n Ld). reflexivity.
Qed.

Lemma pdigs_digits bits l f : 0 <= bits -> Forall (fun v => 0 <= v < 2 ^ (bits * Z.of_nat l)) f ->
  gadget_digits (2 ^ bits) l f (pdigs bits l f).
Proof.
  intros Hb Hf. split; [apply pdigs_length|]. split.
  - clear Hf. revert f. induction l; intros f; constructor.
    + split; [apply map_length|]. apply Forall_forall. intros x Hx. apply in_map_iff in Hx. destruct Hx as (y & <- & _).
      apply Z.mod_pos_bound. apply pow2_pos. exact Hb.
    + specialize (IHl (map (fun v => v / 2 ^ bits) f)). rewrite map_length in IHl. exact IHl.
  - intros i Hi. rewrite map_nth_pdigs by exact Hi. apply digs_value; [exact Hb|].
    rewrite Forall_forall in Hf. apply Hf. apply nth_In. exact Hi.
Qed.
Lemma gadget_digits_len b l f ds : gadget_digits b l f ds -> Forall (fun d => length d = length f) ds.
Proof. intros (_ & H & _). eapply Forall_impl; [|exact H]. intros d Hd. apply Hd. Qed.

(** Noise growth of a digit combination. *)
Lemma lincomb_bound n b E ds es : 0 <= E -> 1 <= b -> length ds = length es ->
  Forall (fun d => length d = n /\ Forall (fun x => 0 <= x < b) d) ds -> Forall (fun e => length e = n /\ bounded E e) es ->
  bounded (Z.of_nat (length ds) * (Z.of_nat n * ((b - 1) * E))) (lincomb n ds es).
Proof.
  intros HE Hb Hl Hd He. revert es Hl He. induction Hd as [|d ds (Ld & Hd0) Hd IH]; intros es Hl He; destruct He as [|e es (Le & He0) He]; cbn in Hl; try lia.
  - apply Forall_forall. intros x Hx. apply repeat_spec in Hx. subst x. cbn. lia.
  - specialize (IH es ltac:(lia) He). cbn [lincomb length].
    apply Forall_forall. intros x Hx. destruct (In_nth _ _ 0 Hx) as (i & Hi & <-).
    rewrite nth_padd by (rewrite negacyclic_length, lincomb_len; reflexivity).
    rewrite padd_length, negacyclic_length in Hi by (rewrite negacyclic_length, lincomb_len; reflexivity).
    assert (H1 : Z.abs (nth i (negacyclic n d e) 0) <= Z.of_nat n * ((b - 1) * E)).
    { apply negacyclic_abs.
      - intros j. destruct (Nat.lt_ge_cases j (length d)) as [Hj|Hj].
        + rewrite Forall_forall in Hd0. specialize (Hd0 _ (nth_In d 0 Hj)). cbv beta in Hd0. lia.
        + rewrite nth_overflow by exact Hj. cbn. lia.
      - intros j. destruct (Nat.lt_ge_cases j (length e)) as [Hj|Hj].
        + unfold bounded in He0. rewrite Forall_forall in He0. apply He0. apply nth_In. exact Hj.
        + rewrite nth_overflow by exact Hj. cbn. lia. }
    assert (H2 : Z.abs (nth i (lincomb n ds es) 0) <= Z.of_nat (length ds) * (Z.of_nat n * ((b - 1) * E))).
    { unfold bounded in IH. rewrite Forall_forall in IH. apply IH. apply nth_In. rewrite lincomb_len. exact Hi. }
    rewrite Nat2Z.inj_succ. lia.
Qed.
