(** The slots of the transform are distinct; the top coefficients of a mask polynomial. *)
From Coq Require Import ZArith Znumtheory List Bool Arith Lia Setoid Morphisms.
From Verif Require Import Spec.Basic Spec.Poly Spec.Ring Spec.Lattice Spec.Blind Spec.Moment Spec.Noise Spec.SubGauss Spec.Count Spec.Boot Model.Base Model.Field Model.NTT Model.Concrete Model.Poly Model.Lwe Model.Rlwe Model.Gadget Model.BlindRotation Model.KeySwitch
  Proofs.Arith Proofs.BarrettProofs Proofs.NumTheory Proofs.FieldProofs Proofs.PolyMath Proofs.NTTProofs Proofs.NTTTableProofs
  Proofs.PolyProofs Proofs.MonomialProofs Proofs.RingProofs Proofs.GadgetProofs Proofs.RlweProofs Proofs.GadgetMain Proofs.RgswProofs Proofs.SampleProofs Proofs.BlindProofs Proofs.BlindKeyProofs Proofs.MomentProofs Proofs.SubGaussProofs Proofs.NoiseProofs
  Proofs.UniformProofs Proofs.InterpProofs Proofs.SlotProofs Proofs.DeadProofs Proofs.PotProofs Proofs.AliveProofs Proofs.RingSwitchProofs Proofs.RingSwitchKeyProofs.
Import ListNotations.
Local Open Scope Z_scope.


Lemma filter_length_impl {A : Type} (P Q : A -> bool) L : (forall x, In x L -> P x = true -> Q x = true) -> (length (filter P L) <= length (filter Q L))%nat.
Proof.
  induction L as [|x L IH]; intros H; [reflexivity|]. cbn [filter]. pose proof (IH (fun y Hy => H y (or_intror Hy))) as I1. pose proof (H x (or_introl eq_refl)) as Hx.
  destruct (P x); [rewrite Hx by reflexivity; cbn; lia|]. destruct (Q x); cbn; lia.
Qed.
Section Field.
Variable F : field.
Hypothesis Hok : fok F.
Local Notation p := (fp F).
Hypothesis Hp : prime p.
Variables (tbl : tables) (k : nat) (w : Z).
Hypothesis C : ctx F tbl k w.
Local Notation n := (2 ^ k)%nat.
Local Notation zt := (zt w k).
Let P0 : 0 < p := p0 F tbl k w C.
Let N0 : (0 < n)%nat := nn0 k.

(** The slots are distinct. *)
Lemma zt_distinct i j : (i < n)%nat -> (j < n)%nat -> cong p (zt i) (zt j) -> i = j.
Proof.
  intros Hi Hj H. destruct (Nat.eq_dec i j) as [|Hne]; [assumption|exfalso].
  set (v := map (fun m => if Nat.eqb m i then 1 else 0) (seq 0 n)).
  assert (Lv : length v = n) by (unfold v; rewrite map_length, seq_length; reflexivity). pose proof (ctx_gt2 F tbl k w C) as H2.
  assert (Cv : canonical p v) by (apply Forall_forall; intros x Hx; apply in_map_iff in Hx; destruct Hx as (m & <- & _); destruct (Nat.eqb m i); lia).
  destruct (ntt_surj F Hok tbl k w C v Lv Cv) as (a & La & Ca & Ea).
  assert (Hv : forall m, (m < n)%nat -> nth m v 0 = if Nat.eqb m i then 1 else 0).
  { intros m Hm. unfold v. rewrite (nth_indep _ 0 ((fun m => if Nat.eqb m i then 1 else 0) 0%nat)) by (rewrite map_length, seq_length; exact Hm). rewrite (map_nth (fun m => if Nat.eqb m i then 1 else 0)), seq_nth by exact Hm. reflexivity. }
  pose proof (ntt_nth F Hok k w a i Hi) as Ei. pose proof (ntt_nth F Hok k w a j Hj) as Ej. rewrite <- Ea, Hv in Ei by exact Hi. rewrite <- Ea, Hv in Ej by exact Hj.
  rewrite Nat.eqb_refl in Ei. replace (Nat.eqb j i) with false in Ej by (symmetry; apply Nat.eqb_neq; congruence).
  assert (E : cong p (ev (zt i) a) (ev (zt j) a)).
  { clear - H. induction a as [|x a IH]; [reflexivity|]. cbn [ev]. rewrite IH, H. reflexivity. }
  assert (E1 : cong p 1 0) by (rewrite Ei, E, <- Ej; reflexivity). apply cong_0, Z.divide_pos_le in E1; lia.
Qed.
Lemma zt_incong I : NoDup I -> (forall i, In i I -> (i < n)%nat) -> incong p (map zt I).
Proof.
  induction 1 as [|i I Hi HI IH]; intros HB; [exact Logic.I|]. cbn [map incong]. split; [|apply IH; intros j Hj; apply HB; right; exact Hj].
  apply Forall_forall. intros y Hy HC. apply in_map_iff in Hy. destruct Hy as (j & <- & Hj).
  apply zt_distinct in HC; [subst; contradiction|apply HB; left; reflexivity|apply HB; right; exact Hj].
Qed.

(** The top coefficients of the mask polynomial, as they enter the extracted sample. *)
Definition top (r : nat) (a : list Z) : list Z := pmod p (pneg (rev (skipn r a))).
Lemma top_length r a : length a = n -> length (top r a) = (n - r)%nat.
Proof. intros H. unfold top. rewrite pmod_length, pneg_length, rev_length, skipn_length. lia. Qed.
Lemma rev_padd x : forall y, length x = length y -> rev (padd x y) = padd (rev x) (rev y).
Proof.
  induction x as [|a x IH]; intros [|c y] H; try discriminate H; [reflexivity|]. cbn [padd rev]. injection H as H. rewrite IH by exact H.
  rewrite RlweProofs.padd_app by (rewrite !rev_length; exact H). reflexivity.
Qed.
Lemma skipn_padd r : forall x y, length x = length y -> skipn r (padd x y) = padd (skipn r x) (skipn r y).
Proof. induction r as [|r IH]; intros [|a x] [|c y] H; try discriminate H; try reflexivity. cbn [padd skipn]. apply IH. injection H. auto. Qed.
Lemma pneg_padd x : forall y, pneg (padd x y) = padd (pneg x) (pneg y).
Proof. induction x as [|a x IH]; intros [|c y]; try reflexivity. cbn [padd pneg map]. f_equal; [ring|]. apply IH. Qed.
Lemma pneg_pneg x : pneg (pneg x) = x.
Proof. unfold pneg. rewrite map_map. rewrite <- (map_id x) at 2. apply map_ext. intros a. ring. Qed.
Lemma skipn_pmod r x : skipn r (pmod p x) = pmod p (skipn r x).
Proof. unfold pmod. rewrite skipn_map. reflexivity. Qed.
Lemma top_shift r a Q t : length a = n -> length Q = n -> skipn r Q = rev (pneg t) -> top r (addv p a Q) = addv p (top r a) t.
Proof.
  intros La LQ HQ. unfold top. apply (pcong_eq p); [apply pmod_canonical; exact P0|apply pmod_canonical; exact P0|]. unfold addv.
  eapply pcong_trans; [apply pcong_pmod; lia|].
  rewrite skipn_pmod. rewrite (pneg_proper p _ (rev (skipn r (padd a Q)))) by (apply pcong_rev, pcong_pmod; lia).
  rewrite skipn_padd by congruence. rewrite rev_padd by (rewrite !skipn_length; lia). rewrite pneg_padd, HQ, rev_involutive, pneg_pneg.
  symmetry. eapply pcong_trans; [apply pcong_pmod; lia|]. apply padd_proper; [apply pcong_pmod; lia|apply pcong_refl].
Qed.
Lemma top_ext r a : (1 <= r <= n)%nat -> length a = n -> firstn (n - r) (tl (ext F a)) = top r a.
Proof.
  intros Hr La. destruct a as [|a0 a]; [cbn in La; lia|]. cbn [ext tl]. unfold top. destruct r as [|r]; [lia|]. cbn [skipn]. cbn [length] in La.
  unfold pmod, pneg. rewrite !firstn_map, firstn_rev. do 4 f_equal. lia.
Qed.
End Field.
