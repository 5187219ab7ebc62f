(** Few slots of the mask of a blind rotation vanish. *)
From Coq Require Import ZArith Znumtheory List Bool Arith Lia Setoid Morphisms.
From Verif Require Import Spec.Basic Spec.Poly Spec.Ring Spec.Lattice Spec.Blind Spec.Moment Spec.Noise Spec.SubGauss Spec.Count Spec.Boot Model.Base Model.Field Model.NTT Model.Concrete Model.Poly Model.Lwe Model.Rlwe Model.Gadget Model.BlindRotation Model.Boolean
  Proofs.Arith Proofs.BarrettProofs Proofs.NumTheory Proofs.FieldProofs Proofs.PolyMath Proofs.NTTProofs Proofs.NTTTableProofs
  Proofs.PolyProofs Proofs.MonomialProofs Proofs.RingProofs Proofs.GadgetProofs Proofs.RlweProofs Proofs.GadgetMain Proofs.RgswProofs Proofs.SampleProofs Proofs.BlindProofs Proofs.BlindKeyProofs Proofs.MomentProofs Proofs.SubGaussProofs Proofs.NoiseProofs
  Proofs.UniformProofs Proofs.InterpProofs Proofs.SlotProofs Proofs.DeadProofs Proofs.PotProofs.
Import ListNotations.
Local Open Scope Z_scope.

(** Sublists of a given length. *)
Fixpoint subs {A : Type} (r : nat) (L : list A) : list (list A) :=
  match r, L with
  | O, _ => [[]]
  | S _, [] => []
  | S r', x :: L' => map (cons x) (subs r' L') ++ subs r L'
  end.
Lemma subs_spec {A : Type} (L : list A) : forall r S, In S (subs r L) -> length S = r /\ (NoDup L -> NoDup S) /\ incl S L.
Proof.
  induction L as [|x L IH]; intros [|r] S H; cbn [subs] in H.
  - destruct H as [<-|[]]. split; [reflexivity|]. split; [intros; constructor|intros y []].
  - destruct H.
  - destruct H as [<-|[]]. split; [reflexivity|]. split; [intros; constructor|intros y []].
  - apply in_app_or in H. destruct H as [H|H].
    + apply in_map_iff in H. destruct H as (S' & <- & H). destruct (IH _ _ H) as (I1 & I2 & I3). split; [cbn; congruence|]. split.
      * intros HN. inversion HN; subst. constructor; [intros HI; apply I3 in HI; contradiction|apply I2; assumption].
      * intros y [<-|Hy]; [left; reflexivity|right; apply I3; exact Hy].
    + destruct (IH _ _ H) as (I1 & I2 & I3). split; [exact I1|]. split; [intros HN; inversion HN; auto|]. intros y Hy. right. apply I3. exact Hy.
Qed.
Lemma subs_count {A : Type} (L : list A) : forall r, Z.of_nat (length (subs r L)) <= Z.of_nat (length L) ^ Z.of_nat r.
Proof.
  induction L as [|x L IH]; intros [|r].
  - cbn. lia.
  - cbn [subs length]. rewrite (Nat2Z.inj_succ r), Z.pow_succ_r by lia. cbn. lia.
  - cbn [subs length]. change (Z.of_nat 0) with 0. rewrite Z.pow_0_r. lia.
  - cbn [subs length]. rewrite app_length, map_length, Nat2Z.inj_add. pose proof (IH r) as I1. pose proof (IH (S r)) as I2. rewrite (Nat2Z.inj_succ r), Z.pow_succ_r in * by lia. rewrite (Nat2Z.inj_succ (length L)).
    set (a := Z.of_nat (length L)) in *. assert (0 <= a) by (unfold a; lia). assert (a ^ Z.of_nat r <= Z.succ a ^ Z.of_nat r) by (apply Z.pow_le_mono_l; lia).
    assert (0 <= a ^ Z.of_nat r) by (apply Z.pow_nonneg; lia). nia.
Qed.
Definition zsl {A : Type} (f : A -> Z) (L : list A) : Z := fold_right (fun x a => f x + a) 0 L.
Lemma zsl_app {A : Type} (f : A -> Z) L L' : zsl f (L ++ L') = zsl f L + zsl f L'.
Proof. induction L as [|x L IH]; cbn [app zsl fold_right]; [reflexivity|]. unfold zsl in *. rewrite IH. ring. Qed.
Lemma zsl_nonneg {A : Type} (f : A -> Z) L : (forall x, In x L -> 0 <= f x) -> 0 <= zsl f L.
Proof. induction L as [|x L IH]; intros H; cbn; [lia|]. pose proof (H x (or_introl eq_refl)). assert (0 <= zsl f L) by (apply IH; intros; apply H; right; assumption). unfold zsl in *. lia. Qed.
Lemma zsl_le {A : Type} (f : A -> Z) c L : (forall x, In x L -> f x <= c) -> zsl f L <= Z.of_nat (length L) * c.
Proof.
  induction L as [|x L IH]; intros H; [cbn; lia|]. pose proof (H x (or_introl eq_refl)). assert (zsl f L <= Z.of_nat (length L) * c) by (apply IH; intros; apply H; right; assumption).
  cbn [zsl fold_right length]. fold (zsl f L). rewrite Nat2Z.inj_succ. lia.
Qed.
Lemma zsl_map {A B : Type} (h : A -> B) (f : B -> Z) L : zsl f (map h L) = zsl (fun x => f (h x)) L.
Proof. induction L as [|x L IH]; [reflexivity|]. cbn [map zsl fold_right]. unfold zsl in *. rewrite IH. reflexivity. Qed.
Lemma zsl_scale {A : Type} c (f : A -> Z) L : zsl (fun x => c * f x) L = c * zsl f L.
Proof. induction L as [|x L IH]; cbn [zsl fold_right]; [ring|]. unfold zsl in *. rewrite IH. ring. Qed.
Lemma wsum_zsl {A B : Type} (D : dist A) (f : B -> A -> Z) L : wsum D (fun u => zsl (fun x => f x u) L) = zsl (fun x => wsum D (f x)) L.
Proof.
  induction L as [|x L IH]; [cbn; rewrite wsum_const; ring|]. cbn [zsl fold_right]. fold (zsl (fun x => wsum D (f x)) L). rewrite <- IH, <- wsum_add. reflexivity.
Qed.
(** A union bound: if at least [r] elements satisfy [P], some sublist of length [r] does throughout. *)
Lemma union_bound {A : Type} (P : A -> bool) c L : 0 <= c -> forall r, (r <= length (filter P L))%nat ->
  c ^ Z.of_nat r <= zsl (zp (fun x => if P x then c else 0)) (subs r L).
Proof.
  intros Hc. assert (H0 : forall S, 0 <= zp (fun x => if P x then c else 0) S) by (intros S; apply zp_nonneg; intros x _; destruct (P x); lia).
  induction L as [|x L IH]; intros [|r] Hr; cbn [subs filter length] in *; try lia; [cbn; lia|cbn; lia|].
  rewrite zsl_app, zsl_map. rewrite (Nat2Z.inj_succ r), Z.pow_succ_r by lia.
  assert (N2 : 0 <= zsl (zp (fun x => if P x then c else 0)) (subs (S r) L)) by (apply zsl_nonneg; intros; apply H0).
  assert (E : zsl (fun S => zp (fun x => if P x then c else 0) (x :: S)) (subs r L) = (if P x then c else 0) * zsl (zp (fun x => if P x then c else 0)) (subs r L)) by (rewrite <- zsl_scale; reflexivity).
  rewrite E. destruct (P x); cbn [length] in Hr.
  - specialize (IH r ltac:(lia)). assert (c * c ^ Z.of_nat r <= c * zsl (zp (fun x => if P x then c else 0)) (subs r L)) by (apply Z.mul_le_mono_nonneg_l; assumption). lia.
  - specialize (IH (S r) Hr). rewrite (Nat2Z.inj_succ r), Z.pow_succ_r in IH by lia. lia.
Qed.

(** Two-step tables have no roots among the slots. *)
Lemma ev_step_fill z st v m : (0 < st)%nat -> ev z (step_fill st 0 v (repeat 0 (m * st))) * (1 - npow z st) = v * (1 - npow z (m * st)).
Proof.
  intros Hs. assert (G : forall i L, ev z (step_fill st i v (repeat 0 i ++ L)) = npow z i * ev z (step_fill st 0 v L)).
  { induction i as [|i IH]; intros L; [cbn [repeat app npow]; rewrite npow_0; ring|]. cbn [repeat app step_fill ev]. rewrite IH. rewrite npow_S. ring. }
  induction m as [|m IH]; [cbn [Nat.mul repeat step_fill ev]; rewrite npow_0; ring|].
  cbn [Nat.mul]. destruct st as [|st]; [lia|]. rewrite repeat_app. change (repeat 0 (S st)) with (0 :: repeat 0 st). cbn [app step_fill ev].
  replace (S st - 1)%nat with st by lia. rewrite G.
  replace ((v + z * (npow z st * ev z (step_fill (S st) 0 v (repeat 0 (m * S st))))) * (1 - npow z (S st)))
     with (v * (1 - npow z (S st)) + npow z (S st) * (ev z (step_fill (S st) 0 v (repeat 0 (m * S st))) * (1 - npow z (S st)))) by (rewrite (npow_S z st); ring).
  rewrite IH. rewrite npow_add. ring.
Qed.

Section Field.
Variable F : field.
Hypothesis Hok : fok F.
Local Notation p := (fp F).
Hypothesis Hp : prime p.
Variables (tbl : tables) (k : nat) (w : Z).
Hypothesis C : ctx F tbl k w.
Hypothesis Hk : (0 < k)%nat.
Local Notation n := (2 ^ k)%nat.
Variables (b : basis) (bits : Z).
Hypothesis Hb : basis_new F bits = Some b.
Hypothesis Hbits : 0 <= bits.
Variable s : list Z.
Hypothesis Ls : length s = n.
Local Notation ntt := (ntt_of F w k).
Local Notation l := (bs_len b).
Local Notation zt := (zt w k).
Local Notation stepx := (stepx F k).
Local Notation next := (next F tbl k).
Local Notation rgsw_is := (rgsw_is F tbl k b bits s).
Local Notation bin_entry := (bin_entry F tbl k w b s).
Local Notation good_u := (good_u F k b).
Local Notation good_e := (good_e k b).
Local Notation digs := (digs b bits).
Let P0 : 0 < p := p0 F tbl k w C.


(** The number of slots in which the mask vanishes. *)
Definition zeros (acc : rlwe) : nat := length (filter (fun i => sv F k w (ra acc) i =? 0) (seq 0 n)).
Lemma bad_slots {U : Type} (M : dist U) (out : U -> rlwe) c acc0 r : nonneg M ->
  (forall S, NoDup S -> (forall i, In i S -> (i < n)%nat) -> wsum M (fun u => pot F k w S 0 (out u)) <= pot' F k w S c acc0 * mass M) ->
  0 <= c -> (forall i, (i < n)%nat -> deadb F k w acc0 i = false) ->
  wsum M (fun u => if (r <=? zeros (out u))%nat then 1 else 0) * p ^ Z.of_nat r <= (Z.of_nat n * c) ^ Z.of_nat r * mass M.
Proof.
  intros HM HS Hc Hd. rewrite Z.mul_comm, <- wsum_scale.
  eapply Z.le_trans; [apply (wsum_le M _ (fun u => zsl (fun S => pot F k w S 0 (out u)) (subs r (seq 0 n))) HM)|].
  - intros u wt _. destruct (Nat.leb_spec r (zeros (out u))) as [Hr|Hr].
    + rewrite Z.mul_1_r. apply (union_bound (fun i => sv F k w (ra (out u)) i =? 0) p (seq 0 n) ltac:(lia) r Hr).
    + rewrite Z.mul_0_r. apply zsl_nonneg. intros S _. apply (pot_nonneg F tbl k w C Hk s Ls S 0). lia.
  - rewrite (wsum_zsl M (fun S u => pot F k w S 0 (out u))). pose proof (mass_nonneg M HM) as Hm.
    eapply Z.le_trans; [apply (zsl_le _ (c ^ Z.of_nat r * mass M))|].
    + intros S HIn. apply subs_spec in HIn. destruct HIn as (L1 & N1 & I1).
      assert (HI : forall i, In i S -> (i < n)%nat) by (intros i Hi; apply I1, in_seq in Hi; lia).
      eapply Z.le_trans; [apply (HS S (N1 (seq_NoDup _ _)) HI)|]. apply Z.mul_le_mono_nonneg_r; [exact Hm|].
      unfold pot'. rewrite (zp_ext _ (fun _ => c)) by (intros i Hi; rewrite Hd by (apply HI; exact Hi); reflexivity). rewrite zp_const, L1. lia.
    + pose proof (subs_count (seq 0 n) r) as HC. rewrite seq_length in HC. rewrite Z.pow_mul_l, <- Z.mul_assoc. apply Z.mul_le_mono_nonneg_r; [|exact HC].
      apply Z.mul_nonneg_nonneg; [apply Z.pow_nonneg; exact Hc|exact Hm].
Qed.

Lemma two_part_alive N mid st lo hi lut i : N = Z.of_nat n -> 0 <= mid <= N -> 0 < st -> (st | mid) -> (st | N) ->
  two_part_lut N mid st lo hi = Some lut -> cong p lo (- hi) -> ~ (p | hi) -> (i < n)%nat -> ~ (p | ev (zt i) lut).
Proof.
  intros EN Hm Hs (c & Ec) (c' & Ec') E Hlh Hhi Hi HD. unfold two_part_lut in E.
  replace (st =? 0) with false in E by (symmetry; apply Z.eqb_neq; lia). cbn [negb assert bind] in E.
  destruct (assert (mid <=? N)) as [?|]; [|discriminate E]. cbn [bind] in E. injection E as <-.
  pose proof (zt_root F tbl k w C i) as Hz. unfold root in Hz. pose proof (nn0 k) as N0. pose proof (ctx_gt2 F tbl k w C) as H2.
  set (z := zt i) in *. assert (Hn : Z.to_nat N = n) by lia. rewrite Hn in HD.
  set (m := Z.to_nat c). set (m' := Z.to_nat (c' - c)). set (st' := Z.to_nat st) in *. assert (c0 : 0 <= c) by nia. assert (c1 : c <= c') by nia.
  assert (Em : Z.to_nat mid = (m * st')%nat) by (unfold m, st'; rewrite <- Z2Nat.inj_mul by lia; congruence).
  assert (En : n = (m * st' + m' * st')%nat) by (unfold m, m', st'; rewrite <- !Z2Nat.inj_mul, <- Z2Nat.inj_add by nia; rewrite <- Hn; f_equal; nia).
  rewrite Em in HD.
  assert (F1 : firstn (m * st') (repeat 0 n) = repeat 0 (m * st')) by (rewrite En, repeat_app, firstn_app, repeat_length, Nat.sub_diag, firstn_O, app_nil_r; apply firstn_all2; rewrite repeat_length; lia).
  assert (F2 : skipn (m * st') (repeat 0 n) = repeat 0 (m' * st')).
  { rewrite En, repeat_app, skipn_app, repeat_length, Nat.sub_diag, skipn_O. rewrite skipn_all2 by (rewrite repeat_length; lia). reflexivity. }
  rewrite F1, F2 in HD.
  assert (EA : forall a b', ev z (a ++ b') = ev z a + npow z (length a) * ev z b').
  { induction a as [|x a IH]; intros b'; [cbn [app length ev]; rewrite npow_0; ring|]. cbn [app length ev]. rewrite IH, npow_S. ring. }
  rewrite EA in HD.
  assert (LF : forall v L j, length (step_fill st' j v L) = length L) by (induction L as [|x L IH]; intros j; [reflexivity|]; destruct j; cbn; rewrite IH; reflexivity).
  rewrite LF, repeat_length in HD.
  assert (Hst : (0 < st')%nat) by (unfold st'; lia).
  pose proof (ev_step_fill z st' lo m Hst) as E1. pose proof (ev_step_fill z st' hi m' Hst) as E2.
  set (A := ev z (step_fill st' 0 lo (repeat 0 (m * st')))) in *. set (B := ev z (step_fill st' 0 hi (repeat 0 (m' * st')))) in *.
  assert (HD' : (p | (A + npow z (m * st') * B) * (1 - npow z st'))) by (apply Z.divide_mul_l; exact HD).
  assert (E3 : (A + npow z (m * st') * B) * (1 - npow z st') = lo * (1 - npow z (m * st')) + npow z (m * st') * (hi * (1 - npow z (m' * st')))) by (rewrite <- E1, <- E2; ring).
  rewrite E3 in HD'.
  assert (E4 : cong p (lo * (1 - npow z (m * st')) + npow z (m * st') * (hi * (1 - npow z (m' * st')))) (2 * hi * npow z (m * st'))).
  { rewrite Hlh. assert (E5 : cong p (npow z (m * st') * npow z (m' * st')) (-1)) by (rewrite <- npow_add, <- En; exact Hz).
    transitivity (- hi + 2 * hi * npow z (m * st') - hi * (npow z (m * st') * npow z (m' * st'))); [apply cong_of_eq; ring|]. rewrite E5. apply cong_of_eq. ring. }
  assert (HD2 : (p | 2 * hi * npow z (m * st'))) by (apply cong_0; rewrite <- E4; apply cong_0; exact HD').
  apply prime_mult in HD2; [|exact Hp]. destruct HD2 as [HD2|HD2].
  - apply prime_mult in HD2; [|exact Hp]. destruct HD2 as [HD2|HD2]; [apply Z.divide_pos_le in HD2; lia|contradiction].
  - assert (HD3 : (p | npow z n)) by (rewrite En, npow_add; apply Z.divide_mul_l; exact HD2).
    assert (HD4 : cong p 0 (-1)) by (rewrite <- Hz; symmetry; apply cong_0; exact HD3). apply cong_sym, cong_0, Z.divide_opp_r, Z.divide_pos_le in HD4; lia.
Qed.
End Field.
