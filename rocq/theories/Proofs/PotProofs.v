(** How many slots of the mask of a blind rotation vanish, over the masks of the key. *)
From Coq Require Import ZArith Znumtheory List Bool Arith Lia Setoid Morphisms.
From Verif Require Import Spec.Basic Spec.Poly Spec.Ring Spec.Lattice Spec.Blind Spec.Moment Spec.Noise Spec.SubGauss Spec.Count Spec.Boot Model.Base Model.Field Model.NTT Model.Concrete Model.Poly Model.Lwe Model.Rlwe Model.Gadget Model.BlindRotation
  Proofs.Arith Proofs.BarrettProofs Proofs.NumTheory Proofs.FieldProofs Proofs.PolyMath Proofs.NTTProofs Proofs.NTTTableProofs
  Proofs.PolyProofs Proofs.MonomialProofs Proofs.RingProofs Proofs.GadgetProofs Proofs.RlweProofs Proofs.GadgetMain Proofs.RgswProofs Proofs.SampleProofs Proofs.BlindProofs Proofs.BlindKeyProofs Proofs.MomentProofs Proofs.SubGaussProofs Proofs.NoiseProofs
  Proofs.UniformProofs Proofs.InterpProofs Proofs.SlotProofs Proofs.DeadProofs.
Import ListNotations.
Local Open Scope Z_scope.

Section Field.
Variable F : field.
Hypothesis Hok : fok F.
Local Notation p := (fp F).
Hypothesis Hp : prime p.
Variables (tbl : tables) (k : nat) (w : Z).
Hypothesis C : ctx F tbl k w.
Hypothesis Hk : (0 < k)%nat.
Local Notation n := (2 ^ k)%nat.
Variables (b : basis) (bits : Z).
Hypothesis Hb : basis_new F bits = Some b.
Hypothesis Hbits : 0 <= bits.
Variable s : list Z.
Hypothesis Ls : length s = n.
Local Notation ntt := (ntt_of F w k).
Local Notation l := (bs_len b).
Local Notation zt := (zt w k).
Local Notation stepx := (stepx F k).
Local Notation next := (next F tbl k).
Local Notation rgsw_is := (rgsw_is F tbl k b bits s).
Local Notation bin_entry := (bin_entry F tbl k w b s).
Local Notation good_u := (good_u F k b).
Local Notation good_e := (good_e k b).
Local Notation digs := (digs b bits).
Let P0 : 0 < p := p0 F tbl k w C.


Local Notation dcol := (dcol k w b bits).

(** The value of a polynomial in slot [i], as a residue. *)
Definition sv (f : list Z) (i : nat) : Z := ev (zt i) f mod p.
Definition deadb (acc : rlwe) (i : nat) : bool := (sv (ra acc) i =? 0) && (sv (rb acc) i =? 0).
Definition pot (S : list nat) (c : Z) (acc : rlwe) : Z := zp (fun i => gk p c (sv (ra acc) i)) S.
Definition pot' (S : list nat) (c : Z) (acc : rlwe) : Z := zp (fun i => if deadb acc i then p else c) S.
Lemma gk_nonneg c x : 0 <= c -> 0 <= gk p c x. Proof. intros. unfold gk. destruct (x =? 0); lia. Qed.
Lemma pot_nonneg S c acc : 0 <= c -> 0 <= pot S c acc.
Proof. intros H. apply zp_nonneg. intros. apply gk_nonneg. exact H. Qed.
Lemma pot_le S c acc : 0 <= c <= p -> pot' S c acc <= pot S c acc.
Proof.
  intros H. apply zp_le. intros i _. unfold deadb, gk. destruct (sv (ra acc) i =? 0); cbn [andb]; [|lia]. destruct (sv (rb acc) i =? 0); lia.
Qed.
Lemma deadb_true acc i : dead F k w acc i -> deadb acc i = true.
Proof.
  intros (H1 & H2). unfold deadb, sv. apply (Z.mod_divide _ p ltac:(lia)) in H1, H2. rewrite H1, H2. reflexivity.
Qed.

(** One step with a fresh mask [u] whose rows enter the slot values with coefficient one. *)
Lemma step_pot S c acc a (nx : rows2 -> rlwe) (g : nat -> Z) : NoDup S -> (forall i, In i S -> (i < n)%nat) -> 0 <= c -> c + 1 <= p ->
  rlwe_wf p n acc -> (0 < a < 2 * n)%nat ->
  (forall u wt, In (u, wt) (noise_rows2 n l (uniform p)) -> forall i, (i < n)%nat -> cong p (ev (zt i) (ra (nx u))) (g i + dotz (dcol i (stepx a acc)) (cols2 i u))) ->
  wsum (noise_rows2 n l (uniform p)) (fun u => pot S c (nx u)) <= pot' S (c + 1) acc * mass (noise_rows2 n l (uniform p)).
Proof.
  intros HS Hn Hc0 Hc1 Wacc Ha H. set (M := noise_rows2 n l (uniform p)).
  assert (HM : nonneg M) by (apply nonneg_both; apply nonneg_each, nonneg_each, uniform_nonneg).
  rewrite (wsum_ext M _ (fun u => zp (fun i => gk p c ((g i + dotz (dcol i (stepx a acc)) (cols2 i u)) mod p)) S)).
  2:{ intros u wt Hu. unfold pot. apply zp_ext. intros i Hi. f_equal. unfold sv. apply cong_iff; [exact P0|]. apply (H u wt Hu i (Hn i Hi)). }
  eapply Z.le_trans; [apply (step_law p n l Hp S (fun i => dcol i (stepx a acc)) g c HS Hn); [intros; apply dcol_length|exact Hc0]|].
  apply Z.mul_le_mono_nonneg_r; [apply mass_nonneg; exact HM|]. apply zp_le. intros i Hi. destruct (isreg p Hp _) eqn:Er.
  - destruct (deadb acc i); lia.
  - apply isreg_false in Er. rewrite (deadb_true acc i) by (apply (irregular_dead F Hok Hp tbl k w C Hk b bits Hb Hbits s Ls acc a i Wacc Ha Er)). split; [apply gk_nonneg; lia|unfold gk; destruct (_ =? 0); lia].
Qed.

Lemma masks_good u wt : In (u, wt) (noise_rows2 n l (uniform p)) -> good_u u.
Proof.
  destruct u as [u0 u1]. intros H. unfold noise_rows2 in H. apply in_both in H. destruct H as ((w0 & H0) & (w1 & H1)). apply in_masks in H0, H1. split; assumption.
Qed.

Section Chain.
Context {U X : Type}.
Variables (M : dist U) (next1 : Z -> Z -> U -> rlwe -> X -> rlwe) (goodz : Z -> Prop) (goodx : X -> Prop) (S : list nat).
Hypothesis HM : nonneg M.
Hypothesis Hwf : forall z0 a0 u wt acc x, goodz z0 -> goodx x -> 0 < a0 < 2 * Z.of_nat n -> In (u, wt) M -> rlwe_wf p n acc -> rlwe_wf p n (next1 z0 a0 u acc x).
Hypothesis Hstep : forall z0 a0 acc x c, goodz z0 -> goodx x -> 0 < a0 < 2 * Z.of_nat n -> rlwe_wf p n acc -> 0 <= c -> c + 1 <= p ->
  wsum M (fun u => pot S c (next1 z0 a0 u acc x)) <= pot' S (c + 1) acc * mass M.
Lemma nonzeros_nonneg a : 0 <= nonzeros a.
Proof. unfold nonzeros. lia. Qed.
Lemma chain_pot z : Forall goodz z -> forall a xs acc, length a = length z -> length xs = length z -> Forall goodx xs -> Forall (fun x => 0 <= x < 2 * Z.of_nat n) a ->
  nonzeros a <= p -> rlwe_wf p n acc ->
  wsum (each (length z) M) (fun us => pot S 0 (loop_out next1 z a us acc xs)) <= pot S (nonzeros a) acc * mass (each (length z) M) /\
  (0 < nonzeros a -> wsum (each (length z) M) (fun us => pot S 0 (loop_out next1 z a us acc xs)) <= pot' S (nonzeros a) acc * mass (each (length z) M)).
Proof.
  induction 1 as [|z0 z Hz0 Hz IH]; intros [|a0 a] [|x xs] acc La Lx Hx Ha Hk0 Wacc; try discriminate La; try discriminate Lx.
  - cbn [length]. change (nonzeros []) with 0. split; [|lia]. unfold mass. cbn [each wsum]. cbn [loop_out]. lia.
  - injection La as La. injection Lx as Lx. inversion Hx as [|? ? Hx0 Hx']; subst. inversion Ha as [|? ? Ha0 Ha']; subst. cbn [length]. rewrite wsum_each_S, mass_each_S.
    assert (H0 : nonneg (each (length z) M)) by (apply nonneg_each; exact HM). pose proof (mass_nonneg _ H0) as H0'. pose proof (mass_nonneg _ HM) as HM'. pose proof (nonzeros_nonneg a) as Hna.
    destruct (Z.eqb_spec a0 0) as [->|Hne].
    + assert (Ew : wsum M (fun x0 => wsum (each (length z) M) (fun us => pot S 0 (loop_out next1 (z0 :: z) (0 :: a) (x0 :: us) acc (x :: xs)))) =
        mass M * wsum (each (length z) M) (fun us => pot S 0 (loop_out next1 z a us acc xs))).
      { rewrite (wsum_ext M _ (fun _ => wsum (each (length z) M) (fun us => pot S 0 (loop_out next1 z a us acc xs)))) by (intros; reflexivity). rewrite wsum_const. ring. }
      rewrite Ew. rewrite nz_0 in *. destruct (IH a xs acc La Lx Hx' Ha' Hk0 Wacc) as (I1 & I2).
      split; [|intros Hpos; specialize (I2 Hpos)]; rewrite (Z.mul_comm (mass M) (mass (each _ _))), Z.mul_assoc, (Z.mul_comm _ (mass M)); apply Z.mul_le_mono_nonneg_l; lia.
    + rewrite (nz_S a0 a Hne) in *. assert (Hs : wsum M (fun x0 => wsum (each (length z) M) (fun us => pot S 0 (loop_out next1 (z0 :: z) (a0 :: a) (x0 :: us) acc (x :: xs)))) <=
         pot' S (1 + nonzeros a) acc * (mass M * mass (each (length z) M))).
      { eapply Z.le_trans; [apply (wsum_le M _ (fun u => mass (each (length z) M) * pot S (nonzeros a) (next1 z0 a0 u acc x)) HM)|].
        - intros u wt Hu. assert (Wn : rlwe_wf p n (next1 z0 a0 u acc x)) by (eapply Hwf; try eassumption; lia).
          destruct (IH a xs _ La Lx Hx' Ha' ltac:(lia) Wn) as (I1 & _). rewrite (Z.mul_comm (mass _)).
          eapply Z.le_trans; [|exact I1]. apply Z.eq_le_incl. apply wsum_ext. intros us wt' _. cbn [loop_out]. destruct (Z.eqb_spec a0 0); [contradiction|reflexivity].
        - rewrite wsum_scale. replace (pot' S (1 + nonzeros a) acc * (mass M * mass (each (length z) M))) with (mass (each (length z) M) * (pot' S (nonzeros a + 1) acc * mass M)).
          + apply Z.mul_le_mono_nonneg_l; [exact H0'|]. apply Hstep; try assumption; lia.
          + rewrite (Z.add_comm (nonzeros a)). ring. }
      split; [|intros _; exact Hs]. eapply Z.le_trans; [exact Hs|]. apply Z.mul_le_mono_nonneg_r; [apply Z.mul_nonneg_nonneg; assumption|]. apply pot_le. lia.
Qed.
Lemma chain_wf z : Forall goodz z -> forall a us xs acc, length a = length z -> length xs = length z -> Forall goodx xs -> Forall (fun x => 0 <= x < 2 * Z.of_nat n) a ->
  length us = length z -> Forall (fun u => exists wt, In (u, wt) M) us -> rlwe_wf p n acc -> rlwe_wf p n (loop_out next1 z a us acc xs).
Proof.
  induction 1 as [|z0 z Hz0 Hz IH]; intros [|a0 a] [|u us] [|x xs] acc La Lx Hx Ha Lu Hu Wacc; try discriminate La; try discriminate Lx; try discriminate Lu; [exact Wacc|].
  injection La as La. injection Lx as Lx. injection Lu as Lu. inversion Hx; inversion Ha; inversion Hu as [|? ? (wt & Hut) ?]; subst. cbn [loop_out].
  destruct (Z.eqb_spec a0 0); [apply IH; assumption|]. apply IH; try assumption. eapply Hwf; try eassumption. lia.
Qed.
End Chain.

(** * Binary keys *)
Lemma bin_step_slot z0 a0 u e acc i : z0 = 0 \/ z0 = 1 -> good_u u -> good_e e -> rlwe_wf p n acc -> (i < n)%nat ->
  rlwe_wf p n (bin_next1 F tbl k w b s z0 a0 u acc e) /\
  cong p (ev (zt i) (ra (bin_next1 F tbl k w b s z0 a0 u acc e)))
     (ev (zt i) (ra acc) + dotz (dcol i (stepx (Z.to_nat a0) acc)) (kap b bits z0) + dotz (dcol i (stepx (Z.to_nat a0) acc)) (cols2 i u)).
Proof.
  intros Hz Gu Ge Wacc Hi. destruct (bin_entry_is F Hok Hp tbl k w C Hk b bits Hb Hbits s Ls z0 u e Hz Gu Ge) as (_ & HR).
  destruct (next_wf_slot F Hok Hp tbl k w C Hk b bits Hb Hbits s Ls _ _ _ acc (Z.to_nat a0) i HR Wacc Hi) as (W1 & E1). unfold bin_next1. split; [exact W1|].
  rewrite E1. rewrite (dotz_cong p _ _ _ (bin_entry_masks F Hok Hp tbl k w C Hk b bits Hb Hbits s Ls z0 u e i Hz Gu Ge Hi)).
  rewrite dotz_padd. { apply cong_of_eq. ring. }
  rewrite kap_length. unfold cols2. rewrite col_app, app_length, !col_length. destruct Gu as ((? & _) & (? & _)). lia.
Qed.
Definition binz (x : Z) : Prop := x = 0 \/ x = 1.
Lemma bin_chain S z us0 a es acc : NoDup S -> (forall i, In i S -> (i < n)%nat) ->
  Forall binz z -> us0 = each (length z) (noise_rows2 n l (uniform p)) -> length a = length z -> length es = length z -> Forall good_e es ->
  Forall (fun x => 0 <= x < 2 * Z.of_nat n) a -> 0 < nonzeros a <= p -> rlwe_wf p n acc ->
  wsum us0 (fun us => pot S 0 (loop_out (bin_next1 F tbl k w b s) z a us acc es)) <= pot' S (nonzeros a) acc * mass us0.
Proof.
  intros HS Hn Hz -> La Le He Ha Hnz Wacc. pose proof (nn0 k) as N0.
  assert (HM : nonneg (noise_rows2 n l (uniform p))) by (apply nonneg_both; apply nonneg_each, nonneg_each, uniform_nonneg).
  apply (chain_pot (noise_rows2 n l (uniform p)) (bin_next1 F tbl k w b s) binz good_e S HM); try assumption; try lia.
  - intros z0 a0 u wt acc' x Hz0 Hx Ha0 Hu Wa. apply (bin_step_slot z0 a0 u x acc' 0%nat Hz0 (masks_good u wt Hu) Hx Wa N0).
  - intros z0 a0 acc' x c Hz0 Hx Ha0 Wa Hc0 Hc1. apply (step_pot S c acc' (Z.to_nat a0) _ (fun i => ev (zt i) (ra acc') + dotz (dcol i (stepx (Z.to_nat a0) acc')) (kap b bits z0))); try assumption; try lia.
    intros u wt Hu i Hi. apply (bin_step_slot z0 a0 u x acc' i Hz0 (masks_good u wt Hu) Hx Wa Hi).
Qed.

(** * Ternary keys *)
Definition terz (x : Z) : Prop := x = 0 \/ x = 1 \/ x = -1.
Local Notation good_uu := (good_uu F k b).
Local Notation good_ee := (good_ee k b).
Lemma ter_step_slot z0 a0 u e acc i : good_uu u -> good_ee e -> rlwe_wf p n acc -> (i < n)%nat ->
  let d := dcol i (stepx (Z.to_nat a0) acc) in
  rlwe_wf p n (ter_next1 F tbl k w b s z0 a0 u acc e) /\
  cong p (ev (zt i) (ra (ter_next1 F tbl k w b s z0 a0 u acc e)))
     (ev (zt i) (ra acc) + dotz d (kap b bits (if z0 =? 1 then 1 else 0)) +
      ev (zt i) (ter_v k a0) * (dotz d (kap b bits (if z0 =? -1 then 1 else 0)) + dotz d (cols2 i (snd u))) + dotz d (cols2 i (fst u))).
Proof.
  intros (Gu0 & Gu1) (Ge0 & Ge1) Wacc Hi d. set (m0 := if z0 =? 1 then 1 else 0). set (m1 := if z0 =? -1 then 1 else 0).
  assert (Hm0 : m0 = 0 \/ m0 = 1) by (unfold m0; destruct (z0 =? 1); tauto). assert (Hm1 : m1 = 0 \/ m1 = 1) by (unfold m1; destruct (z0 =? -1); tauto).
  destruct (bin_entry_is F Hok Hp tbl k w C Hk b bits Hb Hbits s Ls m0 (fst u) (fst e) Hm0 Gu0 Ge0) as (_ & HR0).
  destruct (bin_entry_is F Hok Hp tbl k w C Hk b bits Hb Hbits s Ls m1 (snd u) (snd e) Hm1 Gu1 Ge1) as (_ & HR1).
  assert (Lv : length (ter_v k a0) = n) by apply monomial_length.
  destruct (rgsw_is_comb F Hok Hp tbl k w C b bits s Ls (ter_v k a0) _ _ _ _ _ _ (nrgsw_zero n b) Lv (monomial_length _ _ _) (monomial_length _ _ _) HR0 HR1 (zero_space _ _)) as (_ & _ & HR).
  destruct (next_wf_slot F Hok Hp tbl k w C Hk b bits Hb Hbits s Ls _ _ _ acc (Z.to_nat a0) i HR Wacc Hi) as (W1 & E1). unfold ter_next1, ter_entry. cbn [fst snd]. split; [exact W1|].
  eapply cong_trans; [exact E1|]. fold d. rewrite (dotz_cong p d _ _ (ek_masks F Hok Hp tbl k w C b bits s _ _ _ _ _ _ _ i Lv HR0 HR1 Hi)).
  assert (LM : forall R e0 m, rgsw_is m R e0 -> length (mcol i R) = (l + l)%nat).
  { intros R e0 m (X & HN & WX & _). rewrite (rgsw_to_ntt_correct F Hok tbl k w C b X WX) in HN. injection HN as <-. destruct WX as ((_ & A0 & _) & (_ & A1 & _)).
    unfold DeadProofs.mcol, nrgsw. cbn [c_neg c_m gd]. rewrite map_length, app_length, !map_length. lia. }
  assert (LK : forall v m, good_u v -> length (cols2 i v) = length (kap b bits m)).
  { intros v m ((? & _) & (? & _)). rewrite kap_length. unfold cols2. rewrite col_app, app_length, !col_length. lia. }
  rewrite dotz_padd by (unfold pscale; rewrite map_length, (LM _ _ _ HR0), (LM _ _ _ HR1); reflexivity). rewrite dotz_pscale.
  rewrite (dotz_cong p d _ _ (bin_entry_masks F Hok Hp tbl k w C Hk b bits Hb Hbits s Ls m0 _ _ i Hm0 Gu0 Ge0 Hi)).
  rewrite (dotz_cong p d _ _ (bin_entry_masks F Hok Hp tbl k w C Hk b bits Hb Hbits s Ls m1 _ _ i Hm1 Gu1 Ge1 Hi)).
  rewrite !dotz_padd by (apply LK; assumption). apply cong_of_eq. ring.
Qed.
Lemma ter_chain S z us0 a es acc : NoDup S -> (forall i, In i S -> (i < n)%nat) ->
  us0 = each (length z) (both (noise_rows2 n l (uniform p)) (noise_rows2 n l (uniform p))) -> length a = length z -> length es = length z -> Forall good_ee es ->
  Forall (fun x => 0 <= x < 2 * Z.of_nat n) a -> 0 < nonzeros a <= p -> rlwe_wf p n acc ->
  wsum us0 (fun us => pot S 0 (loop_out (ter_next1 F tbl k w b s) z a us acc es)) <= pot' S (nonzeros a) acc * mass us0.
Proof.
  intros HS Hn -> La Le He Ha Hnz Wacc. pose proof (nn0 k) as N0. set (M := noise_rows2 n l (uniform p)).
  assert (HM : nonneg M) by (apply nonneg_both; apply nonneg_each, nonneg_each, uniform_nonneg).
  assert (HG : forall u wt, In (u, wt) (both M M) -> good_uu u).
  { intros [u0 u1] wt Hu. apply in_both in Hu. destruct Hu as ((w0 & H0) & (w1 & H1)). split; eapply masks_good; eassumption. }
  apply (chain_pot (both M M) (ter_next1 F tbl k w b s) (fun _ => True) good_ee S (nonneg_both _ _ HM HM)); try assumption; try lia.
  - intros z0 a0 u wt acc' x _ Hx Ha0 Hu Wa. apply (ter_step_slot z0 a0 u x acc' 0%nat (HG u wt Hu) Hx Wa N0).
  - intros z0 a0 acc' x c _ Hx Ha0 Wa Hc0 Hc1. rewrite wsum_both, wsum_swap, mass_both.
    eapply Z.le_trans; [apply (wsum_le M _ (fun _ => pot' S (c + 1) acc' * mass M) HM)|rewrite wsum_const; apply Z.eq_le_incl; ring].
    intros u1 w1 H1. set (d := fun i => dcol i (stepx (Z.to_nat a0) acc')).
    apply (step_pot S c acc' (Z.to_nat a0) (fun u0 => ter_next1 F tbl k w b s z0 a0 (u0, u1) acc' x) (fun i => ev (zt i) (ra acc') + dotz (d i) (kap b bits (if z0 =? 1 then 1 else 0)) +
      ev (zt i) (ter_v k a0) * (dotz (d i) (kap b bits (if z0 =? -1 then 1 else 0)) + dotz (d i) (cols2 i u1)))); try assumption; try lia.
    intros u0 w0 H0 i Hi. apply (ter_step_slot z0 a0 (u0, u1) x acc' i (conj (masks_good _ _ H0) (masks_good _ _ H1)) Hx Wa Hi).
  - apply Forall_forall. auto.
Qed.
End Field.
