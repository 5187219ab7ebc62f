(** The chance that a bootstrap fails when the modulus switch comes before the key switch, or no key switch
    follows. *)
From Coq Require Import ZArith Znumtheory List Bool Arith Lia Setoid Morphisms.
From Verif Require Import Spec.Basic Spec.Poly Spec.Ring Spec.Lattice Spec.Blind Spec.Switch Spec.Gates Spec.Moment Spec.Noise Spec.SubGauss Spec.Count Spec.Boot Spec.BootLwe Model.Base Model.Field Model.NTT Model.Concrete Model.Poly Model.Lwe Model.Rlwe Model.Gadget Model.BlindRotation Model.KeySwitch Model.ModSwitch Model.Params Model.Boolean Model.SecretKey
  Proofs.Arith Proofs.BarrettProofs Proofs.NumTheory Proofs.FieldProofs Proofs.PolyMath Proofs.NTTProofs Proofs.NTTTableProofs
  Proofs.PolyProofs Proofs.MonomialProofs Proofs.RingProofs Proofs.GadgetProofs Proofs.RlweProofs Proofs.GadgetMain Proofs.RgswProofs Proofs.SampleProofs Proofs.BlindProofs Proofs.BlindKeyProofs Proofs.MomentProofs Proofs.SubGaussProofs Proofs.NoiseProofs
  Proofs.UniformProofs Proofs.InterpProofs Proofs.SlotProofs Proofs.DeadProofs Proofs.PotProofs Proofs.AliveProofs Proofs.TopProofs Proofs.RotProofs Proofs.LastStepProofs Proofs.LweSwitchProofs Proofs.LweProofs Proofs.KeyGenProofs Proofs.GateProofs Proofs.BootExactProofs Proofs.GateFormProofs Proofs.BootTailProofs Props.C37 Props.C39.
Import ListNotations.
Local Open Scope Z_scope.

(** Sums over independent draws. *)
Lemma sum_sg {A : Type} c (D : dist A) (d : A) V : nonneg D -> 0 <= V -> forall m (g : nat -> A -> Z), (forall i, sg D (fun x => c * g i x) (c * c * V)) ->
  sg (each m D) (fun l => c * zsum (fun i => g i (nth i l d)) m) (c * c * (Z.of_nat m * V)).
Proof.
  intros HD HV. set (R := fun (A : Type) (D : dist A) (f : A -> Z) B => sg D (fun x => c * f x) (c * c * B)). pose proof (sgc_calculus c) as CR. fold R in CR.
  induction m as [|m IH]; intros g Hg.
  - apply (cal_ext _ CR _ _ (fun _ => 0)); [reflexivity|]. apply (cal_zero _ CR).
  - replace (Z.of_nat (S m) * V) with (V + Z.of_nat m * V) by lia.
    apply (cal_each_S _ CR _ D m (g 0%nat) (fun _ l => zsum (fun i => g (S i) (nth i l d)) m)); [exact HD|apply Hg| | |].
    + apply Z.mul_nonneg_nonneg; lia.
    + intros x wt _. apply (IH (fun i => g (S i))). intros i. apply Hg.
    + intros x l. rewrite zsum_shift. reflexivity.
Qed.
Lemma pick_sg c D V : 0 <= V -> sub_gaussian V D -> forall m i, sg (each m D) (fun l => c * nth i l 0) (c * c * V).
Proof.
  intros HV HD. set (R := fun (A : Type) (D : dist A) (f : A -> Z) B => sg D (fun x => c * f x) (c * c * B)). pose proof (sgc_calculus c) as CR. fold R in CR.
  induction m as [|m IH]; intros i.
  - apply (cal_weaken _ CR _ _ _ 0); [apply nonneg_each, HD|exact HV|]. apply (cal_ext _ CR _ _ (fun _ => 0)); [|apply (cal_zero _ CR)].
    intros l wt H. apply in_each in H. destruct H as (H & _). destruct l; [destruct i; reflexivity|discriminate].
  - destruct i as [|i].
    + replace V with (V + 0) by ring. apply (cal_each_S _ CR _ D m (fun x => x) (fun _ _ => 0)); [apply HD| |lia| |].
      * pose proof (sgc_draw c D V HV HD 1) as H. replace (1 * 1 * V) with V in H by ring. apply (sg_ext D (fun x => c * (1 * x))); [intros; ring|exact H].
      * intros x wt _. apply (cal_zero _ CR).
      * intros x l. cbn [nth]. ring.
    + replace V with (0 + V) by ring. apply (cal_each_S _ CR _ D m (fun _ => 0) (fun _ l => nth i l 0)); [apply HD|apply (cal_zero _ CR)|exact HV| |].
      * intros x wt _. apply IH.
      * intros x l. reflexivity.
Qed.

(** The noise an LWE key switch selects. *)
Definition entry (fs : list (list (list Z))) (l i : nat) (v : Z) : Z := nth (Z.to_nat (v - 1)) (nth i (nth l fs []) []) 0.
Lemma selected_sg c base lk n a D V : 0 <= V -> sub_gaussian V D -> length a = n ->
  sg (each lk (each n (each (Z.to_nat (base - 1)) D))) (fun fs => c * selected_noise base lk a (entry fs)) (c * c * (Z.of_nat lk * (Z.of_nat n * V))).
Proof.
  intros HV HD <-. pose proof (proj1 HD) as H0. unfold selected_noise, entry.
  apply (sum_sg c (each (length a) (each (Z.to_nat (base - 1)) D)) [] (Z.of_nat (length a) * V) (nonneg_each _ _ (nonneg_each _ _ H0)) ltac:(apply Z.mul_nonneg_nonneg; lia) lk
    (fun l row => zsum (fun i => let d := digit base (nth i a 0) l in if d =? 0 then 0 else nth (Z.to_nat (d - 1)) (nth i row []) 0) (length a))).
  intros l. apply (sum_sg c (each (Z.to_nat (base - 1)) D) [] V (nonneg_each _ _ H0) HV (length a)
    (fun i r => let d := digit base (nth i a 0) l in if d =? 0 then 0 else nth (Z.to_nat (d - 1)) r 0)).
  intros i. cbv zeta. destruct (digit base (nth i a 0) l =? 0).
  - apply (sg_weaken _ _ 0); [apply nonneg_each, H0|apply Z.mul_nonneg_nonneg; [apply Z.square_nonneg|exact HV]|]. apply (sg_ext _ (fun _ => 0)); [intros; ring|apply sg_zero].
  - apply pick_sg; assumption.
Qed.

(** The draws of the switching key. *)
Lemma zip_length {X Y W : Type} (f : X -> Y -> W) a b : length a = length b -> length (zip_with f a b) = length a.
Proof. intros H. unfold zip_with. rewrite map_length, combine_length. lia. Qed.
Lemma zip_nth {X Y W : Type} (f : X -> Y -> W) dx dy dw : f dx dy = dw -> forall a b i, length a = length b -> nth i (zip_with f a b) dw = f (nth i a dx) (nth i b dy).
Proof.
  intros E. induction a as [|x a IH]; intros [|y b] i H; try discriminate H; [destruct i; symmetry; exact E|]. destruct i as [|i]; [reflexivity|].
  apply (IH b i). injection H. auto.
Qed.
Lemma zip_Forall {X Y W : Type} (f : X -> Y -> W) (Q : X -> Prop) (R : Y -> Prop) (S : W -> Prop) : (forall x y, Q x -> R y -> S (f x y)) ->
  forall a b, Forall Q a -> Forall R b -> Forall S (zip_with f a b).
Proof.
  intros H. induction a as [|x a IH]; intros b Ha Hb; [constructor|]. destruct b as [|y b]; [constructor|]. inversion Ha; inversion Hb; subst. constructor; [apply H; assumption|apply IH; assumption].
Qed.
Definition good_fs (lk n : nat) (base : Z) (fs : list (list (list Z))) : Prop :=
  length fs = lk /\ Forall (fun level => length level = n /\ Forall (fun row => length row = Z.to_nat (base - 1)) level) fs.
Lemma fs_good lk n base D fs wt : In (fs, wt) (each lk (each n (each (Z.to_nat (base - 1)) D))) -> good_fs lk n base fs.
Proof.
  intros H. apply in_each in H. destruct H as (L & H). split; [exact L|]. eapply Forall_impl; [|exact H]. intros level (v & Hl). apply in_each in Hl. destruct Hl as (L' & Hl).
  split; [exact L'|]. eapply Forall_impl; [|exact Hl]. intros row (v' & Hr). apply in_each in Hr. apply Hr.
Qed.
Section Draws.
Variables (q base : Z) (n lk m : nat).
Hypothesis Hb : 1 <= base.
Variables (masks : list (list (list (list Z)))) (fs : list (list (list Z))).
Hypothesis HM : switch_masks q n base lk m masks.
Hypothesis HF : good_fs lk m base fs.
Local Notation rnd := (zip_with (zip_with (zip_with (fun (a : list Z) e => (a, e mod q)))) masks fs).
Lemma draws_shape : switch_draws q n base lk m rnd.
Proof.
  destruct HM as (L1 & H1), HF as (L2 & H2). split; [rewrite zip_length; congruence|]. eapply zip_Forall; [|exact H1|exact H2]. cbv beta.
  intros lm lf (La & Ha) (Lb & Hb'). split; [rewrite zip_length; congruence|]. eapply zip_Forall; [|exact Ha|exact Hb']. cbv beta.
  intros rm rf (Lc & Hc) Ld. assert (El : length rm = length rf) by lia. split; [rewrite zip_length; assumption|].
  eapply (zip_Forall _ _ (fun _ => True)); [|exact Hc|apply Forall_forall; intros; exact I]. cbn. auto.
Qed.
Lemma draws_noise l i v : cong q (entry fs l i v) (drawn_noise rnd l i v).
Proof.
  destruct HM as (L1 & H1), HF as (L2 & H2). unfold drawn_noise, entry. rewrite (zip_nth _ [] [] [] eq_refl) by congruence.
  assert (A : length (nth l masks []) = length (nth l fs [])).
  { destruct (Nat.lt_ge_cases l (length masks)) as [Hl|Hl]; [|rewrite !nth_overflow by lia; reflexivity].
    pose proof (proj1 (Forall_forall _ _) H1 _ (nth_In masks [] Hl)) as (X & _). pose proof (proj1 (Forall_forall _ _) H2 _ (nth_In fs [] (n := l) ltac:(lia))) as (Y & _). congruence. }
  rewrite (zip_nth _ [] [] [] eq_refl) by exact A.
  assert (A' : length (nth i (nth l masks []) []) = length (nth i (nth l fs []) [])).
  { destruct (Nat.lt_ge_cases i (length (nth l masks []))) as [Hi|Hi]; [|rewrite !nth_overflow by lia; reflexivity].
    assert (Hl : (l < length masks)%nat) by (destruct (Nat.lt_ge_cases l (length masks)) as [|G]; [assumption|rewrite (nth_overflow masks) in Hi by lia; cbn in Hi; lia]).
    pose proof (proj1 (Forall_forall _ _) H1 _ (nth_In masks [] Hl)) as (_ & X). pose proof (proj1 (Forall_forall _ _) H2 _ (nth_In fs [] (n := l) ltac:(lia))) as (_ & Y).
    pose proof (proj1 (Forall_forall _ _) X _ (nth_In (nth l masks []) [] Hi)) as (X' & _). pose proof (proj1 (Forall_forall _ _) Y _ (nth_In (nth l fs []) [] (n := i) ltac:(lia))) as Y'. cbv beta in Y'. lia. }
  rewrite (zip_nth (fun (a : list Z) e => (a, e mod q)) [] 0 ([], 0)) by (exact A' || reflexivity). cbn [snd].
  destruct (Z.eq_dec q 0) as [->|Hq]; [rewrite Zmod_0_r; apply cong_refl|]. exists (nth (Z.to_nat (v - 1)) (nth i (nth l fs []) []) 0 / q). pose proof (Z.div_mod (nth (Z.to_nat (v - 1)) (nth i (nth l fs []) []) 0) q Hq). lia.
Qed.
End Draws.

Section Field.
Variables (BF : Z) (F : field).
Hypothesis Hok : fok F.
Local Notation p := (fp F).
Hypothesis Hp : prime p.
Hypothesis HBF : wwidth BF.
Hypothesis HF : derive_field BF p = Some F.
Hypothesis Hp64 : p < 2 ^ 64.
Variables (tbl : tables) (k : nat) (w : Z).
Hypothesis Hsv : serves F tbl k.
Hypothesis C : ctx F tbl k w.
Hypothesis Hk : (2 <= k <= 31)%nat.
Let Hk0 : (0 < k)%nat := Nat.lt_le_trans 0 2 k Nat.lt_0_2 (proj1 Hk).
Local Notation n := (2 ^ k)%nat.
Local Notation N := (Z.of_nat n).
Variables (b : basis) (bits : Z).
Hypothesis Hb : basis_new F bits = Some b.
Hypothesis Hbits : 0 <= bits.
Variable s : list Z.
Hypothesis Ls : length s = n.
Hypothesis Hs : Forall (fun x => x = 0 \/ x = 1 \/ x = -1) s.
Variable z : list Z.
Hypothesis Hz : Forall (fun x => x = 0 \/ x = 1 \/ x = -1) z.
Hypothesis Lzp : Z.of_nat (length z) <= p.
Local Notation ntt := (ntt_of F w k).
Local Notation l := (bs_len b).
Local Notation zt := (zt w k).
Let P0 : 0 < p := p0 F tbl k w C.
Let N0 : (0 < n)%nat := nn0 k.
Local Notation good_uu := (good_uu F k b).
Local Notation good_ee := (good_ee k b).
Variables (B j : Z).
Hypothesis HB : 0 < B <= 64.
Hypothesis Hj : 3 <= j < B.
Hypothesis Hj49 : j < 49.
Notation q := (2 ^ j).
Hypothesis HN2 : 2 * N < 2 ^ B.
Hypothesis H52 : (q - 1) * (2 * N) < 2 ^ 52.
Hypothesis H52p : (p - 1) * q < 2 ^ 52.
Variable P : parameters.
Hypothesis PN : pp_N P = N.
Hypothesis Pq : pp_q P = q.
Hypothesis Pb : pp_basis P = b.
Local Notation kb := (pp_ks_bits P).
Local Notation lk := (switch_levels j P).
(** The two orders. *)
Hypothesis Psteps : (pp_steps P = BrMsKs /\ 1 <= kb <= j) \/ (pp_steps P = BrMs /\ s = z).
Variable masks : list (list (list (list Z))).
Hypothesis HM : switch_masks q (length z) (2 ^ kb) lk n masks.
Local Notation good_f := (good_fs lk n (2 ^ kb)).
Local Notation rnd fs := (zip_with (zip_with (zip_with (fun (a : list Z) e => (a, e mod q)))) masks fs).
Local Notation st := (2 ^ Z.max 0 (Z.of_nat k + 1 - j)).
Local Notation rot := (rot F tbl k w s b z).
Local Notation rnoise := (rnoise F tbl k w s b bits z).

Lemma q8 : 8 <= q.
Proof. change 8 with (2 ^ 3). apply Z.pow_le_mono_r; lia. Qed.

(** Generation of the switching key. *)
Definition ksgen (fs : list (list (list Z))) : option ks_key :=
  match pp_steps P with
  | BrMsKs => let* K := lks_generate B q kb (map (fun x => x mod q) z) (map (fun x => x mod p) s) (rnd fs) in Some (KsLwe K)
  | _ => Some KsNone
  end.
Definition after (K : ks_key) (c l1 : lwe) : option lwe :=
  match pp_steps P with
  | BrMsKs => let* y := lwe_modulus_switch B p q l1 in match K with KsLwe K => lks_key_switch B K y | _ => None end
  | _ => lwe_modulus_switch_inplace B p q l1 c
  end.

(** The mask of the ciphertext that is switched. *)
Definition smask (ct : rlwe) : list Z := map (fun v => round_div (v * q) p mod q) (ext F (ra ct)).
Definition sel (ct : rlwe) (fs : list (list (list Z))) : Z := selected_noise (2 ^ kb) lk (smask ct) (entry fs).

Lemma after_exact fs c l1 : good_f fs -> length (la c) = length z -> lwe_wf p n l1 ->
  exists K, ksgen fs = Some K /\ exists y g, after K c l1 = Some y /\ lwe_wf q (length z) y /\ 2 * Z.abs g <= p /\
    cong (p * q) (p * phase q z y) (q * phase p s l1 + g - dotz (map (rho p q) (la l1)) s - p * selected_noise (2 ^ kb) lk (map (fun v => round_div (v * q) p mod q) (la l1)) (entry fs)).
Proof.
  intros Gf Lc W1. pose proof q8 as Q8. assert (Q1 : 0 < q < 2 ^ B) by (split; [lia|apply Z.pow_lt_mono_r; lia]).
  destruct (C39_ciphertext B p q n l1 l1 s HB ltac:(lia) Q1 H52p W1 (proj1 W1)) as (y & Ey & _ & _ & Ya & Yb & Wy & _).
  assert (D1 : cong (p * q) (p * phase q s y) (q * phase p s l1 + rho p q (lb l1) - dotz (map (rho p q) (la l1)) s)).
  { assert (E : cong (p * q) (p * phase q s y) (p * (lb y - dotz (la y) s))) by (rewrite (Z.mul_comm p q); apply cong_scale; unfold phase; apply cong_mod; lia).
    rewrite E, Ya, Yb, Z.mul_sub_distr_l. rewrite (round_one p q (lb l1) P0 ltac:(lia)), (round_dot p q s P0 ltac:(lia) (la l1)).
    assert (E' : cong (p * q) (q * phase p s l1) (q * (lb l1 - dotz (la l1) s))) by (apply cong_scale; unfold phase; apply cong_mod; lia).
    rewrite E'. apply cong_of_eq. ring. }
  destruct Psteps as [(PS & Hkb)|(PS & Esz)].
  - unfold ksgen, after. rewrite PS, Ey. cbn [bind].
    assert (EL : lk = Z.to_nat ((j + kb - 1) / kb)) by (unfold switch_levels; rewrite PS; reflexivity).
    assert (PB : 1 <= 2 ^ kb) by (apply (Z.pow_le_mono_r 2 0 kb); lia).
    destruct (C37_generate B kb j p (map (fun x => x mod q) z) s (rnd fs) Hkb ltac:(lia) (ctx_gt2 F tbl k w C) Hs) as (wb & key & E1 & E2 & HN).
    { rewrite map_length, Ls, <- EL. apply draws_shape; assumption. }
    rewrite E2. cbn [bind]. eexists. split; [reflexivity|].
    assert (Hlen : wb_len wb = lk).
    { rewrite wbasis_new_pow2 in E1 by lia. destruct ((1 <=? kb) && (kb <=? j)); [|discriminate]. injection E1 as <-. symmetry. exact EL. }
    specialize (HN (entry fs) (draws_noise q (2 ^ kb) (length z) lk n masks fs HM Gf)). apply lwe_switch_key_mod in HN; [|lia].
    rewrite <- Ls in Wy. destruct (C37_key_switch B kb j z s (entry fs) wb key y ltac:(lia) ltac:(lia) E1 HN Wy) as (y' & E3 & W3 & P3).
    exists y', (rho p q (lb l1)). rewrite map_length. split; [exact E3|]. split; [exact W3|]. split; [apply rho_bound; exact P0|].
    rewrite <- Ya, <- Hlen. rewrite P3. set (se := selected_noise _ _ _ _).
    assert (D2 : cong (p * q) (p * ((phase q s y - se) mod q)) (p * (phase q s y - se))) by (rewrite (Z.mul_comm p q); apply cong_scale, cong_mod; lia).
    rewrite D2, Z.mul_sub_distr_l, D1. reflexivity.
  - unfold ksgen, after. rewrite PS. exists KsNone. split; [reflexivity|]. 
    assert (Ln : length (la c) = n) by (rewrite Lc, <- Esz; exact Ls).
    destruct (C39_ciphertext B p q n l1 c s HB ltac:(lia) Q1 H52p W1 Ln) as (y' & Ey' & Ei & _). rewrite Ey in Ey'. injection Ey' as <-.
    exists y, (rho p q (lb l1)). split; [exact Ei|]. rewrite <- Esz, Ls. split; [exact Wy|]. split; [apply rho_bound; exact P0|].
    rewrite D1. apply cong_of_eq. unfold switch_levels. rewrite PS. unfold selected_noise. cbn [zsum]. ring.
Qed.

Lemma boot_exact us es fs : length us = length z -> length es = length z -> Forall good_uu us -> Forall good_ee es -> good_f fs ->
  exists br, ternary_generate F tbl (map (fun x => x mod q) z) (ntt s) b (draws2 p us es) = Some br /\
  forall lut x c, length lut = n -> canonical p lut -> lwe_wf q (length z) x -> lwe_modulus_switch_assign B q (2 * N) x = Some c -> lwe_wf (2 * N) (length z) c ->
  exists ks y g, ksgen fs = Some ks /\ bootstrap B F tbl (mk_eval_key (BrTernary br) ks P) x lut = Some y /\ lwe_wf q (length z) y /\ 2 * Z.abs g <= p /\
    let ct := rot lut c us es in
    cong (p * q) (p * phase q z y)
      (q * (nth 0 (negacyclic n (xpow n (- phase (2 * N) z c)) lut) 0 + p / 8 + rnoise lut c us es) + g - dotz (map (rho p q) (ext F (ra ct))) s - p * sel ct fs).
Proof.
  intros Lu Le Hu He Hf. pose proof q8 as Q8. assert (Hq : 2 < q) by lia.
  destruct (rot_exact F Hok Hp tbl k w C Hk s Ls b bits Hb Hbits z Hz q us es Hq Lu Le Hu He) as (br & E1 & HR). exists br.
  split; [exact E1|]. intros lut x c Ll Cl Hx Ec Wc.
  destruct (HR lut c Ll Cl Wc) as (Er & Wr & Cr).
  set (ct := rot lut c us es) in *.
  destruct (bump BF p k F tbl HBF Hp HF Hsv ltac:(lia) Hp64 ct s Wr Ls) as (b0 & v & b0' & I1 & I2 & I3 & I4 & Wa' & C1). set (ct' := mk_rlwe (ra ct) (b0' :: tl (rb ct))) in *.
  destruct (extract_lwe_correct F Hok n ct' N0 Wa') as (_ & X2 & _). destruct (extract_phase F Hok n s ct' N0 Wa' Ls) as (l1 & _ & X3 & Wl & Pl).
  assert (El : mk_lwe (ext F (ra ct')) (nth 0 (rb ct') 0) = l1) by congruence. rewrite El in X2. assert (Em : la l1 = ext F (ra ct)) by (rewrite <- El; reflexivity).
  destruct (after_exact fs c l1 Hf (proj1 Wc) Wl) as (K & EK & y & g & Ea & Wy & Bg & Cy).
  exists K, y, g. split; [exact EK|]. split; [|split; [exact Wy|split; [exact Bg|]]].
  - unfold bootstrap. cbn [ek_par ek_br ek_ks]. rewrite PN. unfold ushl. change (1 <? 64) with true. cbn [bind]. change (2 ^ 1) with 2.
    assert (2 ^ B <= 2 ^ 64) by (apply Z.pow_le_mono_r; lia).
    replace (N * 2) with (2 * N) by ring. rewrite Z.mod_small by lia.
    replace (2 * N <? 2 ^ B) with true by (symmetry; apply Z.ltb_lt; lia). cbn [assert bind]. rewrite Pq, Pb.
    rewrite Ec. cbn [bind]. rewrite Er. cbn [bind]. rewrite I1. cbn [bind]. rewrite I2. cbn [bind]. rewrite I3. cbn [bind]. rewrite I4. cbn [bind]. fold ct'. unfold after in Ea.
    destruct Psteps as [(PS & _)|(PS & _)]; rewrite PS in *; rewrite X2; cbn [bind]; exact Ea.
  - cbv zeta. rewrite Cy, Em. fold (smask ct). fold (sel ct fs).
    assert (D2 : cong (p * q) (q * phase p s l1) (q * (nth 0 (negacyclic n (xpow n (- phase (2 * N) z c)) lut) 0 + p / 8 + rnoise lut c us es))).
    { apply cong_scale. rewrite Pl. rewrite cong_mod by lia. rewrite C1, Cr. apply cong_of_eq. ring. }
    rewrite D2. reflexivity.
Qed.

(** The noise distributions, and the uniform masks. *)
Variables (D : dist Z) (V : Z).
Hypothesis HV : 0 <= V.
Hypothesis HD : sub_gaussian V D.
Local Notation rvar := (rvar k b bits z V).
Variables (Dk : dist Z) (Vk : Z).
Hypothesis HVk : 0 <= Vk.
Hypothesis HDk : sub_gaussian Vk Dk.
Local Notation US := (each (length z) (both (noise_rows2 n l (uniform p)) (noise_rows2 n l (uniform p)))).
Local Notation ES := (each (length z) (both (noise_rows2 n l D) (noise_rows2 n l D))).
Local Notation FS := (each lk (each n (each (Z.to_nat (2 ^ kb - 1)) Dk))).
Lemma FS_nonneg : nonneg FS.
Proof. do 3 apply nonneg_each. apply HDk. Qed.

(** The noise of the keys. *)
Definition kmain lut c us (x : list (rows2 * rows2) * list (list (list Z))) : Z := q * rnoise lut c us (fst x) + - p * sel (rot lut c us (fst x)) (snd x).
Definition kmvar : Z := q * q * rvar + - p * - p * (Z.of_nat lk * (N * Vk)).
Lemma kmain_sg lut c us wt : length lut = n -> canonical p lut -> lwe_wf (2 * N) (length z) c -> In (us, wt) US -> sg (both ES FS) (kmain lut c us) kmvar.
Proof.
  intros Ll Cl Wc Hu. destruct (US_good F k b z us wt Hu) as (Lu & Gu).
  apply (sg_both ES FS (fun es => q * rnoise lut c us es) (fun es fs => - p * sel (rot lut c us es) fs) _ _ (ES_nonneg k b z D V HD) FS_nonneg).
  - apply (rot_sg F tbl k w Hk s Ls b bits Hbits z D V HV HD); [exact Lu|apply Wc].
  - apply Z.mul_nonneg_nonneg; [apply Z.square_nonneg|]. repeat apply Z.mul_nonneg_nonneg; lia.
  - intros es we He. destruct (ES_good k b z D es we He) as (Le & Ge). pose proof (rot_wf F Hok Hp tbl k w C Hk s Ls b bits Hb Hbits z Hz lut c us es Ll Cl Wc Lu Gu Le Ge) as (Wr & _).
    apply selected_sg; [exact HVk|exact HDk|]. unfold smask. rewrite map_length, ext_len. exact Wr.
Qed.

(** The rounding of the mask. *)
Definition shi (r : nat) : list Z := firstn (n - r) (tl s).
Lemma s_small : Forall (fun y => Z.abs y <= 1) s.
Proof. eapply Forall_impl; [|exact Hs]. cbn. intros y [-> | [-> | ->]]; cbn; lia. Qed.
Lemma shi_len r : (1 <= r <= n)%nat -> length (shi r) = (n - r)%nat.
Proof. intros Hr. unfold shi. pose proof Ls as L. destruct s as [|y s']; cbn [length tl] in *; rewrite firstn_length; lia. Qed.
Lemma shi_small r : Forall (fun y => Z.abs y <= 1) (shi r).
Proof. unfold shi. apply Forall_firstn. pose proof s_small as H. destruct s; [constructor|inversion H; assumption]. Qed.
Lemma shi_norm r : norm1 (shi r) <= norm1 s.
Proof. unfold shi. eapply Z.le_trans; [apply norm1_firstn|]. destruct s; cbn; lia. Qed.
Definition rform (r : nat) (ct : rlwe) : Z := rho_form p q (shi r) (top F r (ra ct)).
Lemma mask_split ct r : (1 <= r <= n)%nat -> rlwe_wf p n ct -> 2 * Z.abs (dotz (map (rho p q) (ext F (ra ct))) s - rform r ct) <= p * Z.of_nat r.
Proof.
  intros Hr (Lm & _). unfold rform. rewrite <- (top_ext F k r _ Hr Lm). set (LA := ext F (ra ct)). assert (LL : length LA = n) by (unfold LA; rewrite ext_len; exact Lm).
  unfold rho_form, shi. assert (RB : Forall (fun x => 2 * Z.abs x <= p) (map (rho p q) LA)).
  { apply Forall_forall. intros x Hx. apply in_map_iff in Hx. destruct Hx as (v & <- & _). apply rho_bound. exact P0. }
  pose proof Ls as LP. pose proof s_small as SP. rewrite RotProofs.dotz_comm. destruct s as [|y pz]; [cbn [length] in LP; lia|]. destruct LA as [|a LA]; [cbn [length] in LL; lia|].
  cbn [map dotz tl length] in *. inversion RB as [|? ? Ra RB']; subst. inversion SP as [|? ? Sy SP']; subst.
  rewrite (RotProofs.dotz_comm _ (map (rho p q) (firstn (n - r) LA))). rewrite <- firstn_map. rewrite (RotProofs.dotz_comm pz), (RotProofs.dotz_split (n - r) (map (rho p q) LA) pz).
  pose proof (RotProofs.dotz_bound p (skipn (n - r) (map (rho p q) LA)) (skipn (n - r) pz) ltac:(lia) (Forall_skipn _ _ _ RB') (Forall_skipn _ _ _ SP')) as HB'.
  rewrite skipn_length in HB'. set (X := dotz (skipn _ _) _) in *. set (Y := dotz (firstn _ _) _).
  replace (y * rho p q a + (Y + X) - Y) with (y * rho p q a + X) by ring. assert (Z.abs (y * rho p q a) <= Z.abs (rho p q a)) by (apply abs_mul1; exact Sy).
  assert (Er : Z.of_nat (length pz - (n - r)) = Z.of_nat r - 1) by lia. rewrite Er in HB'. lia.
Qed.
Variable Vp : Z.
Hypothesis HVp : p * p <= 12 * Vp.
Lemma Vp_nonneg : 0 <= Vp.
Proof. pose proof (Z.square_nonneg p). lia. Qed.
Lemma shi_sg r : (1 <= r <= n)%nat -> sg (each (n - r) (uniform p)) (rho_form p q (shi r)) (norm1 s * Vp).
Proof.
  intros Hr. destruct (p_odd F Hp tbl k w C Hk) as (h & Eh). pose proof (rho_form_sg p q h Vp (shi r) Eh (q_prime F Hp tbl k w C Hk j ltac:(lia)) HVp) as HS. rewrite (shi_len r Hr) in HS.
  eapply sg_weaken; [apply nonneg_each, uniform_nonneg| |exact HS]. apply Z.mul_le_mono_nonneg_r; [apply Vp_nonneg|].
  eapply Z.le_trans; [apply dotz_square_le, shi_small|apply shi_norm].
Qed.

Lemma rform_zero r : rho_form p q (shi r) (top F r (repeat 0 n)) = 0.
Proof.
  unfold rho_form. assert (H : Forall (fun v => v = 0) (map (rho p q) (top F r (repeat 0 n)))).
  { apply Forall_forall. intros v Hv. apply in_map_iff in Hv. destruct Hv as (u & <- & Hu). unfold top, pmod, pneg in Hu. apply in_map_iff in Hu. destruct Hu as (y & <- & Hy).
    apply in_map_iff in Hy. destruct Hy as (y' & <- & Hy). apply in_rev in Hy. assert (y' = 0) by (apply (Forall_skipn (fun y => y = 0) r (repeat 0 n)) in Hy || (revert Hy; apply (proj1 (Forall_forall (fun y => y = 0) _)); apply Forall_skipn, Forall_forall; intros a Ha; apply repeat_spec in Ha; exact Ha)).
    subst y'. cbn [Z.opp]. rewrite Zmod_0_l. unfold rho, round_div. rewrite Z.mul_0_l, Z.mul_0_r, Z.add_0_l, Z.div_small by lia. ring. }
  revert H. generalize (map (rho p q) (top F r (repeat 0 n))) (shi r). intros L. induction L as [|v L IH]; intros z0 H; [destruct z0; reflexivity|]. inversion H; subst.
  destruct z0 as [|y z0]; [reflexivity|]. cbn [dotz]. rewrite IH by assumption. ring.
Qed.

(** The error of the output bit, up to the roundings. *)
Variables (m : bool) (x : lwe) (lut : list Z) (start : Z).
Hypothesis Tb : half_circle_table p n st start lut.
Hypothesis Al : forall i, (i < n)%nat -> ~ (p | ev (zt i) lut).
Hypothesis Wx : lwe_wf q (length z) x.
Hypothesis Tg : forall t e, 2 * Z.abs e <= first_switch N q z -> cong (2 * N * q) (q * t) (2 * N * phase q z x + e) -> ((t - start) mod (2 * N) <? N) = m.

Lemma boot_err : exists c, lwe_wf (2 * N) (length z) c /\
  forall us es fs, length us = length z -> length es = length z -> Forall good_uu us -> Forall good_ee es -> good_f fs ->
  exists br ks y e, ternary_generate F tbl (map (fun x => x mod q) z) (ntt s) b (draws2 p us es) = Some br /\ ksgen fs = Some ks /\
    bootstrap B F tbl (mk_eval_key (BrTernary br) ks P) x lut = Some y /\ bit_ct q z m e y /\
    forall r, (1 <= r <= n)%nat -> 2 * Z.abs (p * e - kmain lut c us (es, fs) + rform r (rot lut c us es)) <= p * (Z.of_nat r + 1) + 14 * (q / 4).
Proof.
  pose proof q8 as Q8. destruct Tb as (Ll & Cl & Tt).
  assert (EN2 : N = 2 ^ Z.of_nat k) by (rewrite Nat2Z.inj_pow; reflexivity).
  assert (Q1 : 0 < q < 2 ^ 64) by (split; [lia|apply Z.pow_lt_mono_r; lia]).
  assert (Hst : st * q = 2 * N \/ (st = 1 /\ (2 * N) mod q <> 0)).
  { replace (2 * N) with (2 ^ (Z.of_nat k + 1)) by (rewrite EN2, Z.pow_add_r by lia; ring).
    destruct (Z.le_gt_cases j (Z.of_nat k + 1)) as [Hle|Hgt].
    - left. rewrite <- Z.pow_add_r by lia. f_equal. lia.
    - right. rewrite Z.max_l by lia. split; [reflexivity|]. rewrite Z.mod_small; [pose proof (Z.pow_pos_nonneg 2 (Z.of_nat k + 1)); lia|].
      split; [apply Z.pow_nonneg; lia|apply Z.pow_lt_mono_r; lia]. }
  destruct (first_switch_ok B q N (length z) x z HB Q1 ltac:(lia) H52 Wx eq_refl st Hst) as (c & e0 & Ec & Wc & Dt & Be & Ct).
  exists c. split; [exact Wc|]. intros us es fs Lu Le Gu Ge Gf.
  destruct (boot_exact us es fs Lu Le Gu Ge Gf) as (br & E1 & HX).
  destruct (HX lut x c Ll Cl Wx Ec Wc) as (ks & y & g & E2 & Ey & Wy & Bg & Cy). cbv zeta in Cy. exists br, ks, y.
  pose proof (rot_wf F Hok Hp tbl k w C Hk s Ls b bits Hb Hbits z Hz lut c us es Ll Cl Wc Lu Gu Le Ge) as Wr.
  set (t := phase (2 * N) z c) in *. set (ct := rot lut c us es) in *.
  assert (Ht : 0 <= t < 2 * N) by (apply Z.mod_pos_bound; lia).
  pose proof (Tg t e0 Be Ct) as Em. specialize (Tt t Ht Dt). rewrite Em in Tt.
  set (X := nth 0 (negacyclic n (xpow n (- t)) lut) 0) in *.
  assert (CV : cong p (X + p / 8) (if m then 2 * (p / 8) else 0)) by (rewrite <- Tt; symmetry; apply cong_mod; lia).
  pose proof (Z.mod_pos_bound p 8 ltac:(lia)) as R8. pose proof (Z.div_mod p 8 ltac:(lia)) as E8.
  assert (Eq : q = 4 * (q / 4)).
  { replace q with (2 ^ (j - 2) * 4); [rewrite Z.div_mul by lia; ring|]. change 4 with (2 ^ 2). rewrite <- Z.pow_add_r by lia. f_equal. lia. }
  set (r8 := if m then p mod 8 else 0). set (rn := rnoise lut c us es) in *. set (kn := sel ct fs) in *. set (dz := dotz (map (rho p q) (ext F (ra ct))) s) in *.
  set (G := q * rn - p * kn + g - dz - q / 4 * r8).
  assert (Cg : cong (p * q) (p * phase q z y) (p * (if m then q / 4 else 0) + G)).
  { rewrite Cy. replace (q * (X + p / 8 + rn) + g - dz - p * kn) with (q * (X + p / 8) + (q * rn - p * kn + g - dz)) by ring. rewrite (cong_scale p q _ _ CV). apply cong_of_eq. unfold G, r8. destruct m; [|ring].
    replace (q * (2 * (p / 8))) with (q / 4 * (8 * (p / 8))) by (transitivity (4 * (q / 4) * (2 * (p / 8))); [ring|rewrite <- Eq; reflexivity]).
    replace (8 * (p / 8)) with (p - p mod 8) by lia. ring. }
  destruct Cg as (v & Cg). set (e' := phase q z y - (if m then q / 4 else 0) - v * q). assert (Eg : p * e' = G) by (unfold e'; lia).
  assert (Hr8 : 0 <= r8 <= 7) by (unfold r8; destruct m; lia). assert (HQ : 0 <= q / 4 * r8 <= q / 4 * 7) by (split; [apply Z.mul_nonneg_nonneg; lia|apply Z.mul_le_mono_nonneg_l; lia]).
  exists e'. split; [exact E1|]. split; [exact E2|]. split; [exact Ey|]. split.
  - split; [exact Wy|]. unfold e'. replace ((if m then q / 4 else 0) + (phase q z y - (if m then q / 4 else 0) - v * q)) with (phase q z y + (- v) * q) by ring.
    rewrite Z.mod_add by lia. symmetry. apply Z.mod_small. apply Z.mod_pos_bound. lia.
  - intros r Hr. pose proof (mask_split ct r Hr Wr) as MS. fold dz in MS. rewrite Eg. unfold kmain. cbn [fst snd]. fold ct rn. fold kn. set (RF := rform r ct) in *. unfold G.
    replace (q * rn - p * kn + g - dz - q / 4 * r8 - (q * rn + - p * kn) + RF) with (g - (dz - RF) - q / 4 * r8) by ring. lia.
Qed.

(** The chance of failure. *)
Variable kp : key_pack.
Hypothesis KP : kp_par kp = P.
Hypothesis KZ : kp_lwe kp = map (fun x => x mod q) z.
Hypothesis KR : kp_ring kp = map (fun x => x mod p) s.
Hypothesis KN : kp_ntt kp = ntt s.
Hypothesis Pkey : pp_key P = LTernary.
Hypothesis Pt : pp_t P = 4.
Variable g : eval_key -> option lwe.
Hypothesis Hg : forall K, ek_par K = P -> g K = bootstrap B F tbl K x lut.
Variable Mt : Plaintext.msg_type.
Local Notation DD := (lwe_key_randomness p n l lk (length z) (2 ^ kb) D Dk).
Local Notation fails := (lwe_gate_fails Mt B F tbl kp masks g m).

Lemma failure_bound r T T' i i' : (1 <= r <= n)%nat -> 0 <= T -> 0 < T' -> 8 * (T + T') + 4 * p * (Z.of_nat r + 1) + 14 * q <= p * q ->
  let A := odd_product i * kmvar ^ Z.of_nat i in let A' := odd_product i' * (norm1 s * Vp) ^ Z.of_nat i' in let A'' := (N * Z.of_nat (length z)) ^ Z.of_nat (S r) in
  let X := T ^ Z.of_nat (2 * i) in let X' := T' ^ Z.of_nat (2 * i') in let X'' := p ^ Z.of_nat (S r) in
  wsum DD fails * (X * X' * X'') <= (A * X' * X'' + X * A' * X'' + X * X' * A'') * mass DD.
Proof.
  intros Hr HT HT' HB8 A A' A'' X X' X''. pose proof q8 as Q8. destruct boot_err as (c & Wc & HX). pose proof Tb as (Ll & Cl & _).
  set (REST := both ES FS). assert (NR : nonneg REST) by (apply nonneg_both; [apply (ES_nonneg k b z D V HD)|apply FS_nonneg]). assert (NU : nonneg US) by apply (US_nonneg F k b z).
  assert (ND : nonneg DD) by (apply nonneg_both; [exact NU|exact NR]).
  assert (EM : mass DD = mass US * mass REST) by exact (mass_both _ _).
  assert (EW : forall f, wsum DD f = wsum US (fun u => wsum REST (fun y => f (u, y)))) by (intros f; exact (wsum_both US REST f)).
  set (ld := fun us es => deads F k w (rot lut (unl c) us es)).
  set (i1 := fun y : lwe_randomness => if T <=? Z.abs (kmain lut c (fst y) (snd y)) then 1 else 0).
  set (i2 := fun y : lwe_randomness => if (ld (fst y) (fst (snd y)) <=? r)%nat && (T' <=? Z.abs (rform r (rot lut c (fst y) (fst (snd y))))) then 1 else 0).
  set (i3 := fun y : lwe_randomness => if (S r <=? ld (fst y) (fst (snd y)))%nat then 1 else 0).
  assert (Bad : forall y wt, In (y, wt) DD -> fails y <= i1 y + i2 y + i3 y).
  { intros [us [es fs]] wt Hy. unfold lwe_key_randomness in Hy. apply in_both in Hy. destruct Hy as ((w1 & H1) & (w2 & H2)).
    apply in_both in H2. destruct H2 as ((w3 & H3) & (w4 & H4)). cbn [fst snd] in *.
    destruct (US_good F k b z us w1 H1) as (Lu & Gu). destruct (ES_good k b z D es w3 H3) as (Le & Ge). pose proof (fs_good lk n (2 ^ kb) Dk fs w4 H4) as Gf.
    destruct (HX us es fs Lu Le Gu Ge Gf) as (br & ks & y & e & E1 & E2 & Ey & By & Hm). specialize (Hm r Hr).
    assert (EV : eval_key_new B F tbl kp (lwe_draws p (pp_q (kp_par kp)) masks (us, (es, fs))) = Some (mk_eval_key (BrTernary br) ks P)).
    { unfold eval_key_new, br_key_generate, lwe_draws. cbn [kd_ter kd_lwe]. unfold ksgen in E2. rewrite KP, Pkey, KZ, KN, KR, Pb, Pq, E1. cbn [bind].
      destruct Psteps as [(PS & _)|(PS & _)]; rewrite PS in *; rewrite E2; reflexivity. }
    unfold lwe_gate_fails. rewrite EV. cbn [bind]. rewrite Hg by reflexivity. rewrite Ey. cbn [bind]. unfold kp_decrypt. rewrite KP, Pt, Pq, KZ.
    assert (Dec : 8 * Z.abs e < q -> decrypt Mt B 4 q (map (fun x => x mod q) z) y = Some (bz m)).
    { apply (GateFormProofs.decrypt_bit BF p k F tbl B j P z); [|exact By].
      split; [split; [exact HBF|split; [exact Hp|split; [exact Hp64|split; [exact HF|split; [exact Hsv|exact Hk]]]]]|]. split; [split; [exact HB|split; [exact Hj|split; [exact Hj49|split; [exact HN2|exact H52]]]]|].
      split; [exact PN|split; [exact Pq|exact I]]. }
    assert (Bz : (bz m =? (if m then 1 else 0)) = true) by (destruct m; reflexivity).
    assert (E4 : 4 * (q / 4) <= q) by (apply Z.mul_div_le; lia).
    unfold i1, i2, i3. cbn [fst snd].
    destruct (Nat.leb_spec (S r) (ld us es)) as [Hz1|Hz1].
    { destruct (decrypt _ _ _ _ _ _) as [v|]; [destruct (v =? _)|]; destruct (T <=? _); destruct (_ && _); lia. }
    replace (ld us es <=? r)%nat with true by (symmetry; apply Nat.leb_le; lia). cbn [andb].
    destruct (Z.leb_spec T (Z.abs (kmain lut c us (es, fs)))) as [HTm|HTm].
    { destruct (decrypt _ _ _ _ _ _) as [v|]; [destruct (v =? _)|]; destruct (T' <=? _); lia. }
    destruct (Z.leb_spec T' (Z.abs (rform r (rot lut c us es)))) as [HTr|HTr].
    { destruct (decrypt _ _ _ _ _ _) as [v|]; [destruct (v =? _)|]; lia. }
    rewrite Dec; [rewrite Bz; lia|]. apply (Z.mul_lt_mono_pos_l p); [exact P0|].
    assert (Z.abs (p * e) = p * Z.abs e) by (rewrite Z.abs_mul, (Z.abs_eq p) by lia; reflexivity). clear - H HTm HTr Hm HB8 E4.
    set (kmx := kmain _ _ _ _) in *. set (rfx := rform _ _) in *.
    assert (Z.abs (p * e) <= Z.abs (p * e - kmx + rfx) + Z.abs kmx + Z.abs rfx) by lia. lia. }
  pose proof (mass_nonneg DD ND) as M0. pose proof (odd_product_pos i) as OP. pose proof (odd_product_pos i') as OP'.
  assert (PX : 0 <= X) by (apply Z.pow_nonneg; exact HT). assert (PX' : 0 <= X') by (apply Z.pow_nonneg; lia). assert (PX'' : 0 <= X'') by (apply Z.pow_nonneg; lia).
  assert (H1 : wsum DD i1 * X <= A * mass DD).
  { rewrite EM, EW. rewrite (Z.mul_comm (mass US)), Z.mul_assoc. apply wsum_le_mul; [exact NU|]. intros us wt Hu.
    apply (markov REST (kmain lut c us) (fun y => T <=? Z.abs (kmain lut c us y))); [exact NR|exact HT| |].
    - apply sg_moment. exact (kmain_sg lut c us wt Ll Cl Wc Hu).
    - intros y wy _ HH. apply Z.leb_le. exact HH. }
  assert (H3 : wsum DD i3 * X'' <= A'' * mass DD).
  { rewrite EM, EW, wsum_swap, Z.mul_assoc. apply wsum_le_mul; [exact NR|]. intros [es vf] wt Hy. apply in_both in Hy. destruct Hy as ((w3 & H3) & _).
    destruct (ES_good k b z D es w3 H3) as (Le & Ge).
    exact (dead_prob F Hok Hp tbl k w C Hk s Ls b bits Hb Hbits z lut (unl c) es (S r) Ll Cl (unl_wf k Hk s Ls z c Wc) Le Ge Al Lzp ltac:(lia)). }
  assert (H2 : wsum DD i2 * X' <= A' * mass DD).
  { rewrite EM, EW, wsum_swap, Z.mul_assoc. apply wsum_le_mul; [exact NR|]. intros [es vf] wt Hy. apply in_both in Hy. destruct Hy as ((w3 & H3') & _).
    destruct (ES_good k b z D es w3 H3') as (Le & Ge). unfold i2. cbn [fst snd].
    destruct (Z.eq_dec (nonzeros (la c)) 0) as [Hnz|Hnz].
    - rewrite (wsum_ext US _ (fun _ => 0)).
      + rewrite wsum_const, !Z.mul_0_l. apply Z.mul_nonneg_nonneg; [|apply mass_nonneg; exact NU].
        apply Z.mul_nonneg_nonneg; [lia|]. apply Z.pow_nonneg, Z.mul_nonneg_nonneg; [apply norm1_nonneg|apply Vp_nonneg].
      + intros us wt' _. assert (E0 : rform r (rot lut c us es) = 0).
        { unfold RotProofs.rot. rewrite loop_out_zero by exact Hnz. unfold rform, acc0. cbn [ra]. apply rform_zero. }
        rewrite E0. replace (T' <=? Z.abs 0) with false by (symmetry; apply Z.leb_gt; cbn; lia). rewrite andb_false_r. reflexivity.
    - pose proof (last_moment F Hok Hp tbl k w C Hk s Ls b bits Hb Hbits z r (rho_form p q (shi r)) (norm1 s * Vp) lut c es i' (proj2 Hr) (shi_sg r Hr) Ll Cl Wc Le Ge ltac:(pose proof (nz_nonneg (la c)); lia)) as LM.
      eapply Z.le_trans; [|exact LM]. rewrite Z.mul_comm, <- wsum_scale. apply wsum_le; [exact NU|]. intros us wt' _. fold (ld us es). fold (rform r (rot lut c us es)).
      destruct (ld us es <=? r)%nat; cbn [andb]; [|lia]. destruct (Z.leb_spec T' (Z.abs (rform r (rot lut c us es)))) as [HH|HH].
      + rewrite Z.mul_1_r. unfold X'. rewrite !Nat2Z.inj_mul. change (Z.of_nat 2) with 2. rewrite !Z.pow_mul_r by lia. apply Z.pow_le_mono_l. split; [apply Z.square_nonneg || (rewrite Z.pow_2_r; apply Z.square_nonneg)|].
        rewrite !Z.pow_2_r, <- (Z.abs_square (rform r (rot lut c us es))). apply Z.mul_le_mono_nonneg; lia.
      + rewrite Z.mul_0_r. rewrite Nat2Z.inj_mul. change (Z.of_nat 2) with 2. rewrite Z.pow_mul_r by lia. apply Z.pow_nonneg. rewrite Z.pow_2_r. apply Z.square_nonneg. }
  assert (H123 : wsum DD fails <= wsum DD i1 + wsum DD i2 + wsum DD i3).
  { rewrite <- !wsum_add. apply wsum_le; [exact ND|]. intros y wt Hy. apply (Bad y wt Hy). }
  clear - H1 H2 H3 H123 PX PX' PX''. clearbody A A' A'' X X' X''.
  set (f := wsum DD fails) in *. set (s1 := wsum DD i1) in *. set (s2 := wsum DD i2) in *. set (s3 := wsum DD i3) in *. set (MM := mass DD) in *. clearbody f s1 s2 s3 MM.
  assert (0 <= X * X') by (apply Z.mul_nonneg_nonneg; assumption). assert (0 <= X' * X'') by (apply Z.mul_nonneg_nonneg; assumption). assert (0 <= X * X'') by (apply Z.mul_nonneg_nonneg; assumption).
  assert (0 <= X * X' * X'') by (apply Z.mul_nonneg_nonneg; assumption).
  apply Z.le_trans with ((s1 + s2 + s3) * (X * X' * X'')); [apply Z.mul_le_mono_nonneg_r; assumption|].
  replace ((s1 + s2 + s3) * (X * X' * X'')) with (s1 * X * (X' * X'') + s2 * X' * (X * X'') + s3 * X'' * (X * X')) by ring.
  replace ((A * X' * X'' + X * A' * X'' + X * X' * A'') * MM) with (A * MM * (X' * X'') + A' * MM * (X * X'') + A'' * MM * (X * X')) by ring.
  apply Z.add_le_mono; [apply Z.add_le_mono|]; apply Z.mul_le_mono_nonneg_r; assumption.
Qed.
End Field.
