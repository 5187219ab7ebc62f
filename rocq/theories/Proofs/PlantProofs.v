(** The published keys are encryptions of zero with public amounts added. *)
From Coq Require Import ZArith Znumtheory List Bool Arith Lia Setoid Morphisms.
From Verif Require Import Spec.Basic Spec.Poly Spec.Ring Spec.Count Spec.HidingKeys Model.Base Model.Field Model.NTT Model.Concrete Model.Poly Model.Params Model.Lwe Model.Rlwe Model.Gadget
  Model.BlindRotation Model.KeySwitch Model.SecretKey
  Proofs.Arith Proofs.BarrettProofs Proofs.NumTheory Proofs.FieldProofs Proofs.PolyMath Proofs.NTTProofs Proofs.NTTTableProofs
  Proofs.PolyProofs Proofs.RingProofs Proofs.GadgetProofs Proofs.RlweProofs Proofs.GadgetMain Proofs.RgswProofs Proofs.SampleProofs.
Import ListNotations.
Local Open Scope Z_scope.

(** [numbered], starting at [j]. *)
Definition num_from {A C : Type} (j : nat) (f : nat -> A -> C) (l : list A) : list C :=
  map (fun ix => f (fst ix) (snd ix)) (combine (seq j (length l)) l).
Lemma num_from_cons {A C} j (f : nat -> A -> C) x l : num_from j f (x :: l) = f j x :: num_from (S j) f l.
Proof. reflexivity. Qed.
Lemma numbered_0 {A C} (f : nat -> A -> C) l : numbered f l = num_from 0 f l. Proof. reflexivity. Qed.
Lemma num_from_map {A B C} j (f : nat -> B -> C) (g : A -> B) l : num_from j f (map g l) = num_from j (fun i x => f i (g x)) l.
Proof. revert j. induction l as [|x l IH]; intros j; [reflexivity|]. cbn [map]. rewrite !num_from_cons, IH. reflexivity. Qed.
Lemma num_from_same {A} j (f : nat -> A -> A) l : (forall i x, In x l -> f i x = x) -> num_from j f l = l.
Proof.
  revert j. induction l as [|x l IH]; intros j H; [reflexivity|]. rewrite num_from_cons, H by (left; reflexivity). f_equal.
  apply IH. intros i y Hy. apply H. right. exact Hy.
Qed.

Section Field.
Variable F : field.
Hypothesis Hok : fok F.
Local Notation p := (fp F).
Hypothesis Hp : prime p.
Variables (tbl : tables) (k : nat) (w : Z).
Hypothesis C : ctx F tbl k w.
Hypothesis Hk : (0 < k)%nat.
Local Notation n := (2 ^ k)%nat.
Local Notation ntt := (ntt_of F w k).
Local Notation nform := (nform F k w).
Variable s : list Z.
Hypothesis Ls : length s = n.
Let Hp0 : 0 < p := p0 F tbl k w C.
Local Notation pwf := (pwf F k).
Local Notation zenc := (zero_enc F tbl (ntt s)).

Let n_pos : (0 < n)%nat.
Proof. pose proof (Nat.pow_nonzero 2 k). lia. Qed.

Lemma ntt_const x v : length x = n -> 0 <= v < p ->
  ntt (pmod p (padd x (pscale v (one n)))) = map (fun t => (t + v) mod p) (ntt x).
Proof.
  intros Lx Hv. pose proof (one_length n) as L1. rewrite (ntt_pmod F Hok). symmetry. apply (pcong_eq p).
  - unfold canonical. rewrite Forall_map. apply Forall_forall. intros t _. apply Z.mod_pos_bound. exact Hp0.
  - apply (ntt_canon F Hok).
  - apply (ntt_ext F Hok); [rewrite map_length; apply ntt_of_length|]. intros i Hi.
    rewrite (nth_indep _ 0 ((fun t => (t + v) mod p) 0)) by (rewrite map_length, ntt_of_length; exact Hi).
    rewrite (map_nth (fun t => (t + v) mod p)). rewrite cong_mod by lia. rewrite (ntt_nth F Hok k w x i Hi).
    rewrite ev_add by len n. rewrite ev_scale, ev_one by exact n_pos. apply cong_of_eq. ring.
Qed.

(** An encryption of zero: its rows are canonical. *)
Lemma zenc_some a e : pwf a -> pwf e ->
  nrlwe_zero_sample F tbl (ntt s) a e = Some (zenc (a, e)) /\ ra (zenc (a, e)) = a /\ pwf (rb (zenc (a, e))).
Proof.
  intros (La & Ca) We. unfold zero_enc. cbn [fst snd]. destruct (ntt_surj F Hok tbl k w C a La Ca) as (A & LA & CA & ->).
  rewrite (nzero_sample_correct F Hok tbl k w C Hk s Ls A e) by (assumption || (split; assumption)).
  split; [reflexivity|]. unfold GadgetProofs.nform. cbn [ra rb]. split; [reflexivity|]. split; [apply ntt_of_length|apply (ntt_canon F Hok)].
Qed.

Lemma value_row a e v : pwf a -> pwf e -> 0 <= v < p ->
  nrlwe_value_sample F tbl (ntt s) a e v = Some (add_body p v (zenc (a, e))).
Proof.
  intros (La & Ca) We Hv. unfold zero_enc. cbn [fst snd]. destruct (ntt_surj F Hok tbl k w C a La Ca) as (A & LA & CA & ->).
  assert (WA : pwf A) by (split; assumption). pose proof (proj1 We) as Le. pose proof (one_length n) as L1.
  rewrite (nvalue_sample_correct F Hok tbl k w C Hk s Ls A e v WA We Hv), (nzero_sample_correct F Hok tbl k w C Hk s Ls A e WA We).
  unfold add_body, GadgetProofs.nform. cbn [ra rb]. f_equal. f_equal. rewrite <- ntt_const by (try exact Hv; len n).
  apply (ntt_proper F Hok). rewrite !(pcong_pmod p) by lia.
  apply (EQ_pcong p w k Hp (Hp2 F tbl k w C) (Hw F tbl k w C)); [len n..|]. intros z Hz.
  rewrite !ev_add by len n. apply cong_of_eq. ring.
Qed.

Lemma mask_row a e v : pwf a -> pwf e -> 0 <= v < p ->
  (let* r := nrlwe_zero_sample F tbl (ntt s) a e in
   let* x := mapM (fun t => f_add F t v) (ra r) in Some (mk_rlwe x (rb r))) = Some (add_mask p v (zenc (a, e))).
Proof.
  intros Wa We Hv. destruct (zenc_some a e Wa We) as (-> & E & _). cbn [bind]. unfold add_mask. rewrite E.
  rewrite (mapM_some _ (fun t => (t + v) mod p)); [reflexivity|]. intros t Ht. apply (f_add_correct F Hok); [|exact Hv].
  destruct Wa as (_ & Ca). unfold canonical in Ca. rewrite Forall_forall in Ca. apply Ca. exact Ht.
Qed.

Variables (b : basis) (bits : Z).
Hypothesis Hb : basis_new F bits = Some b.
Hypothesis Hbits : 0 <= bits.
Local Notation base := (2 ^ bits).
Local Notation rnd_ok := (rnd_ok F k).

Lemma peeled row (g : Z -> rlwe -> rlwe) rnd : (forall c a e, 0 <= c < p -> pwf a -> pwf e -> row c a e = Some (g c (zenc (a, e)))) ->
  forall j, rnd_ok rnd -> rnd <> [] -> (j + length rnd <= bs_len b)%nat ->
  power_rows_peeled F row base (base ^ Z.of_nat j) rnd = Some (num_from j (fun i => g (base ^ Z.of_nat i)) (map zenc rnd)).
Proof.
  intros Hrow. pose proof (powers_basis F Hok Hp tbl k w C Hk s Ls b bits Hb Hbits (bs_len b) (le_n _)) as PB.
  pose proof (powers_word F Hok k Hk s Ls bits Hbits 1 (bs_len b) PB) as PW. destruct PB as (_ & PB).
  induction rnd as [|[a e] rnd IH]; intros j R N L; [congruence|]. inversion R as [|? ? (Wa & We) R']; subst. cbn [fst snd] in Wa, We. cbn [length] in L.
  pose proof (PB j ltac:(lia)) as Hj. pose proof (Z.pow_nonneg base (Z.of_nat j) (Z.pow_nonneg 2 bits ltac:(lia))) as H0.
  destruct rnd as [|ae rnd].
  - cbn [power_rows_peeled]. rewrite Hrow by (assumption || lia). reflexivity.
  - set (rest := ae :: rnd) in *. cbn [map]. rewrite num_from_cons. change (power_rows_peeled F row base (base ^ Z.of_nat j) ((a, e) :: rest)) with
      (let* r := row (base ^ Z.of_nat j) a e in let* power := umul (fw F) (base ^ Z.of_nat j) base in
       let* t := power_rows_peeled F row base power rest in Some (r :: t)).
    rewrite Hrow by (assumption || lia). cbn [bind].
    assert (E : base ^ Z.of_nat j * base = base ^ Z.of_nat (S j)) by (rewrite Nat2Z.inj_succ, Z.pow_succ_r by lia; ring).
    pose proof (PW (S j) ltac:(subst rest; cbn [length] in L; lia)) as HW. unfold umul. rewrite E. rewrite Z.mul_1_l in HW. apply Z.ltb_lt in HW. rewrite HW.
    cbn [bind]. rewrite IH by (assumption || discriminate || lia). reflexivity.
Qed.

Lemma zero_shift x : pwf (ra x) -> pwf (rb x) -> add_mask p 0 x = x /\ add_body p 0 x = x.
Proof.
  intros (_ & Ca) (_ & Cb). destruct x as [xa xb]. cbn [ra rb] in *. unfold add_mask, add_body. cbn [ra rb].
  assert (G : forall l, canonical p l -> map (fun v => (v + 0) mod p) l = l).
  { intros l Cl. rewrite <- (map_id l) at 2. apply map_ext_in. intros v Hv. unfold canonical in Cl. rewrite Forall_forall in Cl.
    rewrite Z.add_0_r. apply Z.mod_small. apply Cl. exact Hv. }
  rewrite !G by assumption. split; reflexivity.
Qed.

(** The draws of one RGSW ciphertext. *)
Definition rdraw_ok (r : rgsw_rnd) : Prop :=
  (rnd_ok (fst r) /\ length (fst r) = bs_len b) /\ (rnd_ok (snd r) /\ length (snd r) = bs_len b).
Definition zrows (r : rgsw_rnd) : list rlwe * list rlwe := (map zenc (fst r), map zenc (snd r)).

Lemma firstn_self {A} (l : list A) m : length l = m -> firstn m l = l.
Proof. intros <-. apply firstn_all. Qed.
Lemma nonempty {A} (l : list A) m : length l = m -> (1 <= m)%nat -> l <> [].
Proof. intros H1 H2 ->. cbn in H1. lia. Qed.

Lemma one_planted r : rdraw_ok r -> nrgsw_one_sample F tbl (ntt s) b (fst r) (snd r) = Some (planted_rgsw p base b 1 (zrows r)).
Proof.
  intros ((R0 & L0) & (R1 & L1)). destruct (len_pos F Hok tbl k w C Hk s Ls b bits Hb Hbits) as (Hl & _).
  unfold nrgsw_one_sample, ng_neg_secret_sample, ng_one_sample. rewrite !firstn_self by assumption.
  rewrite (base_eq' F Hok b bits Hb Hbits). change 1 with (base ^ Z.of_nat 0).
  rewrite (peeled _ (add_mask p) (fst r) (fun c a e Hc Wa We => mask_row a e c Wa We Hc) 0) by (assumption || lia || (eapply nonempty; eassumption)).
  rewrite (peeled _ (add_body p) (snd r) (fun c a e Hc Wa We => value_row a e c Wa We Hc) 0) by (assumption || lia || (eapply nonempty; eassumption)).
  cbn [bind]. unfold planted_rgsw, zrows. cbn [fst snd]. rewrite !numbered_0. f_equal. f_equal; f_equal;
    apply map_ext; intros ix; change (base ^ Z.of_nat 0) with 1; rewrite Z.mul_1_l; reflexivity.
Qed.

Lemma zero_planted r : rdraw_ok r -> nrgsw_zero_sample F tbl (ntt s) b (fst r) (snd r) = Some (planted_rgsw p base b 0 (zrows r)).
Proof.
  intros ((R0 & L0) & (R1 & L1)). unfold nrgsw_zero_sample, ng_zero_sample, zero_rows. rewrite !firstn_self by assumption.
  assert (G : forall rs, rnd_ok rs -> mapM (fun ae => nrlwe_zero_sample F tbl (ntt s) (fst ae) (snd ae)) rs = Some (map zenc rs)).
  { intros rs R. apply mapM_some. intros [a e] Hin. unfold SampleProofs.rnd_ok in R. rewrite Forall_forall in R. destruct (R _ Hin) as (Wa & We). apply (zenc_some a e); assumption. }
  rewrite !G by assumption. cbn [bind]. unfold planted_rgsw, zrows. cbn [fst snd]. rewrite !numbered_0.
  assert (Z0 : forall rs x, rnd_ok rs -> In x (map zenc rs) -> add_mask p 0 x = x /\ add_body p 0 x = x).
  { intros rs x R Hin. apply in_map_iff in Hin. destruct Hin as ([a e] & <- & Hin). unfold SampleProofs.rnd_ok in R. rewrite Forall_forall in R.
    destruct (R _ Hin) as (Wa & We). destruct (zenc_some a e Wa We) as (_ & E & Wb). apply zero_shift; [rewrite E; exact Wa|exact Wb]. }
  rewrite !num_from_same; [reflexivity| |]; intros i x Hin; rewrite Z.mul_0_l; [apply (Z0 (snd r))|apply (Z0 (fst r))]; assumption.
Qed.

(** * The rotation key *)
Definition bit_planted (m : Z) (r : rgsw_rnd) : rgsw := planted_rgsw p base b m (zrows r).

Lemma binary_planted z rs : Forall rdraw_ok rs ->
  binary_generate F tbl z (ntt s) b rs = Some (map (fun mr => bit_planted (fst mr) (snd mr)) (combine (map (fun v => if v =? 0 then 0 else 1) z) rs)).
Proof.
  intros H. revert rs H. induction z as [|v z IH]; intros [|r rs] H; try reflexivity. inversion H as [|? ? Hr Hrs]; subst.
  unfold binary_generate in *. cbn [mapM2 map combine fst snd]. rewrite IH by exact Hrs.
  destruct (v =? 0); [rewrite zero_planted by exact Hr|rewrite one_planted by exact Hr]; reflexivity.
Qed.

Lemma ternary_planted z : forall rs, Forall rdraw_ok rs -> length rs = (2 * length z)%nat ->
  ternary_generate F tbl z (ntt s) b (pairs rs) = Some (pairs (map (fun mr => bit_planted (fst mr) (snd mr))
    (combine (flat_map (fun v => [if v =? 1 then 1 else 0; if (v =? 0) || (v =? 1) then 0 else 1]) z) rs))).
Proof.
  induction z as [|v z IH]; intros rs H L; [destruct rs; [reflexivity|discriminate]|].
  destruct rs as [|r0 [|r1 rs]]; [discriminate|cbn in L; lia|]. inversion H as [|? ? H0 H']; subst. inversion H' as [|? ? H1 Hrs]; subst.
  unfold ternary_generate in *. cbn [flat_map app combine map pairs fst snd mapM2]. rewrite IH by (assumption || (cbn in L; lia)).
  destruct r0 as [r0 r0'], r1 as [r1 r1'].
  pose proof (one_planted _ H0) as P0. pose proof (one_planted _ H1) as P1. pose proof (zero_planted _ H0) as Q0. pose proof (zero_planted _ H1) as Q1. cbn [fst snd] in P0, P1, Q0, Q1.
  destruct (Z.eqb_spec v 1) as [->|N1]; [cbn [Z.eqb orb]; rewrite P0; cbn [bind]; rewrite Q1; reflexivity|].
  destruct (Z.eqb_spec v 0) as [->|N0]; [rewrite Q0; cbn [bind]; rewrite Q1; reflexivity|].
  cbn [orb]. rewrite Q0. cbn [bind]. rewrite P1. reflexivity.
Qed.

Lemma rotation_planted P z sr rs : pp_basis P = b -> Forall rdraw_ok rs -> length rs = slots P (length z) ->
  br_key_generate F tbl (mk_key_pack z sr (ntt s) P) (rotation_draws rs) =
  Some (planted p base P z (zero_rows_of F tbl (ntt s) rs)).
Proof.
  intros HP H L. unfold br_key_generate, planted, as_key, slot_bits, slots, rotation_draws in *. cbn [kp_par kp_lwe kp_ntt kd_bin kd_ter]. rewrite HP.
  assert (G : forall ms, map (fun mu => planted_rgsw p base b (fst mu) (snd mu)) (combine ms (zero_rows_of F tbl (ntt s) rs)) =
    map (fun mr => bit_planted (fst mr) (snd mr)) (combine ms rs)).
  { intros ms. revert ms. clear. induction rs as [|r rs IH]; intros [|m ms]; try reflexivity. cbn [zero_rows_of map combine fst snd].
    f_equal. apply IH. }
  rewrite G. destruct (pp_key P).
  - rewrite binary_planted by exact H. reflexivity.
  - rewrite ternary_planted by assumption. reflexivity.
Qed.
End Field.
