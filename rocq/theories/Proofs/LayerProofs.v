(** Union bound over a layer of gates, and the weight of a ternary key. *)
From Coq Require Import ZArith Znumtheory List Bool Arith Lia.
From Verif Require Import Spec.Basic Spec.Poly Spec.Lattice Spec.Ring Spec.Blind Spec.Switch Spec.Gates Spec.KeyGen Spec.Count Spec.Moment Spec.Noise Spec.SubGauss Spec.Boot Spec.BootLwe Spec.Layer.
From Verif Require Import Model.Base Model.PowOf2 Model.Plaintext Model.Field Model.NTT Model.Concrete Model.Poly Model.Lwe Model.Rlwe Model.Gadget Model.BlindRotation Model.KeySwitch Model.Params Model.Boolean Model.SecretKey.
From Verif Require Import Proofs.NumTheory Proofs.Arith Proofs.FieldProofs Proofs.PolyMain Proofs.NTTProofs Proofs.PolyProofs Proofs.ModSwitchProofs Proofs.MomentProofs Proofs.LweProofs Proofs.PowOf2Proofs Proofs.GateProofs Proofs.GateChanceProofs Proofs.LweChanceProofs Props.C28 Props.C29.
Import ListNotations.
Local Open Scope Z_scope.

Lemma fails_range M B F tbl kp g m x : gate_fails M B F tbl kp g m x = 0 \/ gate_fails M B F tbl kp g m x = 1.
Proof. unfold gate_fails. destruct (bind _ _) as [v|]; [|right; reflexivity]. destruct (v =? _); [left|right]; reflexivity. Qed.
Lemma lwe_fails_range M B F tbl kp masks g m x : lwe_gate_fails M B F tbl kp masks g m x = 0 \/ lwe_gate_fails M B F tbl kp masks g m x = 1.
Proof. unfold lwe_gate_fails. destruct (bind _ _) as [v|]; [|right; reflexivity]. destruct (v =? _); [left|right]; reflexivity. Qed.

(** The chance of a union. *)
Lemma union_bound {A C : Type} (DD : dist A) (f : C -> A -> Z) (cs : list C) num den : nonneg DD -> 0 <= den ->
  (forall c x, f c x = 0 \/ f c x = 1) -> Forall (fun c => wsum DD (f c) * den <= num * mass DD) cs ->
  wsum DD (fun x => if existsb (fun c => f c x =? 1) cs then 1 else 0) * den <= Z.of_nat (length cs) * num * mass DD.
Proof.
  intros HD Hd Hf H. induction H as [|c cs Hc H IH].
  - cbn [existsb length]. rewrite wsum_const. lia.
  - apply Z.le_trans with (wsum DD (fun x => f c x + (if existsb (fun c => f c x =? 1) cs then 1 else 0)) * den).
    + apply Z.mul_le_mono_nonneg_r; [exact Hd|]. apply wsum_le; [exact HD|]. intros x w _. cbn [existsb].
      destruct (Hf c x) as [->| ->]; cbn [Z.eqb Pos.eqb orb]; destruct (existsb _ cs); lia.
    + rewrite wsum_add, Z.mul_add_distr_r. cbn [length]. rewrite Nat2Z.inj_succ. lia.
Qed.

(** From single gates to gates over literals. *)
Section Flat.
Variables (B : Z) (F : field) (tbl : tables) (P : parameters) (j : Z).
Hypothesis HB : 0 < B <= 64.
Hypothesis Hj : 3 <= j < B.
Hypothesis HPq : pp_q P = 2 ^ j.
Notation q := (2 ^ j).
Variables (sk : list Z) (N fs E : Z) (n : nat) (v : nat -> bool) (x : nat -> lwe).
Hypothesis HN : 0 < N.
Hypothesis Hfs : 0 <= fs.
Hypothesis Hx : forall i, (i < n)%nat -> exists e, bit_ct q sk (v i) e (x i) /\ Z.abs e <= E.
Hypothesis HR : 24 * N * E + 2 * fs < q * N.

Lemma not_ct m c0 e0 : bit_ct q sk m e0 c0 -> exists y, (forall K, ek_par K = P -> g_not B K c0 = Some y) /\ bit_ct q sk (negb m) (- e0) y.
Proof.
  intros (Wc & Pc). assert (Q : q = 4 * 2 ^ (j - 2)) by (change 4 with (2 ^ 2); rewrite <- Z.pow_add_r by lia; f_equal; lia).
  assert (Q0 : 0 < 2 ^ (j - 2)) by (apply Z.pow_pos_nonneg; lia).
  assert (Q4 : q / 4 = 2 ^ (j - 2)) by (rewrite Q, Z.mul_comm; apply Z.div_mul; lia).
  destruct (C29_neg q (p2_mops B (q - 1)) (mod_pow2 B j ltac:(lia)) (length sk) sk c0 Wc eq_refl) as (y & Ey & Wy & Py).
  exists (mk_lwe (la y) (p2_add B (q - 1) (lb y) (q / 4))). split.
  { intros K HK. unfold g_not. rewrite HK, HPq, (p2_new_q 0 j) by lia. cbn [bind]. rewrite Ey. cbn [bind].
    unfold ushr. replace (2 <? B) with true by (symmetry; apply Z.ltb_lt; lia). reflexivity. }
  destruct Wy as (L1 & L2 & L3).
  rewrite (proj1 (proj2 (p2_ops_correct B j (lb y) (q / 4) ltac:(lia)))). split.
  - split; [exact L1|]. split; [exact L2|]. cbn [lb]. apply Z.mod_pos_bound. lia.
  - assert (C : cong q (phase q sk y) (- phase q sk c0)) by (apply mod_cong; [lia|exact Py]).
    unfold phase at 1. cbn [la lb]. apply cong_iff; [lia|].
    assert (C1 : cong q ((lb y + q / 4) mod q) (lb y + q / 4)) by (apply cong_mod; lia). rewrite C1.
    replace (lb y + q / 4 - dotz (la y) sk) with (lb y - dotz (la y) sk + q / 4) by ring.
    rewrite <- (phase_cong q sk y) by lia. rewrite C, Pc.
    assert (C2 : cong q (((if m then q / 4 else 0) + e0) mod q) ((if m then q / 4 else 0) + e0)) by (apply cong_mod; lia). rewrite C2.
    apply cong_of_eq. destruct m; cbn [negb]; ring.
Qed.

Lemma literal_ct c : literal n c -> exists y e', (forall K, ek_par K = P -> crun B F tbl K x c = Some y) /\ bit_ct q sk (cval v c) e' y /\ Z.abs e' <= E.
Proof.
  induction c as [i|a IH| | | | | | | |]; cbn [literal]; intros HL; try contradiction.
  - destruct (Hx i HL) as (e & Hb & He). exists (x i), e. split; [reflexivity|]. split; [exact Hb|exact He].
  - destruct (IH HL) as (y & e' & Hy & Hb & He). destruct (not_ct _ _ _ Hb) as (y' & Hy' & Hb').
    exists y', (- e'). split; [|split; [exact Hb'|lia]]. intros K HK. cbn [crun]. rewrite (Hy K HK). cbn [bind]. apply Hy'. exact HK.
Qed.

Variable fails : (eval_key -> option lwe) -> bool -> Prop.
Hypothesis Hext : forall g g' m, (forall K, ek_par K = P -> g K = g' K) -> fails g m -> fails g' m.
Hypothesis HGates : forall m0 m1 e0 e1 c0 c1, bit_ct q sk m0 e0 c0 -> bit_ct q sk m1 e1 c1 ->
      (8 * N * Z.abs (e0 + e1) + 2 * fs < q * N ->
        fails (fun K => g_nand B F tbl K c0 c1) (negb (m0 && m1)) /\ fails (fun K => g_and B F tbl K c0 c1) (m0 && m1) /\
        fails (fun K => g_or B F tbl K c0 c1) (m0 || m1) /\ fails (fun K => g_nor B F tbl K c0 c1) (negb (m0 || m1))) /\
      (8 * N * Z.abs (e0 - e1) + fs < q * N ->
        fails (fun K => g_xor B F tbl K c0 c1) (xorb m0 m1) /\ fails (fun K => g_xnor B F tbl K c0 c1) (negb (xorb m0 m1))) /\
      (forall m2 e2 c2, bit_ct q sk m2 e2 c2 -> 8 * N * Z.abs (e0 + e1 + e2) + 2 * fs < q * N ->
        fails (fun K => g_majority B F tbl K c0 c1 c2) (m0 && m1 || m1 && m2 || m2 && m0)).

Lemma radius y : Z.abs y <= 3 * E -> 8 * N * Z.abs y + 2 * fs < q * N.
Proof. intros H. apply Z.le_lt_trans with (24 * N * E + 2 * fs); [|exact HR]. apply Z.add_le_mono_r. apply Z.le_trans with (8 * N * (3 * E)); [apply Z.mul_le_mono_nonneg_l; lia|lia]. Qed.

Lemma one_gate_fails c : one_gate n c -> fails (fun K => crun B F tbl K x c) (cval v c).
Proof.
  assert (L2 : forall a b, literal n a /\ literal n b -> exists y y' f f', (forall K, ek_par K = P -> crun B F tbl K x a = Some y) /\ (forall K, ek_par K = P -> crun B F tbl K x b = Some y') /\
    bit_ct q sk (cval v a) f y /\ bit_ct q sk (cval v b) f' y' /\ Z.abs f <= E /\ Z.abs f' <= E).
  { intros a b (La & Lb). destruct (literal_ct a La) as (y & f & H1 & H2 & H3). destruct (literal_ct b Lb) as (y' & f' & H1' & H2' & H3').
    exists y, y', f, f'. auto 8. }
  destruct c as [i|a|a b|a b|a b|a b|a b|a b|a b c|a b c]; cbn [one_gate]; intros HL; try contradiction.
  1-6: destruct (L2 a b HL) as (y & y' & f & f' & Hy & Hy' & Hb & Hb' & He & He');
    destruct (HGates _ _ _ _ _ _ Hb Hb') as (H1 & H2 & _); specialize (H1 (radius (f + f') ltac:(lia))); specialize (H2 ltac:(pose proof (radius (f - f') ltac:(lia)); lia));
    destruct H1 as (G1 & G2 & G3 & G4); destruct H2 as (G5 & G6); cbn [cval].
  1: refine (Hext _ _ _ _ G1). 2: refine (Hext _ _ _ _ G2). 3: refine (Hext _ _ _ _ G3). 4: refine (Hext _ _ _ _ G4). 5: refine (Hext _ _ _ _ G5). 6: refine (Hext _ _ _ _ G6).
  1-6: intros K HK; cbn [crun]; unfold lift2; rewrite (Hy K HK), (Hy' K HK); reflexivity.
  destruct HL as (La & Lb & Lc). destruct (L2 a b (conj La Lb)) as (y & y' & f & f' & Hy & Hy' & Hb & Hb' & He & He').
  destruct (literal_ct c Lc) as (y'' & f'' & Hy'' & Hb'' & He'').
  destruct (HGates _ _ _ _ _ _ Hb Hb') as (_ & _ & H3). specialize (H3 _ _ _ Hb'' (radius (f + f' + f'') ltac:(lia))). cbn [cval].
  refine (Hext _ _ _ _ H3). intros K HK. cbn [crun]. unfold lift3. rewrite (Hy K HK), (Hy' K HK), (Hy'' K HK). reflexivity.
Qed.
End Flat.

(** Encryption of the inputs. *)
Lemma encrypt_all_ok B j kp ins E : 0 < B <= 64 -> 3 <= j < B -> pp_q (kp_par kp) = 2 ^ j -> pp_t (kp_par kp) = 4 -> 24 * E < 2 ^ j ->
  inputs_ok (length (kp_lwe kp)) (2 ^ j) E ins ->
  exists cts, encrypt_all B kp ins = Some cts /\ length cts = length ins /\
    forall i, (i < length ins)%nat -> exists e, bit_ct (2 ^ j) (kp_lwe kp) (bit_of ins i) e (ct_of cts i) /\ Z.abs e <= E.
Proof.
  intros HB Hj Hq Ht HE H. induction H as [|(m & a & e) ins (La & Ca & He) H IH].
  - exists []. split; [reflexivity|]. split; [reflexivity|]. intros i Hi. inversion Hi.
  - destruct IH as (cts & E1 & L & IH). cbn [fst snd] in La, Ca, He.
    assert (Q8 : 8 <= 2 ^ j) by (change 8 with (2 ^ 3); apply Z.pow_le_mono_r; lia).
    destruct (C28_roundtrip B 2 j MU64 (kp_lwe kp) a e (if m then 1 else 0)) as (c & Ec & Wc & _ & Pc & _).
    + lia.
    + lia.
    + congruence.
    + exact Ca.
    + destruct m; vm_compute; split; congruence.
    + destruct m; vm_compute; discriminate.
    + change (2 * 2 ^ 2) with 8. lia.
    + exists (c :: cts). cbn [encrypt_all length]. unfold kp_encrypt. rewrite Ht, Hq. change (2 ^ 2) with 4 in Ec. rewrite Ec. cbn [bind]. rewrite E1. cbn [bind].
      split; [reflexivity|]. split; [congruence|]. intros [|i] Hi.
      * exists e. split; [|exact He]. unfold bit_of, ct_of. cbn [nth fst]. split; [exact Wc|]. rewrite Pc. f_equal. f_equal.
        assert (Q : 2 ^ j = 2 ^ (j - 2) * 4) by (change 4 with (2 ^ 2); rewrite <- Z.pow_add_r by lia; f_equal; lia).
        destruct m; [|ring]. rewrite Q, Z.div_mul by lia. ring.
      * unfold bit_of, ct_of. cbn [nth]. apply IH. lia.
Qed.

(** The hypotheses of [one_gate_fails] on the two predicates. *)
Lemma eval_key_par B F tbl kp R K : eval_key_new B F tbl kp R = Some K -> ek_par K = kp_par kp.
Proof.
  unfold eval_key_new. destruct (br_key_generate _ _ _ _); cbn [bind]; [|discriminate].
  destruct (match pp_steps (kp_par kp) with BrMsKs => _ | BrKsMs => _ | BrMs => _ end); cbn [bind]; [|discriminate]. intros H. injection H as <-. reflexivity.
Qed.
Lemma gate_fails_ext M B F tbl kp g g' m x : (forall K, ek_par K = kp_par kp -> g K = g' K) -> gate_fails M B F tbl kp g m x = gate_fails M B F tbl kp g' m x.
Proof. intros H. unfold gate_fails. destruct (eval_key_new _ _ _ _ _) as [K|] eqn:E; [|reflexivity]. cbn [bind]. rewrite (H K (eval_key_par _ _ _ _ _ _ E)). reflexivity. Qed.
Lemma lwe_gate_fails_ext M B F tbl kp masks g g' m x : (forall K, ek_par K = kp_par kp -> g K = g' K) -> lwe_gate_fails M B F tbl kp masks g m x = lwe_gate_fails M B F tbl kp masks g' m x.
Proof. intros H. unfold lwe_gate_fails. destruct (eval_key_new _ _ _ _ _) as [K|] eqn:E; [|reflexivity]. cbn [bind]. rewrite (H K (eval_key_par _ _ _ _ _ _ E)). reflexivity. Qed.
Lemma at_most_ext M B F tbl kp n lk D Dk num den g g' m : (forall K, ek_par K = kp_par kp -> g K = g' K) ->
  fails_at_most M B F tbl kp n lk D Dk num den g m -> fails_at_most M B F tbl kp n lk D Dk num den g' m.
Proof.
  intros H. unfold fails_at_most. cbv zeta. rewrite (wsum_ext _ (gate_fails M B F tbl kp g m) (gate_fails M B F tbl kp g' m)); [tauto|].
  intros x w _. apply gate_fails_ext. exact H.
Qed.
Lemma lwe_at_most_ext M B F tbl kp n lk D Dk num den g g' m : (forall K, ek_par K = kp_par kp -> g K = g' K) ->
  lwe_fails_at_most M B F tbl kp n lk D Dk num den g m -> lwe_fails_at_most M B F tbl kp n lk D Dk num den g' m.
Proof.
  intros H. unfold lwe_fails_at_most. cbv zeta. intros H' masks HM. rewrite <- (wsum_ext _ (lwe_gate_fails M B F tbl kp masks g m)); [apply H'; exact HM|].
  intros x w _. apply lwe_gate_fails_ext. exact H.
Qed.

Lemma layer_bound M B F tbl kp n lk D Dk num den ins cts cs : nonneg D -> nonneg Dk -> 0 <= den ->
  Forall (fun c => fails_at_most M B F tbl kp n lk D Dk num den (fun K => crun B F tbl K (ct_of cts) c) (cval (bit_of ins) c)) cs ->
  layer_at_most M B F tbl kp n lk D Dk (Z.of_nat (length cs) * num) den ins cts cs.
Proof.
  intros HD HDk Hd H. unfold layer_at_most, layer_fails. cbv zeta.
  apply (union_bound _ (fun c => gate_fails M B F tbl kp (fun K => crun B F tbl K (ct_of cts) c) (cval (bit_of ins) c))); [apply randomness_nonneg; assumption|exact Hd| |exact H].
  intros c x. apply fails_range.
Qed.
Lemma lwe_layer_bound M B F tbl kp n lk D Dk num den ins cts cs : nonneg D -> nonneg Dk -> 0 <= den ->
  Forall (fun c => lwe_fails_at_most M B F tbl kp n lk D Dk num den (fun K => crun B F tbl K (ct_of cts) c) (cval (bit_of ins) c)) cs ->
  lwe_layer_at_most M B F tbl kp n lk D Dk (Z.of_nat (length cs) * num) den ins cts cs.
Proof.
  intros HD HDk Hd H. unfold lwe_layer_at_most, lwe_layer_fails. cbv zeta. intros masks HM.
  apply (union_bound _ (fun c => lwe_gate_fails M B F tbl kp masks (fun K => crun B F tbl K (ct_of cts) c) (cval (bit_of ins) c))); [apply lwe_randomness_nonneg; assumption|exact Hd| |].
  - intros c x. apply lwe_fails_range.
  - apply Forall_forall. intros c Hc. rewrite Forall_forall in H. exact (H c Hc masks HM).
Qed.
