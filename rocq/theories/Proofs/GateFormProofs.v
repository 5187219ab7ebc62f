(** What a gate does before the bootstrap, from the parameters alone. *)
From Coq Require Import ZArith Znumtheory List Bool Arith Lia.
From Verif Require Import Spec.Basic Spec.Poly Spec.Ring Spec.Lattice Spec.Blind Spec.Switch Spec.Gates Model.Base Model.Plaintext Model.Field Model.PowOf2 Model.NTT Model.Concrete Model.Poly Model.Lwe Model.Rlwe Model.Gadget Model.BlindRotation Model.KeySwitch Model.ModSwitch Model.Params Model.Boolean
  Proofs.Arith Proofs.BarrettProofs Proofs.NumTheory Proofs.FieldProofs Proofs.PolyMath Proofs.PolyMain Proofs.NTTProofs Proofs.PolyProofs Proofs.LutProofs Proofs.LweProofs Proofs.PowOf2Proofs Proofs.RlweProofs Proofs.BlindProofs Proofs.AliveProofs Proofs.GateProofs Props.C29 Props.C39.
Import ListNotations.
Local Open Scope Z_scope.

Section Form.
Variables (BF p : Z) (k : nat) (F : field) (tbl : tables) (B j : Z) (P : parameters) (z : list Z).
Notation N := (Z.of_nat (2 ^ k)).
Notation q := (2 ^ j).
Notation M := (2 ^ (Z.of_nat k - 2)).
Notation st := (2 ^ Z.max 0 (Z.of_nat k + 1 - j)).
Hypothesis HS : (wwidth BF /\ prime p /\ p < 2 ^ 64 /\ derive_field BF p = Some F /\ serves F tbl k /\ (2 <= k <= 31)%nat) /\
  (0 < B <= 64 /\ 3 <= j < B /\ j < 49 /\ 2 * N < 2 ^ B /\ (q - 1) * (2 * N) < 2 ^ 52) /\ (pp_N P = N /\ pp_q P = q /\ True).

Lemma NM : N = 4 * M /\ 0 < M /\ N = 2 ^ Z.of_nat k /\ q = 4 * (q / 4) /\ 0 < q / 4 /\ q = 4 * 2 ^ (j - 2).
Proof.
  destruct HS as ((_ & _ & _ & _ & _ & Hk) & (_ & Hj & _) & _).
  assert (EN : N = 2 ^ Z.of_nat k) by (rewrite Nat2Z.inj_pow; reflexivity).
  assert (X : forall a, 2 <= a -> 2 ^ a = 4 * 2 ^ (a - 2)).
  { intros a Ha. replace a with (2 + (a - 2)) at 1 by lia. rewrite Z.pow_add_r by lia. reflexivity. }
  assert (0 < M) by (apply Z.pow_pos_nonneg; lia). assert (Hj2 : 0 < 2 ^ (j - 2)) by (apply Z.pow_pos_nonneg; lia).
  pose proof (X j ltac:(lia)) as Xj. pose proof (X (Z.of_nat k) ltac:(lia)) as Xk.
  assert (D : q / 4 = 2 ^ (j - 2)) by (rewrite Xj, Z.mul_comm, Z.div_mul; lia). rewrite D. repeat split; try lia.
Qed.

Lemma ops_ok : lwe_ops B P = Some (p2_mops B (q - 1)) /\ modulus_ops q (p2_mops B (q - 1)).
Proof.
  destruct HS as (_ & (HB & Hj & _) & (_ & Pq & _)). split.
  - unfold lwe_ops. rewrite Pq, (p2_new_q 0 j) by lia. reflexivity.
  - apply mod_pow2. lia.
Qed.

Lemma step_ok : lut_step (pp_N P) (pp_q P) = Some st.
Proof.
  destruct NM as (_ & _ & EN2 & _). destruct HS as ((_ & _ & _ & _ & _ & Hk) & (_ & Hj & _) & (PN & Pq & _)).
  rewrite PN, Pq, EN2. apply lut_step_correct; lia.
Qed.

Lemma luts_ok :
  (exists lut, init_nand_lut F (pp_N P) st = Some lut /\ half_circle_table p (2 ^ k) st (- M) lut) /\
  (exists lut, init_and_majority_lut F (pp_N P) st = Some lut /\ half_circle_table p (2 ^ k) st (3 * M) lut) /\
  (exists lut, init_or_lut F (pp_N P) st = Some lut /\ half_circle_table p (2 ^ k) st M lut) /\
  (exists lut, init_nor_lut F (pp_N P) st = Some lut /\ half_circle_table p (2 ^ k) st (- (3 * M)) lut) /\
  (exists lut, init_xor_lut F (pp_N P) st = Some lut /\ half_circle_table p (2 ^ k) st (2 * M) lut) /\
  (exists lut, init_xnor_lut F (pp_N P) st = Some lut /\ half_circle_table p (2 ^ k) st (- (2 * M)) lut).
Proof.
  destruct NM as (EN & HM & EN2 & _). destruct HS as ((HBF & Hp & _ & HF & Hs & Hk) & (_ & Hj & _) & (PN & Pq & _)).
  destruct (field_facts BF p k F tbl HBF Hp HF Hs ltac:(lia)) as (Hok & Ep & _).
  assert (Hk63 : 2 <= Z.of_nat k < 63) by lia.
  pose proof (tables_correct F Hok (Z.of_nat k) j st Hk63 ltac:(lia) eq_refl) as T. cbv zeta in T.
  rewrite Ep, <- EN2, Nat2Z.id in T. rewrite PN.
  replace (N / 4) with M in T by (rewrite EN, Z.mul_comm, Z.div_mul; lia).
  replace (N / 2) with (2 * M) in T by (rewrite EN; replace (4 * M) with (2 * M * 2) by ring; rewrite Z.div_mul; lia).
  exact T.
Qed.

Lemma bit_phase m e x : bit_ct q z m e x -> lwe_wf q (length z) x /\ cong q (phase q z x) (bz m * (q / 4) + e).
Proof.
  intros (Wx & Px). split; [exact Wx|]. destruct NM as (_ & _ & _ & Eq & Hq4 & _).
  apply mod_cong; [lia|]. rewrite Px. f_equal. destruct m; cbn [bz]; lia.
Qed.

Ltac inside := intros d Hd; repeat match goal with b : bool |- _ => destruct b end; cbn [bz andb orb negb xorb];
  destruct NM as (EN & HM & _);
  match goal with |- (?x mod (2 * ?n) <? ?n) = _ =>
    first [ apply (half_in n x x 0); lia | apply (half_out n x x 0); lia
          | apply (half_in n x (x + 2 * n) (-1)); lia | apply (half_out n x (x + 2 * n) (-1)); lia
          | apply (half_in n x (x - 2 * n) 1); lia | apply (half_out n x (x - 2 * n) 1); lia ] end.

Lemma add_bits f m0 m1 e0 e1 c0 c1 : phase_hom2 q f Z.add -> bit_ct q z m0 e0 c0 -> bit_ct q z m1 e1 c1 ->
  exists x, f c0 c1 = Some x /\ lwe_wf q (length z) x /\ cong q (phase q z x) ((bz m0 + bz m1) * (q / 4) + (e0 + e1)).
Proof.
  intros Hf H0 H1. apply bit_phase in H0. apply bit_phase in H1. destruct H0 as (W0 & P0). destruct H1 as (W1 & P1).
  destruct NM as (_ & _ & _ & Eq & Hq4 & _).
  destruct (Hf (length z) z c0 c1 W0 W1 eq_refl) as (x & Ex & Wx & Px).
  exists x. split; [exact Ex|]. split; [exact Wx|].
  assert (C : cong q (phase q z x) (phase q z c0 + phase q z c1)) by (apply mod_cong; [lia|exact Px]).
  rewrite C, P0, P1. apply cong_of_eq. ring.
Qed.

Lemma diff_bits m0 m1 e0 e1 c0 c1 : bit_ct q z m0 e0 c0 -> bit_ct q z m1 e1 c1 ->
  exists x0 x, lwe_sub (p2_mops B (q - 1)) c0 c1 = Some x0 /\ lwe_scalar_mul (p2_mops B (q - 1)) x0 2 = Some x /\ lwe_wf q (length z) x /\
    cong q (phase q z x) ((2 * (bz m0 - bz m1)) * (q / 4) + 2 * (e0 - e1)).
Proof.
  intros H0 H1. apply bit_phase in H0. apply bit_phase in H1. destruct H0 as (W0 & P0). destruct H1 as (W1 & P1).
  destruct NM as (_ & _ & _ & Eq & Hq4 & _). destruct ops_ok as (_ & Ho).
  destruct (proj1 (C29_sub q _ Ho) (length z) z c0 c1 W0 W1 eq_refl) as (x0 & Ex0 & Wx0 & Px0).
  destruct (C29_scalar_mul q _ 2 Ho ltac:(lia) (length z) z x0 Wx0 eq_refl) as (x & Ex & Wx & Px).
  exists x0, x. split; [exact Ex0|]. split; [exact Ex|]. split; [exact Wx|].
  assert (C0 : cong q (phase q z x0) (phase q z c0 - phase q z c1)) by (apply mod_cong; [lia|exact Px0]).
  assert (C : cong q (phase q z x) (phase q z x0 * 2)) by (apply mod_cong; [lia|exact Px]).
  rewrite C, C0, P0, P1. apply cong_of_eq. ring.
Qed.

Lemma rad_M eta : 8 * N * Z.abs eta + 2 * first_switch N q z < q * N -> 4 * N * Z.abs eta + first_switch N q z < 2 * q * M.
Proof. destruct NM as (EN & HM & _ & Eq & Hq4 & _). intros H. assert (q * N = 4 * (q * M)) by (rewrite EN at 1; ring). lia. Qed.

Lemma decrypt_bit Mt m e y : bit_ct q z m e y -> 8 * Z.abs e < q ->
  decrypt Mt B 4 q (map (fun x => x mod q) z) y = Some (bz m).
Proof.
  intros (Wy & Py) He. destruct NM as (_ & _ & _ & Eq & Hq4 & Eq2). destruct HS as (_ & (HB & Hj & _) & _).
  assert (Ph : phase q (map (fun x => x mod q) z) y = phase q z y).
  { unfold phase. apply cong_iff; [lia|]. generalize (la y). intros a. 
    assert (D : forall a s, cong q (dotz a (map (fun x => x mod q) s)) (dotz a s)).
    { induction a0 as [|v a0 IH]; intros [|u s0]; cbn [map dotz]; try reflexivity. rewrite IH.
      assert (C : cong q (u mod q) u) by (apply cong_mod; lia). rewrite C. reflexivity. }
    rewrite D. reflexivity. }
  assert (Hij : 0 <= 2 < j) by lia.
  change 4 with (2 ^ 2) at 1. rewrite (decrypt_correct B 2 j) by (try lia; rewrite map_length; exact (proj1 Wy)).
  rewrite Ph, Py. change (2 ^ 2) with 4.
  assert (D : q / 4 = 2 ^ (j - 2)) by (rewrite Eq2, Z.mul_comm, Z.div_mul; lia).
  assert (D2 : 2 ^ (j - 2) = 2 * 2 ^ (j - 2 - 1)).
  { replace (j - 2) with (Z.succ (j - 2 - 1)) at 1 by lia. apply Z.pow_succ_r. lia. }
  assert (D3 : q / 4 / 2 = 2 ^ (j - 2 - 1)) by (rewrite D, D2, Z.mul_comm, Z.div_mul; lia).
  replace (((if m then q / 4 else 0) + e)) with (bz m * (q / 2 ^ 2) + e) by (change (2 ^ 2) with 4; destruct m; cbn [bz]; lia).
  assert (Hm : 0 <= bz m < 2 ^ 2) by (change (2 ^ 2) with 4; destruct m; cbn; lia).
  pose proof (decode_exact 2 j Hij ltac:(lia) (bz m) e Hm ltac:(lia)) as Dx. change (2 ^ 2) with 4 in Dx |- *. rewrite D3, D. rewrite D in Dx. rewrite Dx.
  destruct Mt, m; reflexivity.
Qed.


(** The slots of the tables. *)
Variable w : Z.
Hypothesis C : ctx F tbl k w.
Definition alive (lut : list Z) : Prop := forall i, (i < 2 ^ k)%nat -> ~ (p | ev (zt w k i) lut).

Lemma luts_alive lut : 8 <= p -> In (Some lut) [init_nand_lut F (pp_N P) st; init_and_majority_lut F (pp_N P) st; init_or_lut F (pp_N P) st;
    init_nor_lut F (pp_N P) st; init_xor_lut F (pp_N P) st; init_xnor_lut F (pp_N P) st] -> alive lut.
Proof.
  intros P8. destruct NM as (EN & HM & EN2 & _). destruct HS as ((HBF & Hp & _ & HF & Hs & Hk) & (_ & Hj & _) & (PN & Pq & _)).
  destruct (field_facts BF p k F tbl HBF Hp HF Hs ltac:(lia)) as (Hok & Ep & P0).
  destruct (eighths_correct F Hok) as (e & ne & Ee & E8 & Cne & Re & Rne). rewrite Ep in *.
  unfold init_nand_lut, init_and_majority_lut, init_or_lut, init_nor_lut, init_xor_lut, init_xnor_lut. rewrite PN, Ee. cbn [bind].
  unfold init_nand_and_majority_lut, init_or_nor_lut, init_xor_xnor_lut. cbn [bind].
  assert (D4 : N / 4 = M) by (rewrite EN, Z.mul_comm, Z.div_mul; lia).
  assert (D2 : N / 2 = 2 * M) by (rewrite EN; replace (4 * M) with (2 * M * 2) by ring; rewrite Z.div_mul; lia).
  rewrite D4, D2. 
  assert (Hst : 0 < st) by (apply Z.pow_pos_nonneg; lia).
  assert (DM : (st | M)) by (destruct (Z.le_gt_cases 0 (Z.of_nat k + 1 - j)); [exists (2 ^ (Z.of_nat k - 2 - Z.max 0 (Z.of_nat k + 1 - j))); rewrite <- Z.pow_add_r by lia; f_equal; lia
    |rewrite Z.max_l by lia; apply Z.divide_1_l]).
  assert (He : ~ (p | e)) by (intros H; apply Z.divide_pos_le in H; [lia|rewrite E8; apply Z.div_str_pos; lia]).
  assert (Hne : ~ (p | ne)).
  { intros H. apply He. apply Z.divide_opp_r. apply cong_0. rewrite <- Cne. apply cong_0. exact H. }
  assert (G : forall mid lo hi, (st | mid) -> 0 <= mid <= N -> cong p lo (- hi) -> ~ (p | hi) -> two_part_lut N mid st lo hi = Some lut -> alive lut).
  { intros mid lo hi Hm Rm Hc Hh E i Hi. rewrite <- Ep. apply (two_part_alive F ltac:(rewrite Ep; exact Hp) tbl k w C ltac:(lia) (repeat 0 (2 ^ k)) (repeat_length _ _) N mid st lo hi lut i); try assumption; try reflexivity.
    - rewrite EN. apply Z.divide_mul_r. exact DM.
    - rewrite Ep. exact Hc.
    - rewrite Ep. exact Hh. }
  assert (Ce : cong p e (- ne)) by (rewrite Cne; apply cong_of_eq; ring).
  assert (U : uadd 64 (2 * M) M = Some (3 * M)).
  { unfold uadd. assert (2 * M + M < 2 ^ 64) by (assert (M < 2 ^ 30) by (apply Z.pow_lt_mono_r; lia); change (2 ^ 64) with 18446744073709551616; change (2 ^ 30) with 1073741824 in *; lia).
    replace (2 * M + M <? 2 ^ 64) with true by (symmetry; apply Z.ltb_lt; assumption). f_equal. lia. }
  rewrite !U. cbn [bind].
  intros [H|[H|[H|[H|[H|[H|[]]]]]]]; (eapply G; [| | | |exact H]; try assumption; try lia); try (apply Z.divide_mul_r; exact DM).
Qed.

(** A gate is a bootstrap of [x] with a table: wherever the first modulus switch puts the phase of [x],
    the table tells the bit [m]. *)
Definition gate_form (m : bool) (g : eval_key -> option lwe) : Prop :=
  exists x lut start, (forall K, ek_par K = P -> g K = bootstrap B F tbl K x lut) /\ half_circle_table p (2 ^ k) st start lut /\ alive lut /\
    lwe_wf q (length z) x /\
    forall t e, 2 * Z.abs e <= first_switch N q z -> cong (2 * N * q) (q * t) (2 * N * phase q z x + e) -> ((t - start) mod (2 * N) <? N) = m.

Lemma form_bit m g x lut start c eta rad : (forall K, ek_par K = P -> g K = bootstrap B F tbl K x lut) -> half_circle_table p (2 ^ k) st start lut -> alive lut ->
  lwe_wf q (length z) x -> cong q (phase q z x) (c * (q / 4) + eta) -> 4 * N * Z.abs eta + first_switch N q z < 2 * q * rad ->
  (forall d, Z.abs d < rad -> ((c * (2 * M) + d - start) mod (2 * N) <? N) = m) -> gate_form m g.
Proof.
  intros Hg Tb Al Hx (l & Hph) Hrad Hin. exists x, lut, start. split; [exact Hg|]. split; [exact Tb|]. split; [exact Al|]. split; [exact Hx|].
  intros t e Be (h & Ct). destruct NM as (EN & HM & EN2 & Eq & Hq4 & _).
  set (u := phase q z x) in *. set (d := t - c * (2 * M) - (h + l) * (2 * N)).
  assert (Ed : q * d = 2 * N * eta + e).
  { unfold d. assert (2 * N * u = 2 * N * (c * (q / 4) + eta + l * q)) by (f_equal; lia).
    assert (q * (c * (2 * M)) = 2 * N * (c * (q / 4))) by (transitivity (4 * (q / 4) * (c * (2 * M))); [rewrite <- Eq; reflexivity|rewrite EN; ring]). lia. }
  assert (Hd : Z.abs d < rad).
  { assert (A : q * Z.abs d = Z.abs (2 * N * eta + e)) by (rewrite <- Ed, Z.abs_mul, (Z.abs_eq q) by lia; reflexivity).
    assert (A2 : Z.abs (2 * N * eta + e) <= 2 * N * Z.abs eta + Z.abs e).
    { pose proof (Z.abs_triangle (2 * N * eta) e). rewrite Z.abs_mul, (Z.abs_eq (2 * N)) in H by lia. lia. }
    apply (Z.mul_lt_mono_pos_l q); lia. }
  rewrite <- (Hin d Hd). f_equal. apply cong_iff; [lia|]. exists (h + l). unfold d. ring.
Qed.

Hypothesis P8 : 8 <= p.
Lemma form2 m0 m1 e0 e1 c0 c1 : bit_ct q z m0 e0 c0 -> bit_ct q z m1 e1 c1 ->
  8 * N * Z.abs (e0 + e1) + 2 * first_switch N q z < q * N ->
  gate_form (negb (m0 && m1)) (fun K => g_nand B F tbl K c0 c1) /\ gate_form (m0 && m1) (fun K => g_and B F tbl K c0 c1) /\
  gate_form (m0 || m1) (fun K => g_or B F tbl K c0 c1) /\ gate_form (negb (m0 || m1)) (fun K => g_nor B F tbl K c0 c1).
Proof.
  intros H0 H1 Hn. destruct (add_bits _ _ _ _ _ _ _ (proj1 (C29_add q _ (proj2 ops_ok))) H0 H1) as (x & Ex & Wx & Px). apply rad_M in Hn.
  destruct luts_ok as ((l1 & E1 & T1) & (l2 & E2 & T2) & (l3 & E3 & T3) & (l4 & E4 & T4) & _).
  assert (GG : forall K, ek_par K = P -> g_nand B F tbl K c0 c1 = bootstrap B F tbl K x l1 /\ g_and B F tbl K c0 c1 = bootstrap B F tbl K x l2 /\ g_or B F tbl K c0 c1 = bootstrap B F tbl K x l3 /\ g_nor B F tbl K c0 c1 = bootstrap B F tbl K x l4).
  { intros K EK. unfold g_nand, g_and, g_or, g_nor. rewrite EK, (proj1 ops_ok). cbn [bind]. rewrite Ex. cbn [bind]. rewrite step_ok. cbn [bind]. rewrite E1, E2, E3, E4. cbn [bind]. tauto. }
  pose proof (luts_alive l1 P8) as A1. pose proof (luts_alive l2 P8) as A2. pose proof (luts_alive l3 P8) as A3. pose proof (luts_alive l4 P8) as A4. rewrite E1, E2, E3, E4 in *. cbn [In] in *.
  split; [|split; [|split]]; (eapply form_bit; [intros K EK; apply GG; exact EK|eassumption|tauto|exact Wx|exact Px|exact Hn|inside]).
Qed.
Lemma formx m0 m1 e0 e1 c0 c1 : bit_ct q z m0 e0 c0 -> bit_ct q z m1 e1 c1 ->
  8 * N * Z.abs (e0 - e1) + first_switch N q z < q * N ->
  gate_form (xorb m0 m1) (fun K => g_xor B F tbl K c0 c1) /\ gate_form (negb (xorb m0 m1)) (fun K => g_xnor B F tbl K c0 c1).
Proof.
  intros H0 H1 Hn. destruct (diff_bits _ _ _ _ _ _ H0 H1) as (x0 & x & Ex0 & Ex & Wx & Px).
  destruct luts_ok as (_ & _ & _ & _ & (l1 & E1 & T1) & (l2 & E2 & T2)).
  assert (Hr : 4 * N * Z.abs (2 * (e0 - e1)) + first_switch N q z < 2 * q * (2 * M)).
  { destruct NM as (EN & HM & _ & Eq & Hq4 & _). rewrite Z.abs_mul. change (Z.abs 2) with 2. assert (q * N = 2 * q * (2 * M)) by (rewrite EN at 1; ring). lia. }
  assert (GG : forall K, ek_par K = P -> g_xor B F tbl K c0 c1 = bootstrap B F tbl K x l1 /\ g_xnor B F tbl K c0 c1 = bootstrap B F tbl K x l2).
  { intros K EK. unfold g_xor, g_xnor. rewrite EK, (proj1 ops_ok). cbn [bind]. rewrite Ex0. cbn [bind]. rewrite Ex. cbn [bind]. rewrite step_ok. cbn [bind]. rewrite E1, E2. cbn [bind]. tauto. }
  pose proof (luts_alive l1 P8) as A1. pose proof (luts_alive l2 P8) as A2. rewrite E1, E2 in *. cbn [In] in *.
  split; (eapply form_bit; [intros K EK; apply GG; exact EK|eassumption|tauto|exact Wx|exact Px|exact Hr|inside]).
Qed.
Lemma formm m0 m1 m2 e0 e1 e2 c0 c1 c2 : bit_ct q z m0 e0 c0 -> bit_ct q z m1 e1 c1 -> bit_ct q z m2 e2 c2 ->
  8 * N * Z.abs (e0 + e1 + e2) + 2 * first_switch N q z < q * N ->
  gate_form (m0 && m1 || m1 && m2 || m2 && m0) (fun K => g_majority B F tbl K c0 c1 c2).
Proof.
  intros H0 H1 H2 Hn. apply rad_M in Hn. destruct (add_bits _ _ _ _ _ _ _ (proj1 (C29_add q _ (proj2 ops_ok))) H0 H1) as (x0 & Ex0 & Wx0 & Px0).
  apply bit_phase in H2. destruct H2 as (W2 & P2). destruct NM as (_ & _ & _ & Eq & Hq4 & _).
  destruct (proj2 (C29_add q _ (proj2 ops_ok)) (length z) z x0 c2 Wx0 W2 eq_refl) as (x & Ex & Wx & Px).
  assert (Cx : cong q (phase q z x) ((bz m0 + bz m1 + bz m2) * (q / 4) + (e0 + e1 + e2))).
  { assert (Cx : cong q (phase q z x) (phase q z x0 + phase q z c2)) by (apply mod_cong; [lia|exact Px]). rewrite Cx, Px0, P2. apply cong_of_eq. ring. }
  destruct luts_ok as (_ & (l2 & E2 & T2) & _).
  assert (GG : forall K, ek_par K = P -> g_majority B F tbl K c0 c1 c2 = bootstrap B F tbl K x l2).
  { intros K EK. unfold g_majority. rewrite EK, (proj1 ops_ok). cbn [bind]. rewrite Ex0. cbn [bind]. rewrite Ex. cbn [bind]. rewrite step_ok. cbn [bind]. rewrite E2. reflexivity. }
  pose proof (luts_alive l2 P8) as A2. rewrite E2 in A2. cbn [In] in A2.
  eapply form_bit; [exact GG|exact T2|tauto|exact Wx|exact Cx|exact Hn|inside].
Qed.
End Form.
