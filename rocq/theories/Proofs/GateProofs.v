(** Bootstrapping and Boolean gates. *)
From Coq Require Import ZArith Znumtheory List Bool Arith Lia.
From Verif Require Import Spec.Basic Spec.Poly Spec.Lattice Spec.Ring Spec.Blind Spec.Switch Spec.Gates.
From Verif Require Import Model.Base Model.PowOf2 Model.Field Model.NTT Model.Concrete Model.Poly Model.Lwe Model.Rlwe Model.Gadget Model.BlindRotation Model.KeySwitch Model.ModSwitch Model.Params Model.Boolean.
From Verif Require Import Proofs.Arith Proofs.PolyMath Proofs.FieldProofs Proofs.PolyMain Proofs.NTTProofs Proofs.PolyProofs Proofs.RlweProofs Proofs.LutProofs Proofs.ModSwitchProofs.
From Verif Require Import Proofs.LweProofs Proofs.PowOf2Proofs.
From Verif Require Import Props.C29 Props.C35 Props.C36 Props.C37 Props.C38 Props.C39 Props.C30.
Import ListNotations.
Local Open Scope Z_scope.

Lemma cong_scale p q a b : cong p a b -> cong (p * q) (q * a) (q * b).
Proof. intros (c & H). exists c. rewrite <- Z.mul_sub_distr_l, H. ring. Qed.
Lemma cong_shrink p q a b : q <> 0 -> cong (p * q) (q * a) (q * b) -> cong p a b.
Proof. intros Hq (c & H). exists c. apply (Z.mul_reg_l _ _ q Hq). rewrite Z.mul_sub_distr_l, H. ring. Qed.
Lemma mod_cong p a b : 0 < p -> a = b mod p -> cong p a b.
Proof. intros Hp ->. apply cong_mod. lia. Qed.
Lemma cong_mods p a b : 0 < p -> a mod p = b mod p -> cong p a b.
Proof. intros Hp H. apply cong_iff; assumption. Qed.
Lemma cong_dvd p q a b : (q | p) -> cong p a b -> cong q a b.
Proof. intros H1 H2. exact (Z.divide_trans _ _ _ H1 H2). Qed.

Lemma norm1_nonneg s : 0 <= norm1 s.
Proof. induction s; cbn; lia. Qed.
Lemma nonzeros_le a : 0 <= nonzeros a <= Z.of_nat (length a).
Proof. unfold nonzeros. induction a as [|x a IH]; cbn [filter length]; [lia|]. destruct (negb (x =? 0)); cbn [length]; lia. Qed.

Lemma xpow_cong n a b : (0 < n)%nat -> cong (2 * Z.of_nat n) a b -> xpow n a = xpow n b.
Proof. intros Hn H. unfold xpow. do 2 f_equal. apply cong_iff; [lia|exact H]. Qed.

Lemma dotz_map_scale c a z : dotz (map (fun v => c * v) a) z = c * dotz a z.
Proof. revert z. induction a; intros [|y z]; cbn; rewrite ?IHa; lia. Qed.

(** ** The first modulus switch *)
Section First.
Variables (B q N : Z) (n : nat) (x : lwe) (z : list Z).
Hypothesis HB : 0 < B <= 64.
Hypothesis Hq : 0 < q < 2 ^ 64.
Hypothesis HN : 0 < 2 * N < 2 ^ B.
Hypothesis H52 : (q - 1) * (2 * N) < 2 ^ 52.
Hypothesis Hx : lwe_wf q n x.
Hypothesis Lz : length z = n.

Lemma first_switch_ok st : (st * q = 2 * N \/ (st = 1 /\ (2 * N) mod q <> 0)) ->
  exists y e, lwe_modulus_switch_assign B q (2 * N) x = Some y /\ lwe_wf (2 * N) n y /\
    (st | phase (2 * N) z y) /\ 2 * Z.abs e <= first_switch N q z /\
    cong (2 * N * q) (q * phase (2 * N) z y) (2 * N * phase q z x + e).
Proof.
  intros Hst. destruct (C39_ciphertext B q (2 * N) n x (mk_lwe (la x) 0) z HB Hq ltac:(lia) H52 Hx (proj1 Hx))
    as (y & _ & _ & E & Ea & Eb & W & (e & He & Hp)).
  exists y. unfold first_switch. destruct Hst as [Hst|(-> & Hnd)].
  - assert (Hs : 0 < st) by nia. exists 0. split; [exact E|]. split; [exact W|].
    assert (R : forall v, 0 <= v < q -> round_div (v * (2 * N)) q mod (2 * N) = st * v).
    { intros v Hv. unfold round_div. rewrite <- Hst.
      replace (2 * (v * (st * q)) + q) with (q + (v * st) * (2 * q)) by ring. rewrite Z.div_add by lia. rewrite Z.div_small by lia.
      rewrite Z.mod_small by nia. ring. }
    destruct Hx as (Lx & Cx & Bx).
    assert (P : phase (2 * N) z y = st * phase q z x).
    { unfold phase. rewrite Ea, Eb, R by exact Bx.
      replace (map (fun v => round_div (v * (2 * N)) q mod (2 * N)) (la x)) with (map (fun v => st * v) (la x)).
      2:{ apply map_ext_in. intros v Hv. symmetry. apply R. exact (proj1 (Forall_forall _ _) Cx v Hv). }
      rewrite dotz_map_scale, <- Z.mul_sub_distr_l. rewrite <- Hst. apply Z.mul_mod_distr_l; lia. }
    assert (Z0 : (2 * N) mod q = 0) by (rewrite <- Hst; apply Z.mod_mul; lia).
    rewrite Z0, P. split; [exists (phase q z x); ring|]. split; [cbn; lia|]. rewrite <- Hst. apply cong_of_eq. ring.
  - exists e. split; [exact E|]. split; [exact W|]. split; [apply Z.divide_1_l|].
    replace ((2 * N) mod q =? 0) with false by (symmetry; apply Z.eqb_neq; exact Hnd). split; [exact He|].
    replace (2 * N * q) with (q * (2 * N)) by ring. apply cong_mods; [nia|exact Hp].
Qed.
End First.

(** ** Bootstrapping with any table *)
Section Boot.
Variables (BF p : Z) (k : nat) (F : field) (tbl : tables) (bits : Z).
Hypothesis HBF : wwidth BF.
Hypothesis Hp : prime p.
Hypothesis HF : derive_field BF p = Some F.
Hypothesis Hs : serves F tbl k.
Hypothesis Hk : (0 < k <= 31)%nat.
Hypothesis Hbits : 0 <= bits.
Hypothesis Hp64 : p < 2 ^ 64.
Notation n := (2 ^ k)%nat.
Notation N := (Z.of_nat n).

Lemma n_pos : (0 < n)%nat.
Proof. pose proof (Nat.pow_nonzero 2 k). lia. Qed.

Lemma field_facts : fok F /\ fp F = p /\ 0 < p.
Proof.
  destruct (field_ctx BF p k F tbl HBF Hp HF Hs) as (Hok & E & _). split; [exact Hok|]. split; [exact E|].
  pose proof (prime_ge_2 p Hp). lia.
Qed.

(** Rotation, then adding p/8 to the constant coefficient. *)
Lemma rotate_part b s z E key lut x : basis_new F bits = Some b -> length s = n -> 0 <= E ->
  rotation_key F tbl n b s E z key -> length lut = n -> canonical p lut -> lwe_wf (2 * N) (length z) x ->
  exists acc e, blind_rotate F tbl key lut x b = Some acc /\ rlwe_wf p n acc /\
    Z.abs e <= rotation_noise n b bits E z key /\
    cong p (nth 0 (rphase n s acc) 0) (nth 0 (negacyclic n (xpow n (- phase (2 * N) z x)) lut) 0 + e).
Proof.
  intros Hb Ls HE HK Ll Cl Hx. pose proof n_pos as Hn.
  assert (P2 : 1 <= 2 ^ bits) by (pose proof (Z.pow_pos_nonneg 2 bits); lia).
  assert (Fin : forall E' ct, 0 <= E' ->
    rotated p n s lut (- (lb x - dotz (la x) z)) (nonzeros (la x) * (2 * (Z.of_nat (bs_len b) * (N * ((2 ^ bits - 1) * E'))))) ct ->
    exists e, rlwe_wf p n ct /\ Z.abs e <= Z.of_nat (length z) * (2 * (Z.of_nat (bs_len b) * (N * ((2 ^ bits - 1) * E')))) /\
      cong p (nth 0 (rphase n s ct) 0) (nth 0 (negacyclic n (xpow n (- phase (2 * N) z x)) lut) 0 + e)).
  { intros E' ct HE' (W & e & Le & Be & Hc). exists (nth 0 e 0). split; [exact W|].
    assert (M0 : 0 <= 2 * (Z.of_nat (bs_len b) * (N * ((2 ^ bits - 1) * E')))) by (repeat apply Z.mul_nonneg_nonneg; lia).
    split.
    - apply (Z.le_trans _ (nonzeros (la x) * (2 * (Z.of_nat (bs_len b) * (N * ((2 ^ bits - 1) * E')))))).
      + assert (In (nth 0 e 0) e) by (apply nth_In; lia). exact (proj1 (Forall_forall _ _) Be _ H).
      + apply Z.mul_le_mono_nonneg_r; [exact M0|]. pose proof (nonzeros_le (la x)). rewrite (proj1 Hx) in H. lia.
    - pose proof (pcong_nth_inv p _ _ 0 Hc) as H0.
      rewrite nth_padd in H0 by (rewrite negacyclic_length; lia).
      rewrite (xpow_cong n (- phase (2 * N) z x) (- (lb x - dotz (la x) z)) Hn); [exact H0|].
      unfold phase. assert (C : cong (2 * N) ((lb x - dotz (la x) z) mod (2 * N)) (lb x - dotz (la x) z)) by (apply cong_mod; lia).
      rewrite C. reflexivity. }
  destruct key as [key|key]; cbn [rotation_key rotation_noise] in *.
  - destruct (C35_blind_rotate BF p k F tbl bits b s z lut E key x HBF Hp HF Hs ltac:(lia) Hbits Hb Ls HE HK Ll Cl Hx) as (ct & E1 & R).
    destruct (Fin E ct HE R) as (e & W & Be & Hc). exists ct, e. auto.
  - destruct (C36_blind_rotate BF p k F tbl bits b s z lut E key x HBF Hp HF Hs Hk Hbits Hb Ls HE HK Ll Cl Hx) as (ct & E1 & R).
    destruct (Fin (2 * E) ct ltac:(lia) R) as (e & W & Be & Hc). exists ct, e. auto.
Qed.

Lemma bump acc s : rlwe_wf p n acc -> length s = n ->
  exists b0 e b0', index (rb acc) 0 = Some b0 /\ ushr (fw F) (fp F) 3 = Some e /\ f_new F e = Some (p / 8) /\ f_add F b0 (p / 8) = Some b0' /\
    let acc' := mk_rlwe (ra acc) (b0' :: tl (rb acc)) in
    rlwe_wf p n acc' /\ cong p (nth 0 (rphase n s acc') 0) (nth 0 (rphase n s acc) 0 + p / 8).
Proof.
  intros (L1 & L2 & C1 & C2) Ls. pose proof n_pos as Hn. destruct field_facts as (Hok & Ep & Hp0).
  pose proof (fp_range F Hok) as R. rewrite Ep in *.
  destruct (rb acc) as [|b0 r] eqn:Er; [cbn in L2; lia|].
  assert (Hb0 : 0 <= b0 < p) by (inversion C2; assumption).
  assert (B4 : 3 < fw F) by (destruct Hok as ((h & H1 & H2) & _); lia).
  assert (H8 : 0 <= p / 8 < p) by (split; [apply Z.div_pos; lia|apply Z.div_lt; lia]).
  exists b0, (p / 8), ((b0 + p / 8) mod p). split; [reflexivity|]. split.
  { unfold ushr. replace (3 <? fw F) with true by (symmetry; apply Z.ltb_lt; lia). reflexivity. }
  split. { rewrite (f_new_correct F Hok) by lia. rewrite Ep, Z.mod_small by lia. reflexivity. }
  split. { rewrite (f_add_correct F Hok) by (rewrite Ep; lia). rewrite Ep. reflexivity. }
  cbv zeta. cbn [tl]. pose proof (Z.mod_pos_bound (b0 + p / 8) p Hp0) as MB. split.
  - split; [exact L1|]. split; [exact L2|]. split; [exact C1|]. inversion C2; subst. constructor; [exact MB|assumption].
  - rewrite !nth0_rphase by (try exact Hn; split; cbn [ra rb length] in *; rewrite ?Er; cbn [length]; lia). cbn [ra rb]. rewrite Er. cbn [nth].
    assert (C : cong p ((b0 + p / 8) mod p) (b0 + p / 8)) by (apply cong_mod; lia). rewrite C. apply cong_of_eq. ring.
Qed.

(** The second half: extraction, modulus switch and key switch in the configured order. *)
Variables (B j : Z).
Hypothesis HB : 0 < B <= 64.
Hypothesis Hj : 3 <= j < B.
Hypothesis Hj49 : j < 49.
Notation q := (2 ^ j).

Lemma q_facts : 0 < q < 2 ^ B /\ q < 2 ^ 49.
Proof. split; [split; [apply Z.pow_pos_nonneg; lia|apply Z.pow_lt_mono_r; lia]|apply Z.pow_lt_mono_r; lia]. Qed.

Lemma second_switch m x dst s : lwe_wf p m x -> length (la dst) = m ->
  exists y e, lwe_modulus_switch B p q x = Some y /\ lwe_modulus_switch_inplace B p q x dst = Some y /\ lwe_wf q m y /\
    2 * Z.abs e <= (p + p * q / 2 ^ 49 + 1) * (1 + norm1 s) /\
    cong (p * q) (p * phase q s y) (q * phase p s x + e).
Proof.
  intros Hx Ld. destruct q_facts as (Q1 & Q2). destruct field_facts as (_ & _ & Hp0).
  destruct (C39_any_modulus B p q m x dst s HB ltac:(lia) Q1 Q2 Hx Ld) as (y & E1 & E2 & _ & W & (e & He & H)).
  exists y, e. split; [exact E1|]. split; [exact E2|]. split; [exact W|]. split; [exact He|]. apply cong_mods; [nia|exact H].
Qed.

Lemma bootstrap_ok (K : eval_key) s z E W lut x :
  let P := ek_par K in
  pp_N P = N -> pp_q P = q -> basis_new F bits = Some (pp_basis P) -> 2 * N < 2 ^ B -> (q - 1) * (2 * N) < 2 ^ 52 ->
  length s = n -> 0 <= E -> rotation_key F tbl n (pp_basis P) s E z (ek_br K) -> switching_key B F tbl P s z W (ek_ks K) ->
  length lut = n -> canonical p lut -> lwe_wf q (length z) x ->
  exists y t e err, bootstrap B F tbl K x lut = Some y /\ lwe_wf q (length z) y /\
    0 <= t < 2 * N /\ (2 ^ Z.max 0 (Z.of_nat k + 1 - j) | t) /\ 2 * Z.abs e <= first_switch N q z /\
    cong (2 * N * q) (q * t) (2 * N * phase q z x + e) /\
    2 * Z.abs err <= boot_noise p q (pp_steps P) (rotation_noise n (pp_basis P) bits E z (ek_br K)) W s z /\
    cong (p * q) (p * phase q z y) (q * (nth 0 (negacyclic n (xpow n (- t)) lut) 0 + p / 8) + err).
Proof.
  intros P EN Eq Hb HN2 H52 Ls HE HK HW Ll Cl Hx. pose proof n_pos as Hn. destruct field_facts as (Hok & Ep & Hp0).
  destruct q_facts as (Q1 & Q2).
  set (st := 2 ^ Z.max 0 (Z.of_nat k + 1 - j)).
  assert (EN2 : N = 2 ^ Z.of_nat k) by (rewrite Nat2Z.inj_pow; reflexivity).
  assert (Hst : st * q = 2 * N \/ (st = 1 /\ (2 * N) mod q <> 0)).
  { unfold st. rewrite EN2. replace (2 * 2 ^ Z.of_nat k) with (2 ^ (Z.of_nat k + 1)) by (rewrite Z.pow_add_r by lia; change (2 ^ 1) with 2; ring).
    destruct (Z_le_gt_dec j (Z.of_nat k + 1)) as [Hl|Hl]; [left|right].
    - rewrite <- Z.pow_add_r by lia. f_equal. lia.
    - rewrite Z.max_l by lia. split; [reflexivity|]. rewrite Z.mod_small by (split; [apply Z.pow_nonneg; lia|apply Z.pow_lt_mono_r; lia]).
      apply Z.pow_nonzero; lia. }
  assert (Q64 : 0 < q < 2 ^ 64) by (split; [lia|]; apply (Z.lt_trans _ (2 ^ 49)); [exact Q2|reflexivity]).
  destruct (first_switch_ok B q N (length z) x z HB Q64 ltac:(lia) H52 Hx eq_refl st Hst) as (c & e & Ec & Wc & Dc & Be & Cc).
  destruct (rotate_part (pp_basis P) s z E (ek_br K) lut c Hb Ls HE HK Ll Cl Wc) as (acc & e0 & Er & Wa & B0 & C0).
  destruct (bump acc s Wa Ls) as (b0 & v & b0' & I1 & I2 & I3 & I4 & Wa' & C1). set (acc' := mk_rlwe (ra acc) (b0' :: tl (rb acc))) in *.
  set (t := phase (2 * N) z c) in *.
  assert (Ht : 0 <= t < 2 * N) by (apply Z.mod_pos_bound; lia).
  assert (Run : bootstrap B F tbl K x lut =
    match pp_steps P with
    | BrMsKs => let* l := extract_lwe_locally F acc' in let* l := lwe_modulus_switch B (fp F) (pp_q P) l in
                match ek_ks K with KsLwe K' => lks_key_switch B K' l | _ => None end
    | BrKsMs => match ek_ks K with KsRlwe K' => let* l := rks_key_switch_rlwe F tbl K' acc' in lwe_modulus_switch_inplace B (fp F) (pp_q P) l c | _ => None end
    | BrMs => let* l := extract_lwe_locally F acc' in lwe_modulus_switch_inplace B (fp F) (pp_q P) l c
    end).
  { unfold bootstrap. fold P. rewrite EN. unfold ushl. change (1 <? 64) with true. cbn [bind]. change (2 ^ 1) with 2.
    assert (2 ^ B <= 2 ^ 64) by (apply Z.pow_le_mono_r; lia).
    replace (N * 2) with (2 * N) by ring. rewrite Z.mod_small by lia.
    replace (2 * N <? 2 ^ B) with true by (symmetry; apply Z.ltb_lt; lia). cbn [assert bind]. rewrite Eq.
    rewrite Ec. cbn [bind]. rewrite Er. cbn [bind]. rewrite I1. cbn [bind]. rewrite I2. cbn [bind]. rewrite I3. cbn [bind]. rewrite I4. cbn [bind]. reflexivity. }
  rewrite Run, Ep, Eq. clear Run.
  set (V := nth 0 (negacyclic n (xpow n (- t)) lut) 0 + p / 8).
  assert (CV : cong p (nth 0 (rphase n s acc') 0) (V + e0)) by (rewrite C1, C0; apply cong_of_eq; unfold V; ring).
  set (R := rotation_noise n (pp_basis P) bits E z (ek_br K)) in *.
  assert (Lc : length (la c) = length z) by exact (proj1 Wc).
  unfold switching_key in HW. unfold boot_noise. destruct (pp_steps P).
  - destruct HW as (wb & key & noise & Ek & HEk & Hkb & Hwb & EK & HS & Hno & EW). rewrite EK. rewrite Eq in *.
    destruct (C30_extract BF p F n s acc' HBF ltac:(lia) HF Hn Wa' Ls) as (l & _ & El & Wl & Pl). rewrite El. cbn [bind].
    destruct (second_switch n l (mk_lwe (la l) 0) s Wl (proj1 Wl)) as (l2 & e1 & El2 & _ & Wl2 & Be1 & Cl2). rewrite El2. cbn [bind].
    rewrite <- Ls in Wl2.
    destruct (C37_bound B (pp_ks_bits P) j z s noise Ek wb key l2 Hkb ltac:(lia) Hwb HS Wl2 HEk Hno) as (y & e2 & Ey & Wy & Py & Be2).
    exists y, t, e, (q * e0 + e1 + p * e2). split; [exact Ey|]. split; [exact Wy|]. split; [exact Ht|]. split; [exact Dc|]. split; [exact Be|]. split; [exact Cc|].
    split.
    + rewrite EW. assert (A : Z.abs (q * e0 + e1 + p * e2) <= q * Z.abs e0 + Z.abs e1 + p * Z.abs e2).
      { pose proof (Z.abs_triangle (q * e0 + e1) (p * e2)). pose proof (Z.abs_triangle (q * e0) e1). rewrite !Z.abs_mul in *.
        rewrite (Z.abs_eq q), (Z.abs_eq p) in * by lia. lia. }
      assert (A1 : q * Z.abs e0 <= q * R) by (apply Z.mul_le_mono_nonneg_l; lia).
      assert (A2 : p * Z.abs e2 <= p * (Z.of_nat (wb_len wb) * (Z.of_nat (length s) * Ek))) by (apply Z.mul_le_mono_nonneg_l; lia).
      set (D := (p + p * q / 2 ^ 49 + 1) * (1 + norm1 s)) in *. lia.
    + assert (C2 : cong (p * q) (p * phase q z y) (p * (phase q s l2 + e2))).
      { rewrite (Z.mul_comm p q). apply cong_scale. apply mod_cong; [lia|exact Py]. }
      assert (C3 : cong (p * q) (q * phase p s l) (q * (V + e0))).
      { apply cong_scale. assert (X : cong p (phase p s l) (nth 0 (rphase n s acc') 0)) by (apply mod_cong; [exact Hp0|exact Pl]). rewrite X. exact CV. }
      rewrite C2. replace (p * (phase q s l2 + e2)) with (p * phase q s l2 + p * e2) by ring. rewrite Cl2, C3. apply cong_of_eq. unfold V. ring.
  - destruct HW as (b' & key & zs & k' & Ek & HEk & Hkb & Hb' & Ek' & Hk' & Hs' & EK & Es & Hz & HS & EW). rewrite EK.
    assert (Ws : rlwe_wf p (length (concat zs)) acc') by (rewrite <- Es, Ls; exact Wa').
    destruct (C38_from_rlwe BF p k' F tbl (pp_ks_bits P) b' z Ek zs key acc' HBF Hp HF Hs' Hk' Hkb Hb' Ek' HEk HS Hz Ws) as (l & e2 & El & Wl & Be2 & Pl).
    rewrite El. cbn [bind].
    destruct (second_switch (length z) l c z Wl Lc) as (y & e1 & _ & Ey & Wy & Be1 & Cy).
    exists y, t, e, (q * (e0 + e2) + e1). split; [exact Ey|]. split; [exact Wy|]. split; [exact Ht|]. split; [exact Dc|]. split; [exact Be|]. split; [exact Cc|].
    split.
    + assert (A : Z.abs (q * (e0 + e2) + e1) <= q * (Z.abs e0 + Z.abs e2) + Z.abs e1).
      { pose proof (Z.abs_triangle (q * (e0 + e2)) e1). rewrite Z.abs_mul, (Z.abs_eq q) in H by lia. pose proof (Z.abs_triangle e0 e2).
        assert (q * Z.abs (e0 + e2) <= q * (Z.abs e0 + Z.abs e2)) by (apply Z.mul_le_mono_nonneg_l; lia). lia. }
      assert (A1 : q * (Z.abs e0 + Z.abs e2) <= q * (R + W)) by (apply Z.mul_le_mono_nonneg_l; lia).
      set (D := (p + p * q / 2 ^ 49 + 1) * (1 + norm1 z)) in *. lia.
    + assert (C3 : cong (p * q) (q * phase p z l) (q * (V + e0 + e2))).
      { apply cong_scale. assert (X : cong p (phase p z l) (nth 0 (rphase n s acc') 0 + e2)).
        { apply mod_cong; [exact Hp0|]. rewrite Pl, <- Es, Ls. reflexivity. }
        rewrite X, CV. reflexivity. }
      rewrite Cy, C3. apply cong_of_eq. unfold V. ring.
  - destruct HW as (Es & EW). 
    destruct (C30_extract BF p F n s acc' HBF ltac:(lia) HF Hn Wa' Ls) as (l & _ & El & Wl & Pl). rewrite El. cbn [bind].
    assert (Lz : length z = n) by (rewrite <- Es; exact Ls).
    destruct (second_switch n l c s Wl ltac:(lia)) as (y & e1 & _ & Ey & Wy & Be1 & Cy).
    exists y, t, e, (q * e0 + e1). split; [exact Ey|]. split; [rewrite Lz; exact Wy|]. split; [exact Ht|]. split; [exact Dc|]. split; [exact Be|]. split; [exact Cc|].
    split.
    + assert (A : Z.abs (q * e0 + e1) <= q * Z.abs e0 + Z.abs e1).
      { pose proof (Z.abs_triangle (q * e0) e1). rewrite Z.abs_mul, (Z.abs_eq q) in H by lia. lia. }
      assert (A1 : q * Z.abs e0 <= q * R) by (apply Z.mul_le_mono_nonneg_l; lia).
      set (D := (p + p * q / 2 ^ 49 + 1) * (1 + norm1 s)) in *. lia.
    + assert (C3 : cong (p * q) (q * phase p s l) (q * (V + e0))).
      { apply cong_scale. assert (X : cong p (phase p s l) (nth 0 (rphase n s acc') 0)) by (apply mod_cong; [exact Hp0|exact Pl]). rewrite X. exact CV. }
      rewrite <- Es, Cy, C3. apply cong_of_eq. unfold V. ring.
Qed.
End Boot.

(** ** From phases to bits *)
Lemma half_in (N x r h : Z) : 0 < N -> x = r + h * (2 * N) -> 0 <= r < N -> (x mod (2 * N) <? N) = true.
Proof. intros HN -> Hr. rewrite Z.mod_add, Z.mod_small by lia. apply Z.ltb_lt. lia. Qed.
Lemma half_out (N x r h : Z) : 0 < N -> x = r + h * (2 * N) -> N <= r < 2 * N -> (x mod (2 * N) <? N) = false.
Proof. intros HN -> Hr. rewrite Z.mod_add, Z.mod_small by lia. apply Z.ltb_ge. lia. Qed.

Section Gates.
Variables (BF p : Z) (k : nat) (F : field) (tbl : tables) (B j bits : Z) (K : eval_key) (s z : list Z) (E W : Z).
Hypothesis HS : gate_setting BF p k F tbl B j bits K s z E W.
Notation N := (Z.of_nat (2 ^ k)).
Notation q := (2 ^ j).
Notation M := (2 ^ (Z.of_nat k - 2)).
Notation P := (ek_par K).
Notation st := (2 ^ Z.max 0 (Z.of_nat k + 1 - j)).

Lemma NM : N = 4 * M /\ 0 < M /\ N = 2 ^ Z.of_nat k /\ q = 4 * (q / 4) /\ 0 < q / 4 /\ q = 4 * 2 ^ (j - 2).
Proof.
  destruct HS as ((_ & _ & _ & _ & _ & Hk) & (_ & Hj & _) & _).
  assert (EN : N = 2 ^ Z.of_nat k) by (rewrite Nat2Z.inj_pow; reflexivity).
  assert (X : forall a, 2 <= a -> 2 ^ a = 4 * 2 ^ (a - 2)).
  { intros a Ha. replace a with (2 + (a - 2)) at 1 by lia. rewrite Z.pow_add_r by lia. reflexivity. }
  assert (0 < M) by (apply Z.pow_pos_nonneg; lia). assert (Hj2 : 0 < 2 ^ (j - 2)) by (apply Z.pow_pos_nonneg; lia).
  pose proof (X j ltac:(lia)) as Xj. pose proof (X (Z.of_nat k) ltac:(lia)) as Xk.
  assert (D : q / 4 = 2 ^ (j - 2)) by (rewrite Xj, Z.mul_comm, Z.div_mul; lia). rewrite D. repeat split; try lia.
Qed.

(** On any ciphertext: the phase lands at some t near its rescaled value, and the output is the bit
    that tells whether t lies on the table's half circle, with the noise of a gate output. *)
Lemma boot_core lut start x : half_circle_table p (2 ^ k) st start lut -> lwe_wf q (length z) x ->
  exists t e y e', 2 * Z.abs e <= first_switch N q z /\ cong (2 * N * q) (q * t) (2 * N * phase q z x + e) /\ bootstrap B F tbl K x lut = Some y /\ bit_ct q z ((t - start) mod (2 * N) <? N) e' y /\ 2 * p * Z.abs e' <= out_noise p k j bits K s z E W.
Proof.
  intros (Ll & Cl & Tb) Hx. destruct NM as (EN & HM & EN2 & Eq & Hq4 & _).
  destruct HS as ((HBF & Hp & Hp64 & HF & Hs & Hk) & (HB & Hj & Hj49 & HN2 & H52) & (PN & Pq & Hbits & Hb) & (Ls & HE & HK & HW)).
  destruct (bootstrap_ok BF p k F tbl bits HBF Hp HF Hs ltac:(lia) Hbits Hp64 B j HB Hj Hj49 K s z E W lut x PN Pq Hb HN2 H52 Ls HE HK HW Ll Cl Hx)
    as (y & t & e & err & Ey & Wy & Ht & Dt & Be & Ct & Berr & Cy).
  pose proof (prime_ge_2 p Hp) as P2.
  specialize (Tb t Ht Dt). set (m := (t - start) mod (2 * N) <? N) in *.
  set (V := nth 0 (negacyclic (2 ^ k) (xpow (2 ^ k) (- t)) lut) 0 + p / 8) in *.
  assert (CV : cong p V (if m then 2 * (p / 8) else 0)) by (rewrite <- Tb; symmetry; apply cong_mod; lia).
  (* noise *)
  pose proof (Z.mod_pos_bound p 8 ltac:(lia)) as R8. pose proof (Z.div_mod p 8 ltac:(lia)) as E8.
  set (r := if m then p mod 8 else 0). set (g := err - q / 4 * r).
  assert (Cg : cong (p * q) (p * phase q z y) (p * (if m then q / 4 else 0) + g)).
  { rewrite Cy. rewrite (cong_scale p q V _ CV). apply cong_of_eq. unfold g, r. destruct m; [|ring].
    rewrite Eq at 1. lia. }
  destruct Cg as (v & Cg).
  set (e' := phase q z y - (if m then q / 4 else 0) - v * q).
  assert (Eg : p * e' = g) by (unfold e'; lia).
  exists t, e, y, e'. split; [exact Be|]. split; [exact Ct|]. split; [exact Ey|]. split.
  - split; [exact Wy|]. fold m. unfold e'.
    replace ((if m then q / 4 else 0) + (phase q z y - (if m then q / 4 else 0) - v * q)) with (phase q z y + (- v) * q) by ring.
    rewrite Z.mod_add by lia. symmetry. apply Z.mod_small. apply Z.mod_pos_bound. lia.
  - replace (2 * p * Z.abs e') with (2 * Z.abs g) by (rewrite <- Eg, Z.abs_mul, (Z.abs_eq p) by lia; ring).
    unfold out_noise, gate_noise, g. assert (Hr : 0 <= r <= 7) by (unfold r; destruct m; lia).
    assert (0 <= q / 4 * r <= q / 4 * 7) by (split; [apply Z.mul_nonneg_nonneg; lia|apply Z.mul_le_mono_nonneg_l; lia]).
    set (G := boot_noise p q _ _ W s z) in *. pose proof (Z.abs_triangle err (- (q / 4 * r))) as T.
    rewrite Z.abs_opp, (Z.abs_eq (q / 4 * r)) in T by lia. rewrite Z.add_opp_r in T. lia.
Qed.

Lemma boot_any lut start x : half_circle_table p (2 ^ k) st start lut -> lwe_wf q (length z) x ->
  exists m y e, bootstrap B F tbl K x lut = Some y /\ bit_ct q z m e y /\ 2 * p * Z.abs e <= out_noise p k j bits K s z E W.
Proof. intros T Hx. destruct (boot_core lut start x T Hx) as (t & e & y & e' & _ & _ & H). eexists. exists y, e'. exact H. Qed.

Lemma boot_bit lut start x c eta rad m : half_circle_table p (2 ^ k) st start lut -> lwe_wf q (length z) x ->
  cong q (phase q z x) (c * (q / 4) + eta) -> 4 * N * Z.abs eta + first_switch N q z < 2 * q * rad ->
  (forall d, Z.abs d < rad -> ((c * (2 * M) + d - start) mod (2 * N) <? N) = m) ->
  exists y e, bootstrap B F tbl K x lut = Some y /\ bit_ct q z m e y /\ 2 * p * Z.abs e <= out_noise p k j bits K s z E W.
Proof.
  intros Tb Hx (l & Hph) Hrad Hin. destruct NM as (EN & HM & EN2 & Eq & Hq4 & _).
  destruct HS as (_ & (_ & Hj & _) & _).
  destruct (boot_core lut start x Tb Hx) as (t & e & y & e' & Be & Ct & Ey & Wy & B').
  destruct Ct as (h & Ct).
  set (u := phase q z x) in *.
  (* position of t on the circle *)
  set (d := t - c * (2 * M) - (h + l) * (2 * N)).
  assert (Ed : q * d = 2 * N * eta + e).
  { unfold d. assert (2 * N * u = 2 * N * (c * (q / 4) + eta + l * q)) by (f_equal; lia).
    assert (q * (c * (2 * M)) = 2 * N * (c * (q / 4))) by (rewrite EN, Eq at 1; ring). lia. }
  assert (Hd : Z.abs d < rad).
  { assert (A : q * Z.abs d = Z.abs (2 * N * eta + e)) by (rewrite <- Ed, Z.abs_mul, (Z.abs_eq q) by lia; reflexivity).
    assert (A2 : Z.abs (2 * N * eta + e) <= 2 * N * Z.abs eta + Z.abs e).
    { pose proof (Z.abs_triangle (2 * N * eta) e). rewrite Z.abs_mul, (Z.abs_eq (2 * N)) in H by lia. lia. }
    apply (Z.mul_lt_mono_pos_l q); lia. }
  specialize (Hin d Hd).
  assert (Em : ((t - start) mod (2 * N) <? N) = m).
  { rewrite <- Hin. f_equal. apply cong_iff; [lia|]. exists (h + l). unfold d. ring. }
  rewrite Em in Wy. exists y, e'. auto.
Qed.

Lemma ops_ok : lwe_ops B P = Some (p2_mops B (q - 1)) /\ modulus_ops q (p2_mops B (q - 1)).
Proof.
  destruct HS as (_ & (HB & Hj & _) & (_ & Pq & _) & _). split.
  - unfold lwe_ops. rewrite Pq, (p2_new_q 0 j) by lia. reflexivity.
  - apply mod_pow2. lia.
Qed.

Lemma step_ok : lut_step (pp_N P) (pp_q P) = Some st.
Proof.
  destruct NM as (_ & _ & EN2 & _). destruct HS as ((_ & _ & _ & _ & _ & Hk) & (_ & Hj & _) & (PN & Pq & _) & _).
  rewrite PN, Pq, EN2. apply lut_step_correct; lia.
Qed.

Lemma luts_ok :
  (exists lut, init_nand_lut F (pp_N P) st = Some lut /\ half_circle_table p (2 ^ k) st (- M) lut) /\
  (exists lut, init_and_majority_lut F (pp_N P) st = Some lut /\ half_circle_table p (2 ^ k) st (3 * M) lut) /\
  (exists lut, init_or_lut F (pp_N P) st = Some lut /\ half_circle_table p (2 ^ k) st M lut) /\
  (exists lut, init_nor_lut F (pp_N P) st = Some lut /\ half_circle_table p (2 ^ k) st (- (3 * M)) lut) /\
  (exists lut, init_xor_lut F (pp_N P) st = Some lut /\ half_circle_table p (2 ^ k) st (2 * M) lut) /\
  (exists lut, init_xnor_lut F (pp_N P) st = Some lut /\ half_circle_table p (2 ^ k) st (- (2 * M)) lut).
Proof.
  destruct NM as (EN & HM & EN2 & _). destruct HS as ((HBF & Hp & _ & HF & Hs & Hk) & (_ & Hj & _) & (PN & Pq & _) & _).
  destruct (field_facts BF p k F tbl HBF Hp HF Hs ltac:(lia)) as (Hok & Ep & _).
  assert (Hk63 : 2 <= Z.of_nat k < 63) by lia.
  pose proof (tables_correct F Hok (Z.of_nat k) j st Hk63 ltac:(lia) eq_refl) as T. cbv zeta in T.
  rewrite Ep, <- EN2, Nat2Z.id in T. rewrite PN.
  replace (N / 4) with M in T by (rewrite EN, Z.mul_comm, Z.div_mul; lia).
  replace (N / 2) with (2 * M) in T by (rewrite EN; replace (4 * M) with (2 * M * 2) by ring; rewrite Z.div_mul; lia).
  exact T.
Qed.

Definition bz (m : bool) : Z := if m then 1 else 0.
Lemma bit_phase m e x : bit_ct q z m e x -> lwe_wf q (length z) x /\ cong q (phase q z x) (bz m * (q / 4) + e).
Proof.
  intros (Wx & Px). split; [exact Wx|]. destruct NM as (_ & _ & _ & Eq & Hq4 & _).
  apply mod_cong; [lia|]. rewrite Px. f_equal. destruct m; cbn [bz]; lia.
Qed.

Ltac inside := intros d Hd; repeat match goal with b : bool |- _ => destruct b end; cbn [bz andb orb negb xorb];
  destruct NM as (EN & HM & _);
  match goal with |- (?x mod (2 * ?n) <? ?n) = _ =>
    first [ apply (half_in n x x 0); lia | apply (half_out n x x 0); lia
          | apply (half_in n x (x + 2 * n) (-1)); lia | apply (half_out n x (x + 2 * n) (-1)); lia
          | apply (half_in n x (x - 2 * n) 1); lia | apply (half_out n x (x - 2 * n) 1); lia ] end.

Lemma add_bits f m0 m1 e0 e1 c0 c1 : phase_hom2 q f Z.add -> bit_ct q z m0 e0 c0 -> bit_ct q z m1 e1 c1 ->
  exists x, f c0 c1 = Some x /\ lwe_wf q (length z) x /\ cong q (phase q z x) ((bz m0 + bz m1) * (q / 4) + (e0 + e1)).
Proof.
  intros Hf H0 H1. apply bit_phase in H0. apply bit_phase in H1. destruct H0 as (W0 & P0). destruct H1 as (W1 & P1).
  destruct NM as (_ & _ & _ & Eq & Hq4 & _).
  destruct (Hf (length z) z c0 c1 W0 W1 eq_refl) as (x & Ex & Wx & Px).
  exists x. split; [exact Ex|]. split; [exact Wx|].
  assert (C : cong q (phase q z x) (phase q z c0 + phase q z c1)) by (apply mod_cong; [lia|exact Px]).
  rewrite C, P0, P1. apply cong_of_eq. ring.
Qed.

Lemma diff_bits m0 m1 e0 e1 c0 c1 : bit_ct q z m0 e0 c0 -> bit_ct q z m1 e1 c1 ->
  exists x0 x, lwe_sub (p2_mops B (q - 1)) c0 c1 = Some x0 /\ lwe_scalar_mul (p2_mops B (q - 1)) x0 2 = Some x /\ lwe_wf q (length z) x /\
    cong q (phase q z x) ((2 * (bz m0 - bz m1)) * (q / 4) + 2 * (e0 - e1)).
Proof.
  intros H0 H1. apply bit_phase in H0. apply bit_phase in H1. destruct H0 as (W0 & P0). destruct H1 as (W1 & P1).
  destruct NM as (_ & _ & _ & Eq & Hq4 & _). destruct ops_ok as (_ & Ho).
  destruct (proj1 (C29_sub q _ Ho) (length z) z c0 c1 W0 W1 eq_refl) as (x0 & Ex0 & Wx0 & Px0).
  destruct (C29_scalar_mul q _ 2 Ho ltac:(lia) (length z) z x0 Wx0 eq_refl) as (x & Ex & Wx & Px).
  exists x0, x. split; [exact Ex0|]. split; [exact Ex|]. split; [exact Wx|].
  assert (C0 : cong q (phase q z x0) (phase q z c0 - phase q z c1)) by (apply mod_cong; [lia|exact Px0]).
  assert (C : cong q (phase q z x) (phase q z x0 * 2)) by (apply mod_cong; [lia|exact Px]).
  rewrite C, C0, P0, P1. apply cong_of_eq. ring.
Qed.

Definition good_bit (m : bool) (r : option lwe) : Prop :=
  exists y e, r = Some y /\ bit_ct q z m e y /\ 2 * p * Z.abs e <= out_noise p k j bits K s z E W.

Lemma rad_M eta : 8 * N * Z.abs eta + 2 * first_switch N q z < q * N -> 4 * N * Z.abs eta + first_switch N q z < 2 * q * M.
Proof. destruct NM as (EN & HM & _ & Eq & Hq4 & _). intros H. assert (q * N = 4 * (q * M)) by (rewrite EN at 1; ring). lia. Qed.

Lemma gate_not m e c : bit_ct q z m e c -> exists y, g_not B K c = Some y /\ bit_ct q z (negb m) (- e) y.
Proof.
  intros H. apply bit_phase in H. destruct H as (Wc & Pc). destruct NM as (_ & _ & _ & Eq & Hq4 & _).
  destruct (C29_neg q _ (proj2 ops_ok) (length z) z c Wc eq_refl) as (x & Ex & Wx & Px).
  unfold g_not. destruct HS as (_ & (HB & Hj & _) & (_ & Pq & _) & _). rewrite Pq, (p2_new_q 0 j) by lia. cbn [bind]. rewrite Ex. cbn [bind].
  unfold ushr. replace (2 <? B) with true by (symmetry; apply Z.ltb_lt; lia). cbn [bind]. change (2 ^ 2) with 4.
  eexists. split; [reflexivity|]. destruct Wx as (L1 & L2 & L3).
  rewrite (proj1 (proj2 (p2_ops_correct B j (lb x) (q / 4) ltac:(lia)))). split.
  - split; [exact L1|]. split; [exact L2|]. cbn [lb]. apply Z.mod_pos_bound. lia.
  - assert (C : cong q (phase q z x) (- phase q z c)) by (apply mod_cong; [lia|exact Px]).
    unfold phase at 1. cbn [la lb]. apply cong_iff; [lia|].
    assert (C1 : cong q ((lb x + q / 4) mod q) (lb x + q / 4)) by (apply cong_mod; lia). rewrite C1.
    replace (lb x + q / 4 - dotz (la x) z) with (lb x - dotz (la x) z + q / 4) by ring.
    rewrite <- (phase_cong q z x) by lia. rewrite C, Pc. apply cong_of_eq. destruct m; cbn [bz negb]; ring.
Qed.

(** Gates on arbitrary ciphertexts. *)
Definition some_bit (r : option lwe) : Prop := exists m, good_bit m r.
Lemma gates_any c0 c1 c2 : lwe_wf q (length z) c0 -> lwe_wf q (length z) c1 -> lwe_wf q (length z) c2 ->
  some_bit (g_nand B F tbl K c0 c1) /\ some_bit (g_and B F tbl K c0 c1) /\ some_bit (g_or B F tbl K c0 c1) /\
  some_bit (g_nor B F tbl K c0 c1) /\ some_bit (g_xor B F tbl K c0 c1) /\ some_bit (g_xnor B F tbl K c0 c1) /\
  some_bit (g_majority B F tbl K c0 c1 c2).
Proof.
  intros W0 W1 W2. destruct ops_ok as (Eo & Ho). destruct NM as (_ & _ & _ & Eq & Hq4 & _).
  destruct (proj1 (C29_add q _ Ho) (length z) z c0 c1 W0 W1 eq_refl) as (x & Ex & Wx & _).
  destruct (proj1 (C29_sub q _ Ho) (length z) z c0 c1 W0 W1 eq_refl) as (x0 & Ex0 & Wx0 & _).
  destruct (C29_scalar_mul q _ 2 Ho ltac:(lia) (length z) z x0 Wx0 eq_refl) as (x1 & Ex1 & Wx1 & _).
  destruct (proj2 (C29_add q _ Ho) (length z) z x c2 Wx W2 eq_refl) as (x2 & Ex2 & Wx2 & _).
  destruct luts_ok as ((l1 & E1 & T1) & (l2 & E2 & T2) & (l3 & E3 & T3) & (l4 & E4 & T4) & (l5 & E5 & T5) & (l6 & E6 & T6)).
  unfold g_nand, g_and, g_or, g_nor, g_xor, g_xnor, g_majority. rewrite Eo. cbn [bind]. rewrite Ex, Ex0. cbn [bind].
  rewrite Ex1, Ex2. cbn [bind]. rewrite step_ok. cbn [bind]. rewrite E1, E2, E3, E4, E5, E6. cbn [bind].
  repeat split; (eapply boot_any; [eassumption|assumption]).
Qed.
Lemma not_any c : lwe_wf q (length z) c -> exists y, g_not B K c = Some y /\ lwe_wf q (length z) y.
Proof.
  intros Wc. destruct NM as (_ & _ & _ & Eq & Hq4 & _). destruct HS as (_ & (HB & Hj & _) & (_ & Pq & _) & _).
  destruct (gate_not false (phase q z c) c) as (y & Ey & Wy & _).
  - split; [exact Wc|]. unfold phase. rewrite Z.add_0_l, Z.mod_mod by lia. reflexivity.
  - exists y. split; assumption.
Qed.
Lemma mux_any c0 c1 c2 : lwe_wf q (length z) c0 -> lwe_wf q (length z) c1 -> lwe_wf q (length z) c2 -> some_bit (g_mux B F tbl K c0 c1 c2).
Proof.
  intros W0 W1 W2. destruct ops_ok as (Eo & Ho). destruct (not_any c0 W0) as (n0 & En & Wn).
  destruct (gates_any c0 c1 c2 W0 W1 W2) as (_ & (m0 & t0 & f0 & Et0 & (Wt0 & _) & _) & _).
  destruct (gates_any n0 c2 c2 Wn W2 W2) as (_ & (m1 & t1 & f1 & Et1 & (Wt1 & _) & _) & _).
  destruct (proj2 (C29_add q _ Ho) (length z) z t0 t1 Wt0 Wt1 eq_refl) as (x & Ex & Wx & _).
  destruct luts_ok as (_ & _ & (l & El & T) & _).
  unfold g_mux. rewrite Eo. cbn [bind]. rewrite En. cbn [bind]. rewrite Et0. cbn [bind]. rewrite Et1. cbn [bind]. rewrite Ex. cbn [bind].
  rewrite step_ok. cbn [bind]. rewrite El. cbn [bind]. eapply boot_any; eassumption.
Qed.
Lemma circuit_any x : (forall i, lwe_wf q (length z) (x i)) -> forall c, exists y, crun B F tbl K x c = Some y /\ lwe_wf q (length z) y.
Proof.
  intros Hx. assert (SB : forall r, some_bit r -> exists y, r = Some y /\ lwe_wf q (length z) y) by (intros r (m & y & e & -> & (Wy & _) & _); eauto).
  induction c as [i|a (ya & Ea & Wa)|a (ya & Ea & Wa) b (yb & Eb & Wb)|a (ya & Ea & Wa) b (yb & Eb & Wb)|a (ya & Ea & Wa) b (yb & Eb & Wb)
    |a (ya & Ea & Wa) b (yb & Eb & Wb)|a (ya & Ea & Wa) b (yb & Eb & Wb)|a (ya & Ea & Wa) b (yb & Eb & Wb)
    |a (ya & Ea & Wa) b (yb & Eb & Wb) c (yc & Ec & Wc)|a (ya & Ea & Wa) b (yb & Eb & Wb) c (yc & Ec & Wc)];
    cbn [crun]; rewrite ?Ea, ?Eb, ?Ec; cbn [bind lift2 lift3].
  1: exists (x i); split; [reflexivity|apply Hx].
  1: apply not_any; exact Wa.
  1-6: destruct (gates_any ya yb yb Wa Wb Wb) as (G1 & G2 & G3 & G4 & G5 & G6 & _); apply SB; assumption.
  1: destruct (gates_any ya yb yc Wa Wb Wc) as (_ & _ & _ & _ & _ & _ & G7); apply SB; exact G7.
  apply SB, mux_any; assumption.
Qed.

Lemma gates2 m0 m1 e0 e1 c0 c1 : bit_ct q z m0 e0 c0 -> bit_ct q z m1 e1 c1 ->
  8 * N * Z.abs (e0 + e1) + 2 * first_switch N q z < q * N ->
  good_bit (negb (m0 && m1)) (g_nand B F tbl K c0 c1) /\ good_bit (m0 && m1) (g_and B F tbl K c0 c1) /\
  good_bit (m0 || m1) (g_or B F tbl K c0 c1) /\ good_bit (negb (m0 || m1)) (g_nor B F tbl K c0 c1).
Proof.
  intros H0 H1 Hn. destruct (add_bits _ _ _ _ _ _ _ (proj1 (C29_add q _ (proj2 ops_ok))) H0 H1) as (x & Ex & Wx & Px). apply rad_M in Hn.
  destruct luts_ok as ((l1 & E1 & T1) & (l2 & E2 & T2) & (l3 & E3 & T3) & (l4 & E4 & T4) & _).
  unfold g_nand, g_and, g_or, g_nor. rewrite (proj1 ops_ok). cbn [bind]. rewrite Ex. cbn [bind]. rewrite step_ok. cbn [bind].
  rewrite E1, E2, E3, E4. cbn [bind].
  split; [|split; [|split]]; (eapply boot_bit; [eassumption|exact Wx|exact Px|exact Hn|inside]).
Qed.

Lemma gates_x m0 m1 e0 e1 c0 c1 : bit_ct q z m0 e0 c0 -> bit_ct q z m1 e1 c1 ->
  8 * N * Z.abs (e0 - e1) + first_switch N q z < q * N ->
  good_bit (xorb m0 m1) (g_xor B F tbl K c0 c1) /\ good_bit (negb (xorb m0 m1)) (g_xnor B F tbl K c0 c1).
Proof.
  intros H0 H1 Hn. destruct (diff_bits _ _ _ _ _ _ H0 H1) as (x0 & x & Ex0 & Ex & Wx & Px).
  destruct luts_ok as (_ & _ & _ & _ & (l1 & E1 & T1) & (l2 & E2 & T2)).
  assert (Hr : 4 * N * Z.abs (2 * (e0 - e1)) + first_switch N q z < 2 * q * (2 * M)).
  { destruct NM as (EN & HM & _ & Eq & Hq4 & _). rewrite Z.abs_mul. change (Z.abs 2) with 2. assert (q * N = 2 * q * (2 * M)) by (rewrite EN at 1; ring). lia. }
  unfold g_xor, g_xnor. rewrite (proj1 ops_ok). cbn [bind]. rewrite Ex0. cbn [bind]. rewrite Ex. cbn [bind]. rewrite step_ok. cbn [bind].
  rewrite E1, E2. cbn [bind].
  split; (eapply boot_bit; [eassumption|exact Wx|exact Px|exact Hr|inside]).
Qed.

Lemma gate_maj m0 m1 m2 e0 e1 e2 c0 c1 c2 : bit_ct q z m0 e0 c0 -> bit_ct q z m1 e1 c1 -> bit_ct q z m2 e2 c2 ->
  8 * N * Z.abs (e0 + e1 + e2) + 2 * first_switch N q z < q * N ->
  good_bit (m0 && m1 || m1 && m2 || m2 && m0) (g_majority B F tbl K c0 c1 c2).
Proof.
  intros H0 H1 H2 Hn. apply rad_M in Hn. destruct (add_bits _ _ _ _ _ _ _ (proj1 (C29_add q _ (proj2 ops_ok))) H0 H1) as (x0 & Ex0 & Wx0 & Px0).
  apply bit_phase in H2. destruct H2 as (W2 & P2). destruct NM as (_ & _ & _ & Eq & Hq4 & _).
  destruct (proj2 (C29_add q _ (proj2 ops_ok)) (length z) z x0 c2 Wx0 W2 eq_refl) as (x & Ex & Wx & Px).
  assert (C : cong q (phase q z x) ((bz m0 + bz m1 + bz m2) * (q / 4) + (e0 + e1 + e2))).
  { assert (C : cong q (phase q z x) (phase q z x0 + phase q z c2)) by (apply mod_cong; [lia|exact Px]). rewrite C, Px0, P2. apply cong_of_eq. ring. }
  destruct luts_ok as (_ & (l2 & E2 & T2) & _).
  unfold g_majority. rewrite (proj1 ops_ok). cbn [bind]. rewrite Ex0. cbn [bind]. rewrite Ex. cbn [bind]. rewrite step_ok. cbn [bind].
  rewrite E2. cbn [bind]. eapply boot_bit; [eassumption|exact Wx|exact C|exact Hn|inside].
Qed.

Lemma gate_mux m0 m1 m2 e0 e1 e2 c0 c1 c2 : bit_ct q z m0 e0 c0 -> bit_ct q z m1 e1 c1 -> bit_ct q z m2 e2 c2 ->
  8 * N * Z.abs (e0 + e1) + 2 * first_switch N q z < q * N -> 8 * N * Z.abs (e2 - e0) + 2 * first_switch N q z < q * N ->
  8 * N * out_noise p k j bits K s z E W + 2 * first_switch N q z * p < q * N * p ->
  good_bit (if m0 then m1 else m2) (g_mux B F tbl K c0 c1 c2).
Proof.
  intros H0 H1 H2 Hn1 Hn2 Hn3. destruct (gate_not _ _ _ H0) as (nc & En & Hnc).
  destruct (gates2 _ _ _ _ _ _ H0 H1 Hn1) as (_ & (t0 & f0 & Et0 & Ht0 & B0) & _).
  destruct (gates2 _ _ _ _ _ _ Hnc H2 ltac:(replace (- e0 + e2) with (e2 - e0) by ring; exact Hn2)) as (_ & (t1 & f1 & Et1 & Ht1 & B1) & _).
  destruct (add_bits _ _ _ _ _ _ _ (proj2 (C29_add q _ (proj2 ops_ok))) Ht0 Ht1) as (x & Ex & Wx & Px).
  pose proof HS as ((_ & Hp & _) & _). pose proof (prime_ge_2 p Hp) as P2. destruct NM as (EN & HM & _ & Eq & Hq4 & _).
  assert (Hr : 8 * N * Z.abs (f0 + f1) + 2 * first_switch N q z < q * N).
  { apply (Z.mul_lt_mono_pos_r p); [lia|].
    assert (A : p * Z.abs (f0 + f1) <= out_noise p k j bits K s z E W).
    { pose proof (Z.abs_triangle f0 f1). assert (p * Z.abs (f0 + f1) <= p * (Z.abs f0 + Z.abs f1)) by (apply Z.mul_le_mono_nonneg_l; lia). lia. }
    assert (8 * N * (p * Z.abs (f0 + f1)) <= 8 * N * out_noise p k j bits K s z E W) by (apply Z.mul_le_mono_nonneg_l; lia). lia. }
  apply rad_M in Hr. destruct luts_ok as (_ & _ & (l & El & T) & _).
  unfold g_mux. rewrite (proj1 ops_ok). cbn [bind]. rewrite En. cbn [bind]. rewrite Et0. cbn [bind]. rewrite Et1. cbn [bind]. rewrite Ex. cbn [bind].
  rewrite step_ok. cbn [bind]. rewrite El. cbn [bind]. clear EN HM.
  eapply boot_bit; [exact T|exact Wx|exact Px|exact Hr|inside].
Qed.

Lemma decrypt_bit Mt m e y : bit_ct q z m e y -> 8 * Z.abs e < q ->
  decrypt Mt B 4 q (map (fun x => x mod q) z) y = Some (bz m).
Proof.
  intros (Wy & Py) He. destruct NM as (_ & _ & _ & Eq & Hq4 & Eq2). destruct HS as (_ & (HB & Hj & _) & _).
  assert (Ph : phase q (map (fun x => x mod q) z) y = phase q z y).
  { unfold phase. apply cong_iff; [lia|]. generalize (la y). intros a. 
    assert (D : forall a s, cong q (dotz a (map (fun x => x mod q) s)) (dotz a s)).
    { induction a0 as [|v a0 IH]; intros [|u s0]; cbn [map dotz]; try reflexivity. rewrite IH.
      assert (C : cong q (u mod q) u) by (apply cong_mod; lia). rewrite C. reflexivity. }
    rewrite D. reflexivity. }
  assert (Hij : 0 <= 2 < j) by lia.
  change 4 with (2 ^ 2) at 1. rewrite (decrypt_correct B 2 j) by (try lia; rewrite map_length; exact (proj1 Wy)).
  rewrite Ph, Py. change (2 ^ 2) with 4.
  assert (D : q / 4 = 2 ^ (j - 2)) by (rewrite Eq2, Z.mul_comm, Z.div_mul; lia).
  assert (D2 : 2 ^ (j - 2) = 2 * 2 ^ (j - 2 - 1)).
  { replace (j - 2) with (Z.succ (j - 2 - 1)) at 1 by lia. apply Z.pow_succ_r. lia. }
  assert (D3 : q / 4 / 2 = 2 ^ (j - 2 - 1)) by (rewrite D, D2, Z.mul_comm, Z.div_mul; lia).
  replace (((if m then q / 4 else 0) + e)) with (bz m * (q / 2 ^ 2) + e) by (change (2 ^ 2) with 4; destruct m; cbn [bz]; lia).
  assert (Hm : 0 <= bz m < 2 ^ 2) by (change (2 ^ 2) with 4; destruct m; cbn; lia).
  pose proof (decode_exact 2 j Hij ltac:(lia) (bz m) e Hm ltac:(lia)) as Dx. change (2 ^ 2) with 4 in Dx |- *. rewrite D3, D. rewrite D in Dx. rewrite Dx.
  destruct Mt, m; reflexivity.
Qed.

Lemma abs_sum2 a b D : 2 * p * Z.abs a <= D -> 2 * p * Z.abs b <= D -> 0 <= p -> p * Z.abs (a + b) <= D /\ p * Z.abs (a - b) <= D.
Proof.
  intros Ha Hb Hp0. assert (Z.abs (a + b) <= Z.abs a + Z.abs b) by lia. assert (Z.abs (a - b) <= Z.abs a + Z.abs b) by lia.
  split; eapply Z.le_trans; try (apply Z.mul_le_mono_nonneg_l; eassumption); lia.
Qed.

Lemma circuit_ok D v x e : out_noise p k j bits K s z E W <= D -> 12 * N * D + 2 * first_switch N q z * p < q * N * p ->
  (forall i, bit_ct q z (v i) (e i) (x i) /\ 2 * p * Z.abs (e i) <= D) ->
  forall c, exists y f, crun B F tbl K x c = Some y /\ bit_ct q z (cval v c) f y /\ 2 * p * Z.abs f <= D.
Proof.
  intros HD HN Hin. pose proof HS as ((_ & Hp & _) & _). pose proof (prime_ge_2 p Hp) as P2.
  destruct NM as (EN & HM & _ & Eq & Hq4 & _).
  assert (HD0 : 0 <= D) by (destruct (Hin O) as (_ & Hi); pose proof (Z.abs_nonneg (e O)); nia).
  assert (Hfs : 0 <= first_switch N q z).
  { unfold first_switch. destruct (_ =? 0); [lia|]. pose proof (norm1_nonneg z). nia. }
  assert (HND : 0 <= N * D) by (apply Z.mul_nonneg_nonneg; lia).
  assert (Bound : forall eta c, p * Z.abs eta <= c * D -> 0 <= c -> 2 * c <= 3 -> 8 * N * Z.abs eta + 2 * first_switch N q z < q * N).
  { intros eta c H1 H2 H3. apply (Z.mul_lt_mono_pos_r p); [lia|].
    assert (8 * N * (p * Z.abs eta) <= 8 * N * (c * D)) by (apply Z.mul_le_mono_nonneg_l; lia).
    assert (c * (N * D) <= 1 * (N * D)) by (apply Z.mul_le_mono_nonneg_r; lia). lia. }
  assert (Bound3 : forall eta, 2 * p * Z.abs eta <= 3 * D -> 8 * N * Z.abs eta + 2 * first_switch N q z < q * N).
  { intros eta H1. apply (Z.mul_lt_mono_pos_r p); [lia|].
    assert (4 * N * (2 * p * Z.abs eta) <= 4 * N * (3 * D)) by (apply Z.mul_le_mono_nonneg_l; lia). lia. }
  assert (G2 : forall m r, good_bit m r -> exists y f, r = Some y /\ bit_ct q z m f y /\ 2 * p * Z.abs f <= D).
  { intros m r (y & f & H1 & H2 & H3). exists y, f. split; [exact H1|]. split; [exact H2|lia]. }
  assert (Two : forall m0 m1 c0 c1 e0 e1, bit_ct q z m0 e0 c0 -> bit_ct q z m1 e1 c1 -> 2 * p * Z.abs e0 <= D -> 2 * p * Z.abs e1 <= D ->
    8 * N * Z.abs (e0 + e1) + 2 * first_switch N q z < q * N /\ 8 * N * Z.abs (e0 - e1) + 2 * first_switch N q z < q * N).
  { intros m0 m1 c0 c1 e0 e1 _ _ B0 B1. destruct (abs_sum2 e0 e1 D B0 B1 ltac:(lia)). split; apply (Bound _ 1); lia. }
  induction c as [i|a IHa|a IHa b IHb|a IHa b IHb|a IHa b IHb|a IHa b IHb|a IHa b IHb|a IHa b IHb|a IHa b IHb c IHc|a IHa b IHb c IHc]; cbn [crun cval].
  - exists (x i), (e i). split; [reflexivity|]. apply Hin.
  - destruct IHa as (ya & fa & Ea & Ha & Ba). rewrite Ea. cbn [bind]. destruct (gate_not _ _ _ Ha) as (y & Ey & Hy).
    exists y, (- fa). split; [exact Ey|]. split; [exact Hy|]. rewrite Z.abs_opp. exact Ba.
  - destruct IHa as (ya & fa & Ea & Ha & Ba), IHb as (yb & fb & Eb & Hb & Bb). rewrite Ea, Eb. unfold lift2. cbn [bind].
    apply G2. exact (proj1 (gates2 _ _ _ _ _ _ Ha Hb (proj1 (Two _ _ _ _ _ _ Ha Hb Ba Bb)))).
  - destruct IHa as (ya & fa & Ea & Ha & Ba), IHb as (yb & fb & Eb & Hb & Bb). rewrite Ea, Eb. unfold lift2. cbn [bind].
    apply G2. exact (proj1 (proj2 (gates2 _ _ _ _ _ _ Ha Hb (proj1 (Two _ _ _ _ _ _ Ha Hb Ba Bb))))).
  - destruct IHa as (ya & fa & Ea & Ha & Ba), IHb as (yb & fb & Eb & Hb & Bb). rewrite Ea, Eb. unfold lift2. cbn [bind].
    apply G2. exact (proj1 (proj2 (proj2 (gates2 _ _ _ _ _ _ Ha Hb (proj1 (Two _ _ _ _ _ _ Ha Hb Ba Bb)))))).
  - destruct IHa as (ya & fa & Ea & Ha & Ba), IHb as (yb & fb & Eb & Hb & Bb). rewrite Ea, Eb. unfold lift2. cbn [bind].
    apply G2. exact (proj2 (proj2 (proj2 (gates2 _ _ _ _ _ _ Ha Hb (proj1 (Two _ _ _ _ _ _ Ha Hb Ba Bb)))))).
  - destruct IHa as (ya & fa & Ea & Ha & Ba), IHb as (yb & fb & Eb & Hb & Bb). rewrite Ea, Eb. unfold lift2. cbn [bind].
    apply G2. pose proof (proj2 (Two _ _ _ _ _ _ Ha Hb Ba Bb)). exact (proj1 (gates_x _ _ _ _ _ _ Ha Hb ltac:(lia))).
  - destruct IHa as (ya & fa & Ea & Ha & Ba), IHb as (yb & fb & Eb & Hb & Bb). rewrite Ea, Eb. unfold lift2. cbn [bind].
    apply G2. pose proof (proj2 (Two _ _ _ _ _ _ Ha Hb Ba Bb)). exact (proj2 (gates_x _ _ _ _ _ _ Ha Hb ltac:(lia))).
  - destruct IHa as (ya & fa & Ea & Ha & Ba), IHb as (yb & fb & Eb & Hb & Bb), IHc as (yc & fc & Ec & Hc & Bc). rewrite Ea, Eb, Ec. unfold lift3. cbn [bind].
    apply G2. apply (gate_maj _ _ _ _ _ _ _ _ _ Ha Hb Hc). apply Bound3.
    assert (Z.abs (fa + fb + fc) <= Z.abs fa + Z.abs fb + Z.abs fc) by lia.
    assert (2 * p * Z.abs (fa + fb + fc) <= 2 * p * (Z.abs fa + Z.abs fb + Z.abs fc)) by (apply Z.mul_le_mono_nonneg_l; lia). lia.
  - destruct IHa as (ya & fa & Ea & Ha & Ba), IHb as (yb & fb & Eb & Hb & Bb), IHc as (yc & fc & Ec & Hc & Bc). rewrite Ea, Eb, Ec. unfold lift3. cbn [bind].
    apply G2. apply (gate_mux _ _ _ _ _ _ _ _ _ Ha Hb Hc).
    + exact (proj1 (Two _ _ _ _ _ _ Ha Hb Ba Bb)).
    + exact (proj2 (Two _ _ _ _ _ _ Hc Ha Bc Ba)).
    + assert (8 * N * out_noise p k j bits K s z E W <= 8 * N * D) by (apply Z.mul_le_mono_nonneg_l; lia). lia.
Qed.
Lemma circuit_room D f : 12 * N * D + 2 * first_switch N q z * p < q * N * p -> 2 * p * Z.abs f <= D -> 8 * Z.abs f < q.
Proof.
  intros HN Hf. pose proof HS as ((_ & Hp & _) & _). pose proof (prime_ge_2 p Hp) as P2. destruct NM as (EN & HM & _ & Eq & Hq4 & _).
  assert (Hfs : 0 <= first_switch N q z).
  { unfold first_switch. destruct (_ =? 0); [lia|]. pose proof (norm1_nonneg z). nia. }
  assert (0 <= first_switch N q z * p) by (apply Z.mul_nonneg_nonneg; lia).
  assert (12 * N * (2 * p * Z.abs f) <= 12 * N * D) by (apply Z.mul_le_mono_nonneg_l; lia).
  assert (X : 24 * Z.abs f * (N * p) < q * (N * p)) by lia. apply Z.mul_lt_mono_pos_r in X; [lia|]. apply Z.mul_pos_pos; lia.
Qed.
End Gates.
