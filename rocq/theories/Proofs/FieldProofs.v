From Coq Require Import ZArith Znumtheory List Bool Lia.
From Verif Require Import Model.Base Model.Reduce Model.Gcd Model.Barrett Model.Field.
From Verif Require Import Proofs.Arith Proofs.NumTheory Proofs.ReduceProofs Proofs.BarrettProofs Proofs.GcdProofs.
Import ListNotations.
Local Open Scope Z_scope.

Definition fok (F : field) : Prop := wwidth (fw F) /\ barrett_ok (fw F) (fmod F).

Lemma derive_field_ok B p F : wwidth B -> 0 <= p -> derive_field B p = Some F ->
  fok F /\ fw F = B /\ fp F = p.
Proof.
  intros HB Hp H. unfold derive_field in H. destruct (2 <=? leading_zeros B p); [|discriminate].
  cbn [assert bind] in H. apply bind_some in H. destruct H as (m & Hm & [= <-]).
  apply barrett_new_inv in Hm; [|assumption|lia]. destruct Hm as (_ & Hv & Hok).
  unfold fok, fp. cbn. auto.
Qed.

Lemma derive_field_iff B p : wwidth B -> 0 <= p < 2 ^ B ->
  ((exists F, derive_field B p = Some F) <-> 2 <= p < 2 ^ (B - 2)).
Proof.
  intros HB Hp. assert (H4 : 4 <= B) by (destruct HB as (h & ? & ?); lia). split.
  - intros (F & H). unfold derive_field in H.
    destruct (2 <=? leading_zeros B p); [|discriminate]. cbn [assert bind] in H.
    apply bind_some in H. destruct H as (m & Hm & _).
    apply barrett_new_inv in Hm; [|assumption|lia]. tauto.
  - intros H. unfold derive_field. rewrite assert_true.
    + cbn [bind]. destruct (barrett_new_correct B p HB H) as (m & -> & _). eexists. reflexivity.
    + apply Z.leb_le. unfold leading_zeros.
      assert (bit_len p <= B - 2) by (apply bit_len_lt; lia). lia.
Qed.

Lemma ceil_div a b : 0 <= a -> 0 < b -> a <= b * ((a + b - 1) / b) /\ 0 <= (a + b - 1) / b.
Proof.
  intros Ha Hb. pose proof (Z.div_mod (a + b - 1) b ltac:(lia)).
  pose proof (Z.mod_pos_bound (a + b - 1) b Hb). split; [lia|]. apply Z.div_pos; lia.
Qed.

Lemma ones_shift w s : 0 <= s <= w -> (2 ^ w - 1) / 2 ^ (w - s) = 2 ^ s - 1.
Proof.
  intros H. symmetry. apply Z.div_unique with (2 ^ (w - s) - 1).
  - left. pose proof (pow2_pos (w - s)). lia.
  - replace w with ((w - s) + s) at 1 by ring. rewrite Z.pow_add_r by lia. ring.
Qed.

(** Digits of [v] in base [2^bits]. *)
Fixpoint digs (bits : Z) (n : nat) (v : Z) : list Z :=
  match n with O => [] | S n' => v mod 2 ^ bits :: digs bits n' (v / 2 ^ bits) end.

Lemma digs_length bits n v : length (digs bits n v) = n.
Proof. revert v; induction n; intros; cbn; auto. Qed.

Lemma digs_zero bits n : 0 <= bits -> digs bits n 0 = repeat 0 n.
Proof.
  intros Hb. pose proof (pow2_pos bits Hb). induction n as [|n IH]; cbn [digs repeat]; [reflexivity|].
  rewrite Z.mod_0_l, Z.div_0_l, IH by lia. reflexivity.
Qed.

Lemma digs_range bits n v : 0 <= bits -> Forall (fun d => 0 <= d < 2 ^ bits) (digs bits n v).
Proof.
  intros Hb. pose proof (pow2_pos bits Hb). revert v. induction n; intros; cbn; constructor; auto.
  apply Z.mod_pos_bound. lia.
Qed.

Lemma digs_value bits n v : 0 <= bits -> 0 <= v < 2 ^ (bits * Z.of_nat n) ->
  digits_value (2 ^ bits) (digs bits n v) = v.
Proof.
  intros Hb. pose proof (pow2_pos bits Hb). revert v. induction n as [|n IH]; intros v Hv.
  - cbn [Z.of_nat] in Hv. rewrite Z.mul_0_r in Hv. change (2 ^ 0) with 1 in Hv. cbn. lia.
  - cbn [digs digits_value]. rewrite IH.
    + pose proof (Z.div_mod v (2 ^ bits) ltac:(lia)). lia.
    + rewrite Nat2Z.inj_succ in Hv. replace (bits * Z.succ (Z.of_nat n)) with (bits + bits * Z.of_nat n) in Hv by lia.
      rewrite Z.pow_add_r in Hv by nia. split; [apply Z.div_pos; lia|].
      apply Z.div_lt_upper_bound; lia.
Qed.

(** Transposed digits: the i-th polynomial holds the i-th digit of each coefficient. *)
Fixpoint pdigs (bits : Z) (n : nat) (a : list Z) : list (list Z) :=
  match n with
  | O => []
  | S n' => map (fun v => v mod 2 ^ bits) a :: pdigs bits n' (map (fun v => v / 2 ^ bits) a)
  end.

Lemma pdigs_nth bits n a j : (j < n)%nat ->
  nth j (pdigs bits n a) [] = map (fun v => nth j (digs bits n v) 0) a.
Proof.
  revert a j. induction n as [|n IH]; intros a j Hj; [lia|]. destruct j; cbn [pdigs nth digs].
  - reflexivity.
  - rewrite IH by lia. rewrite map_map. reflexivity.
Qed.

Lemma pdigs_length bits n a : length (pdigs bits n a) = n.
Proof. revert a; induction n; intros; cbn; auto. Qed.

Section F.
Variable F : field.
Hypothesis Hok : fok F.
Let B := fw F.
Let p := fp F.

Lemma fok_w : wwidth (fw F). Proof. exact (proj1 Hok). Qed.
Lemma fok_b : barrett_ok (fw F) (fmod F). Proof. exact (proj2 Hok). Qed.

Lemma fp_range : 2 <= p /\ 4 * p < 2 ^ B.
Proof. apply (v_range B (fmod F) fok_w fok_b). Qed.

Lemma fp_lt2 : p < 2 ^ (B - 2).
Proof. destruct fok_b as [Hb _]. apply Hb. Qed.

Lemma B4 : 4 <= B.
Proof. destruct fok_w as (h & ? & ?). unfold B. lia. Qed.

Lemma f_new_correct v : 0 <= v < 2 ^ B -> f_new F v = Some (v mod p).
Proof.
  intros Hv. unfold f_new. fold p. destruct (Z.ltb_spec v p).
  - rewrite Z.mod_small by lia. reflexivity.
  - apply (reduce1_correct B (fmod F) fok_w fok_b); assumption.
Qed.

Lemma f_add_correct a b : 0 <= a < p -> 0 <= b < p -> f_add F a b = Some ((a + b) mod p).
Proof. intros. apply (badd_correct B (fmod F) fok_w fok_b); assumption. Qed.
Lemma f_sub_correct a b : 0 <= a < p -> 0 <= b < p -> f_sub F a b = Some ((a - b) mod p).
Proof. intros. apply (bsub_correct B (fmod F) fok_w fok_b); assumption. Qed.
Lemma f_sub_assign_correct a b : 0 <= a < p -> 0 <= b < p -> f_sub_assign F a b = Some ((a - b) mod p).
Proof. intros. pose proof fp_range. apply sub_reduce_assign_correct; fold p B; lia. Qed.
Lemma f_neg_correct a : 0 <= a < p -> f_neg F a = Some ((- a) mod p).
Proof. intros. apply (bneg_correct (fmod F)); assumption. Qed.
Lemma f_mul_correct a b : 0 <= a < 2 ^ B -> 0 <= b < 2 ^ B -> f_mul F a b = Some ((a * b) mod p).
Proof. intros. apply (bmul_correct B (fmod F) fok_w fok_b); assumption. Qed.
Lemma f_pow_correct a e : 0 <= a < p -> 0 <= e -> f_pow F a e = Some (a ^ e mod p).
Proof. intros. pose proof B4. apply (bexp_correct B (fmod F) fok_w fok_b); try assumption. fold B. lia. Qed.

Lemma f_inv_correct a : prime p -> 0 < a < p ->
  exists r, f_inv F a = Some r /\ 0 <= r < p /\ (r * a) mod p = 1.
Proof.
  intros Hp Ha. pose proof fp_range. unfold f_inv. fold p. rewrite usub_some by lia. cbn [bind].
  rewrite f_pow_correct by lia. eexists. split; [reflexivity|].
  pose proof (Z.mod_pos_bound (a ^ (p - 2)) p ltac:(lia)). split; [lia|].
  symmetry. apply cong_eq_mod; [lia|]. symmetry. rewrite (cong_mod p (a ^ (p - 2))) by lia.
  apply fermat_inv; [assumption|]. apply prime_small_nz; lia.
Qed.

Lemma f_inv_zero : 3 <= p -> f_inv F 0 = Some 0.
Proof.
  intros H. unfold f_inv. fold p. rewrite usub_some by lia. cbn [bind].
  rewrite f_pow_correct by lia. rewrite Z.pow_0_l by lia. reflexivity.
Qed.

Lemma f_div_correct a b : prime p -> 0 <= a < p -> 0 < b < p ->
  exists r, f_div F a b = Some r /\ 0 <= r < p /\ (r * b) mod p = a.
Proof.
  intros Hp Ha Hb. pose proof fp_range. pose proof B4.
  unfold f_div, bdiv, binv. fold B. fold (fp F). fold p.
  assert (Hm : p < 2 ^ (B - 2)) by exact fp_lt2.
  destruct (inv_reduce_spec B b p ltac:(lia) ltac:(lia) Hm) as [H1 _].
  destruct H1 as (r & E & _ & Hr & Hc).
  { split; [lia|]. apply Zgcd_1_rel_prime. apply prime_not_div_rel; [assumption|].
    apply prime_small_nz; lia. }
  rewrite E. cbn [bind]. rewrite (bmul_correct B (fmod F) fok_w fok_b) by (fold B; lia).
  fold (fp F). fold p. eexists. split; [reflexivity|].
  pose proof (Z.mod_pos_bound (a * r) p ltac:(lia)). split; [lia|].
  symmetry. apply cong_eq_mod; [lia|]. symmetry. rewrite (cong_mod p (a * r)) by lia.
  transitivity (a * 1); [|apply cong_of_eq; ring]. rewrite <- Z.mul_assoc.
  apply cong_mul; [reflexivity|]. apply cong_iff; [lia|]. rewrite Hc, Z.mod_small by lia. reflexivity.
Qed.

Lemma f_div_zero a : f_div F a 0 = None.
Proof.
  pose proof fp_range. pose proof B4.
  unfold f_div, bdiv, binv. fold B. fold (fp F). fold p.
  assert (Hm : p < 2 ^ (B - 2)) by exact fp_lt2.
  destruct (inv_reduce_spec B 0 p ltac:(lia) ltac:(lia) Hm) as [_ H2].
  destruct H2 as [-> _]; [tauto|reflexivity].
Qed.

Lemma f_add_mul_correct c a b : 0 <= c < 2 ^ B -> 0 <= a < 2 ^ B -> 0 <= b < 2 ^ B ->
  f_add_mul F c a b = Some ((c + a * b) mod p).
Proof.
  intros Hc Ha Hb. unfold f_add_mul.
  pose proof (carrying_mul_correct B (fmod F) fok_w fok_b a b c Ha Hb Hc) as H. fold B.
  destruct (carrying_mul B a b c) as [lo hi]. destruct H as (Hl & Hh & E).
  rewrite (reduce2_correct B (fmod F) fok_w fok_b) by assumption. fold B. rewrite E.
  fold (fp F). fold p. rewrite Z.add_comm. reflexivity.
Qed.

Lemma f_mul_fast_correct a b : 0 <= a < 2 ^ B -> 0 <= b < 2 ^ B ->
  exists z, f_mul_fast F a b = Some z /\ 0 <= z < 2 * p /\ cong p z (a * b).
Proof. intros. apply (lazy_bmul_correct B (fmod F) fok_w fok_b); assumption. Qed.

Lemma f_add_mul_fast_correct c a b : 0 <= c < 2 ^ B -> 0 <= a < 2 ^ B -> 0 <= b < 2 ^ B ->
  exists z, f_add_mul_fast F c a b = Some z /\ 0 <= z < 2 * p /\ cong p z (c + a * b).
Proof.
  intros Hc Ha Hb. unfold f_add_mul_fast.
  pose proof (carrying_mul_correct B (fmod F) fok_w fok_b a b c Ha Hb Hc) as H. fold B.
  destruct (carrying_mul B a b c) as [lo hi]. destruct H as (Hl & Hh & E).
  destruct (lazy_reduce2_correct B (fmod F) fok_w fok_b lo hi Hl Hh) as (y & Ey & Hy & Cy).
  exists y. split; [exact Ey|]. split; [exact Hy|]. eapply cong_trans; [exact Cy|].
  apply cong_of_eq. fold B. lia.
Qed.

Lemma f_from_usize_correct v : 0 <= v -> f_from_usize F v = v mod p.
Proof.
  intros Hv. pose proof fp_range. unfold f_from_usize, ucast. fold p B. destruct (Z.ltb_spec v p).
  - rewrite (Z.mod_small v p), Z.mod_small by lia. reflexivity.
  - pose proof (Z.mod_pos_bound v p ltac:(lia)). rewrite (Z.mod_small (v mod p)) by lia. reflexivity.
Qed.

(** * Basis and decomposition *)

Definition eff_bits : Z := if is_pow2 p then bit_len p - 1 else bit_len p.

Lemma eff_bits_cover : forall v, 0 <= v < p -> v < 2 ^ eff_bits.
Proof.
  intros v Hv. pose proof fp_range. unfold eff_bits. destruct (is_pow2 p) eqn:E.
  - apply is_pow2_spec in E. destruct E as (k & Hk & E). unfold bit_len.
    destruct (Z.eqb_spec p 0); [lia|]. rewrite E, Z.log2_pow2 by lia.
    replace (k + 1 - 1) with k by ring. lia.
  - pose proof (bit_len_bounds p ltac:(lia)). lia.
Qed.

Lemma eff_bits_pos : 1 <= eff_bits <= B - 2.
Proof.
  pose proof fp_range. pose proof B4. unfold eff_bits.
  assert (Hl : bit_len p <= B - 2).
  { apply bit_len_lt; try lia. pose proof fp_lt2; lia. }
  assert (H2 : 2 <= bit_len p).
  { destruct (Z.leb_spec 2 (bit_len p)); [assumption|exfalso].
    assert (p < 2 ^ 1); [|lia]. apply bit_len_lt; lia. }
  destruct (is_pow2 p); lia.
Qed.

Lemma basis_new_correct bits : 1 <= bits <= bit_len p ->
  exists b, basis_new F bits = Some b /\ bs_basis b = 2 ^ bits /\ bs_mask b = 2 ^ bits - 1 /\
    bs_bits b = bits /\ Z.of_nat (bs_len b) = (eff_bits + bits - 1) / bits.
Proof.
  intros Hb. pose proof eff_bits_pos as He. pose proof B4. pose proof fp_range.
  assert (Hl : bit_len p <= B - 2).
  { apply bit_len_lt; try lia. pose proof fp_lt2; lia. }
  unfold basis_new, leading_zeros. fold B p.
  replace (B - (B - bit_len p)) with (bit_len p) by ring.
  rewrite assert_true by (apply Z.leb_le; lia). cbn [bind].
  assert (E : (if is_pow2 p then usub (bit_len p) 1 else Some (bit_len p)) = Some eff_bits).
  { unfold eff_bits. destruct (is_pow2 p); [apply usub_some; lia|reflexivity]. }
  rewrite E. cbn [bind]. rewrite usub_some by lia. cbn [bind].
  rewrite ushr_some by lia. cbn [bind]. rewrite ones_shift by lia.
  rewrite ushl_some; [|lia|lia|].
  2:{ rewrite Z.mul_1_l. apply Z.pow_lt_mono_r; lia. }
  cbn [bind]. rewrite Z.mul_1_l. rewrite udiv_some by lia. cbn [bind].
  eexists. split; [reflexivity|]. cbn [bs_basis bs_mask bs_bits bs_len].
  split; [reflexivity|]. split; [reflexivity|]. split; [reflexivity|].
  apply Z2Nat.id. apply ceil_div; lia.
Qed.

Lemma basis_new_rejects bits : 0 <= bits -> ~ 1 <= bits <= bit_len p -> basis_new F bits = None.
Proof.
  intros H0 Hb. pose proof B4. pose proof fp_range. unfold basis_new, leading_zeros. fold B p.
  replace (B - (B - bit_len p)) with (bit_len p) by ring.
  destruct (Z.leb_spec bits (bit_len p)); [|reflexivity]. cbn [assert bind].
  assert (bits = 0) by lia. subst bits. pose proof eff_bits_pos.
  assert (E : (if is_pow2 p then usub (bit_len p) 1 else Some (bit_len p)) = Some eff_bits).
  { unfold eff_bits. destruct (is_pow2 p); [apply usub_some|reflexivity].
    unfold eff_bits in *. destruct (is_pow2 p); pose proof (bit_len_nonneg p); lia. }
  rewrite E. cbn [bind]. rewrite usub_some by lia. cbn [bind]. unfold ushr.
  destruct (Z.ltb_spec (B - 0) B); [lia|]. reflexivity.
Qed.

Lemma decompose_loop_correct bits n v : 0 <= bits < B -> 0 <= v ->
  decompose_loop B (2 ^ bits - 1) bits n v = Some (digs bits n v).
Proof.
  intros Hb. pose proof (pow2_pos bits ltac:(lia)). revert v. induction n as [|n IH]; intros v Hv; [reflexivity|].
  cbn [decompose_loop]. destruct (Z.eqb_spec v 0).
  - subst. rewrite digs_zero by lia. reflexivity.
  - rewrite ushr_some by lia. cbn [bind]. rewrite IH by (apply Z.div_pos; lia). cbn [bind digs].
    rewrite land_mask by lia. reflexivity.
Qed.

Lemma poly_lsb_correct bits a : 0 <= bits < B ->
  poly_decompose_lsb F (2 ^ bits - 1) bits a =
  Some (map (fun v => v mod 2 ^ bits) a, map (fun v => v / 2 ^ bits) a).
Proof.
  intros Hb. induction a as [|v a IH]; [reflexivity|]. cbn [poly_decompose_lsb].
  unfold f_decompose_lsb. rewrite ushr_some by (fold B; lia). cbn [bind]. rewrite IH. cbn [bind map].
  rewrite land_mask by lia. reflexivity.
Qed.

Lemma poly_decompose_loop_correct bits n a : 0 <= bits < B ->
  poly_decompose_loop F (2 ^ bits - 1) bits n a = Some (pdigs bits n a).
Proof.
  intros Hb. revert a. induction n as [|n IH]; intros a; [reflexivity|].
  cbn [poly_decompose_loop pdigs]. rewrite poly_lsb_correct by assumption. cbn [bind].
  rewrite IH. reflexivity.
Qed.

Lemma decompose_at_zeroed b v dest : 1 <= bs_bits b < B -> bs_mask b = 2 ^ bs_bits b - 1 -> 0 <= v ->
  Forall (eq 0) dest -> f_decompose_at F b v dest = Some (digs (bs_bits b) (length dest) v).
Proof.
  intros Hb Hm. revert v. induction dest as [|d dest IH]; intros v Hv Hd; [reflexivity|].
  inv Hd. cbn [f_decompose_at length digs]. pose proof (pow2_pos (bs_bits b) ltac:(lia)).
  destruct (Z.eqb_spec v 0).
  - subst. rewrite Z.mod_0_l, Z.div_0_l, digs_zero by lia. do 2 f_equal.
    clear -H2. induction H2; cbn; congruence.
  - rewrite ushr_some by (fold B; lia). cbn [bind]. rewrite IH; [|apply Z.div_pos; lia|assumption].
    cbn [bind]. rewrite Hm, land_mask by lia. reflexivity.
Qed.

(** Whatever the destination held, only the digits up to the top non-zero one are written. *)
Lemma decompose_at_general b v dest : 1 <= bs_bits b < B -> bs_mask b = 2 ^ bs_bits b - 1 -> 0 <= v ->
  exists k, (k <= length dest)%nat /\
    (v < 2 ^ (bs_bits b * Z.of_nat k) \/ k = length dest) /\
    (forall j, (j < k)%nat -> 2 ^ (bs_bits b * Z.of_nat j) <= v) /\
    f_decompose_at F b v dest =
      Some (firstn k (digs (bs_bits b) (length dest) v) ++ skipn k dest).
Proof.
  intros Hb Hm. revert v. induction dest as [|d dest IH]; intros v Hv.
  - exists O. cbn. split; [lia|]. split; [right; reflexivity|]. split; [lia|reflexivity].
  - cbn [f_decompose_at length digs]. pose proof (pow2_pos (bs_bits b) ltac:(lia)).
    destruct (Z.eqb_spec v 0).
    + exists O. split; [lia|]. split; [left; subst; apply pow2_pos; lia|].
      split; [lia|reflexivity].
    + rewrite ushr_some by (fold B; lia). cbn [bind].
      destruct (IH (v / 2 ^ bs_bits b)) as (k & Hk & Hor & Hmin & E); [apply Z.div_pos; lia|].
      rewrite E. cbn [bind]. exists (S k). rewrite Hm, land_mask by lia.
      split; [lia|]. split.
      { destruct Hor as [Hlt|]; [left|right; lia]. rewrite Nat2Z.inj_succ.
        replace (bs_bits b * Z.succ (Z.of_nat k)) with (bs_bits b + bs_bits b * Z.of_nat k) by lia.
        rewrite Z.pow_add_r by nia. pose proof (Z.div_mod v (2 ^ bs_bits b) ltac:(lia)).
        pose proof (Z.mod_pos_bound v (2 ^ bs_bits b) ltac:(lia)). nia. }
      split; [|reflexivity]. intros j Hj. destruct j as [|j].
      * rewrite Z.mul_0_r. change (2 ^ 0) with 1. lia.
      * specialize (Hmin j ltac:(lia)). rewrite Nat2Z.inj_succ.
        replace (bs_bits b * Z.succ (Z.of_nat j)) with (bs_bits b + bs_bits b * Z.of_nat j) by lia.
        rewrite Z.pow_add_r by nia. pose proof (Z.div_mod v (2 ^ bs_bits b) ltac:(lia)).
        pose proof (Z.mod_pos_bound v (2 ^ bs_bits b) ltac:(lia)). nia.
Qed.
End F.

(** The decomposition theorem in full. *)
Lemma decompose_full F bits b v : fok F -> basis_new F bits = Some b -> 0 <= bits -> 0 <= v < fp F ->
  exists d, f_decompose F b v = Some d /\ length d = bs_len b /\
    Forall (fun x => 0 <= x < 2 ^ bits) d /\ digits_value (2 ^ bits) d = v /\
    d = digs bits (bs_len b) v.
Proof.
  intros Hok Hb H0 Hv.
  assert (Hbits : 1 <= bits <= bit_len (fp F)).
  { destruct (Z.leb_spec 1 bits), (Z.leb_spec bits (bit_len (fp F))); try lia;
      rewrite basis_new_rejects in Hb by (assumption || lia); discriminate. }
  destruct (basis_new_correct F Hok bits Hbits) as (b' & E & E1 & E2 & E3 & E4).
  rewrite Hb in E. injection E as <-.
  pose proof (eff_bits_pos F Hok) as He. pose proof (fp_range F Hok). pose proof (B4 F Hok).
  assert (Hl : bit_len (fp F) <= fw F - 2).
  { apply bit_len_lt; try lia. pose proof (fp_lt2 F Hok). lia. }
  unfold f_decompose. rewrite E2, E3. rewrite (decompose_loop_correct F) by lia.
  eexists. split; [reflexivity|]. split; [apply digs_length|]. split; [apply digs_range; lia|].
  split; [|reflexivity]. apply digs_value; [lia|]. split; [lia|].
  apply Z.lt_le_trans with (2 ^ eff_bits F); [apply (eff_bits_cover F Hok); lia|].
  apply Z.pow_le_mono_r; [lia|]. rewrite E4. fold (eff_bits F). apply ceil_div; lia.
Qed.

Lemma basis_bits F bits b : fok F -> basis_new F bits = Some b -> 0 <= bits ->
  1 <= bits <= bit_len (fp F) /\ bs_basis b = 2 ^ bits /\ bs_mask b = 2 ^ bits - 1 /\
  bs_bits b = bits /\ bits < fw F - 1.
Proof.
  intros Hok Hb H0.
  assert (Hbits : 1 <= bits <= bit_len (fp F)).
  { destruct (Z.leb_spec 1 bits), (Z.leb_spec bits (bit_len (fp F))); try lia;
      rewrite basis_new_rejects in Hb by (assumption || lia); discriminate. }
  destruct (basis_new_correct F Hok bits Hbits) as (b' & E & E1 & E2 & E3 & E4).
  rewrite Hb in E. injection E as <-. pose proof (B4 F Hok).
  assert (Hl : bit_len (fp F) <= fw F - 2).
  { pose proof (fp_range F Hok). apply bit_len_lt; try lia. pose proof (fp_lt2 F Hok). lia. }
  repeat split; try assumption; lia.
Qed.

Lemma nth_map_lt {X Y} (f : X -> Y) i l d d' : (i < length l)%nat -> nth i (map f l) d = f (nth i l d').
Proof. intros H. rewrite (nth_indep _ d (f d')) by (rewrite map_length; exact H). apply map_nth. Qed.

Lemma map_nth_pdigs bits n i a : (i < length a)%nat ->
  map (fun q => nth i q 0) (pdigs bits n a) = digs bits n (nth i a 0).
Proof.
  revert a. induction n as [|n IH]; intros a Hi; [reflexivity|]. cbn [pdigs digs map].
  rewrite IH by (rewrite map_length; exact Hi).
  rewrite !(nth_map_lt _ _ _ 0 0) by exact Hi. reflexivity.
Qed.

Lemma poly_decompose_correct F bits b a : fok F -> basis_new F bits = Some b -> 0 <= bits ->
  poly_decompose F b a = Some (pdigs bits (bs_len b) a).
Proof.
  intros Hok Hb H0. destruct (basis_bits F bits b Hok Hb H0) as (H1 & _ & E2 & E3 & H2).
  unfold poly_decompose. rewrite E2, E3. apply poly_decompose_loop_correct. lia.
Qed.

Lemma poly_decompose_full F bits b a : fok F -> basis_new F bits = Some b -> 0 <= bits ->
  canonical (fp F) a ->
  exists ds, poly_decompose F b a = Some ds /\ length ds = bs_len b /\
    Forall (fun d => length d = length a) ds /\
    forall i, (i < length a)%nat ->
      f_decompose F b (nth i a 0) = Some (map (fun d => nth i d 0) ds).
Proof.
  intros Hok Hb H0 Ha. exists (pdigs bits (bs_len b) a).
  split; [apply poly_decompose_correct; assumption|]. split; [apply pdigs_length|]. split.
  - generalize (bs_len b). intros n. clear. remember (length a) as l. revert a Heql.
    induction n; intros a E; cbn; constructor; [rewrite map_length; auto|].
    apply IHn. rewrite map_length. auto.
  - intros i Hi. assert (Hv : 0 <= nth i a 0 < fp F).
    { unfold canonical in Ha. rewrite Forall_forall in Ha. apply Ha. apply nth_In. exact Hi. }
    destruct (decompose_full F bits b _ Hok Hb H0 Hv) as (d & E & _ & _ & _ & Ed).
    rewrite E, Ed. rewrite map_nth_pdigs by exact Hi. reflexivity.
Qed.

Lemma basis_new_iff F bits : fok F -> 0 <= bits ->
  ((exists b, basis_new F bits = Some b) <-> 1 <= bits <= bit_len (fp F)).
Proof.
  intros Hok H0. split.
  - intros (b & Hb). apply (basis_bits F bits b Hok Hb H0).
  - intros H. destruct (basis_new_correct F Hok bits H) as (b & E & _). exists b. exact E.
Qed.

Lemma f_ops_spec F a b : fok F -> 0 <= a < fp F -> 0 <= b < fp F ->
  f_add F a b = Some ((a + b) mod fp F) /\ f_sub F a b = Some ((a - b) mod fp F) /\
  f_sub_assign F a b = Some ((a - b) mod fp F) /\ f_neg F a = Some ((- a) mod fp F) /\
  f_mul F a b = Some ((a * b) mod fp F).
Proof.
  intros Hok Ha Hb. pose proof (fp_range F Hok).
  split; [apply f_add_correct; assumption|]. split; [apply f_sub_correct; assumption|].
  split; [apply f_sub_assign_correct; assumption|]. split; [apply f_neg_correct; assumption|].
  apply f_mul_correct; try assumption; lia.
Qed.

Lemma f_decompose_at_zeroed F bits b v : fok F -> basis_new F bits = Some b -> 0 <= bits ->
  0 <= v < fp F -> f_decompose_at F b v (repeat 0 (bs_len b)) = f_decompose F b v.
Proof.
  intros Hok Hb H0 Hv. destruct (basis_bits F bits b Hok Hb H0) as (H1 & _ & E2 & E3 & H2).
  destruct (decompose_full F bits b v Hok Hb H0 Hv) as (d & E & _ & _ & _ & Ed).
  rewrite decompose_at_zeroed; rewrite ?E3; try lia; try assumption.
  - rewrite repeat_length, E, Ed. reflexivity.
  - apply Forall_forall. intros x Hx. apply repeat_spec in Hx. auto.
Qed.

Lemma f_decompose_at_spec F bits b v dest : fok F -> basis_new F bits = Some b -> 0 <= bits ->
  0 <= v < fp F -> length dest = bs_len b ->
  exists d k, f_decompose F b v = Some d /\ (k <= bs_len b)%nat /\
    v < 2 ^ (bits * Z.of_nat k) /\ (forall j, (j < k)%nat -> 2 ^ (bits * Z.of_nat j) <= v) /\
    f_decompose_at F b v dest = Some (firstn k d ++ skipn k dest).
Proof.
  intros Hok Hb H0 Hv Hl. destruct (basis_bits F bits b Hok Hb H0) as (H1 & _ & E2 & E3 & H2).
  destruct (decompose_full F bits b v Hok Hb H0 Hv) as (d & E & Ld & Hr & Hval & Ed).
  destruct (decompose_at_general F b v dest) as (k & Hk & Hor & Hmin & Eat);
    rewrite ?E3; try lia; try assumption.
  rewrite E3 in *. exists d, k. split; [exact E|]. split; [lia|].
  split; [|split; [exact Hmin|rewrite Eat, Hl, Ed; reflexivity]].
  destruct Hor as [Hlt| ->]; [exact Hlt|]. rewrite Hl.
  destruct (basis_new_correct F Hok bits H1) as (b' & E' & _ & _ & _ & E4).
  rewrite Hb in E'. injection E' as <-. rewrite E4.
  apply Z.lt_le_trans with (2 ^ eff_bits F); [apply (eff_bits_cover F Hok); lia|].
  apply Z.pow_le_mono_r; [lia|]. pose proof (eff_bits_pos F Hok). apply ceil_div; lia.
Qed.
