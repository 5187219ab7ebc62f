(** Correctness of the monomial transforms. *)
From Coq Require Import ZArith List Arith Bool Lia Znumtheory Setoid Morphisms.
From Verif Require Import Model.Base Model.Shoup Model.Barrett Model.Field Model.NTT Model.Concrete Model.Poly.
From Verif Require Import Proofs.Arith Proofs.NumTheory Proofs.FieldProofs Proofs.NTTProofs Proofs.NTTTableProofs Proofs.ConcreteProofs Proofs.PolyProofs.
From Verif Require Import Spec.ConcreteNtt.
Import ListNotations.
Local Open Scope Z_scope.

Lemma zsum_single f n i : (i < n)%nat -> (forall j, (j < n)%nat -> j <> i -> f j = 0) -> zsum f n = f i.
Proof.
  induction n as [|n IH]; intros Hi H; [lia|]. cbn [zsum]. destruct (Nat.eq_dec i n) as [->|Hne].
  - rewrite (zsum_ext f (fun _ => 0)), zsum_zero by (intros j Hj; apply H; lia). ring.
  - rewrite IH, (H n) by (lia || (intros; apply H; lia)). ring.
Qed.

Lemma monomial_length n c d : length (monomial n c d) = n.
Proof. unfold monomial. rewrite map_length, seq_length. reflexivity. Qed.
Lemma nth_monomial n c d i : (i < n)%nat ->
  nth i (monomial n c d) 0 = if (i =? d mod n)%nat then (if Nat.even (d / n) then c else - c) else 0.
Proof.
  intros Hi. unfold monomial. rewrite (nth_map_lt _ _ _ 0 O) by (rewrite seq_length; exact Hi).
  rewrite seq_nth by exact Hi. reflexivity.
Qed.

Lemma npow_neg_one m : npow (-1) m = if Nat.even m then 1 else -1.
Proof.
  induction m as [|m IH]; [reflexivity|]. rewrite npow_S, IH, Nat.even_succ, <- Nat.negb_even.
  destruct (Nat.even m); reflexivity.
Qed.

Lemma ev_monomial p z n c d : n <> O -> cong p (npow z n) (-1) -> cong p (ev z (monomial n c d)) (c * npow z d).
Proof.
  intros Hn Hz. rewrite (ev_nth z _ n (monomial_length n c d)).
  pose proof (Nat.mod_upper_bound d n Hn) as Hm.
  rewrite (zsum_single _ n (d mod n) Hm).
  - rewrite nth_monomial by exact Hm. rewrite Nat.eqb_refl.
    assert (E : cong p (npow z d) (npow (-1) (d / n) * npow z (d mod n))).
    { rewrite (Nat.div_mod d n Hn) at 1. rewrite npow_add, npow_mul. rewrite (npow_cong p _ (-1)) by exact Hz. reflexivity. }
    rewrite E, npow_neg_one. destruct (Nat.even (d / n)); apply cong_of_eq; ring.
  - intros j Hj Hne. rewrite nth_monomial by exact Hj. destruct (Nat.eqb_spec j (d mod n)); [contradiction|ring].
Qed.

Lemma lxor_top a k : 0 <= k -> 0 <= a < 2 ^ (k + 1) ->
  Z.lxor a (2 ^ k) = if a <? 2 ^ k then a + 2 ^ k else a - 2 ^ k.
Proof.
  intros Hk Ha. pose proof (pow2_pos k Hk). rewrite pow2_succ in Ha by exact Hk.
  assert (Hlow : forall r, 0 <= r < 2 ^ k -> Z.lxor r (2 ^ k) = r + 2 ^ k).
  { intros r Hr. symmetry. apply Z.add_nocarry_lxor. apply Z.bits_inj'. intros m Hm. rewrite Z.land_spec, Z.bits_0.
    rewrite Z.pow2_bits_eqb by exact Hk. destruct (Z.eqb_spec k m) as [<-|]; [|apply andb_false_r].
    rewrite (testbit_high r k k) by lia. reflexivity. }
  destruct (Z.ltb_spec a (2 ^ k)).
  - apply Hlow. lia.
  - replace a with (Z.lxor (a - 2 ^ k) (2 ^ k)) at 1 by (rewrite Hlow by lia; lia).
    rewrite Z.lxor_assoc, Z.lxor_nilpotent, Z.lxor_0_r. reflexivity.
Qed.

Section Mono.
Variable F : field.
Hypothesis Hok : fok F.
Local Notation B := (fw F).
Local Notation p := (fp F).
Hypothesis Hp : prime p.
Variables (w : Z) (k : nat) (T : ntt_table).
Hypothesis Hp2 : 2 < p.
Hypothesis Hk63 : (k < 63)%nat.
Hypothesis Hw : cong p (npow w (2 ^ k)) (-1).
Hypothesis HT : table_ok F w k T.
Local Notation n := (2 ^ k)%nat.

Lemma mono_index_correct i d : (i < n)%nat -> 0 <= d -> (2 * Z.of_nat n - 1) * d < 2 ^ 64 ->
  mono_index k i d = Some (((2 * Z.of_nat i + 1) * d) mod (2 * Z.of_nat n)).
Proof.
  intros Hi Hd Hf. unfold mono_index.
  assert (Hn62 : Z.of_nat n <= 2 ^ 62) by (rewrite pow2_nat; apply Z.pow_le_mono_r; lia).
  rewrite usub_some by lia. cbn [bind]. rewrite usub_some by lia. cbn [bind].
  rewrite ushr_some by lia. cbn [bind].
  replace (64 - Z.of_nat k - 1) with (64 - (Z.of_nat k + 1)) by lia. rewrite ones_shift by lia.
  change (2 ^ 64) with (2 ^ 62 * 4) in *.
  rewrite umul_some by (change (2 ^ 64) with (2 ^ 62 * 4); lia). cbn [bind].
  rewrite uadd_some by (change (2 ^ 64) with (2 ^ 62 * 4); lia). cbn [bind].
  assert (Hb : (2 * Z.of_nat i + 1) * d <= (2 * Z.of_nat n - 1) * d) by (apply Z.mul_le_mono_nonneg_r; lia).
  rewrite umul_some by (change (2 ^ 64) with (2 ^ 62 * 4); lia). cbn [bind].
  rewrite land_mask by lia. rewrite pow2_succ by lia. rewrite pow2_nat. reflexivity.
Qed.

Lemma npow_mod_full e : cong p (npow w (Z.to_nat (e mod (2 * Z.of_nat n)))) (npow w (Z.to_nat e)) \/ e < 0.
Proof.
  destruct (Z.lt_ge_cases e 0) as [|He]; [right; assumption|left].
  pose proof (pow_nz k) as Hn0. set (N := 2 * Z.of_nat n) in *.
  assert (HN : 0 < N) by (unfold N; lia).
  pose proof (Z.mod_pos_bound e N HN). pose proof (Z.div_pos e N He HN).
  rewrite (Z.div_mod e N) at 2 by lia. rewrite Z2Nat.inj_add, Z2Nat.inj_mul by lia.
  rewrite npow_add, npow_mul.
  replace (Z.to_nat N) with (2 * n)%nat by (unfold N; lia).
  rewrite (npow_cong p (npow w (2 * n)) 1) by (apply root_full; exact Hw). rewrite npow_one.
  apply cong_of_eq. ring.
Qed.

Lemma ord_power i d : (i < n)%nat -> 0 <= d ->
  exists r, ord_at T (((2 * Z.of_nat (bitrev k i) + 1) * d) mod (2 * Z.of_nat n)) = Some r /\
    is_root F r (npow (zt w k i) (Z.to_nat d)).
Proof.
  intros Hi Hd. pose proof (pow_nz k). set (e := (2 * Z.of_nat (bitrev k i) + 1) * d).
  assert (He : 0 <= e) by (unfold e; lia).
  pose proof (Z.mod_pos_bound e (2 * Z.of_nat n) ltac:(lia)).
  destruct (to_ord F w k T HT (Z.to_nat (e mod (2 * Z.of_nat n))) ltac:(lia)) as (r & Er & Ir).
  exists r. split; [exact Er|]. apply (is_root_cong F Hok) with (1 := Ir).
  destruct (npow_mod_full e) as [Hc|]; [|lia]. rewrite Hc. apply cong_of_eq.
  unfold zt, zeta. rewrite <- npow_mul. f_equal. unfold e. rewrite Z2Nat.inj_mul by lia. f_equal. lia.
Qed.

Lemma ord_power_neg i d : (i < n)%nat -> 0 <= d ->
  exists r, ord_at T (Z.lxor (((2 * Z.of_nat (bitrev k i) + 1) * d) mod (2 * Z.of_nat n)) (Z.of_nat n)) = Some r /\
    is_root F r (- npow (zt w k i) (Z.to_nat d)).
Proof.
  intros Hi Hd. pose proof (pow_nz k). set (e := (2 * Z.of_nat (bitrev k i) + 1) * d).
  assert (He : 0 <= e) by (unfold e; lia). set (m := e mod (2 * Z.of_nat n)).
  assert (Hm : 0 <= m < 2 * Z.of_nat n) by (apply Z.mod_pos_bound; lia).
  assert (Hx : Z.lxor m (Z.of_nat n) = if m <? Z.of_nat n then m + Z.of_nat n else m - Z.of_nat n).
  { rewrite pow2_nat in *. apply lxor_top; [lia|]. rewrite pow2_succ by lia. exact Hm. }
  assert (Hr : 0 <= Z.lxor m (Z.of_nat n) < 2 * Z.of_nat n).
  { rewrite Hx. destruct (Z.ltb_spec m (Z.of_nat n)); lia. }
  destruct (to_ord F w k T HT (Z.to_nat (Z.lxor m (Z.of_nat n))) ltac:(lia)) as (r & Er & Ir).
  exists r. split; [exact Er|]. apply (is_root_cong F Hok) with (1 := Ir).
  assert (Hz : cong p (npow w (Z.to_nat m)) (npow (zt w k i) (Z.to_nat d))).
  { destruct (npow_mod_full e) as [Hc|]; [|lia]. fold m in Hc. rewrite Hc. apply cong_of_eq.
    unfold zt, zeta. rewrite <- npow_mul. f_equal. unfold e. rewrite Z2Nat.inj_mul by lia. f_equal. lia. }
  rewrite <- Hz, Hx. destruct (Z.ltb_spec m (Z.of_nat n)).
  - rewrite Z2Nat.inj_add, Nat2Z.id, npow_add, Hw by lia. apply cong_of_eq. ring.
  - transitivity (- (npow w (Z.to_nat (m - Z.of_nat n)) * npow w n)); [rewrite Hw; apply cong_of_eq; ring|].
    rewrite <- npow_add. apply cong_of_eq. do 2 f_equal. lia.
Qed.

Lemma mono_map (f : nat -> option Z) (g : nat -> Z) :
  (forall i, (i < n)%nat -> f (bitrev k i) = Some (g i)) ->
  mapM f (firstn n (nt_rev T)) = Some (map g (seq 0 n)).
Proof.
  intros H. rewrite (to_rev F w k T HT). rewrite firstn_all2 by (rewrite map_length, seq_length; lia).
  assert (G : forall l, (forall i, In i l -> (i < n)%nat) -> mapM f (map (bitrev k) l) = Some (map g l)).
  { induction l as [|i l IH]; intros Hl; [reflexivity|]. cbn [map mapM]. rewrite H by (apply Hl; left; reflexivity).
    cbn [bind]. rewrite IH by (intros j Hj; apply Hl; right; exact Hj). reflexivity. }
  apply G. intros i Hi. apply in_seq in Hi. lia.
Qed.

(** Value of c*X^d at the evaluation points. *)
Definition mono_ntt (c : Z) (d : nat) : list Z := map (fun i => (c * npow (zt w k i) d) mod p) (seq 0 n).

Lemma mono_ntt_transform c d : mono_ntt c d = ntt_of F w k (monomial n c d).
Proof.
  unfold mono_ntt, ntt_of. apply map_ext. intros i. apply cong_iff; [lia|]. symmetry.
  apply ev_monomial; [apply pow_nz|]. apply (zt_pow_n F w k Hw).
Qed.

Lemma mono_one_correct d : 0 <= d -> (2 * Z.of_nat n - 1) * d < 2 ^ 64 -> mono_one T d n = Some (mono_ntt 1 (Z.to_nat d)).
Proof.
  intros Hd Hf. unfold mono_one. apply mono_map. intros i Hi. rewrite (to_logn F w k T HT).
  rewrite mono_index_correct by (exact Hd || exact Hf || apply bitrev_bound). cbn [bind].
  destruct (ord_power i d Hi Hd) as (r & Er & Ir). rewrite Er. cbn [bind].
  rewrite (is_root_value F Hok r _ Ir). rewrite Z.mul_1_l. reflexivity.
Qed.
Lemma mono_neg_one_correct d : 0 <= d -> (2 * Z.of_nat n - 1) * d < 2 ^ 64 -> mono_neg_one T d n = Some (mono_ntt (-1) (Z.to_nat d)).
Proof.
  intros Hd Hf. unfold mono_neg_one. apply mono_map. intros i Hi. rewrite (to_logn F w k T HT).
  rewrite mono_index_correct by (exact Hd || exact Hf || apply bitrev_bound). cbn [bind].
  destruct (ord_power_neg i d Hi Hd) as (r & Er & Ir). rewrite Er. cbn [bind].
  rewrite (is_root_value F Hok r _ Ir). replace (-1 * npow (zt w k i) (Z.to_nat d)) with (- npow (zt w k i) (Z.to_nat d)) by ring. reflexivity.
Qed.
Lemma mono_gen_correct c d : 0 <= c < p -> 0 <= d -> (2 * Z.of_nat n - 1) * d < 2 ^ 64 ->
  mono_gen F T c d n = Some (mono_ntt c (Z.to_nat d)).
Proof.
  intros Hc Hd Hf. pose proof (B_facts F Hok). unfold mono_gen. apply mono_map. intros i Hi. rewrite (to_logn F w k T HT).
  rewrite mono_index_correct by (exact Hd || exact Hf || apply bitrev_bound). cbn [bind].
  destruct (ord_power i d Hi Hd) as (r & Er & Ir). rewrite Er. cbn [bind].
  rewrite (mul_root_correct F Hok r _ c Ir) by lia. rewrite Z.mul_comm. reflexivity.
Qed.

Lemma mono_ntt_const c : 0 <= c < p -> mono_ntt c 0 = repeat c n.
Proof.
  intros Hc. unfold mono_ntt. rewrite <- (map_const_seq c 0 n). apply map_ext. intros i.
  rewrite npow_0, Z.mul_1_r. apply Z.mod_small. lia.
Qed.
Lemma mono_ntt_cong c c' d : cong p c c' -> mono_ntt c d = mono_ntt c' d.
Proof.
  intros H. unfold mono_ntt. apply map_ext. intros i. apply cong_iff; [lia|]. rewrite H. reflexivity.
Qed.

Lemma transform_monomial_correct c d : 0 <= c < p -> 0 <= d -> (2 * Z.of_nat n - 1) * d < 2 ^ 64 ->
  transform_monomial F T c d n = Some (mono_ntt c (Z.to_nat d)).
Proof.
  intros Hc Hd Hf. unfold transform_monomial. rewrite (to_logn F w k T HT).
  destruct (Z.eqb_spec c 0) as [->|].
  - f_equal. unfold mono_ntt. rewrite <- (map_const_seq 0 0 n). apply map_ext. intros i. symmetry. apply Z.mod_0_l. lia.
  - destruct (Z.eqb_spec d 0) as [->|].
    + rewrite mono_ntt_const by exact Hc. reflexivity.
    + rewrite assert_true by (apply Nat.eqb_refl). cbn [bind].
      destruct (Z.eqb_spec c 1) as [->|]; [apply mono_one_correct; assumption|].
      unfold f_neg_one. destruct (Z.eqb_spec c (p - 1)) as [->|]; [|apply mono_gen_correct; assumption].
      rewrite mono_neg_one_correct by assumption. f_equal. apply mono_ntt_cong. exists (-1). ring.
Qed.
Lemma transform_one_correct d : 0 <= d -> (2 * Z.of_nat n - 1) * d < 2 ^ 64 ->
  transform_coeff_one_monomial T d n = Some (mono_ntt 1 (Z.to_nat d)).
Proof.
  intros Hd Hf. unfold transform_coeff_one_monomial. rewrite (to_logn F w k T HT).
  destruct (Z.eqb_spec d 0) as [->|].
  - rewrite mono_ntt_const by lia. reflexivity.
  - rewrite assert_true by (apply Nat.eqb_refl). cbn [bind]. apply mono_one_correct; assumption.
Qed.
Lemma transform_neg_one_correct d : 0 <= d -> (2 * Z.of_nat n - 1) * d < 2 ^ 64 ->
  transform_coeff_neg_one_monomial F T d n = Some (mono_ntt (-1) (Z.to_nat d)).
Proof.
  intros Hd Hf. unfold transform_coeff_neg_one_monomial. rewrite (to_logn F w k T HT). unfold f_neg_one.
  destruct (Z.eqb_spec d 0) as [->|].
  - rewrite (mono_ntt_cong (-1) (p - 1)) by (exists (-1); ring). rewrite mono_ntt_const by lia. reflexivity.
  - rewrite assert_true by (apply Nat.eqb_refl). cbn [bind]. apply mono_neg_one_correct; assumption.
Qed.
End Mono.

Lemma monomial_values_ntt F w k c d : 0 <= d -> monomial_values (fp F) w k c d = mono_ntt F w k c (Z.to_nat d).
Proof.
  intros Hd. unfold monomial_values, mono_ntt. apply map_ext. intros i. rewrite zt_pow_Z. unfold npow.
  rewrite Z2Nat.id by exact Hd. rewrite <- Z.pow_mul_r by lia. reflexivity.
Qed.

(** Monomial transforms of a table of either build, for the degrees the rotations use. *)
Section TabMono.
Variable F : field.
Hypothesis Hok : fok F.
Local Notation p := (fp F).
Variables (w : Z) (k : nat) (t : any_table).
Hypothesis Hp2 : 2 < p.
Hypothesis Hk31 : (k <= 31)%nat.
Hypothesis Hw : cong p (npow w (2 ^ k)) (-1).
Hypothesis HT : tab_ok F w k t.
Local Notation n := (2 ^ k)%nat.

Lemma mono_range d : 0 <= d < 2 * Z.of_nat n -> (2 * Z.of_nat n - 1) * d < 2 ^ 64.
Proof.
  intros Hd. assert (Hn : Z.of_nat n <= 2 ^ 31) by (rewrite pow2_nat; apply Z.pow_le_mono_r; lia).
  change (2 ^ 31) with 2147483648 in Hn. change (2 ^ 64) with (4294967296 * 4294967296). nia.
Qed.

Lemma t_mono_correct c d : 0 <= c < p -> 0 <= d < 2 * Z.of_nat n ->
  t_transform_monomial F t c d n = Some (mono_ntt F w k c (Z.to_nat d)).
Proof.
  intros Hc Hd. destruct t as [T|T]; cbn [t_transform_monomial tab_ok] in *.
  - apply (transform_monomial_correct F Hok w k T Hp2 ltac:(lia) Hw HT c d Hc); [lia|apply mono_range; exact Hd].
  - destruct HT as (<- & D). unfold concrete_transform_monomial.
    rewrite (pd_monomial _ _ _ D c d Hc) by (rewrite <- pow2_nat; lia). rewrite monomial_values_ntt by lia. reflexivity.
Qed.
Lemma t_one_correct d : 0 <= d < 2 * Z.of_nat n ->
  t_transform_coeff_one_monomial t d n = Some (mono_ntt F w k 1 (Z.to_nat d)).
Proof.
  intros Hd. destruct t as [T|T]; cbn [t_transform_coeff_one_monomial tab_ok] in *.
  - apply (transform_one_correct F Hok w k T Hp2 ltac:(lia) Hw HT d); [lia|apply mono_range; exact Hd].
  - destruct HT as (<- & D). unfold concrete_transform_coeff_one_monomial.
    rewrite (pd_one _ _ _ D d) by (rewrite <- pow2_nat; lia). rewrite monomial_values_ntt by lia. reflexivity.
Qed.
Lemma t_neg_one_correct d : 0 <= d < 2 * Z.of_nat n ->
  t_transform_coeff_neg_one_monomial F t d n = Some (mono_ntt F w k (-1) (Z.to_nat d)).
Proof.
  intros Hd. destruct t as [T|T]; cbn [t_transform_coeff_neg_one_monomial tab_ok] in *.
  - apply (transform_neg_one_correct F Hok w k T Hp2 ltac:(lia) Hw HT d); [lia|apply mono_range; exact Hd].
  - destruct HT as (<- & D). unfold concrete_transform_coeff_neg_one_monomial.
    rewrite (pd_neg_one _ _ _ D d) by (rewrite <- pow2_nat; lia). rewrite monomial_values_ntt by lia. reflexivity.
Qed.
End TabMono.
