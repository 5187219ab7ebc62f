(** Correctness of the number theoretic transform. *)
From Coq Require Import ZArith List Arith Bool Lia Znumtheory Setoid Morphisms.
From Verif Require Import Model.Base Model.Shoup Model.Barrett Model.Field Model.NTT.
From Verif Require Import Proofs.Arith Proofs.NumTheory Proofs.BarrettProofs Proofs.ShoupProofs Proofs.FieldProofs.
From Verif Require Export Proofs.PolyMath.
Import ListNotations.
Local Open Scope Z_scope.

(** * Slices *)
Definition slice (m c : nat) (v : list Z) : list Z := firstn m (skipn (c * m) v).

Lemma slice_length m c v : ((c + 1) * m <= length v)%nat -> length (slice m c v) = m.
Proof. intros H. unfold slice. rewrite firstn_length, skipn_length. lia. Qed.

Lemma nth_error_skipn {A} (l : list A) m i : nth_error (skipn m l) i = nth_error l (m + i).
Proof.
  revert l. induction m; intros l; [reflexivity|]. destruct l; cbn; [destruct i; reflexivity|apply IHm].
Qed.
Lemma skipn_app_ge {A} n (u v : list A) : (length u <= n)%nat -> skipn n (u ++ v) = skipn (n - length u) v.
Proof. intros H. rewrite skipn_app, skipn_all2 by exact H. reflexivity. Qed.

Lemma slice_app_S m c u v : length u = m -> slice m (S c) (u ++ v) = slice m c v.
Proof.
  intros H. unfold slice. rewrite skipn_app_ge by (cbn; lia). do 2 f_equal. cbn. lia.
Qed.
Lemma slice_app_0 m u v : length u = m -> slice m 0 (u ++ v) = u.
Proof.
  intros H. unfold slice. cbn. rewrite firstn_app. replace (m - length u)%nat with O by lia.
  cbn. rewrite app_nil_r. apply firstn_all2. lia.
Qed.
Lemma skipn_skipn' {A} a b (l : list A) : skipn a (skipn b l) = skipn (b + a) l.
Proof.
  revert l. induction b; intros l; [reflexivity|]. destruct l; [rewrite !skipn_nil; reflexivity|].
  cbn. apply IHb.
Qed.
Lemma slice_skip m c d v : slice m c (skipn (d * m) v) = slice m (d + c) v.
Proof. unfold slice. rewrite skipn_skipn'. do 2 f_equal. lia. Qed.

Lemma firstn_add {A} a b (l : list A) : firstn (a + b) l = firstn a l ++ firstn b (skipn a l).
Proof.
  revert l. induction a; intros l; [reflexivity|]. destruct l; [rewrite skipn_nil, !firstn_nil; reflexivity|].
  cbn. f_equal. apply IHa.
Qed.

Lemma slice_double m c v : slice (2 * m) c v = slice m (2 * c) v ++ slice m (2 * c + 1) v.
Proof.
  unfold slice. replace (2 * m)%nat with (m + m)%nat at 1 by lia. rewrite firstn_add, skipn_skipn'.
  f_equal; do 2 f_equal; lia.
Qed.

Lemma slice_full v : slice (length v) 0 v = v.
Proof. unfold slice. cbn. apply firstn_all. Qed.
Lemma slice_one c v : (c < length v)%nat -> slice 1 c v = [nth c v 0].
Proof.
  intros H. unfold slice. rewrite Nat.mul_1_r. revert v H. induction c; intros v H; destruct v; cbn in *; try lia.
  - reflexivity.
  - apply IHc. lia.
Qed.
Lemma slice_Forall P m c v : Forall P v -> Forall P (slice m c v).
Proof.
  intros H. unfold slice. rewrite Forall_forall in *. intros x Hx. apply H.
  rewrite <- (firstn_skipn (c * m) v). apply in_or_app. right.
  rewrite <- (firstn_skipn m (skipn (c * m) v)). apply in_or_app. left. exact Hx.
Qed.

Lemma nth_slice m c j v : (j < m)%nat -> nth j (slice m c v) 0 = nth (c * m + j) v 0.
Proof.
  intros Hj. unfold slice.
  assert (H1 : forall (l : list Z) a, (j < a)%nat -> nth j (firstn a l) 0 = nth j l 0).
  { clear. revert j. induction j; intros l a Ha; destruct l, a; cbn; try lia; auto. apply IHj. lia. }
  rewrite H1 by exact Hj. generalize (c * m)%nat. clear. intros b. revert v.
  induction b; intros v; [reflexivity|]. destruct v; cbn; [destruct j; reflexivity|apply IHb].
Qed.

(** * Bit reversal *)
Lemma rev_bits_shift a b x : 0 <= x -> rev_bits (a + b) x / 2 ^ Z.of_nat b = rev_bits a x.
Proof.
  revert x. induction a as [|a IH]; intros x Hx.
  - cbn [Nat.add rev_bits].
    assert (H : forall n y, 0 <= y -> 0 <= rev_bits n y < 2 ^ Z.of_nat n).
    { clear. induction n; intros y Hy; cbn [rev_bits]; [cbn; lia|].
      rewrite Nat2Z.inj_succ, Z.pow_succ_r by lia.
      pose proof (IHn (y / 2) ltac:(apply Z.div_pos; lia)). pose proof (Z.mod_pos_bound y 2 ltac:(lia)). nia. }
    apply Z.div_small. apply H. exact Hx.
  - cbn [Nat.add rev_bits]. rewrite Nat2Z.inj_add, Z.pow_add_r by lia.
    pose proof (pow2_pos (Z.of_nat b) ltac:(lia)).
    rewrite Z.mul_assoc, Z.div_add_l by lia. rewrite IH; [reflexivity|]. apply Z.div_pos; lia.
Qed.

Lemma rev_bits_bitrev k i : rev_bits k (Z.of_nat i) = Z.of_nat (bitrev k i).
Proof.
  revert i. induction k as [|k IH]; intros i; [reflexivity|]. cbn [rev_bits bitrev].
  change 2 with (Z.of_nat 2). rewrite <- Nat2Z.inj_mod, <- Nat2Z.inj_div, IH.
  rewrite Nat2Z.inj_add, Nat2Z.inj_mul, Nat2Z.inj_pow. reflexivity.
Qed.

Lemma reverse_lsbs_correct (B : nat) (i k : nat) : (k < B)%nat ->
  reverse_lsbs (Z.of_nat B) (Z.of_nat i) (Z.of_nat k) = Some (Z.of_nat (bitrev k i)).
Proof.
  intros Hk. unfold reverse_lsbs. rewrite assert_true by (apply Z.ltb_lt; lia). cbn [bind].
  destruct (Z.eqb_spec (Z.of_nat i) 0).
  - replace i with O by lia. rewrite bitrev_0. reflexivity.
  - destruct (Z.eqb_spec (Z.of_nat k) 0); cbn [orb].
    + replace k with O by lia. reflexivity.
    + rewrite usub_some by lia. cbn [bind]. rewrite ushr_some by lia. f_equal.
      rewrite Nat2Z.id. replace (Z.of_nat B - Z.of_nat k) with (Z.of_nat (B - k)) by lia.
      replace B with (k + (B - k))%nat at 1 by lia. rewrite rev_bits_shift by lia.
      apply rev_bits_bitrev.
Qed.

Lemma testbit_bitrev k i j : Z.testbit (Z.of_nat (bitrev k i)) (Z.of_nat j) =
  if (j <? k)%nat then Z.testbit (Z.of_nat i) (Z.of_nat (k - 1 - j)) else false.
Proof.
  revert i j. induction k as [|k IH]; intros i j; [cbn; apply Z.testbit_0_l|].
  cbn [bitrev]. rewrite Nat2Z.inj_add, Nat2Z.inj_mul, Nat2Z.inj_pow.
  change (Z.of_nat 2) with 2. rewrite <- lor_add; [|lia|].
  2:{ pose proof (bitrev_bound k (i / 2)). split; [lia|].
      change 2 with (Z.of_nat 2). rewrite <- Nat2Z.inj_pow. lia. }
  rewrite Z.lor_spec, IH. rewrite <- Z.shiftl_mul_pow2 by lia. rewrite Z.shiftl_spec by lia.
  destruct (Nat.ltb_spec j k).
  - rewrite Z.testbit_neg_r by lia. destruct (Nat.ltb_spec j (S k)); [|lia]. cbn [orb].
    rewrite Nat2Z.inj_div. change (Z.of_nat 2) with (2 ^ 1). rewrite <- Z.shiftr_div_pow2 by lia.
    rewrite Z.shiftr_spec by lia. f_equal. lia.
  - rewrite orb_false_r. destruct (Nat.ltb_spec j (S k)).
    + replace j with k by lia. rewrite Z.sub_diag. replace (S k - 1 - k)%nat with O by lia.
      rewrite Nat2Z.inj_mod. change (Z.of_nat 2) with (2 ^ 1). cbn [Z.of_nat].
      rewrite Z.mod_pow2_bits_low by lia. reflexivity.
    + rewrite Nat2Z.inj_mod. change (Z.of_nat 2) with (2 ^ 1).
      rewrite Z.mod_pow2_bits_high by lia. reflexivity.
Qed.

Fixpoint map2 (f : Z -> Z -> Z) (a b : list Z) : list Z :=
  match a, b with x :: a', y :: b' => f x y :: map2 f a' b' | _, _ => [] end.

Lemma map2_length f a b : length a = length b -> length (map2 f a b) = length a.
Proof. revert b; induction a; destruct b; cbn; intros; try lia. rewrite IHa; lia. Qed.

(** Evaluation of an affine combination. *)
Lemma ev_map2 z f al be a b : (forall x y, f x y = al * x + be * y) -> length a = length b ->
  ev z (map2 f a b) = al * ev z a + be * ev z b.
Proof.
  intros Hf. revert b. induction a; destruct b; cbn; intros H; try lia.
  rewrite IHa, Hf by lia. ring.
Qed.

Section Layer.
  Variable p : Z.
  Variable isr : shoup -> Z -> Prop.
  Variable P : Z -> Prop.
  Variable bfly : shoup -> Z -> Z -> option (Z * Z).
  Variables g h : Z -> Z -> Z -> Z.
  Hypothesis Hbfly : forall r x i j, isr r x -> P i -> P j ->
    exists i' j', bfly r i j = Some (i', j') /\ P i' /\ P j' /\ cong p i' (g x i j) /\ cong p j' (h x i j).

  Lemma zip_update_spec r x v0 v1 : isr r x -> length v0 = length v1 -> Forall P v0 -> Forall P v1 ->
    exists a b, zip_update (bfly r) v0 v1 = Some (a, b) /\ length a = length v0 /\ length b = length v0 /\
      Forall P a /\ Forall P b /\ pcong p a (map2 (g x) v0 v1) /\ pcong p b (map2 (h x) v0 v1).
  Proof.
    intros Hr. revert v1. induction v0 as [|i v0 IH]; intros [|j v1] Hl H0 H1; cbn in Hl; try lia.
    - exists [], []. cbn. repeat split; constructor.
    - inv H0. inv H1. destruct (Hbfly r x i j Hr H3 H2) as (i' & j' & E & Pi & Pj & Ci & Cj).
      destruct (IH v1 ltac:(lia) H4 H5) as (a & b & E' & La & Lb & Pa & Pb & Ca & Cb).
      exists (i' :: a), (j' :: b). cbn [zip_update map2 length]. rewrite E. cbn [bind]. rewrite E'.
      cbn [bind]. repeat split; try (f_equal; assumption); constructor; assumption.
  Qed.

  Lemma layer_spec gap X : forall C vals roots, length vals = (C * (2 * gap))%nat ->
    Forall P vals -> (forall c, (c < C)%nat -> exists r, nth_error roots c = Some r /\ isr r (X c)) ->
    exists vals', layer bfly gap C vals roots = Some (vals', skipn C roots) /\
      length vals' = length vals /\ Forall P vals' /\
      forall c, (c < C)%nat ->
        pcong p (slice gap (2 * c) vals') (map2 (g (X c)) (slice gap (2 * c) vals) (slice gap (2 * c + 1) vals)) /\
        pcong p (slice gap (2 * c + 1) vals') (map2 (h (X c)) (slice gap (2 * c) vals) (slice gap (2 * c + 1) vals)).
  Proof.
    intros C. revert X. induction C as [|C IH]; intros X vals roots Hl HP Hr.
    - exists vals. cbn. split; [reflexivity|]. split; [reflexivity|]. split; [assumption|]. intros c Hc. lia.
    - destruct (Hr O ltac:(lia)) as (r & Er & Ir). destruct roots as [|r0 roots]; [discriminate|].
      cbn in Er. injection Er as ->.
      assert (L0 : length (slice gap 0 vals) = gap) by (apply slice_length; lia).
      assert (L1 : length (slice gap 1 vals) = gap) by (apply slice_length; lia).
      assert (E0 : firstn gap vals = slice gap 0 vals) by reflexivity.
      assert (E1 : firstn gap (skipn gap vals) = slice gap 1 vals) by (unfold slice; rewrite Nat.mul_1_l; reflexivity).
      cbn [layer]. rewrite E0, E1.
      destruct (zip_update_spec r (X O) (slice gap 0 vals) (slice gap 1 vals) Ir ltac:(lia)
        (slice_Forall P gap 0 vals HP) (slice_Forall P gap 1 vals HP)) as (a & b & Ez & La & Lb & Pa & Pb & Ca & Cb).
      rewrite Ez. cbn [bind].
      destruct (IH (fun c => X (S c)) (skipn (2 * gap) vals) roots) as (vals' & El & Ll & Pl & Hc).
      + rewrite skipn_length. lia.
      + rewrite <- (firstn_skipn (2 * gap) vals) in HP. apply Forall_app in HP. apply HP.
      + intros c Hc. apply (Hr (S c)). lia.
      + rewrite El. cbn [bind]. exists (a ++ b ++ vals'). cbn [skipn].
        split; [reflexivity|]. rewrite skipn_length in Ll.
        split; [rewrite !app_length; lia|].
        split; [apply Forall_app; split; [assumption|apply Forall_app; split; assumption]|].
        intros c Hlt. destruct c as [|c].
        * cbn [Nat.mul Nat.add]. rewrite slice_app_0 by lia. rewrite slice_app_S by lia.
          rewrite slice_app_0 by lia. split; assumption.
        * replace (2 * S c)%nat with (S (S (2 * c))) by lia.
          replace (S (S (2 * c)) + 1)%nat with (S (S (2 * c + 1))) by lia.
          rewrite !slice_app_S by lia.
          replace (S (S (2 * c))) with (2 + 2 * c)%nat by lia.
          replace (S (S (2 * c + 1))) with (2 + (2 * c + 1))%nat by lia.
          rewrite <- (slice_skip gap (2 * c) 2 vals), <- (slice_skip gap (2 * c + 1) 2 vals). apply (Hc c). lia.
  Qed.
End Layer.

Section NTT.
Variable F : field.
Hypothesis Hok : fok F.
Local Notation B := (fw F).
Local Notation p := (fp F).
Hypothesis Hp : prime p.

(** [r] is the precomputed factor of the residue of [x]. *)
Definition is_root (r : shoup) (x : Z) : Prop := to_root F (x mod p) = Some r.

Lemma B_facts : 4 <= B /\ 2 <= p /\ 4 * p < 2 ^ B /\ p <= 2 ^ (B - 1) /\ 2 ^ B = 2 * 2 ^ (B - 1).
Proof.
  pose proof (B4 F Hok). pose proof (fp_range F Hok). pose proof (pow2_pred B ltac:(lia)). lia.
Qed.

Lemma is_root_exists x : exists r, is_root r x.
Proof.
  pose proof B_facts. unfold is_root, to_root. eexists. apply shoup_new_correct; try lia.
  apply Z.mod_pos_bound. lia.
Qed.
Lemma to_root_is v : 0 <= v < p -> exists r, to_root F v = Some r /\ is_root r v.
Proof.
  intros H. destruct (is_root_exists v) as (r & E). exists r. split; [|exact E].
  unfold is_root in E. rewrite Z.mod_small in E by lia. exact E.
Qed.
Lemma is_root_cong r x y : is_root r x -> cong p x y -> is_root r y.
Proof.
  intros H Hc. unfold is_root in *. apply cong_iff in Hc; [|pose proof B_facts; lia]. rewrite <- Hc. exact H.
Qed.
Lemma is_root_value r x : is_root r x -> sh_value r = x mod p.
Proof.
  intros H. pose proof B_facts. unfold is_root, to_root in H.
  rewrite shoup_new_correct in H; [injection H as <-; reflexivity|lia|apply Z.mod_pos_bound; lia|lia].
Qed.
Lemma is_root_det r r' x : is_root r x -> is_root r' x -> r = r'.
Proof. unfold is_root. congruence. Qed.

Lemma mul_root_fast_correct r x a : is_root r x -> 0 <= a < 2 ^ B ->
  0 <= mul_root_fast F a r < 2 * p /\ cong p (mul_root_fast F a r) (x * a).
Proof.
  intros Hr Ha. pose proof B_facts. pose proof (Z.mod_pos_bound x p ltac:(lia)) as Hx.
  destruct (shoup_mul_full B (x mod p) p a r ltac:(lia) Hx ltac:(lia) Ha Hr) as (_ & H1 & H2).
  assert (E : mul_root_fast F a r = shoup_mul_lazy B r a p).
  { unfold mul_root_fast, shoup_mul_lazy, widening_mul, widening_mul_hw. cbn [snd].
    rewrite (Z.mul_comm a). reflexivity. }
  rewrite E. split; [exact H1|]. rewrite H2. rewrite (cong_mod p x) by lia. reflexivity.
Qed.

Lemma mul_root_correct r x a : is_root r x -> 0 <= a < 2 ^ B -> mul_root F a r = Some ((x * a) mod p).
Proof.
  intros Hr Ha. pose proof B_facts. pose proof (Z.mod_pos_bound x p ltac:(lia)) as Hx.
  destruct (shoup_mul_full B (x mod p) p a r ltac:(lia) Hx ltac:(lia) Ha Hr) as (H1 & _).
  unfold mul_root. rewrite H1. f_equal. apply Z.mul_mod_idemp_l. lia.
Qed.

Lemma two_p_correct : two_p F = Some (2 * p).
Proof.
  pose proof B_facts. unfold two_p. change 2 with (2 ^ 1). rewrite ushl_some; try lia.
  f_equal. lia.
Qed.

Definition R4 (x : Z) : Prop := 0 <= x < 4 * p.
Definition R2 (x : Z) : Prop := 0 <= x < 2 * p.

Lemma fwd_bfly_spec r x i j : is_root r x -> R4 i -> R4 j ->
  exists i' j', fwd_bfly F r i j = Some (i', j') /\ R4 i' /\ R4 j' /\
    cong p i' (1 * i + x * j) /\ cong p j' (1 * i + - x * j).
Proof.
  unfold R4. intros Hr Hi Hj. pose proof B_facts. unfold fwd_bfly, guard. rewrite two_p_correct. cbn [bind].
  destruct (mul_root_fast_correct r x j Hr ltac:(lia)) as [Hv Cv]. set (v := mul_root_fast F j r) in *.
  assert (Hu : exists u, (if 2 * p <=? i then usub i (2 * p) else Some i) = Some u /\ 0 <= u < 2 * p /\ cong p u i).
  { destruct (Z.leb_spec (2 * p) i).
    - rewrite usub_some by lia. eexists. split; [reflexivity|]. split; [lia|]. exists (-2). ring.
    - eexists. split; [reflexivity|]. split; [lia|reflexivity]. }
  destruct Hu as (u & -> & Hu & Cu). cbn [bind]. unfold add_no_reduce, sub_fast. rewrite two_p_correct.
  rewrite uadd_some by lia. cbn [bind]. rewrite uadd_some by lia. cbn [bind]. rewrite usub_some by lia. cbn [bind].
  do 2 eexists. split; [reflexivity|]. split; [lia|]. split; [lia|]. split.
  - rewrite Cu, Cv. apply cong_of_eq. ring.
  - rewrite Cv, Cu. exists 2. ring.
Qed.

Lemma sub_fast_spec u v : R2 u -> R2 v -> exists d, sub_fast F u v = Some d /\ 0 <= d < 4 * p /\ cong p d (u - v).
Proof.
  unfold R2. intros Hu Hv. pose proof B_facts. unfold sub_fast. rewrite two_p_correct. cbn [bind].
  rewrite uadd_some by lia. cbn [bind]. rewrite usub_some by lia. eexists. split; [reflexivity|].
  split; [lia|]. exists 2. ring.
Qed.

Lemma inv_bfly_spec r x u v : is_root r x -> R2 u -> R2 v ->
  exists i' j', inv_bfly F r u v = Some (i', j') /\ R2 i' /\ R2 j' /\
    cong p i' (1 * u + 1 * v) /\ cong p j' (x * u + - x * v).
Proof.
  intros Hr Hu Hv. pose proof B_facts. unfold inv_bfly, add_fast.
  destruct (sub_fast_spec u v Hu Hv) as (d & Ed & Hd & Cd). unfold R2 in *.
  rewrite uadd_some by lia. cbn [bind]. rewrite two_p_correct. cbn [bind].
  assert (Hs : exists s, (if 2 * p <=? u + v then usub (u + v) (2 * p) else Some (u + v)) = Some s /\ 0 <= s < 2 * p /\ cong p s (u + v)).
  { destruct (Z.leb_spec (2 * p) (u + v)).
    - rewrite usub_some by lia. eexists. split; [reflexivity|]. split; [lia|]. exists (-2). ring.
    - eexists. split; [reflexivity|]. split; [lia|reflexivity]. }
  destruct Hs as (s & -> & Hs & Cs). cbn [bind]. rewrite Ed. cbn [bind].
  destruct (mul_root_fast_correct r x d Hr ltac:(lia)) as [Hj Cj].
  do 2 eexists. split; [reflexivity|]. split; [lia|]. split; [lia|]. split.
  - rewrite Cs. apply cong_of_eq. ring.
  - rewrite Cj, Cd. apply cong_of_eq. ring.
Qed.

Lemma inv_last_bfly_spec sc sd x y u v : is_root sc x -> is_root sd y -> R2 u -> R2 v ->
  exists i' j', inv_last_bfly F sc sd u v = Some (i', j') /\ R2 i' /\ R2 j' /\
    cong p i' (x * u + x * v) /\ cong p j' (y * u + - y * v).
Proof.
  intros Hx Hy Hu Hv. pose proof B_facts. unfold inv_last_bfly, add_no_reduce.
  destruct (sub_fast_spec u v Hu Hv) as (d & Ed & Hd & Cd). unfold R2 in *.
  rewrite uadd_some by lia. cbn [bind]. rewrite Ed. cbn [bind].
  destruct (mul_root_fast_correct sc x (u + v) Hx ltac:(lia)) as [Hi Ci].
  destruct (mul_root_fast_correct sd y d Hy ltac:(lia)) as [Hj Cj].
  do 2 eexists. split; [reflexivity|]. split; [lia|]. split; [lia|]. split.
  - rewrite Ci. apply cong_of_eq. ring.
  - rewrite Cj, Cd. apply cong_of_eq. ring.
Qed.

Lemma ntt_normalize_correct a : R4 a -> ntt_normalize F a = Some (a mod p).
Proof.
  unfold R4. intros Ha. pose proof B_facts. unfold ntt_normalize. rewrite two_p_correct. cbn [bind].
  assert (Hs : exists s, (if 2 * p <=? a then usub a (2 * p) else Some a) = Some s /\ 0 <= s < 2 * p /\ cong p s a).
  { destruct (Z.leb_spec (2 * p) a).
    - rewrite usub_some by lia. eexists. split; [reflexivity|]. split; [lia|]. exists (-2). ring.
    - eexists. split; [reflexivity|]. split; [lia|reflexivity]. }
  destruct Hs as (s & -> & Hs & Cs). cbn [bind]. destruct (Z.leb_spec p s).
  - rewrite usub_some by lia. f_equal. apply cong_eq_mod; [lia|]. rewrite <- Cs. exists (-1). ring.
  - f_equal. apply cong_eq_mod; [lia|exact Cs].
Qed.

Lemma intt_normalize_correct a : R2 a -> intt_normalize F a = Some (a mod p).
Proof.
  unfold R2. intros Ha. pose proof B_facts. unfold intt_normalize. destruct (Z.leb_spec p a).
  - rewrite usub_some by lia. f_equal. apply cong_eq_mod; [lia|]. exists (-1). ring.
  - rewrite Z.mod_small by lia. reflexivity.
Qed.

Lemma mapM_norm f (P : Z -> Prop) l : (forall a, P a -> f a = Some (a mod p)) -> Forall P l -> mapM f l = Some (pmod p l).
Proof.
  intros Hf H. induction H; [reflexivity|]. cbn. rewrite Hf by assumption. cbn. rewrite IHForall. reflexivity.
Qed.

Section Root.
Variables (w : Z) (k : nat).
Hypothesis Hp2 : 2 < p.
Hypothesis Hw : cong p (npow w (2 ^ k)) (-1).
Local Notation n := (2 ^ k)%nat.

(** Root used for chunk [c] of the stage with 2^s chunks. *)
Definition Rt (s c : nat) : Z := npow w (bitrev k (2 ^ s + c)).

Lemma Rt_exp s t c : k = (s + 1 + t)%nat -> (c < 2 ^ s)%nat ->
  bitrev k (2 ^ s + c) = (2 ^ t * (2 * bitrev s c + 1))%nat.
Proof.
  intros -> Hc. replace (s + 1 + t)%nat with (s + S t)%nat by lia.
  replace (2 ^ s + c)%nat with (1 * 2 ^ s + c)%nat by lia.
  rewrite bitrev_split by exact Hc. pose proof (bitrev_odd t 0) as E. rewrite bitrev_0 in E.
  change (2 * 0 + 1)%nat with 1%nat in E. rewrite E. cbn [Nat.pow]. ring.
Qed.

(** Evaluation point of output [i]. *)
Definition zt (i : nat) : Z := zeta w (bitrev k i).

Lemma zt_pow s t c j : k = (s + t)%nat -> (j < 2 ^ t)%nat ->
  cong p (npow (zt (c * 2 ^ t + j)) (2 ^ t)) (npow w (2 ^ t * (2 * bitrev s c + 1))).
Proof.
  intros Hk Hj. unfold zt, zeta. rewrite <- npow_mul.
  replace k with (t + s)%nat by lia. rewrite bitrev_split by exact Hj.
  replace ((2 * (bitrev t j * 2 ^ s + bitrev s c) + 1) * 2 ^ t)%nat
    with (2 * 2 ^ k * bitrev t j + 2 ^ t * (2 * bitrev s c + 1))%nat.
  - rewrite npow_add, npow_mul. rewrite (npow_cong p _ 1) by (apply (root_full p w k Hw)).
    rewrite npow_one. apply cong_of_eq. ring.
  - rewrite Hk, Nat.pow_add_r. ring.
Qed.

Lemma zt_left s t c j : k = (s + 1 + t)%nat -> (c < 2 ^ s)%nat -> (j < 2 ^ t)%nat ->
  cong p (npow (zt (2 * c * 2 ^ t + j)) (2 ^ t)) (Rt s c).
Proof.
  intros Hk Hc Hj. rewrite (zt_pow (s + 1) t (2 * c) j) by (assumption || lia).
  unfold Rt. rewrite (Rt_exp s t c Hk Hc). replace (s + 1)%nat with (S s) by lia.
  rewrite bitrev_even. reflexivity.
Qed.
Lemma zt_right s t c j : k = (s + 1 + t)%nat -> (c < 2 ^ s)%nat -> (j < 2 ^ t)%nat ->
  cong p (npow (zt ((2 * c + 1) * 2 ^ t + j)) (2 ^ t)) (- Rt s c).
Proof.
  intros Hk Hc Hj. rewrite (zt_pow (s + 1) t (2 * c + 1) j) by (assumption || lia).
  unfold Rt. rewrite (Rt_exp s t c Hk Hc). replace (s + 1)%nat with (S s) by lia.
  rewrite bitrev_odd.
  replace (2 ^ t * (2 * (2 ^ s + bitrev s c) + 1))%nat with (2 ^ k + 2 ^ t * (2 * bitrev s c + 1))%nat.
  - rewrite npow_add, Hw. apply cong_of_eq. ring.
  - rewrite Hk, !Nat.pow_add_r. cbn [Nat.pow]. ring.
Qed.

Lemma pow_nz j : (2 ^ j <> 0)%nat. Proof. apply Nat.pow_nonzero. lia. Qed.

Lemma fwd_stages_correct : forall k' s vals roots, k = (s + k')%nat -> length vals = n -> Forall R4 vals ->
  (forall i, (i < 2 ^ k - 2 ^ s)%nat -> exists r, nth_error roots i = Some r /\ is_root r (npow w (bitrev k (2 ^ s + i)))) ->
  exists out roots', fwd_stages F k' vals roots = Some (out, roots') /\ length out = n /\ Forall R4 out /\
    forall c j, (c < 2 ^ s)%nat -> (j < 2 ^ k')%nat ->
      cong p (nth (c * 2 ^ k' + j) out 0) (ev (zt (c * 2 ^ k' + j)) (slice (2 ^ k') c vals)).
Proof.
  induction k' as [|t IH]; intros s vals roots Hk Hl HP Hr.
  - exists vals, roots. cbn [fwd_stages]. split; [reflexivity|]. split; [assumption|]. split; [assumption|].
    intros c j Hc Hj. cbn in Hj. replace j with O by lia. change (2 ^ 0)%nat with 1%nat. rewrite Nat.mul_1_r, Nat.add_0_r.
    rewrite slice_one by (rewrite Hl, Hk, Nat.add_0_r; exact Hc). cbn [ev]. apply cong_of_eq. ring.
  - cbn [fwd_stages]. assert (Hk1 : k = (s + 1 + t)%nat) by lia.
    assert (Hn : n = (2 ^ s * (2 * 2 ^ t))%nat).
    { rewrite Hk1, !Nat.pow_add_r. cbn [Nat.pow]. ring. }
    assert (HC : (length vals / (2 * 2 ^ t) = 2 ^ s)%nat).
    { rewrite Hl, Hn. apply Nat.div_mul. pose proof (pow_nz t). lia. }
    rewrite HC.
    assert (Hs2 : (2 ^ (s + 1) = 2 * 2 ^ s)%nat) by (rewrite Nat.pow_add_r; cbn; lia).
    assert (Hle : (2 ^ (s + 1) <= 2 ^ k)%nat) by (apply Nat.pow_le_mono_r; lia).
    pose proof (pow_nz s).
    destruct (layer_spec p is_root R4 (fwd_bfly F) (fun x i j => 1 * i + x * j) (fun x i j => 1 * i + - x * j)
      fwd_bfly_spec (2 ^ t) (Rt s) (2 ^ s) vals roots) as (vals' & El & Ll & Pl & Hc).
    + lia.
    + exact HP.
    + intros c Hc. apply Hr. lia.
    + rewrite El. cbn [bind].
      destruct (IH (s + 1)%nat vals' (skipn (2 ^ s) roots)) as (out & roots' & Eo & Lo & Po & Ho).
      * lia.
      * lia.
      * exact Pl.
      * intros i Hi. destruct (Hr (2 ^ s + i)%nat) as (r & Er & Ir); [lia|].
        exists r. rewrite nth_error_skipn. split; [exact Er|]. replace (2 ^ (s + 1) + i)%nat with (2 ^ s + (2 ^ s + i))%nat by lia. exact Ir.
      * rewrite Eo. exists out, roots'. split; [reflexivity|]. split; [exact Lo|]. split; [exact Po|].
        intros c j Hcs Hj. destruct (Hc c Hcs) as [Hlo Hhi].
        change (2 ^ S t)%nat with (2 * 2 ^ t)%nat. rewrite slice_double, ev_app.
        assert (L1 : length (slice (2 ^ t) (2 * c) vals) = (2 ^ t)%nat) by (apply slice_length; nia).
        assert (L2 : length (slice (2 ^ t) (2 * c + 1) vals) = (2 ^ t)%nat) by (apply slice_length; nia).
        rewrite L1. change (2 ^ S t)%nat with (2 * 2 ^ t)%nat in Hj.
        destruct (Nat.ltb_spec j (2 ^ t)).
        -- replace (c * (2 * 2 ^ t) + j)%nat with (2 * c * 2 ^ t + j)%nat by lia.
           rewrite (Ho (2 * c)%nat j ltac:(lia) ltac:(lia)).
           rewrite (ev_cong p _ _ _ _ (cong_refl _ _) Hlo).
           rewrite (ev_map2 _ _ 1 (Rt s c)) by (reflexivity || lia).
           rewrite (zt_left s t c j Hk1 Hcs H0). apply cong_of_eq. ring.
        -- assert (Hj' : (j - 2 ^ t < 2 ^ t)%nat) by lia.
           replace (c * (2 * 2 ^ t) + j)%nat with ((2 * c + 1) * 2 ^ t + (j - 2 ^ t))%nat by lia.
           rewrite (Ho (2 * c + 1)%nat (j - 2 ^ t)%nat ltac:(lia) Hj').
           rewrite (ev_cong p _ _ _ _ (cong_refl _ _) Hhi).
           rewrite (ev_map2 _ _ 1 (- Rt s c)) by (reflexivity || lia).
           rewrite (zt_right s t c _ Hk1 Hcs Hj'). apply cong_of_eq. ring.
Qed.

(** Inverse root of the pair [c] at the stage merging blocks of size 2^t. *)
Lemma inv_exp s t c : k = (s + 1 + t)%nat -> (c < 2 ^ s)%nat ->
  (bitrev k (n - 2 ^ (s + 1) + c) + 1 = bitrev k (2 ^ s + c))%nat.
Proof.
  intros Hk Hc. rewrite (Rt_exp s t c Hk Hc).
  replace (n - 2 ^ (s + 1) + c)%nat with ((2 ^ S t - 2) * 2 ^ s + c)%nat.
  - replace k with (s + S t)%nat by lia. rewrite bitrev_split by exact Hc.
    replace (2 ^ S t - 2)%nat with (2 * (2 ^ t - 1))%nat by (cbn [Nat.pow]; lia).
    rewrite bitrev_even, bitrev_ones. pose proof (pow_nz t).
    cbn [Nat.pow]. nia.
  - rewrite Hk, !Nat.pow_add_r. cbn [Nat.pow]. rewrite Nat.mul_sub_distr_r. f_equal. f_equal; lia.
Qed.

Lemma inv_root_mul s t c : k = (s + 1 + t)%nat -> (c < 2 ^ s)%nat ->
  cong p (npow w (2 * n - 1 - bitrev k (n - 2 ^ (s + 1) + c)) * Rt s c) 1.
Proof.
  intros Hk Hc. unfold Rt. rewrite <- npow_add, <- (inv_exp s t c Hk Hc).
  pose proof (bitrev_bound k (n - 2 ^ (s + 1) + c)).
  replace (2 * n - 1 - bitrev k (n - 2 ^ (s + 1) + c) + (bitrev k (n - 2 ^ (s + 1) + c) + 1))%nat
    with (2 * n)%nat by lia.
  apply (root_full p w k Hw).
Qed.

(** [blk t vals v]: every block of size 2^t of [vals] evaluates to 2^t times the entry of [v]. *)
Definition blk (t : nat) (vals v : list Z) : Prop :=
  forall c j, (c < 2 ^ (k - t))%nat -> (j < 2 ^ t)%nat ->
    cong p (ev (zt (c * 2 ^ t + j)) (slice (2 ^ t) c vals)) (2 ^ Z.of_nat t * nth (c * 2 ^ t + j) v 0).

(** One merge, with the two halves scaled by [d]. *)
Lemma merge_step s t c vals vals' v d : k = (s + 1 + t)%nat -> (c < 2 ^ s)%nat -> length vals = n ->
  blk t vals v ->
  pcong p (slice (2 ^ t) (2 * c) vals') (map2 (fun x y => d * x + d * y) (slice (2 ^ t) (2 * c) vals) (slice (2 ^ t) (2 * c + 1) vals)) ->
  (forall y, cong p (y * Rt s c) 1 ->
   pcong p (slice (2 ^ t) (2 * c + 1) vals') (map2 (fun x x' => (d * y) * x + - (d * y) * x') (slice (2 ^ t) (2 * c) vals) (slice (2 ^ t) (2 * c + 1) vals))) ->
  forall j, (j < 2 * 2 ^ t)%nat ->
    cong p (ev (zt (c * (2 * 2 ^ t) + j)) (slice (2 * 2 ^ t) c vals')) (d * (2 * 2 ^ Z.of_nat t) * nth (c * (2 * 2 ^ t) + j) v 0).
Proof.
  intros Hk Hc Hl Hb Hlo Hhi j Hj.
  set (y := npow w (2 * n - 1 - bitrev k (n - 2 ^ (s + 1) + c))).
  assert (Hy : cong p (y * Rt s c) 1) by (apply (inv_root_mul s t c Hk Hc)).
  specialize (Hhi y Hy).
  assert (Hn : n = (2 ^ s * (2 * 2 ^ t))%nat).
  { rewrite Hk, !Nat.pow_add_r. cbn [Nat.pow]. ring. }
  assert (L1 : length (slice (2 ^ t) (2 * c) vals) = (2 ^ t)%nat) by (apply slice_length; nia).
  assert (L2 : length (slice (2 ^ t) (2 * c + 1) vals) = (2 ^ t)%nat) by (apply slice_length; nia).
  assert (L3 : length (slice (2 ^ t) (2 * c) vals') = (2 ^ t)%nat).
  { rewrite (pcong_length _ _ _ Hlo), map2_length; lia. }
  assert (Hs : (k - t = S s)%nat) by lia.
  rewrite slice_double, ev_app, L3.
  rewrite (ev_cong p _ _ _ _ (cong_refl _ _) Hlo), (ev_cong p _ _ _ _ (cong_refl _ _) Hhi).
  rewrite (ev_map2 _ _ d d) by (reflexivity || lia).
  rewrite (ev_map2 _ _ (d * y) (- (d * y))) by (reflexivity || lia).
  set (z := zt (c * (2 * 2 ^ t) + j)).
  set (A := ev z (slice (2 ^ t) (2 * c) vals)). set (A' := ev z (slice (2 ^ t) (2 * c + 1) vals)).
  assert (Hc2 : (2 ^ (k - t) = 2 * 2 ^ s)%nat) by (rewrite Hs; reflexivity).
  destruct (Nat.ltb_spec j (2 ^ t)) as [Hlt|Hge].
  - assert (Ei : (c * (2 * 2 ^ t) + j = 2 * c * 2 ^ t + j)%nat) by lia.
    assert (Hz : cong p (npow z (2 ^ t)) (Rt s c)).
    { unfold z. rewrite Ei. apply zt_left; assumption. }
    assert (HA : cong p A (2 ^ Z.of_nat t * nth (c * (2 * 2 ^ t) + j) v 0)).
    { unfold A, z. rewrite Ei. apply Hb; lia. }
    rewrite Hz. transitivity (d * A + d * A' + d * (y * Rt s c) * (A - A')); [apply cong_of_eq; ring|].
    rewrite Hy. transitivity (d * 2 * A); [apply cong_of_eq; ring|]. rewrite HA. apply cong_of_eq. ring.
  - assert (Hj' : (j - 2 ^ t < 2 ^ t)%nat) by lia.
    assert (Ei : (c * (2 * 2 ^ t) + j = (2 * c + 1) * 2 ^ t + (j - 2 ^ t))%nat) by lia.
    assert (Hz : cong p (npow z (2 ^ t)) (- Rt s c)).
    { unfold z. rewrite Ei. apply zt_right; assumption. }
    assert (HA : cong p A' (2 ^ Z.of_nat t * nth (c * (2 * 2 ^ t) + j) v 0)).
    { unfold A', z. rewrite Ei. apply Hb; lia. }
    rewrite Hz. transitivity (d * A + d * A' - d * (y * Rt s c) * (A - A')); [apply cong_of_eq; ring|].
    rewrite Hy. transitivity (d * 2 * A'); [apply cong_of_eq; ring|]. rewrite HA. apply cong_of_eq. ring.
Qed.

Lemma map2_cong f g a b : (forall x y, cong p (f x y) (g x y)) -> pcong p (map2 f a b) (map2 g a b).
Proof. intros H. revert b. induction a; destruct b; cbn; constructor; [apply H|apply IHa]. Qed.

Lemma inv_unique y y' x : cong p (y * x) 1 -> cong p (y' * x) 1 -> cong p y y'.
Proof.
  intros H H'. transitivity (y * (y' * x)); [rewrite H'; apply cong_of_eq; ring|].
  transitivity (y' * (y * x)); [apply cong_of_eq; ring|]. rewrite H. apply cong_of_eq. ring.
Qed.

Definition inv_roots_from (t : nat) (roots : list shoup) : Prop :=
  forall i, (i < 2 ^ (k - t) - 1)%nat ->
    exists r, nth_error roots i = Some r /\ is_root r (npow w (2 * n - 1 - bitrev k (n - 2 ^ (k - t) + i))).

Lemma inv_stages_correct v : forall cnt t vals roots, (t + cnt < k)%nat -> length vals = n -> Forall R2 vals ->
  blk t vals v -> inv_roots_from t roots ->
  exists out roots', inv_stages F cnt t vals roots = Some (out, roots') /\ length out = n /\ Forall R2 out /\
    blk (t + cnt) out v /\ inv_roots_from (t + cnt) roots'.
Proof.
  induction cnt as [|cnt IH]; intros t vals roots Ht Hl HP Hb Hr.
  - exists vals, roots. rewrite Nat.add_0_r. cbn. auto.
  - cbn [inv_stages]. set (s := (k - t - 1)%nat). assert (Hk : k = (s + 1 + t)%nat) by lia.
    assert (Hn : n = (2 ^ s * (2 * 2 ^ t))%nat).
    { rewrite Hk at 1. rewrite !Nat.pow_add_r. cbn [Nat.pow]. ring. }
    assert (HC : (length vals / (2 * 2 ^ t) = 2 ^ s)%nat).
    { rewrite Hl, Hn. apply Nat.div_mul. pose proof (pow_nz t). lia. }
    rewrite HC. assert (Hs2 : (2 ^ (k - t) = 2 * 2 ^ s)%nat) by (replace (k - t)%nat with (S s) by lia; reflexivity).
    pose proof (pow_nz s).
    destruct (layer_spec p is_root R2 (inv_bfly F) (fun x i j => 1 * i + 1 * j) (fun x i j => x * i + - x * j)
      inv_bfly_spec (2 ^ t) (fun c => npow w (2 * n - 1 - bitrev k (n - 2 ^ (k - t) + c))) (2 ^ s) vals roots)
      as (vals' & El & Ll & Pl & Hc).
    + lia.
    + exact HP.
    + intros c Hc. apply Hr. lia.
    + rewrite El. cbn [bind]. replace (t + S cnt)%nat with (S t + cnt)%nat by lia.
      assert (Hsub : (2 ^ (k - S t) = 2 ^ s)%nat) by (f_equal; lia).
      assert (Hle : (2 * 2 ^ s <= n)%nat).
      { rewrite <- Hs2. apply Nat.pow_le_mono_r; lia. }
      apply IH; [lia|lia|exact Pl| |].
      * intros c j Hcs Hj. rewrite Hsub in Hcs. change (2 ^ S t)%nat with (2 * 2 ^ t)%nat in *.
        destruct (Hc c Hcs) as [Hlo Hhi].
        rewrite (merge_step s t c vals vals' v 1 Hk Hcs Hl Hb).
        -- apply cong_of_eq. rewrite Nat2Z.inj_succ, Z.pow_succ_r by lia. ring.
        -- exact Hlo.
        -- intros y Hy. eapply pcong_trans; [exact Hhi|]. apply map2_cong. intros x x'.
           rewrite (inv_unique y (npow w (2 * n - 1 - bitrev k (n - 2 ^ (k - t) + c))) (Rt s c) Hy).
           ++ apply cong_of_eq. ring.
           ++ replace (k - t)%nat with (s + 1)%nat by lia. apply (inv_root_mul s t c Hk Hcs).
        -- exact Hj.
      * intros i Hi. rewrite Hsub in *. destruct (Hr (2 ^ s + i)%nat) as (r & Er & Ir); [lia|].
        exists r. rewrite nth_error_skipn. split; [exact Er|].
        replace (n - 2 ^ s + i)%nat with (n - 2 ^ (k - t) + (2 ^ s + i))%nat by lia. exact Ir.
Qed.

(** * Tables *)
Record table_ok (T : ntt_table) : Prop := {
  to_r : nt_root T = w;
  to_logn : nt_logn T = k;
  to_roots_len : length (nt_roots T) = n;
  to_roots : forall i, (i < n)%nat -> exists r, nth_error (nt_roots T) i = Some r /\ is_root r (npow w (bitrev k i));
  to_inv_len : length (nt_inv_roots T) = n;
  to_inv : forall m, (m < n - 1)%nat ->
    exists r, nth_error (nt_inv_roots T) (S m) = Some r /\ is_root r (npow w (2 * n - 1 - bitrev k m));
  to_deg : exists d, is_root (nt_inv_degree T) d /\ cong p (Z.of_nat n * d) 1;
  to_ord_len : length (nt_ord T) = (2 * n)%nat;
  to_ord : forall i, (i < 2 * n)%nat -> exists r, nth_error (nt_ord T) i = Some r /\ is_root r (npow w i);
  to_rev : nt_rev T = map (bitrev k) (seq 0 n) }.

Theorem transform_correct T vals : table_ok T -> length vals = n -> Forall R4 vals ->
  transform_slice F T vals = Some (map (fun i => ev (zt i) vals mod p) (seq 0 n)).
Proof.
  intros HT Hl HP. unfold transform_slice. rewrite (to_logn T HT).
  rewrite assert_true by (apply Nat.eqb_eq; exact Hl). cbn [bind].
  pose proof (pow_nz k). rewrite assert_true by (apply Nat.leb_le; rewrite (to_roots_len T HT); lia). cbn [bind].
  destruct (fwd_stages_correct k 0 vals (skipn 1 (nt_roots T)) eq_refl Hl HP) as (out & roots' & E & Lo & Po & Ho).
  - intros i Hi. cbn [Nat.pow] in *. destruct (to_roots T HT (1 + i)%nat ltac:(lia)) as (r & Er & Ir).
    exists r. rewrite nth_error_skipn. split; assumption.
  - rewrite E. cbn [bind]. rewrite (mapM_norm _ R4) by (exact ntt_normalize_correct || assumption).
    f_equal. unfold pmod. apply (nth_ext _ _ 0 0); [rewrite !map_length, seq_length; exact Lo|].
    intros i Hi. rewrite map_length in Hi.
    rewrite (nth_map_lt _ _ _ 0 0) by exact Hi.
    rewrite (nth_map_lt _ _ _ 0 O) by (rewrite seq_length; lia). rewrite seq_nth by lia. cbn [Nat.add].
    apply cong_iff; [pose proof B_facts; lia|].
    specialize (Ho O i ltac:(cbn; lia) ltac:(lia)). cbn [Nat.mul Nat.add] in Ho. rewrite Ho.
    rewrite <- Hl, slice_full. reflexivity.
Qed.

Lemma slice_rest gap vals : length vals = (2 * gap)%nat -> skipn gap vals = slice gap 1 vals.
Proof.
  intros H. unfold slice. rewrite Nat.mul_1_l. symmetry. apply firstn_all2. rewrite skipn_length. lia.
Qed.

Theorem inverse_correct T vals : table_ok T -> (0 < k)%nat -> length vals = n -> Forall R2 vals ->
  exists out, inverse_transform_slice F T vals = Some out /\ length out = n /\ canonical p out /\
    forall i, (i < n)%nat -> cong p (ev (zt i) out) (nth i vals 0).
Proof.
  intros HT Hk0 Hl HP. unfold inverse_transform_slice. rewrite (to_logn T HT).
  rewrite assert_true by (apply Nat.eqb_eq; exact Hl). cbn [bind].
  pose proof (pow_nz k). rewrite assert_true by (apply Nat.leb_le; rewrite (to_inv_len T HT); lia). cbn [bind].
  assert (Ek : exists t, k = S t) by (exists (k - 1)%nat; lia). destruct Ek as [t Ek].
  replace (match k with O => None | S k' => _ end) with
    (let* ' (vals, roots) := inv_stages F t 0 vals (skipn 1 (nt_inv_roots T)) in
      let gap := (2 ^ t)%nat in
      let scalar := nt_inv_degree T in
      let* r := nth_error roots 0 in
      let* sr := mul_root F (sh_value r) scalar in
      let* scaled := to_root F sr in
      let* ' (a, b) := zip_update (inv_last_bfly F scalar scaled) (firstn gap vals) (skipn gap vals) in
      mapM (intt_normalize F) (a ++ b)) by (rewrite Ek; reflexivity).
  destruct (inv_stages_correct vals t 0 vals (skipn 1 (nt_inv_roots T))) as (mid & roots & E & Lm & Pm & Bm & Rm).
  - lia.
  - exact Hl.
  - exact HP.
  - intros c j Hc Hj. cbn in Hj. replace j with O by lia. change (2 ^ 0)%nat with 1%nat.
    rewrite Nat.sub_0_r in Hc. rewrite Nat.mul_1_r, Nat.add_0_r. rewrite slice_one by lia. cbn [ev].
    apply cong_of_eq. change (2 ^ Z.of_nat 0) with 1. ring.
  - intros i Hi. rewrite Nat.sub_0_r in *. destruct (to_inv T HT i ltac:(lia)) as (r & Er & Ir).
    exists r. rewrite nth_error_skipn. rewrite Nat.sub_diag. split; assumption.
  - rewrite E. cbn [bind]. cbn [Nat.add] in *.
    assert (Hkt : (k - t = 1)%nat) by lia.
    destruct (Rm O) as (r & Er & Ir); [rewrite Hkt; cbn; lia|]. rewrite Er. cbn [bind].
    rewrite Hkt in Ir. set (y := npow w (2 * n - 1 - bitrev k (n - 2 ^ 1 + 0))) in Ir.
    destruct (to_deg T HT) as (d & Id & Cd). pose proof B_facts.
    rewrite (is_root_value r y Ir). pose proof (Z.mod_pos_bound y p ltac:(lia)).
    rewrite (mul_root_correct _ d (y mod p) Id) by lia. cbn [bind].
    destruct (to_root_is ((d * (y mod p)) mod p)) as (sd & Esd & Isd); [apply Z.mod_pos_bound; lia|].
    rewrite Esd. cbn [bind].
    assert (Isd' : is_root sd (d * y)).
    { apply is_root_cong with (1 := Isd). rewrite cong_mod by lia. rewrite (cong_mod p y) by lia. reflexivity. }
    assert (Hn2 : n = (2 * 2 ^ t)%nat) by (rewrite Ek; reflexivity).
    assert (E0 : firstn (2 ^ t) mid = slice (2 ^ t) 0 mid) by reflexivity.
    rewrite E0, (slice_rest (2 ^ t) mid) by lia.
    destruct (zip_update_spec p (fun s _ => s = sd) R2 (fun _ => inv_last_bfly F (nt_inv_degree T) sd)
      (fun _ u v => d * u + d * v) (fun _ u v => (d * y) * u + - (d * y) * v)
      ltac:(intros; apply inv_last_bfly_spec; assumption) sd 0
      (slice (2 ^ t) 0 mid) (slice (2 ^ t) 1 mid) eq_refl) as (a & b & Ez & La & Lb & Pa & Pb & Ca & Cb).
    + rewrite !slice_length by lia. reflexivity.
    + apply slice_Forall. exact Pm.
    + apply slice_Forall. exact Pm.
    + rewrite Ez. cbn [bind]. rewrite slice_length in La, Lb by lia.
      rewrite (mapM_norm _ R2); [|exact intt_normalize_correct|apply Forall_app; split; assumption].
      eexists. split; [reflexivity|].
      split; [rewrite pmod_length, app_length; lia|]. split; [apply pmod_canonical; lia|].
      intros i Hi. rewrite ev_pmod by lia.
      assert (Hk : k = (0 + 1 + t)%nat) by lia.
      pose proof (merge_step 0 t 0 mid (a ++ b) vals d Hk ltac:(cbn; lia) Lm Bm) as HM.
      cbn [Nat.mul Nat.add] in HM.
      rewrite slice_app_0 in HM by lia. rewrite slice_app_S in HM by lia.
      assert (Eb : slice (2 ^ t) 0 b = b) by (rewrite <- Lb; apply slice_full). rewrite Eb in HM.
      specialize (HM Ca). specialize (HM ltac:(
        intros y' Hy'; eapply pcong_trans; [exact Cb|]; apply map2_cong; intros x x';
        rewrite (inv_unique y' y (Rt 0 0) Hy'); [reflexivity|];
        apply (inv_root_mul 0 t 0 Hk); cbn; lia)).
      specialize (HM i ltac:(lia)).
      assert (Ef : slice (2 ^ t + (2 ^ t + 0)) 0 (a ++ b) = a ++ b).
      { replace (2 ^ t + (2 ^ t + 0))%nat with (length (a ++ b)) by (rewrite app_length; lia). apply slice_full. }
      rewrite Ef in HM. rewrite HM.
      transitivity (Z.of_nat n * d * nth i vals 0).
      * apply cong_of_eq. rewrite Hn2, Nat2Z.inj_mul, Nat2Z.inj_pow. change (Z.of_nat 2) with 2. ring.
      * rewrite Cd. apply cong_of_eq. ring.
Qed.

(** The forward transform loses nothing: its outputs determine the coefficients modulo p. *)
Lemma zt_inj a b : length a = n -> length b = n ->
  (forall i, (i < n)%nat -> cong p (ev (zt i) a) (ev (zt i) b)) -> pcong p a b.
Proof.
  intros Ha Hb H. apply (ev_inj_zeta p w k Hp Hp2 Hw); try assumption.
  intros i Hi. specialize (H (bitrev k i) (bitrev_bound k i)). unfold zt in H.
  rewrite bitrev_involutive in H by exact Hi. exact H.
Qed.
Lemma zt_pow_n i : cong p (npow (zt i) n) (-1).
Proof. apply (zeta_pow p w k Hw). Qed.

Lemma canonical_R2 a : canonical p a -> Forall R2 a.
Proof. clear - Hok. pose proof B_facts. apply Forall_impl. unfold R2. intros. lia. Qed.
Lemma R2_R4 a : Forall R2 a -> Forall R4 a.
Proof. clear - Hok. pose proof B_facts. apply Forall_impl. unfold R2, R4. intros. lia. Qed.

Definition ntt_of (a : list Z) : list Z := map (fun i => ev (zt i) a mod p) (seq 0 n).
Lemma ntt_of_length a : length (ntt_of a) = n.
Proof. unfold ntt_of. rewrite map_length, seq_length. reflexivity. Qed.
Lemma nth_ntt_of a i : (i < n)%nat -> nth i (ntt_of a) 0 = ev (zt i) a mod p.
Proof.
  intros H. unfold ntt_of. rewrite (nth_map_lt _ _ _ 0 O) by (rewrite seq_length; exact H).
  rewrite seq_nth by exact H. reflexivity.
Qed.
Lemma ntt_of_canonical a : canonical p (ntt_of a).
Proof.
  clear Hp2 Hw.
  pose proof B_facts. unfold ntt_of, canonical. apply Forall_forall. intros x Hx.
  apply in_map_iff in Hx. destruct Hx as (i & <- & _). apply Z.mod_pos_bound. lia.
Qed.

Theorem inverse_of_transform T a v : table_ok T -> (0 < k)%nat -> length a = n -> length v = n ->
  Forall R2 v -> (forall i, (i < n)%nat -> cong p (nth i v 0) (ev (zt i) a)) ->
  inverse_transform_slice F T v = Some (pmod p a).
Proof.
  intros HT Hk Ha Hv HP H. destruct (inverse_correct T v HT Hk Hv HP) as (out & E & Lo & Co & Ho).
  rewrite E. f_equal. apply pcong_canon; [pose proof B_facts; lia|assumption|].
  apply zt_inj; [assumption..|]. intros i Hi. rewrite (Ho i Hi). apply H. exact Hi.
Qed.

End Root.
End NTT.
