(** The randomised tests of polynomials. *)
From Coq Require Import ZArith Znumtheory List Bool Arith Lia.
From Verif Require Import Spec.Basic Spec.Poly Model.Base Model.Field Model.NTT Model.Concrete Model.Poly Model.UnitTests Model.RingTests.
From Verif Require Import Proofs.Arith Proofs.NumTheory Proofs.PolyMath Proofs.FieldProofs Proofs.NTTProofs Proofs.NTTTableProofs
  Proofs.ConcreteProofs Proofs.PolyProofs Proofs.MonomialProofs Proofs.RingProofs Proofs.UnitTestProofs.
Import ListNotations.
Local Open Scope Z_scope.

Lemma assert_poly_refl x : assert_poly x x = Some tt.
Proof. unfold assert_poly. destruct (list_eq_dec Z.eq_dec x x); [reflexivity|congruence]. Qed.
Lemma assert_poly_eq x y : x = y -> assert_poly x y = Some tt.
Proof. intros ->. apply assert_poly_refl. Qed.
Lemma assert_poly_iff x y : assert_poly x y = Some tt <-> x = y.
Proof. unfold assert_poly. destruct (list_eq_dec Z.eq_dec x y); split; cbn [assert]; intros; try congruence; try reflexivity; discriminate. Qed.

Lemma zsum_seq f m : forall s, fold_right (fun j acc => f j + acc) 0 (seq s m) = zsum (fun i => f (s + i)%nat) m.
Proof.
  induction m as [|m IH]; intros s; [reflexivity|]. cbn [seq fold_right]. rewrite IH, zsum_shift, Nat.add_0_r. f_equal.
  apply zsum_ext. intros i _. f_equal. lia.
Qed.
Lemma map_nth_seq (f : nat -> Z) m i : (i < m)%nat -> nth i (map f (seq 0 m)) 0 = f i.
Proof.
  intros Hi. rewrite (nth_indep _ 0 (f O)) by (rewrite map_length, seq_length; exact Hi). rewrite map_nth, seq_nth by exact Hi. reflexivity.
Qed.
Lemma upd_monomial n c d : (d < n)%nat -> upd (repeat 0 n) d c = Some (monomial n c d).
Proof.
  intros Hd. destruct (upd_spec (repeat 0 n) d c) as (l & E & L & Hx & Hj); [rewrite repeat_length; exact Hd|]. rewrite E. f_equal.
  rewrite repeat_length in L. apply (nth_ext _ _ 0 0); [rewrite L; unfold monomial; rewrite map_length, seq_length; reflexivity|].
  intros i Hi. rewrite L in Hi. unfold monomial. rewrite (map_nth_seq _ n i Hi). rewrite Nat.mod_small, Nat.div_small by exact Hd. cbn [Nat.even].
  destruct (Nat.eqb_spec i d) as [->|Hn]; [apply nth_error_nth; exact Hx|].
  apply nth_error_nth. rewrite Hj by exact Hn. rewrite (nth_error_nth' _ 0) by (rewrite repeat_length; exact Hi).
  rewrite nth_repeat. reflexivity.
Qed.
Lemma index_ok (l : list Z) i : (i < length l)%nat -> index l i = Some (nth i l 0).
Proof. intros H. apply nth_error_nth'. exact H. Qed.

Lemma pcong_padd q a a' b b' : pcong q a a' -> pcong q b b' -> pcong q (padd a b) (padd a' b').
Proof.
  intros H. revert b b'. induction H as [|x x' a a' Hx _ IH]; intros b b' Hb; [constructor|].
  destruct Hb as [|y y' b b' Hy Hb]; [constructor|]. cbn [padd]. constructor; [apply cong_add; assumption|apply IH; exact Hb].
Qed.

Section Field.
Variable F : field.
Hypothesis Hok : fok F.
Local Notation p := (fp F).

Lemma canon_nth a i : canonical p a -> 0 <= nth i a 0 < p.
Proof.
  intros H. destruct (Nat.lt_ge_cases i (length a)) as [Hi|Hi].
  - unfold canonical in H. rewrite Forall_forall in H. apply H, nth_In, Hi.
  - rewrite nth_overflow by exact Hi. pose proof (fp_range F Hok). lia.
Qed.
Lemma mul_add_at_ok a b t js : canonical p a -> canonical p b -> Forall (fun j => j < length a /\ t - j < length b)%nat js ->
  forall acc, 0 <= acc < p -> mul_add_at F a b t js acc = Some ((acc + fold_right (fun j s => nth j a 0 * nth (t - j) b 0 + s) 0 js) mod p).
Proof.
  intros Ha Hb H. pose proof (fp_range F Hok) as R. unfold mul_add_at. induction H as [|j js (J1 & J2) _ IH]; intros acc Hacc; cbn [foldM fold_right].
  - rewrite Z.add_0_r, Z.mod_small by exact Hacc. reflexivity.
  - rewrite !index_ok by assumption. cbn [bind]. pose proof (canon_nth a j Ha). pose proof (canon_nth b (t - j) Hb).
    rewrite f_mul_correct by (assumption || lia). cbn [bind]. pose proof (Z.mod_pos_bound (nth j a 0 * nth (t - j) b 0) p ltac:(lia)).
    rewrite f_add_correct by (assumption || lia). cbn [bind]. rewrite IH by (apply Z.mod_pos_bound; lia).
    f_equal. rewrite Z.add_mod_idemp_r, Z.add_mod_idemp_l by lia. f_equal. ring.
Qed.
Lemma mul_sub_at_ok a b t js : canonical p a -> canonical p b -> Forall (fun j => j < length a /\ t - j < length b)%nat js ->
  forall acc, 0 <= acc < p -> mul_sub_at F a b t js acc = Some ((acc - fold_right (fun j s => nth j a 0 * nth (t - j) b 0 + s) 0 js) mod p).
Proof.
  intros Ha Hb H. pose proof (fp_range F Hok) as R. unfold mul_sub_at. induction H as [|j js (J1 & J2) _ IH]; intros acc Hacc; cbn [foldM fold_right].
  - rewrite Z.sub_0_r, Z.mod_small by exact Hacc. reflexivity.
  - rewrite !index_ok by assumption. cbn [bind]. pose proof (canon_nth a j Ha). pose proof (canon_nth b (t - j) Hb).
    rewrite f_mul_correct by (assumption || lia). cbn [bind]. pose proof (Z.mod_pos_bound (nth j a 0 * nth (t - j) b 0) p ltac:(lia)).
    rewrite f_sub_assign_correct by (assumption || lia). cbn [bind]. rewrite IH by (apply Z.mod_pos_bound; lia).
    f_equal. rewrite Zminus_mod_idemp_r, Zminus_mod_idemp_l. f_equal. ring.
Qed.
Lemma simple_mul_ok a b : length a = length b -> canonical p a -> canonical p b ->
  simple_mul F a b = Some (pmod p (negacyclic (length a) a b)).
Proof.
  intros L Ha Hb. pose proof (fp_range F Hok) as R. unfold simple_mul. rewrite same_len_ok by exact L. cbn [bind]. cbv zeta.
  unfold pmod, negacyclic. rewrite map_map. apply mapM_some. intros i Hi. apply in_seq in Hi.
  rewrite mul_add_at_ok; [|assumption..|apply Forall_forall; intros j Hj; apply in_seq in Hj; lia|lia]. cbn [bind].
  set (s1 := fold_right _ 0 (seq 0 (S i))). assert (M := Z.mod_pos_bound (0 + s1) p ltac:(lia)).
  transitivity (mul_sub_at F a b (length a + i) (seq (i + 1) (length a - (i + 1))) ((0 + s1) mod p)).
  { destruct (Nat.ltb_spec (S i) (length a)); [reflexivity|]. replace (length a - (i + 1))%nat with O by lia. reflexivity. }
  rewrite mul_sub_at_ok; [|assumption..|apply Forall_forall; intros j Hj; apply in_seq in Hj; lia|exact M].
  f_equal. rewrite Zminus_mod_idemp_l. f_equal. unfold s1. rewrite (zsum_seq (fun j => nth j a 0 * nth (i - j) b 0)), (zsum_seq (fun j => nth j a 0 * nth (length a + i - j) b 0)).
  unfold negacyclic_coeff. match goal with |- _ = zsum ?f _ => transitivity (zsum f (S i + (length a - (i + 1)))); [rewrite (zsum_split f)|f_equal; lia] end.
  rewrite Z.add_0_l. unfold Z.sub. f_equal.
  - apply zsum_ext. intros j Hj. rewrite (proj2 (Nat.leb_le _ _)) by lia. reflexivity.
  - rewrite Z.opp_eq_mul_m1, Z.mul_comm, <- zsum_mul. apply zsum_ext. intros j Hj. rewrite (proj2 (Nat.leb_gt _ _)) by lia.
    replace (S i + j)%nat with (i + 1 + j)%nat by lia. ring.
Qed.

Lemma base_pow_ok bits i : fw F <= 64 -> 0 <= bits -> bits * Z.of_nat i < fw F ->
  base_pow F (2 ^ bits) i = Some ((2 ^ bits) ^ Z.of_nat i mod p).
Proof.
  intros H64 Hb Hi. unfold base_pow, upow. rewrite <- Z.pow_mul_r by lia.
  assert (H1 : 0 <= 2 ^ (bits * Z.of_nat i) < 2 ^ fw F) by (split; [apply Z.pow_nonneg; lia|apply Z.pow_lt_mono_r; nia]).
  assert (2 ^ fw F <= 2 ^ 64) by (apply Z.pow_le_mono_r; lia).
  rewrite (proj2 (Z.ltb_lt _ _)) by lia. cbn [bind]. unfold ucast. rewrite Z.mod_small by exact H1.
  apply f_new_correct; assumption.
Qed.
Lemma basis_room bits b i : basis_new F bits = Some b -> 0 <= bits -> (i < bs_len b)%nat -> bits * Z.of_nat i < fw F.
Proof.
  intros Eb H0 Hi. destruct (basis_bits F bits b Hok Eb H0) as (Hb & _ & _ & _ & Hbf).
  destruct (basis_new_correct F Hok bits Hb) as (b' & E' & _ & _ & _ & E4). rewrite Eb in E'. injection E' as <-.
  pose proof (eff_bits_pos F Hok). pose proof (Z.mul_div_le (eff_bits F + bits - 1) bits ltac:(lia)). nia.
Qed.

(** What the folds of the two decomposition tests add up to. *)
Fixpoint comp (n : nat) (b : Z) (g : nat -> list Z -> list Z) (i : nat) (acc : list Z) (ds : list (list Z)) : list Z :=
  match ds with [] => acc | d :: ds' => comp n b g (S i) (padd acc (g i d)) ds' end.

Lemma rt_eval_ok a : (0 < length a)%nat -> 2 <= p -> canonical p a -> rt_eval F a = Some tt.
Proof.
  intros L0 H2 Ha. pose proof (fp_range F Hok) as R. unfold rt_eval, f_neg_one.
  rewrite (p_evaluate_correct F Hok a (p - 1) Ha ltac:(lia)). cbn [bind].
  match goal with |- context [foldM ?f 0 (combine _ _)] => set (f1 := f) end.
  assert (E1 : forall l i acc, canonical p l -> 0 <= acc < p ->
    foldM f1 acc (combine (seq i (length l)) l) = Some ((acc + (-1) ^ Z.of_nat i * ev (-1) l) mod p)).
  { induction l as [|x l IH]; intros i acc Hl Hacc; cbn [length seq combine foldM ev].
    - rewrite Z.mul_0_r, Z.add_0_r, Z.mod_small by exact Hacc. reflexivity.
    - inversion_clear Hl as [|? ? Hx Hl']. unfold f1 at 1. cbn [fst snd].
      replace (Z.land (Z.of_nat i) 1) with (Z.of_nat i mod 2) by (rewrite <- (Z.land_ones _ 1) by lia; reflexivity).
      assert (PS : (-1) ^ Z.of_nat (S i) = - (-1) ^ Z.of_nat i) by (rewrite Nat2Z.inj_succ, Z.pow_succ_r by lia; ring).
      assert (PE : (-1) ^ Z.of_nat i = if Z.of_nat i mod 2 =? 0 then 1 else -1).
      { rewrite (Z.div_mod (Z.of_nat i) 2) at 1 by lia. pose proof (Z.mod_pos_bound (Z.of_nat i) 2 ltac:(lia)).
        rewrite Z.pow_add_r, Z.pow_mul_r by (try apply Z.mul_nonneg_nonneg; try apply Z.div_pos; lia).
        replace ((-1) ^ 2) with 1 by reflexivity. rewrite Z.pow_1_l by (apply Z.div_pos; lia).
        destruct (Z.eqb_spec (Z.of_nat i mod 2) 0) as [->|]; [reflexivity|]. replace (Z.of_nat i mod 2) with 1 by lia. reflexivity. }
      destruct (Z.of_nat i mod 2 =? 0).
      + rewrite f_add_correct by assumption. cbn [bind]. rewrite IH by (assumption || apply Z.mod_pos_bound; lia).
        f_equal. rewrite Z.add_mod_idemp_l by lia. rewrite PS, PE. f_equal. ring.
      + rewrite f_sub_correct by assumption. cbn [bind]. rewrite IH by (assumption || apply Z.mod_pos_bound; lia).
        f_equal. rewrite Z.add_mod_idemp_l by lia. rewrite PS, PE. f_equal. ring. }
  rewrite (E1 a O 0 Ha ltac:(lia)). cbn [bind]. change (Z.of_nat 0) with 0. rewrite Z.pow_0_r, Z.mul_1_l, Z.add_0_l.
  replace (ev (p - 1) a mod p) with (ev (-1) a mod p).
  2:{ apply cong_iff; [lia|]. apply ev_cong; [|apply pcong_refl]. exists (-1). ring. }
  rewrite assert_eq_refl. cbn [bind].
  rewrite (p_evaluate_correct F Hok a 0 Ha ltac:(lia)). cbn [bind]. rewrite index_ok by exact L0. cbn [bind].
  replace (ev 0 a mod p) with (nth 0 a 0).
  2:{ destruct a as [|x a]; [cbn in L0; lia|]. cbn [nth ev]. inversion_clear Ha. rewrite Z.mul_0_l, Z.add_0_r, Z.mod_small by assumption. reflexivity. }
  rewrite assert_eq_refl. cbn [bind].
  rewrite (p_evaluate_correct F Hok a 1 Ha ltac:(lia)). cbn [bind].
  assert (E2 : forall l acc, canonical p l -> 0 <= acc < p -> foldM (f_add F) acc l = Some ((acc + ev 1 l) mod p)).
  { induction l as [|x l IH]; intros acc Hl Hacc; cbn [foldM ev].
    - rewrite Z.add_0_r, Z.mod_small by exact Hacc. reflexivity.
    - inversion_clear Hl. rewrite f_add_correct by assumption. cbn [bind]. rewrite IH by (assumption || apply Z.mod_pos_bound; lia).
      f_equal. rewrite Z.add_mod_idemp_l by lia. f_equal. ring. }
  rewrite (E2 a 0 Ha ltac:(lia)). cbn [bind]. rewrite Z.add_0_l. apply assert_eq_refl.
Qed.

Lemma fold_comp (g : nat -> list Z -> list Z) (f : list Z -> nat * list Z -> option (list Z)) n b ds :
  (forall i d acc, length acc = n -> canonical p acc -> In (i, d) (combine (seq 0 (length ds)) ds) ->
     length (g i d) = n /\ f acc (i, d) = Some (pmod p (padd acc (g i d)))) ->
  foldM f (repeat 0 n) (combine (seq 0 (length ds)) ds) = Some (pmod p (comp n b g 0 (repeat 0 n) ds)).
Proof.
  intros H. pose proof (fp_range F Hok) as R.
  assert (G : forall l i acc, length acc = n -> (forall x, In x (combine (seq i (length l)) l) -> In x (combine (seq 0 (length ds)) ds)) ->
    foldM f (pmod p acc) (combine (seq i (length l)) l) = Some (pmod p (comp n b g i acc l))).
  { induction l as [|d l IH]; intros i acc La Hin; cbn [length seq combine foldM comp]; [reflexivity|].
    destruct (H i d (pmod p acc)) as (Lg & E); [rewrite pmod_length; exact La|apply pmod_canonical; lia|apply Hin; left; reflexivity|].
    rewrite E. cbn [bind].
    replace (pmod p (padd (pmod p acc) (g i d))) with (pmod p (padd acc (g i d))).
    2:{ apply mod_pcong_eq; [lia|]. apply pcong_padd; [|apply pcong_refl]. apply pcong_sym, pcong_pmod. lia. }
    apply IH; [rewrite padd_length; congruence|]. intros x Hx. apply Hin. right. exact Hx. }
  rewrite <- (G ds O (repeat 0 n)); [|apply repeat_length|auto]. f_equal.
  symmetry. apply pmod_small. unfold canonical. apply Forall_forall. intros x Hx. apply repeat_spec in Hx. lia.
Qed.

Lemma digits_facts bits b a : basis_new F bits = Some b -> 0 <= bits -> canonical p a ->
  exists ds, poly_decompose F b a = Some ds /\ length ds = bs_len b /\ Forall (fun d => length d = length a) ds /\ Forall (fun d => canonical p d) ds /\
    forall i, (i < length a)%nat -> digits_value (2 ^ bits) (map (fun d => nth i d 0) ds) = nth i a 0.
Proof.
  intros Eb H0 Ha. pose proof (fp_range F Hok) as R.
  destruct (poly_decompose_full F bits b a Hok Eb ltac:(lia) Ha) as (ds & Ed & Ld & Lds & Hds).
  assert (Dv : forall i, (i < length a)%nat -> digits_value (2 ^ bits) (map (fun d => nth i d 0) ds) = nth i a 0).
  { intros i Hi. destruct (decompose_full F bits b (nth i a 0) Hok Eb ltac:(lia) (canon_nth a i Ha)) as (d & E & _ & _ & V & _).
    rewrite Hds in E by exact Hi. injection E as <-. exact V. }
  exists ds. repeat (split; [assumption|]). split; [|exact Dv].
  apply Forall_forall. intros d Hd. unfold canonical. apply Forall_forall. intros x Hx. apply (In_nth _ _ 0) in Hx as (i & Hi & <-).
  rewrite Forall_forall in Lds. rewrite (Lds d Hd) in Hi. specialize (Dv i Hi). pose proof (canon_nth a i Ha) as An.
  destruct (decompose_full F bits b (nth i a 0) Hok Eb ltac:(lia) (canon_nth a i Ha)) as (dd & E & _ & Rd & V & _).
  rewrite Hds in E by exact Hi. injection E as <-. assert (H : In (nth i d 0) (map (fun d => nth i d 0) ds)) by (apply in_map_iff; eauto).
  clear Dv Hds. revert H Rd V. generalize (map (fun d => nth i d 0) ds). intros l Hin Rd V.
  assert (Q : 0 < 2 ^ bits) by (apply Z.pow_pos_nonneg; lia).
  assert (N : forall l', Forall (fun x => 0 <= x < 2 ^ bits) l' -> 0 <= digits_value (2 ^ bits) l' /\ (forall y, In y l' -> 0 <= y <= digits_value (2 ^ bits) l')).
  { induction 1 as [|z l' Hz _ IHl]; cbn [digits_value]; [split; [lia|intros y []]|]. destruct IHl as (I1 & I2).
    assert (0 <= 2 ^ bits * digits_value (2 ^ bits) l') by (apply Z.mul_nonneg_nonneg; lia). split; [lia|].
    intros y [<-|Hy]; [lia|]. specialize (I2 y Hy). nia. }
  destruct (N l Rd) as (_ & N2). specialize (N2 _ Hin). lia.
Qed.
Lemma rt_decompose_ok bits a : fw F <= 64 -> 1 <= bits <= bit_len p -> canonical p a -> rt_decompose F bits a = Some tt.
Proof.
  intros H64 Hb Ha. pose proof (fp_range F Hok) as R. unfold rt_decompose.
  destruct (proj2 (basis_new_iff F bits Hok ltac:(lia)) Hb) as (b & Eb). rewrite Eb. cbn [bind].
  destruct (digits_facts bits b a Eb ltac:(lia) Ha) as (ds & Ed & Ld & Lds & Cd & Dv). rewrite Ed. cbn [bind].
  rewrite (fold_comp (fun i d => pscale ((2 ^ bits) ^ Z.of_nat i) d) _ (length a) (2 ^ bits)).
  2:{ intros i d acc La Ca Hin. apply in_combine_l in Hin as Hi. apply in_combine_r in Hin as Hd. apply in_seq in Hi.
      rewrite Forall_forall in Lds, Cd. specialize (Lds d Hd). specialize (Cd d Hd). split; [rewrite pscale_length; exact Lds|].
      cbn [fst snd]. rewrite base_pow_ok by (try (eapply basis_room; [exact Eb|lia|lia]); lia). cbn [bind].
      rewrite p_mul_scalar_correct by (assumption || apply Z.mod_pos_bound; lia). cbn [bind].
      rewrite p_add_assign_correct by (rewrite ?pmod_length, ?pscale_length; try assumption; try congruence; apply pmod_canonical; lia).
      f_equal. apply mod_pcong_eq; [lia|]. apply pcong_padd; [apply pcong_refl|].
      eapply pcong_trans; [apply pcong_pmod; lia|]. apply pcong_nth; [rewrite !pscale_length; reflexivity|]. intros j Hj.
      rewrite !nth_pscale. apply cong_mul; [apply cong_mod; lia|reflexivity]. }
  cbn [bind]. apply assert_poly_eq. transitivity (pmod p a); [f_equal|apply pmod_small; exact Ha].
  assert (G : forall l i acc, length acc = length a -> Forall (fun d => length d = length a) l ->
    length (comp (length a) (2 ^ bits) (fun i d => pscale ((2 ^ bits) ^ Z.of_nat i) d) i acc l) = length a /\
    forall j, nth j (comp (length a) (2 ^ bits) (fun i d => pscale ((2 ^ bits) ^ Z.of_nat i) d) i acc l) 0
       = nth j acc 0 + (2 ^ bits) ^ Z.of_nat i * digits_value (2 ^ bits) (map (fun d => nth j d 0) l)).
  { induction l as [|d l IH]; intros i acc La Hl; cbn [comp map digits_value].
    - split; [exact La|]. intros j. ring.
    - inversion_clear Hl as [|? ? Hd Hl']. destruct (IH (S i) (padd acc (pscale ((2 ^ bits) ^ Z.of_nat i) d))) as (I1 & I2);
        [rewrite padd_length; rewrite ?pscale_length; congruence|exact Hl'|]. split; [exact I1|]. intros j. rewrite I2, nth_padd by (rewrite pscale_length; congruence).
      rewrite nth_pscale, Nat2Z.inj_succ, Z.pow_succ_r by lia. ring. }
  destruct (G ds O (repeat 0 (length a)) (repeat_length _ _) Lds) as (G1 & G2).
  apply (nth_ext _ _ 0 0); [exact G1|]. intros j Hj. rewrite G1 in Hj. rewrite G2, nth_repeat, Dv by exact Hj. change (Z.of_nat 0) with 0. ring.
Qed.

Hypothesis Hp : prime p.
Variables (tbl : tables) (k : nat) (w : Z).
Hypothesis C : ctx F tbl k w.
Local Notation n := (2 ^ k)%nat.
Local Notation ntt := (ntt_of F w k).

Lemma rt_transform_ok a : (0 < k)%nat -> length a = n -> canonical p a -> rt_transform F tbl a = Some tt.
Proof.
  intros Hk La Ha. unfold rt_transform. rewrite (into_ntt_canon F Hok tbl k w C a La Ha). cbn [bind].
  rewrite (into_native_ntt F Hok Hp tbl k w C a Hk La). cbn [bind]. rewrite (pmod_small p a Ha).
  rewrite (into_ntt_canon F Hok tbl k w C a La Ha). cbn [bind]. rewrite assert_poly_refl. apply assert_poly_refl.
Qed.
Lemma rt_poly_mul_ok a b : (0 < k)%nat -> length a = n -> length b = n -> canonical p a -> canonical p b -> rt_poly_mul F tbl a b = Some tt.
Proof.
  intros Hk La Lb Ha Hb. pose proof (fp_range F Hok) as R. unfold rt_poly_mul. rewrite simple_mul_ok by congruence. cbn [bind].
  rewrite (p_mul_assign_correct F Hok Hp tbl k w C a b Hk La Lb Ha Hb). cbn [bind]. rewrite La, assert_poly_refl. cbn [bind].
  rewrite (into_ntt_canon F Hok tbl k w C b Lb Hb). cbn [bind].
  rewrite (p_mul_assign_ntt_correct F Hok Hp tbl k w C a b Hk La Lb Ha). cbn [bind]. rewrite assert_poly_refl. cbn [bind].
  rewrite (into_ntt_canon F Hok tbl k w C) by (rewrite ?pmod_length, ?negacyclic_length; try reflexivity; apply pmod_canonical; lia). cbn [bind].
  rewrite (n_mul_assign_poly_correct F Hok tbl k w C) by (assumption || apply (ntt_len F) || apply (ntt_canon F Hok)). cbn [bind].
  apply assert_poly_eq. apply (pcong_eq p); [apply pmod_canonical; lia|apply (ntt_canon F Hok)|].
  eapply pcong_trans; [apply pcong_pmod; lia|]. eapply pcong_trans; [apply (ntt_mul F Hok tbl k w C); assumption|].
  rewrite (ntt_pmod F Hok). rewrite (ntt_proper F Hok k w (negacyclic n b a) (negacyclic n a b)); [apply pcong_refl|].
  apply (EQ_pcong p w k Hp); [apply C|apply C|apply negacyclic_length..|]. intros z Hz. rewrite !(evn p k z) by assumption. rewrite Z.mul_comm. reflexivity.
Qed.
Lemma rt_decompose_mul_ok bits a c : (0 < k)%nat -> fw F <= 64 -> 1 <= bits <= bit_len p -> length a = n -> length c = n ->
  canonical p a -> canonical p c -> rt_decompose_mul F tbl bits a c = Some tt.
Proof.
  intros Hk H64 Hb La Lc Ha Hc. pose proof (fp_range F Hok) as R. unfold rt_decompose_mul.
  rewrite (p_mul_assign_correct F Hok Hp tbl k w C a c Hk La Lc Ha Hc). cbn [bind].
  destruct (proj2 (basis_new_iff F bits Hok ltac:(lia)) Hb) as (b & Eb). rewrite Eb. cbn [bind].
  destruct (digits_facts bits b a Eb ltac:(lia) Ha) as (ds & Ed & Ld & Lds & Cd & Dv). rewrite Ed. cbn [bind]. rewrite La in Lds, Dv |- *.
  set (g := fun i d => negacyclic n d (pscale ((2 ^ bits) ^ Z.of_nat i) c)).
  rewrite (fold_comp g _ n (2 ^ bits)).
  2:{ intros i d acc Lacc Ca Hin. apply in_combine_l in Hin as Hi. apply in_combine_r in Hin as Hd. apply in_seq in Hi.
      rewrite Forall_forall in Lds, Cd. specialize (Lds d Hd). specialize (Cd d Hd). split; [apply negacyclic_length|].
      cbn [fst snd]. rewrite base_pow_ok by (try (eapply basis_room; [exact Eb|lia|lia]); lia). cbn [bind].
      rewrite p_mul_scalar_correct by (assumption || apply Z.mod_pos_bound; lia). cbn [bind].
      rewrite (p_mul_assign_correct F Hok Hp tbl k w C) by (rewrite ?pmod_length, ?pscale_length; try assumption; apply pmod_canonical; lia). cbn [bind].
      rewrite p_add_assign_correct by (rewrite ?pmod_length, ?negacyclic_length; try assumption; try congruence; apply pmod_canonical; lia).
      f_equal. apply mod_pcong_eq; [lia|]. apply pcong_padd; [apply pcong_refl|].
      eapply pcong_trans; [apply pcong_pmod; lia|]. unfold g.
      assert (PC : pcong p (pmod p (pscale ((2 ^ bits) ^ Z.of_nat i mod p) c)) (pscale ((2 ^ bits) ^ Z.of_nat i) c)).
      { eapply pcong_trans; [apply pcong_pmod; lia|]. apply pcong_nth; [rewrite !pscale_length; reflexivity|]. intros j Hj.
        rewrite !nth_pscale. apply cong_mul; [apply cong_mod; lia|reflexivity]. }
      apply (EQ_pcong p w k Hp); [apply C|apply C|apply negacyclic_length..|]. intros z Hz.
      rewrite !(evn p k z) by (rewrite ?pmod_length, ?pscale_length; assumption). apply cong_mul; [reflexivity|]. apply ev_cong; [reflexivity|exact PC]. }
  cbn [bind]. apply assert_poly_eq. apply mod_pcong_eq; [lia|].
  assert (G : forall z, root p k z -> forall l i acc, length acc = n -> Forall (fun d => length d = n) l ->
    length (comp n (2 ^ bits) g i acc l) = n /\
    cong p (ev z (comp n (2 ^ bits) g i acc l)) (ev z acc + (2 ^ bits) ^ Z.of_nat i * ev z c * digits_value (2 ^ bits) (map (ev z) l))).
  { intros z Hz. induction l as [|d l IH]; intros i acc Lacc Hl; cbn [comp map digits_value].
    - split; [exact Lacc|]. apply cong_of_eq. ring.
    - inversion_clear Hl as [|? ? Hd Hl']. destruct (IH (S i) (padd acc (g i d))) as (I1 & I2);
        [unfold g; rewrite padd_length; rewrite ?negacyclic_length; congruence|exact Hl'|]. split; [exact I1|]. eapply cong_trans; [exact I2|].
      rewrite ev_add by (unfold g; rewrite negacyclic_length; exact Lacc). unfold g.
      rewrite (evn p k z) by (rewrite ?pscale_length; assumption). rewrite ev_scale. apply cong_of_eq.
      rewrite Nat2Z.inj_succ, Z.pow_succ_r by lia. ring. }
  apply (EQ_pcong p w k Hp); [apply C|apply C| |apply negacyclic_length|].
  { assert (Q : forall l i acc, length acc = n -> length (comp n (2 ^ bits) g i acc l) = n); [|apply Q, repeat_length].
    induction l as [|d l IH]; intros i acc Lacc; cbn [comp]; [exact Lacc|]. apply IH. unfold g. rewrite padd_length; rewrite ?negacyclic_length; congruence. }
  intros z Hz. destruct (G z Hz ds O (repeat 0 n) (repeat_length _ _) Lds) as (_ & G2). eapply cong_trans; [exact G2|].
  rewrite (evn p k z) by assumption. rewrite <- (digits_ev z (2 ^ bits) n a ds La Lds Dv), ev_zeros. change (Z.of_nat 0) with 0. apply cong_of_eq. ring.
Qed.
Lemma rt_transform_monomial_ok T d c : (k <= 31)%nat -> tab_ok F w k T -> (d < n)%nat -> 0 <= c < p -> rt_transform_monomial F T n d c = Some tt.
Proof.
  intros Hk HT Hd Hc. pose proof (fp_range F Hok) as R. destruct C as (H2 & _ & Cw & _).
  assert (G : forall c, 0 <= c < p -> (let* a := upd (repeat 0 n) d c in let* a := t_transform_slice F T a in let* b := t_transform_monomial F T c (Z.of_nat d) n in assert_poly a b) = Some tt).
  { clear c Hc. intros c Hc. rewrite upd_monomial by exact Hd. cbn [bind].
    rewrite (t_transform_correct F Hok w k H2 Cw T HT) by
      (try (unfold monomial; rewrite map_length, seq_length; reflexivity); unfold canonical, monomial; apply Forall_forall; intros x Hx; apply in_map_iff in Hx as (i & <- & _);
       rewrite Nat.div_small by exact Hd; cbn [Nat.even]; destruct (Nat.eqb _ _); lia). cbn [bind].
    rewrite (t_mono_correct F Hok w k T H2 Hk Cw HT c (Z.of_nat d) Hc ltac:(lia)). cbn [bind].
    rewrite Nat2Z.id. apply assert_poly_eq. symmetry. apply (mono_ntt_transform F w k H2 ltac:(lia) Cw). }
  unfold rt_transform_monomial. pose proof (G c Hc) as G1. pose proof (G (f_neg_one F) ltac:(unfold f_neg_one; lia)) as G2.
  apply bind_some in G1 as (a & Ea & G1). apply bind_some in G1 as (v & Ev & G1). apply bind_some in G1 as (b & Eb & G1).
  rewrite Ea. cbn [bind]. rewrite Ev. cbn [bind]. rewrite Eb. cbn [bind]. rewrite G1. cbn [bind]. exact G2.
Qed.
Lemma mono_flip d : mono_ntt F w k 1 (d + n) = mono_ntt F w k (p - 1) d /\ mono_ntt F w k (p - 1) (d + n) = mono_ntt F w k 1 d.
Proof.
  pose proof (fp_range F Hok) as R. destruct C as (H2 & _ & Cw & _).
  assert (N1 : cong p (p - 1) (-1)) by (exists 1; ring).
  split; unfold mono_ntt; apply map_ext_in; intros i Hi; apply in_seq in Hi; apply cong_iff; try lia; rewrite npow_add, (zt_pow_n F w k Cw), N1 by lia; apply cong_of_eq; ring.
Qed.
Lemma rt_monomial_property_ok T d1 d2 : (k <= 31)%nat -> tab_ok F w k T -> (d1 < n)%nat -> (n <= d2 < 2 * n)%nat ->
  (exists T', T = OwnTable T') \/ d2 <> n -> rt_monomial_property F T n d1 d2 = Some tt.
Proof.
  intros Hk HT H1 H2 Ho. pose proof (fp_range F Hok) as R. pose proof C as C0. destruct C0 as (G2 & _ & Cw & _).
  assert (M : forall c d, 0 <= c < p -> (d < 2 * n)%nat -> t_transform_monomial F T c (Z.of_nat d) n = Some (mono_ntt F w k c d)).
  { intros c d Hc Hd. rewrite (t_mono_correct F Hok w k T G2 Hk Cw HT c (Z.of_nat d) Hc ltac:(lia)), Nat2Z.id. reflexivity. }
  assert (ML : t_transform_monomial F T 1 (Z.of_nat (n * 2 - (d2 - n))) n = Some (mono_ntt F w k 1 (n * 2 - d2 + n))).
  { replace (n * 2 - (d2 - n))%nat with (n * 2 - d2 + n)%nat by lia. destruct Ho as [(T' & ->)|Hn]; [|apply M; lia].
    cbn [t_transform_monomial tab_ok] in *.
    rewrite (transform_monomial_correct F Hok w k T' G2 ltac:(lia) Cw HT) by
      (try lia; assert (Hn : Z.of_nat n <= 2 ^ 31) by (rewrite pow2_nat; apply Z.pow_le_mono_r; lia);
       change (2 ^ 31) with 2147483648 in Hn; change (2 ^ 64) with (4294967296 * 4294967296); nia).
    rewrite Nat2Z.id. reflexivity. }
  destruct (mono_flip d1) as (E1 & E2). destruct (mono_flip (n * 2 - d2)) as (E3 & _).
  unfold rt_monomial_property, f_neg_one.
  rewrite (M 1 d1), (M (p - 1) (d1 + n)%nat), (M (p - 1) d1), (M 1 (d1 + n)%nat), (M (p - 1) (n * 2 - d2)%nat), ML by lia. cbn [bind].
  rewrite E1, E2, E3, !assert_poly_refl. reflexivity.
Qed.
End Field.

(** ** The assertions *)
Lemma assertions_compare : (forall x y, assert_poly x y = Some tt <-> x = y) /\
  (forall a b a' b', assert_rlwe (Rlwe.mk_rlwe a b) (Rlwe.mk_rlwe a' b') = Some tt <-> a = a' /\ b = b') /\
  (forall a b a' b', assert_lwe (Lwe.mk_lwe a b) (Lwe.mk_lwe a' b') = Some tt <-> a = a' /\ b = b').
Proof.
  assert (S : forall x y (k : option unit), (let* _ := assert_poly x y in k) = Some tt <-> x = y /\ k = Some tt).
  { intros x y k. unfold assert_poly. destruct (list_eq_dec Z.eq_dec x y) as [E|E]; cbn; split; [tauto|tauto|discriminate|tauto]. }
  split; [exact assert_poly_iff|]. split; intros a b a' b'.
  - unfold assert_rlwe. cbn [Rlwe.ra Rlwe.rb]. rewrite S, assert_poly_iff. tauto.
  - unfold assert_lwe. cbn [Lwe.la Lwe.lb]. rewrite S. unfold assert_eq.
    destruct (Z.eqb_spec b b'); cbn; split; intros [? ?]; split; congruence.
Qed.
