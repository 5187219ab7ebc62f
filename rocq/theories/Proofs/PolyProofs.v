(** Correctness of polynomial operations. *)
From Coq Require Import ZArith List Arith Bool Lia Znumtheory Setoid Morphisms.
From Verif Require Import Model.Base Model.Shoup Model.Barrett Model.Field Model.NTT Model.Concrete Model.Poly.
From Verif Require Import Proofs.Arith Proofs.NumTheory Proofs.FieldProofs Proofs.NTTProofs Proofs.NTTTableProofs Proofs.ConcreteProofs.
Import ListNotations.
Local Open Scope Z_scope.

(** * Lists *)
Lemma padd_map2 a b : padd a b = map2 Z.add a b.
Proof. revert b. induction a; destruct b; cbn; try reflexivity. f_equal. apply IHa. Qed.
Lemma psub_map2 a b : psub a b = map2 Z.sub a b.
Proof. revert b. induction a; destruct b; cbn; try reflexivity. f_equal. apply IHa. Qed.
Lemma pmul_map2 a b : pmul a b = map2 Z.mul a b.
Proof. revert b. induction a; destruct b; cbn; try reflexivity. f_equal. apply IHa. Qed.
Lemma pmul_length a b : length a = length b -> length (pmul a b) = length a.
Proof. intros. rewrite pmul_map2. apply map2_length. assumption. Qed.
Lemma nth_pmul a b i : length a = length b -> nth i (pmul a b) 0 = nth i a 0 * nth i b 0.
Proof.
  revert b i. induction a; destruct b; intros i H; cbn in H; try lia; [destruct i; reflexivity|].
  destruct i; [reflexivity|]. cbn. apply IHa. lia.
Qed.
Global Instance pmul_proper p : Proper (pcong p ==> pcong p ==> pcong p) pmul.
Proof.
  intros a a' Ha. induction Ha; intros b b' Hb; [constructor|]. inv Hb; [constructor|].
  cbn. constructor; [rewrite H, H0; reflexivity|]. apply IHHa. assumption.
Qed.

Lemma pmod_map2 p f a b : pmod p (map2 f a b) = map2 (fun x y => f x y mod p) a b.
Proof. revert b. induction a; destruct b; cbn; try reflexivity. f_equal. apply IHa. Qed.

Lemma zipA_map2 f g P Q a b : length a = length b -> Forall P a -> Forall Q b ->
  (forall x y, P x -> Q y -> f x y = Some (g x y)) -> zipA f a b = Some (map2 g a b).
Proof.
  intros Hl Ha Hb Hf. revert b Hl Hb. induction Ha; intros b Hl Hb; destruct b; cbn in Hl; try lia; [reflexivity|].
  inv Hb. cbn. rewrite Hf by assumption. cbn. rewrite IHHa by (assumption || lia). reflexivity.
Qed.
Lemma mapM2_map2 f g (P Q : Z -> Prop) a b : length a = length b -> Forall P a -> Forall Q b ->
  (forall x y, P x -> Q y -> f x y = Some (g x y)) -> mapM2 f a b = Some (map2 g a b).
Proof.
  intros Hl Ha Hb Hf. revert b Hl Hb. induction Ha; intros b Hl Hb; destruct b; cbn in Hl; try lia; [reflexivity|].
  inv Hb. cbn. rewrite Hf by assumption. cbn. rewrite IHHa by (assumption || lia). reflexivity.
Qed.
Lemma zipD_map2 f g (P Q : Z -> Prop) a b d : length a = length b -> length d = length a -> Forall P a -> Forall Q b ->
  (forall x y, P x -> Q y -> f x y = Some (g x y)) -> zipD f a b d = Some (map2 g a b).
Proof.
  intros Hl Hd Ha Hb Hf. revert b d Hl Hb Hd. induction Ha; intros b d Hl Hb Hd; destruct b, d; cbn in Hl, Hd; try lia; [reflexivity|].
  inv Hb. cbn. rewrite Hf by assumption. cbn. rewrite IHHa by (assumption || lia). reflexivity.
Qed.
(** Lazy variants: outputs in a range, congruent to the ideal value. *)
Lemma zipA_rel p f g (P Q R : Z -> Prop) a b : length a = length b -> Forall P a -> Forall Q b ->
  (forall x y, P x -> Q y -> exists z, f x y = Some z /\ R z /\ cong p z (g x y)) ->
  exists c, zipA f a b = Some c /\ length c = length a /\ Forall R c /\ pcong p c (map2 g a b).
Proof.
  intros Hl Ha Hb Hf. revert b Hl Hb. induction Ha; intros b Hl Hb; destruct b; cbn in Hl; try lia.
  - exists []. repeat split; constructor.
  - inv Hb. destruct (Hf x z H H2) as (v & Ev & Rv & Cv). destruct (IHHa b ltac:(lia) H3) as (c & Ec & Lc & Rc & Cc).
    exists (v :: c). cbn. rewrite Ev. cbn. rewrite Ec. cbn.
    split; [reflexivity|]. split; [lia|]. split; constructor; assumption.
Qed.

Fixpoint map3 (f : Z -> Z -> Z -> Z) (a b c : list Z) : list Z :=
  match a, b, c with x :: a', y :: b', z :: c' => f x y z :: map3 f a' b' c' | _, _, _ => [] end.
Lemma map3_add_mul x y z : length x = length y -> length x = length z ->
  map3 (fun a b c => a + b * c) x y z = padd x (pmul y z).
Proof.
  revert y z. induction x; intros [|y0 y] [|z0 z]; cbn; intros H1 H2; try discriminate; [reflexivity|]. f_equal. apply IHx; lia.
Qed.
Lemma pmod_map3 p f a b c : pmod p (map3 f a b c) = map3 (fun x y z => f x y z mod p) a b c.
Proof. revert b c. induction a; destruct b, c; cbn; try reflexivity. f_equal. apply IHa. Qed.
Lemma zipA3_map3 f g (P Q R : Z -> Prop) x y z : length x = length y -> length x = length z ->
  Forall P x -> Forall Q y -> Forall R z ->
  (forall a b c, P a -> Q b -> R c -> f a b c = Some (g a b c)) -> zipA3 f x y z = Some (map3 g x y z).
Proof.
  intros H1 H2 Hx Hy Hz Hf. revert y z H1 H2 Hy Hz.
  induction Hx; intros y z H1 H2 Hy Hz; destruct y, z; cbn in H1, H2; try lia; [reflexivity|].
  inv Hy. inv Hz. cbn. rewrite Hf by assumption. cbn. rewrite IHHx by (assumption || lia). reflexivity.
Qed.
Lemma zipD3_map3 f g (P Q R : Z -> Prop) d x y z : length d = length x -> length x = length y -> length x = length z ->
  Forall P x -> Forall Q y -> Forall R z ->
  (forall a b c, P a -> Q b -> R c -> f a b c = Some (g a b c)) -> zipD3 f d x y z = Some (map3 g x y z).
Proof.
  intros H0 H1 H2 Hx Hy Hz Hf. revert d y z H0 H1 H2 Hy Hz.
  induction Hx; intros d y z H0 H1 H2 Hy Hz; destruct d, y, z; cbn in H0, H1, H2; try lia; [reflexivity|].
  inv Hy. inv Hz. cbn. rewrite Hf by assumption. cbn. rewrite IHHx by (assumption || lia). reflexivity.
Qed.
Lemma zipA3_rel p f g (P Q R S : Z -> Prop) x y z : length x = length y -> length x = length z ->
  Forall P x -> Forall Q y -> Forall R z ->
  (forall a b c, P a -> Q b -> R c -> exists v, f a b c = Some v /\ S v /\ cong p v (g a b c)) ->
  exists r, zipA3 f x y z = Some r /\ length r = length x /\ Forall S r /\ pcong p r (map3 g x y z).
Proof.
  intros H1 H2 Hx Hy Hz Hf. revert y z H1 H2 Hy Hz.
  induction Hx; intros [|b y] [|c z] H1 H2 Hy Hz; cbn in H1, H2; try lia.
  - exists []. repeat split; constructor.
  - apply Forall_cons_iff in Hy, Hz. destruct (Hf x b c H (proj1 Hy) (proj1 Hz)) as (v & Ev & Sv & Cv).
    destruct (IHHx y z ltac:(lia) ltac:(lia) (proj2 Hy) (proj2 Hz)) as (r & Er & Lr & Sr & Cr).
    exists (v :: r). cbn. rewrite Ev. cbn. rewrite Er. cbn.
    split; [reflexivity|]. split; [lia|]. split; constructor; assumption.
Qed.

Lemma len_log_pow2 k : len_log (2 ^ k) = k.
Proof.
  unfold len_log. assert (H : trailing_zeros 64 (Z.of_nat (2 ^ k)) = Z.of_nat k); [|rewrite H; apply Nat2Z.id].
  induction k; [reflexivity|]. rewrite pow2_nat in *. rewrite !Nat2Z.inj_succ, Z.pow_succ_r by lia.
  pose proof (pow2_pos (Z.of_nat k) ltac:(lia)). destruct (2 ^ Z.of_nat k) eqn:E; try lia.
  change (2 * Z.pos p) with (Z.pos p~0). cbn [trailing_zeros pos_tz] in *. lia.
Qed.
Lemma len_pow2_ok k : len_pow2 (2 ^ k) = Some tt.
Proof.
  unfold len_pow2. apply assert_true, is_pow2_spec. exists (Z.of_nat k). split; [lia|]. apply pow2_nat.
Qed.
Lemma map_const_seq (c : Z) s m : map (fun _ => c) (seq s m) = repeat c m.
Proof. revert s. induction m; intros s; cbn; [reflexivity|]. f_equal. apply IHm. Qed.
Lemma same_len_ok a b : length a = length b -> same_len a b = Some tt.
Proof. intros H. apply assert_true, Nat.eqb_eq. exact H. Qed.

Lemma mod_pcong_eq p a b : 0 < p -> pcong p a b -> pmod p a = pmod p b.
Proof. intros Hp H. apply pmod_eq; assumption. Qed.

Section Field.
Variable F : field.
Hypothesis Hok : fok F.
Local Notation B := (fw F).
Local Notation p := (fp F).

Lemma p_pos : 0 < p. Proof. pose proof (B_facts F Hok). lia. Qed.
Lemma p_nz : p <> 0. Proof. pose proof p_pos. lia. Qed.

Lemma p_add_assign_correct a b : length a = length b -> canonical p a -> canonical p b ->
  p_add_assign F a b = Some (pmod p (padd a b)).
Proof.
  intros Hl Ha Hb. unfold p_add_assign. rewrite same_len_ok by assumption. cbn [bind].
  rewrite padd_map2, pmod_map2. eapply zipA_map2; [assumption|exact Ha|exact Hb|].
  intros x y Hx Hy. apply f_add_correct; assumption.
Qed.
Lemma p_add_correct a b : length a = length b -> canonical p a -> canonical p b ->
  p_add F a b = Some (pmod p (padd a b)).
Proof.
  intros Hl Ha Hb. unfold p_add. rewrite same_len_ok by assumption. cbn [bind].
  rewrite padd_map2, pmod_map2. eapply mapM2_map2; [assumption|exact Ha|exact Hb|].
  intros x y Hx Hy. apply f_add_correct; assumption.
Qed.
Lemma p_add_inplace_correct a b d : length a = length b -> length d = length a -> canonical p a -> canonical p b ->
  p_add_inplace F a b d = Some (pmod p (padd a b)).
Proof.
  intros Hl Hd Ha Hb. unfold p_add_inplace. rewrite padd_map2, pmod_map2.
  eapply zipD_map2; [assumption|assumption|exact Ha|exact Hb|]. intros x y Hx Hy. apply f_add_correct; assumption.
Qed.
Lemma p_sub_assign_correct a b : length a = length b -> canonical p a -> canonical p b ->
  p_sub_assign F a b = Some (pmod p (psub a b)).
Proof.
  intros Hl Ha Hb. unfold p_sub_assign. rewrite same_len_ok by assumption. cbn [bind].
  rewrite psub_map2, pmod_map2. eapply zipA_map2; [assumption|exact Ha|exact Hb|].
  intros x y Hx Hy. apply f_sub_assign_correct; assumption.
Qed.
Lemma p_sub_correct a b : length a = length b -> canonical p a -> canonical p b ->
  p_sub F a b = Some (pmod p (psub a b)).
Proof.
  intros Hl Ha Hb. unfold p_sub. rewrite same_len_ok by assumption. cbn [bind].
  rewrite psub_map2, pmod_map2. eapply mapM2_map2; [assumption|exact Ha|exact Hb|].
  intros x y Hx Hy. apply f_sub_correct; assumption.
Qed.
Lemma p_sub_rev_correct a b : length a = length b -> canonical p a -> canonical p b ->
  p_sub_rev F a b = Some (pmod p (psub a b)).
Proof.
  intros Hl Ha Hb. unfold p_sub_rev. rewrite same_len_ok by assumption. cbn [bind].
  rewrite (zipA_map2 _ (fun r l => (l - r) mod p) _ _ b a (eq_sym Hl) Hb Ha).
  - f_equal. clear Ha Hb. revert b Hl. induction a; destruct b; cbn; intros; try lia; [reflexivity|]. f_equal. apply IHa. lia.
  - intros x y Hx Hy. apply f_sub_correct; assumption.
Qed.
Lemma p_sub_inplace_correct a b d : length a = length b -> length d = length a -> canonical p a -> canonical p b ->
  p_sub_inplace F a b d = Some (pmod p (psub a b)).
Proof.
  intros Hl Hd Ha Hb. unfold p_sub_inplace. rewrite psub_map2, pmod_map2.
  eapply zipD_map2; [assumption|assumption|exact Ha|exact Hb|]. intros x y Hx Hy. apply f_sub_correct; assumption.
Qed.
Lemma p_neg_correct a : canonical p a -> p_neg F a = Some (pmod p (pneg a)).
Proof.
  intros Ha. unfold p_neg, pmod, pneg. rewrite map_map. apply mapM_some.
  intros x Hx. apply f_neg_correct. unfold canonical in Ha. rewrite Forall_forall in Ha. apply Ha. exact Hx.
Qed.
Lemma p_mul_scalar_correct a c : canonical p a -> 0 <= c < p -> p_mul_scalar F a c = Some (pmod p (pscale c a)).
Proof.
  intros Ha Hc. pose proof (B_facts F Hok). unfold p_mul_scalar, pmod, pscale. rewrite map_map. apply mapM_some.
  intros x Hx. unfold canonical in Ha. rewrite Forall_forall in Ha. specialize (Ha x Hx).
  rewrite f_mul_correct by (exact Hok || lia). do 2 f_equal. ring.
Qed.

Lemma p_evaluate_correct a x : canonical p a -> 0 <= x < p -> p_evaluate F a x = Some (ev x a mod p).
Proof.
  intros Ha Hx. pose proof (B_facts F Hok). unfold p_evaluate.
  assert (H0 : forall l acc, canonical p l -> 0 <= acc < p ->
    foldM (fun acc c => let* m := f_mul F acc x in f_add F c m) acc l = Some ((ev x (rev l) + npow x (length l) * acc) mod p)).
  { induction l as [|c l IH]; intros acc Hl Hacc; cbn [foldM].
    - cbn [rev ev length]. rewrite npow_0, Z.mul_1_l, Z.add_0_l, Z.mod_small by lia. reflexivity.
    - inv Hl. rewrite f_mul_correct by (exact Hok || lia). cbn [bind].
      pose proof (Z.mod_pos_bound (acc * x) p ltac:(lia)).
      rewrite f_add_correct by (exact Hok || lia). cbn [bind]. rewrite IH; [|assumption|apply Z.mod_pos_bound; lia].
      f_equal. apply cong_iff; [lia|]. rewrite (cong_mod p (c + _)) by lia. rewrite (cong_mod p (acc * x)) by lia.
      apply cong_of_eq. cbn [rev length]. rewrite ev_app, npow_S, rev_length. cbn [ev]. ring. }
  rewrite (H0 (rev a) 0 (Forall_rev Ha) ltac:(lia)). rewrite rev_involutive. do 2 f_equal. ring.
Qed.

Lemma n_mul_assign_correct a b : length a = length b -> canonical p a -> canonical p b ->
  n_mul_assign F a b = Some (pmod p (pmul a b)).
Proof.
  intros Hl Ha Hb. pose proof (B_facts F Hok). unfold n_mul_assign. rewrite same_len_ok by assumption. cbn [bind].
  rewrite pmul_map2, pmod_map2. eapply zipA_map2; [assumption|exact Ha|exact Hb|].
  intros x y Hx Hy. apply f_mul_correct; (exact Hok || cbv beta in *; lia).
Qed.
Lemma n_mul_correct a b : length a = length b -> canonical p a -> canonical p b ->
  n_mul F a b = Some (pmod p (pmul a b)).
Proof.
  intros Hl Ha Hb. pose proof (B_facts F Hok). unfold n_mul. rewrite same_len_ok by assumption. cbn [bind].
  rewrite pmul_map2, pmod_map2. eapply mapM2_map2; [assumption|exact Ha|exact Hb|].
  intros x y Hx Hy. apply f_mul_correct; (exact Hok || cbv beta in *; lia).
Qed.
Lemma n_mul_inplace_correct a b d : length a = length b -> length d = length a -> canonical p a -> canonical p b ->
  n_mul_inplace F a b d = Some (pmod p (pmul a b)).
Proof.
  intros Hl Hd Ha Hb. pose proof (B_facts F Hok). unfold n_mul_inplace. rewrite pmul_map2, pmod_map2.
  eapply zipD_map2; [assumption|assumption|exact Ha|exact Hb|].
  intros x y Hx Hy. apply f_mul_correct; (exact Hok || cbv beta in *; lia).
Qed.

Definition word (x : Z) : Prop := 0 <= x < 2 ^ B.
Lemma canonical_word a : canonical p a -> Forall word a.
Proof. pose proof (B_facts F Hok). apply Forall_impl. unfold word. intros; lia. Qed.
Lemma R2_word a : Forall (R2 F) a -> Forall word a.
Proof. pose proof (B_facts F Hok). apply Forall_impl. unfold R2, word. intros; lia. Qed.

Lemma ntt_add_mul_assign_correct x y z : length x = length y -> length x = length z ->
  Forall word x -> Forall word y -> Forall word z ->
  ntt_add_mul_assign F x y z = Some (pmod p (padd x (pmul y z))).
Proof.
  intros H1 H2 Hx Hy Hz. unfold ntt_add_mul_assign. rewrite <- map3_add_mul by assumption. rewrite pmod_map3.
  eapply zipA3_map3; [assumption|assumption|exact Hx|exact Hy|exact Hz|].
  intros a b c Ha Hb Hc. apply f_add_mul_correct; assumption.
Qed.
Lemma ntt_add_mul_inplace_correct x y z d : length d = length x -> length x = length y -> length x = length z ->
  Forall word x -> Forall word y -> Forall word z ->
  ntt_add_mul_inplace F x y z d = Some (pmod p (padd x (pmul y z))).
Proof.
  intros H0 H1 H2 Hx Hy Hz. unfold ntt_add_mul_inplace. rewrite <- map3_add_mul by assumption. rewrite pmod_map3.
  eapply zipD3_map3; [assumption|assumption|assumption|exact Hx|exact Hy|exact Hz|].
  intros a b c Ha Hb Hc. apply f_add_mul_correct; assumption.
Qed.
Lemma ntt_add_mul_assign_fast_correct x y z : length x = length y -> length x = length z ->
  Forall word x -> Forall word y -> Forall word z ->
  exists r, ntt_add_mul_assign_fast F x y z = Some r /\ length r = length x /\ Forall (R2 F) r /\
    pcong p r (padd x (pmul y z)).
Proof.
  intros H1 H2 Hx Hy Hz. unfold ntt_add_mul_assign_fast. rewrite <- map3_add_mul by assumption.
  eapply zipA3_rel; [assumption|assumption|exact Hx|exact Hy|exact Hz|].
  intros a b c Ha Hb Hc. apply f_add_mul_fast_correct; assumption.
Qed.
Lemma ntt_mul_fast_correct a b : length a = length b -> Forall word a -> Forall word b ->
  exists c, ntt_mul_assign_fast F a b = Some c /\ length c = length a /\ Forall (R2 F) c /\ pcong p c (pmul a b).
Proof.
  intros Hl Ha Hb. unfold ntt_mul_assign_fast. rewrite pmul_map2.
  eapply zipA_rel; [assumption|exact Ha|exact Hb|]. intros x y Hx Hy. apply f_mul_fast_correct; assumption.
Qed.

Hypothesis Hp : prime p.

(** What the operations know about the table in use. *)
Definition ctx (tbl : tables) (k : nat) (w : Z) : Prop :=
  2 < p /\ (k < 63)%nat /\ cong p (npow w (2 ^ k)) (-1) /\ (exists T, tbl k = Some T /\ tab_ok F w k T).

Lemma serves_ctx tbl k : serves F tbl k -> exists w, ctx tbl k w.
Proof.
  intros (ext & draws & T & Hb & Hd & HT & Ht).
  destruct (generate_table_ok F Hok Hp ext draws k T Hb Hd HT) as (H2 & Hk & w & _ & _ & Hw & Tk).
  exists w. split; [exact H2|]. split; [exact Hk|]. split; [exact Hw|]. exists T. split; assumption.
Qed.

Section Ctx.
Variables (tbl : tables) (k : nat) (w : Z).
Hypothesis C : ctx tbl k w.
Local Notation n := (2 ^ k)%nat.
Local Notation ntt := (ntt_of F w k).

Lemma ctx_gt2 : 2 < p. Proof. apply C. Qed.
Lemma ctx_root : cong p (npow w n) (-1). Proof. apply C. Qed.

Lemma ntt_nth a i : (i < n)%nat -> cong p (nth i (ntt a) 0) (ev (zt w k i) a).
Proof. intros Hi. rewrite nth_ntt_of by exact Hi. apply cong_mod, p_nz. Qed.
Lemma ntt_len a : length (ntt a) = n. Proof. apply ntt_of_length. Qed.
Lemma ntt_canon a : canonical p (ntt a). Proof. apply (ntt_of_canonical F Hok). Qed.

Lemma ntt_proper a b : pcong p a b -> ntt a = ntt b.
Proof.
  intros H. unfold ntt_of. apply map_ext. intros i. apply cong_iff; [apply p_pos|].
  apply ev_cong; [reflexivity|exact H].
Qed.
Lemma ntt_pmod a : ntt (pmod p a) = ntt a.
Proof. apply ntt_proper. apply pcong_pmod, p_nz. Qed.

Lemma ntt_ext v a : length v = n -> (forall i, (i < n)%nat -> cong p (nth i v 0) (ev (zt w k i) a)) -> pcong p v (ntt a).
Proof.
  intros Hl H. apply pcong_nth; [rewrite ntt_len; exact Hl|]. intros i Hi. rewrite Hl in Hi.
  rewrite ntt_nth by exact Hi. apply H. exact Hi.
Qed.
Lemma ntt_add a b : length a = n -> length b = n -> pcong p (padd (ntt a) (ntt b)) (ntt (padd a b)).
Proof.
  intros Ha Hb. apply ntt_ext; [rewrite padd_length; rewrite !ntt_len; reflexivity|]. intros i Hi.
  rewrite nth_padd by (rewrite !ntt_len; reflexivity). rewrite !ntt_nth by exact Hi. rewrite ev_add by congruence. reflexivity.
Qed.
Lemma ntt_sub a b : length a = n -> length b = n -> pcong p (psub (ntt a) (ntt b)) (ntt (psub a b)).
Proof.
  intros Ha Hb. apply ntt_ext; [rewrite psub_length; rewrite !ntt_len; reflexivity|]. intros i Hi.
  rewrite nth_psub by (rewrite !ntt_len; reflexivity). rewrite !ntt_nth by exact Hi. rewrite ev_sub by congruence. reflexivity.
Qed.
Lemma ntt_neg a : pcong p (pneg (ntt a)) (ntt (pneg a)).
Proof.
  apply ntt_ext; [rewrite pneg_length; apply ntt_len|]. intros i Hi.
  rewrite nth_pneg, ntt_nth by exact Hi. rewrite ev_neg. reflexivity.
Qed.
Lemma ntt_scale c a : pcong p (pscale c (ntt a)) (ntt (pscale c a)).
Proof.
  apply ntt_ext; [rewrite pscale_length; apply ntt_len|]. intros i Hi.
  rewrite nth_pscale, ntt_nth by exact Hi. rewrite ev_scale. reflexivity.
Qed.
Lemma ntt_mul a b : length a = n -> length b = n -> pcong p (pmul (ntt a) (ntt b)) (ntt (negacyclic n a b)).
Proof.
  intros Ha Hb. apply ntt_ext; [rewrite pmul_length; rewrite !ntt_len; reflexivity|]. intros i Hi.
  rewrite nth_pmul by (rewrite !ntt_len; reflexivity). rewrite !ntt_nth by exact Hi.
  symmetry. apply ev_negacyclic; [assumption..|]. apply zt_pow_n. exact ctx_root.
Qed.

Lemma canon_R4 a : canonical p a -> Forall (R4 F) a.
Proof. intros H. apply (R2_R4 F Hok), (canonical_R2 F Hok). exact H. Qed.
Lemma into_ntt_canon a : length a = n -> canonical p a -> into_ntt F tbl a = Some (ntt a).
Proof.
  intros Hl Ha. unfold into_ntt. rewrite Hl, len_pow2_ok, len_log_pow2. cbn [bind].
  destruct C as (_ & _ & Cw & T & ET & HT). rewrite ET. cbn [bind].
  apply (t_transform_correct F Hok w k ctx_gt2 Cw T HT a Hl Ha).
Qed.

Lemma into_native_correct v a : (0 < k)%nat -> length a = n -> Forall (R2 F) v -> pcong p v (ntt a) ->
  into_native F tbl v = Some (pmod p a).
Proof.
  intros Hk Ha Hv Hc. assert (Hl : length v = n) by (rewrite (pcong_length _ _ _ Hc); apply ntt_len).
  unfold into_native. rewrite Hl, len_pow2_ok, len_log_pow2. cbn [bind].
  destruct C as (H2 & _ & Cw & T & ET & HT). rewrite ET. cbn [bind].
  apply (t_inverse_of_transform F Hok Hp w k H2 Cw T HT a v Hk Ha Hl Hv).
  intros i Hi. rewrite <- ntt_nth by exact Hi. apply pcong_nth_inv. exact Hc.
Qed.
Lemma into_native_ntt a : (0 < k)%nat -> length a = n -> into_native F tbl (ntt a) = Some (pmod p a).
Proof.
  intros Hk Ha. apply into_native_correct; [exact Hk|exact Ha|apply (canonical_R2 F Hok), ntt_canon|apply pcong_refl].
Qed.

(** Every vector in transform form is the transform of a polynomial. *)
Lemma ntt_surj v : length v = n -> canonical p v -> exists a, length a = n /\ canonical p a /\ v = ntt a.
Proof.
  intros Hl Hv. destruct (Nat.eq_dec k 0) as [E|Hk].
  - exists v. split; [exact Hl|]. split; [exact Hv|].
    apply (pcong_eq p); [exact Hv|apply ntt_canon|]. apply ntt_ext; [exact Hl|]. intros i Hi.
    rewrite E in Hl, Hi. cbn in Hl, Hi. destruct v as [|x [|]]; cbn in Hl; try lia.
    replace i with O by lia. cbn. apply cong_of_eq. ring.
  - destruct C as (H2 & _ & Cw & T & ET & HT).
    destruct (t_inverse_correct F Hok w k H2 Cw T HT v ltac:(lia) Hl (canonical_R2 F Hok v Hv)) as (a & _ & La & Ca & Ha).
    exists a. split; [exact La|]. split; [exact Ca|].
    apply (pcong_eq p); [exact Hv|apply ntt_canon|]. apply ntt_ext; [exact Hl|]. intros i Hi. symmetry. apply Ha. exact Hi.
Qed.
Lemma ntt_inj a b : length a = n -> length b = n -> pcong p (ntt a) (ntt b) -> pcong p a b.
Proof.
  intros Ha Hb H. apply (zt_inj F Hp w k ctx_gt2 ctx_root a b Ha Hb). intros i Hi.
  rewrite <- !ntt_nth by exact Hi. apply pcong_nth_inv. exact H.
Qed.

Lemma p_mul_assign_ntt_correct a b : (0 < k)%nat -> length a = n -> length b = n -> canonical p a ->
  p_mul_assign_ntt F tbl a (ntt b) = Some (pmod p (negacyclic n a b)).
Proof.
  intros Hk La Lb Ha. unfold p_mul_assign_ntt. rewrite same_len_ok by (rewrite ntt_len; exact La). cbn [bind].
  rewrite La, len_pow2_ok, len_log_pow2. cbn [bind].
  destruct C as (H2 & _ & Cw & T & ET & HT). rewrite ET. cbn [bind].
  rewrite (t_transform_correct F Hok w k ctx_gt2 Cw T HT a La Ha). cbn [bind].
  change (map _ (seq 0 n)) with (ntt a).
  destruct (ntt_mul_fast_correct (ntt a) (ntt b)) as (c & Ec & Lc & Rc & Cc).
  - rewrite !ntt_len. reflexivity.
  - apply canonical_word, ntt_canon.
  - apply canonical_word, ntt_canon.
  - rewrite Ec. cbn [bind]. rewrite ntt_len in Lc.
    apply (t_inverse_of_transform F Hok Hp w k H2 Cw T HT (negacyclic n a b) c Hk (negacyclic_length _ _ _) Lc Rc).
    intros i Hi. rewrite <- ntt_nth by exact Hi. apply pcong_nth_inv.
    eapply pcong_trans; [exact Cc|]. apply ntt_mul; assumption.
Qed.

Lemma p_mul_assign_correct a b : (0 < k)%nat -> length a = n -> length b = n -> canonical p a -> canonical p b ->
  p_mul_assign F tbl a b = Some (pmod p (negacyclic n a b)).
Proof.
  intros Hk La Lb Ha Hb. rewrite <- (p_mul_assign_ntt_correct a b Hk La Lb Ha).
  unfold p_mul_assign, p_mul_assign_ntt. rewrite !same_len_ok by (rewrite ?ntt_len; congruence). cbn [bind].
  rewrite La, len_pow2_ok, len_log_pow2. cbn [bind].
  destruct C as (H2 & _ & Cw & T & ET & HT). rewrite ET. cbn [bind].
  rewrite (t_transform_correct F Hok w k ctx_gt2 Cw T HT b Lb Hb). cbn [bind].
  reflexivity.
Qed.

Lemma n_mul_assign_poly_correct v a : length v = n -> canonical p v -> length a = n -> canonical p a ->
  n_mul_assign_poly F tbl v a = Some (pmod p (pmul v (ntt a))).
Proof.
  intros Lv Hv La Ha. unfold n_mul_assign_poly. rewrite same_len_ok by congruence. cbn [bind].
  rewrite into_ntt_canon by assumption. cbn [bind].
  apply n_mul_assign_correct; [rewrite ntt_len; exact Lv|exact Hv|apply ntt_canon].
Qed.

Lemma p_inv_correct a : (0 < k)%nat -> length a = n -> canonical p a ->
  exists r, p_inv F tbl a = Some r /\ length r = n /\ canonical p r /\
    ((forall i, (i < n)%nat -> nth i (ntt a) 0 <> 0) -> pmod p (negacyclic n r a) = monomial n 1 0).
Proof.
  intros Hk La Ha. unfold p_inv. rewrite into_ntt_canon by assumption. cbn [bind].
  pose proof (B_facts F Hok). pose proof ctx_gt2.
  assert (Hinv : forall l, canonical p l -> exists r, n_inv F l = Some r /\ length r = length l /\ canonical p r /\
    forall i, (i < length l)%nat -> nth i l 0 <> 0 -> cong p (nth i r 0 * nth i l 0) 1).
  { induction l as [|x l IH]; intros Hl.
    - exists []. cbn. split; [reflexivity|]. split; [reflexivity|]. split; [constructor|]. intros; lia.
    - inv Hl. destruct (IH H4) as (r & Er & Lr & Cr & Hr). unfold n_inv in *. cbn [mapM].
      assert (Hx : exists y, f_inv F x = Some y /\ 0 <= y < p /\ (x <> 0 -> cong p (y * x) 1)).
      { destruct (Z.eq_dec x 0) as [->|Hnz].
        - exists 0. rewrite f_inv_zero by (exact Hok || lia). split; [reflexivity|]. split; [lia|]. intros Hc; lia.
        - destruct (f_inv_correct F Hok x Hp ltac:(lia)) as (y & Ey & Hy & Cy). exists y. split; [exact Ey|].
          split; [exact Hy|]. intros _. apply cong_iff; [lia|]. rewrite Cy. symmetry. apply Z.mod_small. lia. }
      destruct Hx as (y & Ey & Hy & Cy). rewrite Ey. cbn [bind]. rewrite Er. cbn [bind].
      exists (y :: r). split; [reflexivity|]. split; [cbn; lia|]. split; [constructor; assumption|].
      intros [|i] Hi; cbn [nth]; [exact Cy|]. apply Hr. cbn in Hi. lia. }
  destruct (Hinv (ntt a) (ntt_canon a)) as (v & Ev & Lv & Cv & Hv). rewrite Ev. cbn [bind]. rewrite ntt_len in Lv, Hv.
  destruct (ntt_surj v Lv Cv) as (r & Lr & Cr & ->).
  rewrite into_native_ntt by assumption. rewrite pmod_small by assumption.
  exists r. split; [reflexivity|]. split; [exact Lr|]. split; [exact Cr|].
  intros Hnz.
  assert (Hm : canonical p (monomial n 1 0) /\ length (monomial n 1 0) = n).
  { unfold monomial. split; [|rewrite map_length, seq_length; reflexivity].
    apply Forall_forall. intros x Hx. apply in_map_iff in Hx. destruct Hx as (i & <- & _).
    rewrite Nat.div_0_l by apply pow_nz. cbn. destruct (i =? 0 mod n)%nat; lia. }
  rewrite <- (pmod_small p (monomial n 1 0)) by apply Hm.
  apply mod_pcong_eq; [lia|].
  apply ntt_inj; [apply negacyclic_length|apply Hm|].
  eapply pcong_trans; [apply pcong_sym, ntt_mul; assumption|].
  apply ntt_ext; [rewrite pmul_length; rewrite !ntt_len; reflexivity|]. intros i Hi.
  rewrite nth_pmul by (rewrite !ntt_len; reflexivity). rewrite (Hv i Hi (Hnz i Hi)). apply cong_of_eq.
  (* the constant polynomial 1 evaluates to 1 *)
  assert (E : monomial n 1 0 = 1 :: repeat 0 (n - 1)).
  { unfold monomial. rewrite Nat.mod_0_l, Nat.div_0_l by apply pow_nz. pose proof (pow_nz k).
    replace n with (S (n - 1)) at 1 by lia. cbn [seq map Nat.eqb Nat.even]. f_equal.
    rewrite <- (map_const_seq 0 1 (n - 1)). apply map_ext_in. intros j Hj. apply in_seq in Hj.
    destruct (Nat.eqb_spec j 0); [lia|reflexivity]. }
  rewrite E. cbn [ev]. rewrite ev_zeros. ring.
Qed.
End Ctx.
End Field.
