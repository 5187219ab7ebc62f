(** Operands of different sizes. *)
From Coq Require Import ZArith List Bool Arith Lia.
From Verif Require Import Spec.Basic Spec.Poly Spec.Ring Model.Base Model.PowOf2 Model.Field Model.NTT Model.Concrete Model.Poly Model.Plaintext Model.Lwe Model.Rlwe Model.ModSwitch Model.Params Model.Boolean Model.SecretKey.
From Verif Require Import Proofs.FieldProofs Proofs.PolyProofs Proofs.LweProofs.
Import ListNotations.
Local Open Scope Z_scope.

Lemma same_len_none a b : length a <> length b -> same_len a b = None.
Proof. intros H. unfold same_len, assert. destruct (Nat.eqb_spec (length a) (length b)); [contradiction|reflexivity]. Qed.
Lemma bind_none {A B} (o : option A) : (let* _ := o in @None B) = None.
Proof. destruct o; reflexivity. Qed.

Lemma zipA_length f l r v : zipA f l r = Some v -> length v = length l.
Proof.
  revert r v. induction l as [|x l IH]; intros [|y r] v H; cbn [zipA] in H; try (injection H as <-; reflexivity).
  destruct (f x y) as [z|]; [|discriminate]. cbn [bind] in H. destruct (zipA f l r) as [t|] eqn:E; [|discriminate]. cbn [bind] in H. injection H as <-.
  cbn [length]. rewrite (IH _ _ E). reflexivity.
Qed.
Lemma rotate_length f g x y r m v : rotate f g x y r m = Some v -> length v = length x.
Proof.
  unfold rotate, slice_to, slice_from. destruct (r <=? length x)%nat eqn:E; [|discriminate]. apply Nat.leb_le in E. cbn [bind].
  destruct (m <=? length y)%nat; [|discriminate]. cbn [bind].
  destruct (zipA f (firstn r x) (skipn m y)) as [a|] eqn:E1; [|discriminate]. cbn [bind].
  destruct (zipA g (skipn r x) (firstn m y)) as [b|] eqn:E2; [|discriminate]. cbn [bind]. intros H. injection H as <-.
  rewrite app_length, (zipA_length _ _ _ _ E1), (zipA_length _ _ _ _ E2), firstn_length, skipn_length. lia.
Qed.

(** Unchecked loops stop at the shortest operand. *)
Lemma zipD_prefix f a b d : let m := Nat.min (length d) (Nat.min (length a) (length b)) in
  zipD f a b d = let* t := zipD f (firstn m a) (firstn m b) (firstn m d) in Some (t ++ skipn m d).
Proof.
  revert b d. induction a as [|x a IH]; intros [|y b] [|z d]; try reflexivity. cbv zeta in *. cbn [length Nat.min firstn skipn zipD].
  destruct (f x y) as [v|]; [|reflexivity]. cbn [bind]. rewrite IH. destruct (zipD f _ _ _) as [t|]; reflexivity.
Qed.
Lemma zipA_prefix f l r : let m := Nat.min (length l) (length r) in
  zipA f l r = let* t := zipA f (firstn m l) (firstn m r) in Some (t ++ skipn m l).
Proof.
  revert r. induction l as [|x l IH]; intros [|y r]; try reflexivity. cbv zeta in *. cbn [length Nat.min firstn skipn zipA].
  destruct (f x y) as [v|]; [|reflexivity]. cbn [bind]. rewrite IH. destruct (zipA f _ _) as [t|]; reflexivity.
Qed.
Lemma zipA3_prefix f x y z : let m := Nat.min (length x) (Nat.min (length y) (length z)) in
  zipA3 f x y z = let* t := zipA3 f (firstn m x) (firstn m y) (firstn m z) in Some (t ++ skipn m x).
Proof.
  revert y z. induction x as [|a x IH]; intros [|b y] [|c z]; try reflexivity. cbv zeta in *. cbn [length Nat.min firstn skipn zipA3].
  destruct (f a b c) as [v|]; [|reflexivity]. cbn [bind]. rewrite IH. destruct (zipA3 f _ _ _) as [t|]; reflexivity.
Qed.
Lemma zipD3_prefix f d x y z : let m := Nat.min (length d) (Nat.min (length x) (Nat.min (length y) (length z))) in
  zipD3 f d x y z = let* t := zipD3 f (firstn m d) (firstn m x) (firstn m y) (firstn m z) in Some (t ++ skipn m d).
Proof.
  revert x y z. induction d as [|e d IH]; intros [|a x] [|b y] [|c z]; try reflexivity. cbv zeta in *. cbn [length Nat.min firstn skipn zipD3].
  destruct (f a b c) as [v|]; [|reflexivity]. cbn [bind]. rewrite IH. destruct (zipD3 f _ _ _ _) as [t|]; reflexivity.
Qed.
Lemma canonical_firstn p m l : canonical p l -> canonical p (firstn m l).
Proof. unfold canonical. intros H. apply Forall_forall. intros x Hx. rewrite Forall_forall in H. apply H. rewrite <- (firstn_skipn m l). apply in_or_app. left. exact Hx. Qed.

Lemma common_part (B p : Z) (F : field) (a b c d : list Z) : wwidth B -> 0 <= p -> derive_field B p = Some F ->
  canonical p a -> canonical p b -> canonical p c ->
  (let m := Nat.min (length d) (Nat.min (length a) (length b)) in
    p_add_inplace F a b d = Some (pmod p (padd (firstn m a) (firstn m b)) ++ skipn m d) /\
    p_sub_inplace F a b d = Some (pmod p (psub (firstn m a) (firstn m b)) ++ skipn m d) /\
    n_mul_inplace F a b d = Some (pmod p (pmul (firstn m a) (firstn m b)) ++ skipn m d)) /\
  (let m := Nat.min (length a) (Nat.min (length b) (length c)) in
    ntt_add_mul_assign F a b c = Some (pmod p (padd (firstn m a) (pmul (firstn m b) (firstn m c))) ++ skipn m a)) /\
  (let m := Nat.min (length d) (Nat.min (length a) (Nat.min (length b) (length c))) in
    ntt_add_mul_inplace F a b c d = Some (pmod p (padd (firstn m a) (pmul (firstn m b) (firstn m c))) ++ skipn m d)).
Proof.
  intros HB Hp HF Ha Hb Hc. destruct (derive_field_ok B p F HB Hp HF) as (Hok & EB & Ep). subst p.
  pose proof (fp_range F Hok) as HR.
  split; [|split].
  - intros m. assert (L : length (firstn m a) = length (firstn m b)) by (rewrite !firstn_length; unfold m; lia).
    assert (L' : length (firstn m d) = length (firstn m a)) by (rewrite !firstn_length; unfold m; lia).
    split; [|split].
    + unfold p_add_inplace. rewrite zipD_prefix. fold m. fold (p_add_inplace F (firstn m a) (firstn m b) (firstn m d)).
      rewrite p_add_inplace_correct; [reflexivity|exact Hok|exact L|exact L'|apply canonical_firstn; exact Ha|apply canonical_firstn; exact Hb].
    + unfold p_sub_inplace. rewrite zipD_prefix. fold m. fold (p_sub_inplace F (firstn m a) (firstn m b) (firstn m d)).
      rewrite p_sub_inplace_correct; [reflexivity|exact Hok|exact L|exact L'|apply canonical_firstn; exact Ha|apply canonical_firstn; exact Hb].
    + unfold n_mul_inplace. rewrite zipD_prefix. fold m.
      rewrite (zipD_map2 _ (fun x y => (x * y) mod fp F) (fun x => 0 <= x < fp F) (fun x => 0 <= x < fp F)); [|exact L|exact L'|apply canonical_firstn; exact Ha|apply canonical_firstn; exact Hb|].
      * cbn [bind]. rewrite pmul_map2, pmod_map2. reflexivity.
      * intros x y Hx Hy. apply f_mul_correct; [exact Hok| |]; lia.
  - intros m. unfold ntt_add_mul_assign. rewrite zipA3_prefix. fold m.
    rewrite (zipA3_map3 _ (fun x y z => (x + y * z) mod fp F) (fun x => 0 <= x < fp F) (fun x => 0 <= x < fp F) (fun x => 0 <= x < fp F)).
    + cbn [bind]. rewrite <- map3_add_mul, pmod_map3; [reflexivity| |]; rewrite !firstn_length; unfold m; lia.
    + rewrite !firstn_length; unfold m; lia.
    + rewrite !firstn_length; unfold m; lia.
    + apply canonical_firstn; exact Ha.
    + apply canonical_firstn; exact Hb.
    + apply canonical_firstn; exact Hc.
    + intros x y z Hx Hy Hz. apply f_add_mul_correct; [exact Hok| | |]; lia.
  - intros m. unfold ntt_add_mul_inplace. rewrite zipD3_prefix. fold m.
    rewrite (zipD3_map3 _ (fun x y z => (x + y * z) mod fp F) (fun x => 0 <= x < fp F) (fun x => 0 <= x < fp F) (fun x => 0 <= x < fp F)).
    + cbn [bind]. rewrite <- map3_add_mul, pmod_map3; [reflexivity| |]; rewrite !firstn_length; unfold m; lia.
    + rewrite !firstn_length; unfold m; lia.
    + rewrite !firstn_length; unfold m; lia.
    + rewrite !firstn_length; unfold m; lia.
    + apply canonical_firstn; exact Ha.
    + apply canonical_firstn; exact Hb.
    + apply canonical_firstn; exact Hc.
    + intros x y z Hx Hy Hz. apply f_add_mul_correct; [exact Hok| | |]; lia.
Qed.

Lemma mapM_zipA f l r : length l = length r -> zipA (fun _ v => f v) l r = mapM f r.
Proof. revert r. induction l as [|x l IH]; intros [|y r] H; try discriminate H; [reflexivity|]. cbn [zipA mapM]. destruct (f y); [|reflexivity]. cbn [bind]. rewrite IH by (injection H; auto). reflexivity. Qed.

Lemma common_lwe (B before after : Z) (O : mops) (c d : lwe) (k : Z) :
  (let m := Nat.min (length (la d)) (length (la c)) in
    forall y, lwe_modulus_switch B before after (mk_lwe (firstn m (la c)) (lb c)) = Some y ->
      lwe_modulus_switch_inplace B before after c d = Some (mk_lwe (la y ++ skipn m (la d)) (lb y))) /\
  (let m := Nat.min (length (la d)) (length (la c)) in
    forall y, lwe_add_scaled O (mk_lwe (firstn m (la d)) (lb d)) (mk_lwe (firstn m (la c)) (lb c)) k = Some y ->
      lwe_add_scaled O d c k = Some (mk_lwe (la y ++ skipn m (la d)) (lb y))).
Proof.
  split; intros m y H.
  - unfold lwe_modulus_switch in H. cbn [la lb] in H. unfold lwe_modulus_switch_inplace. rewrite zipA_prefix. fold m.
    rewrite mapM_zipA by (rewrite !firstn_length; unfold m; lia).
    destruct (mapM _ (firstn m (la c))) as [a|]; [|discriminate]. cbn [bind] in *. destruct (ms_switch B before after (lb c)) as [b|]; [|discriminate]. cbn [bind] in *.
    injection H as <-. reflexivity.
  - unfold lwe_add_scaled in *. cbn [la lb] in H. rewrite zipA_prefix. fold m.
    destruct (zipA _ _ _) as [a|]; [|discriminate]. cbn [bind] in *. destruct (o_mul O (lb c) k) as [w|]; [|discriminate]. cbn [bind] in *.
    destruct (o_add O (lb d) w) as [b|]; [|discriminate]. cbn [bind] in *. injection H as <-. reflexivity.
Qed.

Lemma mapM_length {A B} (f : A -> option B) l v : mapM f l = Some v -> length v = length l.
Proof.
  revert v. induction l as [|x l IH]; intros v H; cbn [mapM] in H; [injection H as <-; reflexivity|].
  destruct (f x); [|discriminate]. cbn [bind] in H. destruct (mapM f l) as [t|] eqn:E; [|discriminate]. cbn [bind] in H. injection H as <-. cbn. rewrite (IH _ eq_refl). reflexivity.
Qed.
Lemma mapM2_length {A B C} (f : A -> B -> option C) l r v : mapM2 f l r = Some v -> length l = length r -> length v = length l.
Proof.
  revert r v. induction l as [|x l IH]; intros [|y r] v H L; try discriminate L; cbn [mapM2] in H; [injection H as <-; reflexivity|].
  destruct (f x y); [|discriminate]. cbn [bind] in H. destruct (mapM2 f l r) as [t|] eqn:E; [|discriminate]. cbn [bind] in H. injection H as <-. cbn. rewrite (IH _ _ E) by (injection L; auto). reflexivity.
Qed.

Lemma add_dim O x y z : lwe_add O x y = Some z -> length (la z) = length (la x).
Proof.
  unfold lwe_add, same_len, assert. destruct (Nat.eqb_spec (length (la x)) (length (la y))) as [L|]; [|discriminate]. cbn [bind].
  destruct (mapM2 _ _ _) as [a|] eqn:E; [|discriminate]. cbn [bind]. destruct (o_add O _ _); [|discriminate]. cbn [bind]. intros H. injection H as <-.
  exact (mapM2_length _ _ _ _ E L).
Qed.
Lemma not_dim B K c z : g_not B K c = Some z -> length (la z) = length (la c).
Proof.
  unfold g_not. destruct (p2_new _); [|discriminate]. cbn [bind]. unfold lwe_neg. destruct (mapM _ _) as [a|] eqn:E; [|discriminate]. cbn [bind].
  destruct (o_neg _ _); [|discriminate]. cbn [bind]. destruct (ushr _ _ _); [|discriminate]. cbn [bind]. intros H. injection H as <-. exact (mapM_length _ _ _ E).
Qed.

Lemma gates_refuse (B : Z) (F : field) (tbl : tables) (K : eval_key) (c0 c1 c2 : lwe) :
  (length (la c0) <> length (la c1) ->
    g_nand B F tbl K c0 c1 = None /\ g_and B F tbl K c0 c1 = None /\ g_or B F tbl K c0 c1 = None /\ g_nor B F tbl K c0 c1 = None /\
    g_xor B F tbl K c0 c1 = None /\ g_xnor B F tbl K c0 c1 = None) /\
  (length (la c0) <> length (la c1) \/ length (la c0) <> length (la c2) -> g_majority B F tbl K c0 c1 c2 = None /\ g_mux B F tbl K c0 c1 c2 = None).
Proof.
  assert (G : forall c0 c1, length (la c0) <> length (la c1) ->
    g_nand B F tbl K c0 c1 = None /\ g_and B F tbl K c0 c1 = None /\ g_or B F tbl K c0 c1 = None /\ g_nor B F tbl K c0 c1 = None /\
    g_xor B F tbl K c0 c1 = None /\ g_xnor B F tbl K c0 c1 = None).
  { intros x y H. unfold g_nand, g_and, g_or, g_nor, g_xor, g_xnor, lwe_add, lwe_sub. rewrite (same_len_none _ _ H). destruct (lwe_ops _ _); auto 8. }
  split; [apply G|]. intros H. split.
  - unfold g_majority. destruct (lwe_ops _ _) as [O|]; [|reflexivity]. cbn [bind]. destruct (lwe_add O c0 c1) as [x|] eqn:E; [|reflexivity]. cbn [bind].
    destruct H as [H|H].
    + unfold lwe_add in E. rewrite (same_len_none _ _ H) in E. discriminate.
    + unfold lwe_add_inplace. rewrite same_len_none; [reflexivity|]. rewrite (add_dim _ _ _ _ E). exact H.
  - unfold g_mux. destruct (lwe_ops _ _) as [O|]; [|reflexivity]. cbn [bind]. destruct (g_not B K c0) as [nc|] eqn:E; [|reflexivity]. cbn [bind].
    destruct H as [H|H].
    + rewrite (proj1 (proj2 (G _ _ H))). reflexivity.
    + destruct (g_and B F tbl K c0 c1); [|reflexivity]. cbn [bind]. rewrite (proj1 (proj2 (G nc c2 ltac:(rewrite (not_dim _ _ _ _ E); exact H)))). reflexivity.
Qed.
