(** Transforms counted: forgetting the calls gives the model back; which calls are made. *)
From Coq Require Import ZArith List Arith Bool Lia.
From Verif Require Import Model.Base Model.PowOf2 Model.Field Model.NTT Model.Concrete Model.Poly Model.Lwe Model.Rlwe Model.Gadget Model.BlindRotation Model.KeySwitch Model.ModSwitch Model.Params Model.Boolean Model.SecretKey Model.Count Model.Tally Spec.Calls Spec.Counting Proofs.LutProofs.
Import ListNotations.
Local Open Scope Z_scope.

(** * Erasure *)

Lemma erase_quiet {A} (x : option A) : erase (quiet x) = x.
Proof. destruct x; reflexivity. Qed.
Lemma erase_bind {A C} (m : counted A) m' (f : A -> counted C) f' :
  erase m = m' -> (forall a, erase (f a) = f' a) -> erase (cbind m f) = bind m' f'.
Proof.
  intros <- Hf. destruct m as [[t a]|]; [|reflexivity]. cbn. rewrite <- Hf. destruct (f a) as [[t' c]|]; reflexivity.
Qed.
Lemma bind_assoc {A C D} (m : option A) (f : A -> option C) (g : C -> option D) :
  bind (bind m f) g = bind m (fun a => bind (f a) g).
Proof. destruct m; reflexivity. Qed.

Create HintDb er discriminated.
Ltac er := repeat first [ solve [auto with er] | apply erase_quiet | apply erase_bind; [|intros ?] | reflexivity
  | match goal with |- context [match ?p with (_, _) => _ end] => destruct p end ].

Lemma er_mapC {A C} (f : A -> counted C) g l : (forall x, erase (f x) = g x) -> erase (mapC f l) = mapM g l.
Proof. intros H. induction l as [|x l IH]; [reflexivity|]. cbn [mapC mapM]. er. Qed.
Lemma er_mapC2 {A A' C} (f : A -> A' -> counted C) g l l' : (forall x y, erase (f x y) = g x y) -> erase (mapC2 f l l') = mapM2 g l l'.
Proof. intros H. revert l'. induction l as [|x l IH]; intros [|y l']; try reflexivity. cbn [mapC2 mapM2]. er. Qed.

Lemma er_transform F t v : erase (t_transform_slice_c F t v) = t_transform_slice F t v.
Proof. unfold t_transform_slice_c. destruct (t_transform_slice F t v); [|reflexivity]. destruct t; reflexivity. Qed.
Lemma er_inverse F t v : erase (t_inverse_transform_slice_c F t v) = t_inverse_transform_slice F t v.
Proof. unfold t_inverse_transform_slice_c. destruct (t_inverse_transform_slice F t v); [|reflexivity]. destruct t; reflexivity. Qed.
Local Hint Resolve er_transform er_inverse : er.
Lemma er_into_ntt F tbl a : erase (into_ntt_c F tbl a) = into_ntt F tbl a.
Proof. unfold into_ntt_c, into_ntt. er. Qed.
Lemma er_into_native F tbl a : erase (into_native_c F tbl a) = into_native F tbl a.
Proof. unfold into_native_c, into_native. er. Qed.
Local Hint Resolve er_into_ntt er_into_native : er.
Lemma er_p_mul F tbl a b : erase (p_mul_assign_c F tbl a b) = p_mul_assign F tbl a b.
Proof. unfold p_mul_assign_c, p_mul_assign. er. Qed.
Lemma er_from_ntt F tbl x : erase (rlwe_from_ntt_c F tbl x) = rlwe_from_ntt F tbl x.
Proof. unfold rlwe_from_ntt_c, rlwe_from_ntt. er. Qed.
Lemma er_inverse_inplace F tbl x d : erase (inverse_transform_inplace_c F tbl x d) = inverse_transform_inplace F tbl x d.
Proof. unfold inverse_transform_inplace_c, inverse_transform_inplace. er. Qed.
Local Hint Resolve er_from_ntt er_inverse_inplace : er.
Lemma er_gadget_loop F T step b dlen rows f acc : erase (gadget_loop_c F T step b dlen rows f acc) = gadget_loop F T step b dlen rows f acc.
Proof. revert f acc. induction rows as [|g rows IH]; intros f acc; [reflexivity|]. cbn [gadget_loop_c gadget_loop]. er. Qed.
Local Hint Resolve er_gadget_loop : er.
Lemma er_ng_mul F tbl G f d p dst : erase (ng_mul_polynomial_inplace_fast_c F tbl G f d p dst) = ng_mul_polynomial_inplace_fast F tbl G f d p dst.
Proof. unfold ng_mul_polynomial_inplace_fast_c, ng_mul_polynomial_inplace_fast, ng_mul_polynomial_inplace_with. er. Qed.
Lemma er_add_mul F tbl x G f d p : erase (nrlwe_add_gadget_mul_assign_fast_c F tbl x G f d p) = nrlwe_add_gadget_mul_assign_fast F tbl x G f d p.
Proof. unfold nrlwe_add_gadget_mul_assign_fast_c, nrlwe_add_gadget_mul_assign_fast, nrlwe_add_gadget_mul_with. er. Qed.
Lemma er_sub_mul F tbl x G f d : erase (nrlwe_sub_gadget_mul_fast_c F tbl x G f d) = nrlwe_sub_gadget_mul_fast F tbl x G f d.
Proof. unfold nrlwe_sub_gadget_mul_fast_c, nrlwe_sub_gadget_mul_fast, nrlwe_sub_gadget_mul_with. er. Qed.
Local Hint Resolve er_ng_mul er_add_mul er_sub_mul : er.
Lemma er_ext F tbl x R d p m : erase (rlwe_mul_assign_ntt_rgsw_c F tbl x R d p m) = rlwe_mul_assign_ntt_rgsw F tbl x R d p m.
Proof. unfold rlwe_mul_assign_ntt_rgsw_c, rlwe_mul_assign_ntt_rgsw, rlwe_mul_ntt_rgsw_inplace. er. Qed.
Local Hint Resolve er_ext : er.
Lemma er_binary_loop F tbl n key a ext acc : erase (binary_loop_c F tbl n key a ext acc) = binary_loop F tbl n key a ext acc.
Proof.
  revert a ext acc. induction key as [|s key IH]; intros [|a0 a] ext acc; try reflexivity. cbn [binary_loop_c binary_loop].
  destruct (a0 =? 0); [apply IH|]. er.
Qed.
Lemma er_ternary_loop F tbl T n key a ext ek acc : erase (ternary_loop_c F tbl T n key a ext ek acc) = ternary_loop F tbl T n key a ext ek acc.
Proof.
  revert a ext ek acc. induction key as [|[s0 s1] key IH]; intros [|a0 a] ext ek acc; try reflexivity. cbn [ternary_loop_c ternary_loop].
  destruct (a0 =? 0); [apply IH|]. er.
Qed.
Local Hint Resolve er_binary_loop er_ternary_loop : er.
Lemma er_blind F tbl key lut c b : erase (blind_rotate_c F tbl key lut c b) = blind_rotate F tbl key lut c b.
Proof. destruct key; cbn [blind_rotate_c blind_rotate]; unfold binary_blind_rotate_c, binary_blind_rotate, ternary_blind_rotate_c, ternary_blind_rotate; er. Qed.
Lemma er_rks_loop F tbl ext key cs init : erase (rks_loop_c F tbl ext key cs init) = rks_loop F tbl ext key cs init.
Proof. revert cs init. induction key as [|g key IH]; intros [|c cs] init; try reflexivity. cbn [rks_loop_c rks_loop]. er. Qed.
Local Hint Resolve er_blind er_rks_loop : er.
Lemma er_rks F tbl K x : erase (rks_key_switch_rlwe_c F tbl K x) = rks_key_switch_rlwe F tbl K x.
Proof. unfold rks_key_switch_rlwe_c, rks_key_switch_rlwe, rks_inner_c, rks_inner. cbv zeta. er. Qed.
Local Hint Resolve er_rks : er.
Lemma er_bootstrap B F tbl E c lut : erase (bootstrap_c B F tbl E c lut) = bootstrap B F tbl E c lut.
Proof.
  unfold bootstrap_c, bootstrap. cbv zeta. do 8 (apply erase_bind; [auto using erase_quiet with er|intros ?]).
  destruct (pp_steps (ek_par E)); [..|er]; destruct (ek_ks E); er.
Qed.
Local Hint Resolve er_bootstrap : er.

Lemma er_zero_sample F tbl sk a e : erase (nrlwe_zero_sample_c F tbl sk a e) = nrlwe_zero_sample F tbl sk a e.
Proof. unfold nrlwe_zero_sample_c, nrlwe_zero_sample. er. Qed.
Lemma er_value_sample F tbl sk a e v : erase (nrlwe_value_sample_c F tbl sk a e v) = nrlwe_value_sample F tbl sk a e v.
Proof. unfold nrlwe_value_sample_c, nrlwe_value_sample. er. Qed.
Local Hint Resolve er_zero_sample er_value_sample : er.
Lemma er_power F row row' bv power rnd : (forall p a e, erase (row p a e) = row' p a e) ->
  erase (power_rows_peeled_c F row bv power rnd) = power_rows_peeled F row' bv power rnd.
Proof.
  intros H. revert power. induction rnd as [|[a e] rnd IH]; intros power; [reflexivity|].
  destruct rnd as [|y rnd]; cbn [power_rows_peeled_c power_rows_peeled]; [er|].
  apply erase_bind; [apply H|intros r]. apply erase_bind; [apply erase_quiet|intros pw]. apply erase_bind; [apply IH|intros t; apply erase_quiet].
Qed.
Lemma er_ng_zero F tbl sk b rnd : erase (ng_zero_sample_c F tbl sk b rnd) = ng_zero_sample F tbl sk b rnd.
Proof. unfold ng_zero_sample_c, ng_zero_sample, zero_rows. apply erase_bind; [apply er_mapC; er|intros; apply erase_quiet]. Qed.
Lemma er_ng_one F tbl sk b rnd : erase (ng_one_sample_c F tbl sk b rnd) = ng_one_sample F tbl sk b rnd.
Proof. unfold ng_one_sample_c, ng_one_sample. apply erase_bind; [apply er_power; er|intros; apply erase_quiet]. Qed.
Lemma er_ng_neg F tbl sk b rnd : erase (ng_neg_secret_sample_c F tbl sk b rnd) = ng_neg_secret_sample F tbl sk b rnd.
Proof. unfold ng_neg_secret_sample_c, ng_neg_secret_sample. apply erase_bind; [apply er_power; intros; er|intros; apply erase_quiet]. Qed.
Local Hint Resolve er_ng_zero er_ng_one er_ng_neg : er.
Lemma er_rgsw_zero F tbl sk b r0 r1 : erase (nrgsw_zero_sample_c F tbl sk b r0 r1) = nrgsw_zero_sample F tbl sk b r0 r1.
Proof. unfold nrgsw_zero_sample_c, nrgsw_zero_sample. er. Qed.
Lemma er_rgsw_one F tbl sk b r0 r1 : erase (nrgsw_one_sample_c F tbl sk b r0 r1) = nrgsw_one_sample F tbl sk b r0 r1.
Proof. unfold nrgsw_one_sample_c, nrgsw_one_sample. er. Qed.
Local Hint Resolve er_rgsw_zero er_rgsw_one : er.
Lemma er_br_key F tbl kp R : erase (br_key_generate_c F tbl kp R) = br_key_generate F tbl kp R.
Proof.
  unfold br_key_generate_c, br_key_generate, binary_generate_c, binary_generate, ternary_generate_c, ternary_generate.
  destruct (pp_key (kp_par kp)); (apply erase_bind; [apply er_mapC2; intros s r|intros; apply erase_quiet]).
  - destruct (s =? 0); er.
  - destruct r as [[r0 r0'] [r1 r1']]. destruct (s =? 1); [er|]. destruct (s =? 0); er.
Qed.
Lemma er_rks_rows F tbl sk bv z rnd : erase (rks_rows_c F tbl sk bv z rnd) = rks_rows F tbl sk bv z rnd.
Proof. revert z. induction rnd as [|[a e] rnd IH]; intros z; [reflexivity|]. cbn [rks_rows_c rks_rows]. er. Qed.
Local Hint Resolve er_br_key er_rks_rows : er.
Lemma er_rks_generate F tbl bits sk z Z' rnd : erase (rks_generate_c F tbl bits sk z Z' rnd) = rks_generate F tbl bits sk z Z' rnd.
Proof.
  unfold rks_generate_c, rks_generate. cbv zeta. do 5 (apply erase_bind; [auto using erase_quiet with er|intros ?]).
  apply erase_bind; [|intros; apply erase_quiet]. destruct (_ =? _)%nat; [er|].
  apply erase_bind; [apply erase_quiet|intros _]. apply er_mapC2. intros. er.
Qed.
Local Hint Resolve er_rks_generate : er.
Lemma er_key_pack F tbl P w rw g : erase (key_pack_new_c F tbl P w rw g) = key_pack_new F tbl P w rw g.
Proof. unfold key_pack_new_c, key_pack_new. er. Qed.
Lemma er_eval_key B F tbl kp R : erase (eval_key_new_c B F tbl kp R) = eval_key_new B F tbl kp R.
Proof. unfold eval_key_new_c, eval_key_new. cbv zeta. apply erase_bind; [er|intros br]. apply erase_bind; [|intros; apply erase_quiet]. destruct (pp_steps (kp_par kp)); er. Qed.

Ltac gate := unfold gate_c; cbv zeta; repeat rewrite <- bind_assoc; er.
Lemma er_nand B F tbl E c0 c1 : erase (g_nand_c B F tbl E c0 c1) = g_nand B F tbl E c0 c1.
Proof. unfold g_nand_c, g_nand. gate. Qed.
Lemma er_and B F tbl E c0 c1 : erase (g_and_c B F tbl E c0 c1) = g_and B F tbl E c0 c1.
Proof. unfold g_and_c, g_and. gate. Qed.
Lemma er_or B F tbl E c0 c1 : erase (g_or_c B F tbl E c0 c1) = g_or B F tbl E c0 c1.
Proof. unfold g_or_c, g_or. gate. Qed.
Lemma er_nor B F tbl E c0 c1 : erase (g_nor_c B F tbl E c0 c1) = g_nor B F tbl E c0 c1.
Proof. unfold g_nor_c, g_nor. gate. Qed.
Lemma er_xor B F tbl E c0 c1 : erase (g_xor_c B F tbl E c0 c1) = g_xor B F tbl E c0 c1.
Proof. unfold g_xor_c, g_xor, gate_c. cbv zeta. destruct (lwe_ops B (ek_par E)); [|reflexivity]. cbn [bind]. rewrite <- bind_assoc. er. Qed.
Lemma er_xnor B F tbl E c0 c1 : erase (g_xnor_c B F tbl E c0 c1) = g_xnor B F tbl E c0 c1.
Proof. unfold g_xnor_c, g_xnor, gate_c. cbv zeta. destruct (lwe_ops B (ek_par E)); [|reflexivity]. cbn [bind]. rewrite <- bind_assoc. er. Qed.
Lemma er_majority B F tbl E c0 c1 c2 : erase (g_majority_c B F tbl E c0 c1 c2) = g_majority B F tbl E c0 c1 c2.
Proof. unfold g_majority_c, g_majority, gate_c. cbv zeta. destruct (lwe_ops B (ek_par E)); [|reflexivity]. cbn [bind]. rewrite <- bind_assoc. er. Qed.
Local Hint Resolve er_and : er.
Lemma er_mux B F tbl E c0 c1 c2 : erase (g_mux_c B F tbl E c0 c1 c2) = g_mux B F tbl E c0 c1 c2.
Proof. unfold g_mux_c, g_mux, gate_c. cbv zeta. er. Qed.

(** * Which calls are made *)

Definition makes {A} (m : counted A) (t : list dir) : Prop := forall t' a, m = Some (t', a) -> t' = t.
Lemma makes_quiet {A} (x : option A) : makes (quiet x) [].
Proof. intros t a E. destruct x; inversion E; reflexivity. Qed.
Lemma makes_none {A} t : makes (@None (list dir * A)) t.
Proof. intros t' a E. discriminate. Qed.
Lemma makes_bind {A C} (m : counted A) (f : A -> counted C) t1 t2 :
  makes m t1 -> (forall a, erase m = Some a -> makes (f a) t2) -> makes (cbind m f) (t1 ++ t2).
Proof.
  intros Hm Hf t c E. destruct m as [[t' a]|] eqn:Em; [|discriminate]. cbn in E. destruct (f a) as [[t'' c']|] eqn:Ef; [|discriminate].
  inversion E. rewrite (Hm _ _ eq_refl). rewrite (Hf a eq_refl _ _ Ef). reflexivity.
Qed.
Lemma makes_bind_l {A C} (m : counted A) (f : A -> counted C) t :
  makes m [] -> (forall a, erase m = Some a -> makes (f a) t) -> makes (cbind m f) t.
Proof. intros. apply (makes_bind m f [] t); assumption. Qed.
Lemma makes_bind_r {A C} (m : counted A) (f : A -> counted C) t :
  makes m t -> (forall a, erase m = Some a -> makes (f a) []) -> makes (cbind m f) t.
Proof. intros. rewrite <- (app_nil_r t). apply makes_bind; assumption. Qed.
Lemma makes_some {A} (m : counted A) m' t y : erase m = m' -> makes m t -> m' = Some y -> m = Some (t, y).
Proof. intros E H Em. destruct m as [[t' a]|] eqn:Em'; cbn in E; [|congruence]. rewrite (H t' a eq_refl). congruence. Qed.
Lemma makes_erase {A} (m : counted A) m' t : erase m = m' -> makes m t -> forall t' y, m = Some (t', y) -> m' = Some y /\ t' = t.
Proof. intros E H t' y Em. split; [|exact (H _ _ Em)]. rewrite <- E, Em. reflexivity. Qed.
(** Skip code that does not transform, keeping what it returned. *)
Ltac sk x H := apply makes_bind_l; [apply makes_quiet|intros x H; rewrite erase_quiet in H].

Section Calls.
Variable F : field.
Variable tbl : tables.
Variable w : dir -> list dir.
Definition ticks (T : any_table) : Prop :=
  (forall v, makes (t_transform_slice_c F T v) (w Fwd)) /\ (forall v, makes (t_inverse_transform_slice_c F T v) (w Inv)).
Hypothesis Hw : forall k T, tbl k = Some T -> ticks T.
Let cl := flat_map w.

Lemma cl_app a b : cl (a ++ b) = cl a ++ cl b.
Proof. apply flat_map_app. Qed.
Lemma cl_one d : cl [d] = w d.
Proof. cbn. apply app_nil_r. Qed.
Lemma repeat_plus (a b : nat) (x : dir) : repeat x (a + b) = repeat x a ++ repeat x b.
Proof. apply repeat_app. Qed.

Lemma mk_into_ntt a : makes (into_ntt_c F tbl a) (cl [Fwd]).
Proof. rewrite cl_one. unfold into_ntt_c. sk u Hu. sk T HT. apply (Hw _ _ HT). Qed.
Lemma mk_into_native a : makes (into_native_c F tbl a) (cl [Inv]).
Proof. rewrite cl_one. unfold into_native_c. sk u Hu. sk T HT. apply (Hw _ _ HT). Qed.
Lemma mk_p_mul a b : makes (p_mul_assign_c F tbl a b) (cl [Fwd; Fwd; Inv]).
Proof.
  change [Fwd; Fwd; Inv] with ([Fwd] ++ [Fwd] ++ [Inv]). rewrite !cl_app, !cl_one. unfold p_mul_assign_c.
  sk u Hu. sk u' Hu'. sk T HT. apply makes_bind; [apply (Hw _ _ HT)|intros rhs _]. apply makes_bind; [apply (Hw _ _ HT)|intros lhs _].
  sk v Hv. apply (Hw _ _ HT).
Qed.
Lemma mk_from_ntt x : makes (rlwe_from_ntt_c F tbl x) (cl [Inv; Inv]).
Proof.
  change [Inv; Inv] with ([Inv] ++ [Inv]). rewrite cl_app. unfold rlwe_from_ntt_c. apply makes_bind; [apply mk_into_native|intros a _].
  apply makes_bind_r; [apply mk_into_native|intros b _]. apply makes_quiet.
Qed.
Lemma mk_inverse x d : makes (inverse_transform_inplace_c F tbl x d) (cl [Inv; Inv]).
Proof.
  change [Inv; Inv] with ([Inv] ++ [Inv]). rewrite cl_app, cl_one. unfold inverse_transform_inplace_c.
  sk u Hu. sk T HT. sk u1 Hu1. sk u2 Hu2. apply makes_bind; [apply (Hw _ _ HT)|intros a _].
  apply makes_bind_r; [apply (Hw _ _ HT)|intros b _]. apply makes_quiet.
Qed.
Lemma mk_gadget_loop T step b dlen rows : ticks T -> forall f acc,
  makes (gadget_loop_c F T step b dlen rows f acc) (cl (repeat Fwd (length rows))).
Proof.
  intros HT. induction rows as [|g rows IH]; intros f acc; [apply makes_quiet|]. cbn [gadget_loop_c length repeat].
  change (Fwd :: repeat Fwd (length rows)) with ([Fwd] ++ repeat Fwd (length rows)). rewrite cl_app, cl_one.
  sk u Hu. sk df Hd. destruct df as [d f']. apply makes_bind; [apply HT|intros d' _]. sk acc' Ha. apply IH.
Qed.
Lemma lookup_ticks f T : lookup tbl f = Some T -> ticks T.
Proof. unfold lookup. destruct (len_pow2 (length f)); [|discriminate]. apply Hw. Qed.
Lemma mk_ext x R d p m : makes (rlwe_mul_assign_ntt_rgsw_c F tbl x R d p m)
  (cl (repeat Fwd (length (gd (c_neg R)) + length (gd (c_m R))) ++ [Inv; Inv])).
Proof.
  rewrite repeat_plus, <- app_assoc, !cl_app. unfold rlwe_mul_assign_ntt_rgsw_c. apply makes_bind.
  - unfold ng_mul_polynomial_inplace_fast_c. sk T HT. sk u Hu. apply mk_gadget_loop, (lookup_ticks _ _ HT).
  - intros t _. apply makes_bind; [|intros; apply mk_inverse].
    unfold nrlwe_add_gadget_mul_assign_fast_c. sk u Hu. sk T HT. apply mk_gadget_loop, (lookup_ticks _ _ HT).
Qed.
Definition rows_of (l : nat) (R : rgsw) : Prop := length (gd (c_neg R)) = l /\ length (gd (c_m R)) = l.
Lemma mk_product l x R d p m : rows_of l R -> makes (rlwe_mul_assign_ntt_rgsw_c F tbl x R d p m) (cl (product_calls l)).
Proof. intros (H1 & H2). pose proof (mk_ext x R d p m) as H. rewrite H1, H2 in H. unfold product_calls. replace (2 * l)%nat with (l + l)%nat by lia. exact H. Qed.

Lemma rotation_succ l z : rotation_calls l (S z) = product_calls l ++ rotation_calls l z.
Proof. reflexivity. Qed.
Lemma mk_binary_loop l n key : Forall (rows_of l) key -> forall a ext acc,
  makes (binary_loop_c F tbl n key a ext acc) (cl (rotation_calls l (nonzeros (firstn (length key) a)))).
Proof.
  intros Hk. induction Hk as [|s key Hs _ IH]; intros a ext acc; [apply makes_quiet|].
  destruct a as [|a0 a]; [apply makes_quiet|]. cbn [binary_loop_c length firstn]. unfold nonzeros. cbn [filter].
  destruct (a0 =? 0); cbn [negb]; [apply IH|]. cbn [length]. rewrite rotation_succ, cl_app.
  sk ext' He. apply makes_bind; [apply mk_product; exact Hs|intros ext'' _]. sk acc' Ha. apply IH.
Qed.
Lemma ng_add_mul_length l r v dst d : ng_add_mul_inplace F l r v dst = Some d -> length d = length dst.
Proof.
  revert l r d. induction dst as [|x dst IH]; intros l r d E; [destruct l; inversion E; reflexivity|]. destruct l as [|y l]; [inversion E; reflexivity|].
  destruct r as [|z r]; [inversion E; reflexivity|]. cbn [ng_add_mul_inplace] in E. destruct (nrlwe_add_mul_inplace F y z v x); [|discriminate].
  cbn [bind] in E. destruct (ng_add_mul_inplace F l r v dst) as [t|] eqn:Et; [|discriminate]. inversion E. cbn. now rewrite (IH _ _ _ Et).
Qed.
Lemma add_mul_rows l R S v dst d : nrgsw_add_mul_inplace F R S v dst = Some d -> rows_of l dst -> rows_of l d.
Proof.
  unfold nrgsw_add_mul_inplace, gadget_add_mul_inplace. intros E (H1 & H2).
  destruct (ng_add_mul_inplace F (gd (c_neg R)) _ v _) as [d0|] eqn:E0; [|discriminate]. cbn [bind] in E.
  destruct (ng_add_mul_inplace F (gd (c_m R)) _ v _) as [d1|] eqn:E1; [|discriminate]. inversion E. split; cbn [c_neg c_m gd].
  - now rewrite (ng_add_mul_length _ _ _ _ _ E0).
  - now rewrite (ng_add_mul_length _ _ _ _ _ E1).
Qed.
Lemma mk_ternary_loop l T n key : forall a ext ek acc, rows_of l ek ->
  makes (ternary_loop_c F tbl T n key a ext ek acc) (cl (rotation_calls l (nonzeros (firstn (length key) a)))).
Proof.
  induction key as [|[s0 s1] key IH]; intros a ext ek acc He; [apply makes_quiet|].
  destruct a as [|a0 a]; [apply makes_quiet|]. cbn [ternary_loop_c length firstn]. unfold nonzeros. cbn [filter].
  destruct (a0 =? 0); cbn [negb]; [apply IH; exact He|]. cbn [length]. rewrite rotation_succ, cl_app.
  sk na Hna. sk d Hd. sk ek' Hek. pose proof (add_mul_rows l _ _ _ _ _ Hek He) as He'.
  sk ext' Hext. apply makes_bind; [apply mk_product; exact He'|intros ext'' _]. sk acc' Ha. apply IH. exact He'.
Qed.

(** A rotation key of [n] entries, with [l] rows per half if binary. *)
Definition rot_shape (l n : nat) (K : br_key) : Prop :=
  match K with BrBinary k => length k = n /\ Forall (rows_of l) k | BrTernary k => length k = n end.
Lemma mk_blind b n K lut c : rot_shape (bs_len b) n K ->
  makes (blind_rotate_c F tbl K lut c b) (cl (rotation_calls (bs_len b) (nonzeros (firstn n (la c))))).
Proof.
  destruct K as [k|k]; cbn [rot_shape blind_rotate_c].
  - intros (<- & Hk). unfold binary_blind_rotate_c. cbv zeta. sk l1 H1. sk acc Ha. apply mk_binary_loop. exact Hk.
  - intros <-. unfold ternary_blind_rotate_c. cbv zeta. sk T HT. sk l1 H1. sk acc Ha. apply mk_ternary_loop.
    split; cbn [nrgsw_zero c_neg c_m gd]; apply repeat_length.
Qed.

Lemma zipA_len f l : forall r t, zipA f l r = Some t -> length t = length l.
Proof.
  induction l as [|x l IH]; intros [|y r] t E; try (inversion E; reflexivity). cbn [zipA] in E.
  destruct (f x y); [|discriminate]. cbn [bind] in E. destruct (zipA f l r) as [t'|] eqn:Et; [|discriminate].
  inversion E. cbn. now rewrite (IH _ _ Et).
Qed.
Lemma add_assign_len x y r : rlwe_add_assign F x y = Some r -> length (ra r) = length (ra x).
Proof.
  unfold rlwe_add_assign, on_both, p_add_assign, same_len, assert. destruct (_ =? _)%nat; [|discriminate]. cbn [bind].
  destruct (zipA (f_add F) (ra x) (ra y)) as [a|] eqn:Ea; [|discriminate]. cbn [bind]. destruct (_ =? _)%nat; [|discriminate]. cbn [bind].
  destruct (zipA (f_add F) (rb x) (rb y)) as [b|] eqn:Eb; [|discriminate]. intros E. inversion E. cbn. exact (zipA_len _ _ _ _ Ea).
Qed.
Ltac step E := match type of E with bind ?m _ = Some _ => let H := fresh "Hb" in destruct m eqn:H; [cbn [bind] in E|discriminate E] end.
Lemma binary_loop_len n key : forall a ext acc r, binary_loop F tbl n key a ext acc = Some r -> length (ra r) = length (ra acc).
Proof.
  induction key as [|s key IH]; intros [|a0 a] ext acc r E; try (inversion E; reflexivity). cbn [binary_loop] in E.
  destruct (a0 =? 0); [exact (IH _ _ _ _ E)|]. step E. step E. step E. rewrite (IH _ _ _ _ E). exact (add_assign_len _ _ _ Hb1).
Qed.
Lemma ternary_loop_len T n key : forall a ext ek acc r, ternary_loop F tbl T n key a ext ek acc = Some r -> length (ra r) = length (ra acc).
Proof.
  induction key as [|[s0 s1] key IH]; intros [|a0 a] ext ek acc r E; try (inversion E; reflexivity). cbn [ternary_loop] in E.
  destruct (a0 =? 0); [exact (IH _ _ _ _ _ E)|]. repeat step E. rewrite (IH _ _ _ _ _ E). eapply add_assign_len. eassumption.
Qed.
Lemma rlwe_new_len a b r : rlwe_new a b = Some r -> ra r = a.
Proof. unfold rlwe_new, same_len, assert. destruct (_ =? _)%nat; [|discriminate]. intros E. now inversion E. Qed.
Lemma blind_len K lut c b r : blind_rotate F tbl K lut c b = Some r -> length (ra r) = length lut.
Proof.
  destruct K as [k|k]; cbn [blind_rotate]; unfold binary_blind_rotate, ternary_blind_rotate; intros E; repeat step E.
  - rewrite (binary_loop_len _ _ _ _ _ _ E). rewrite (rlwe_new_len _ _ _ Hb0). apply repeat_length.
  - rewrite (ternary_loop_len _ _ _ _ _ _ _ _ E). rewrite (rlwe_new_len _ _ _ Hb1). apply repeat_length.
Qed.

Lemma chunks_exact_len m : (0 < m)%nat -> forall fuel l, (length l <= fuel)%nat -> length (chunks_exact fuel m l) = (length l / m)%nat.
Proof.
  intros Hm. induction fuel as [|fuel IH]; intros l Hl.
  - replace (length l) with 0%nat by lia. cbn. rewrite Nat.div_0_l by lia. reflexivity.
  - cbn [chunks_exact]. destruct (Nat.leb_spec m (length l)) as [H|H].
    + cbn [length]. rewrite IH by (rewrite skipn_length; lia). rewrite skipn_length.
      replace (length l) with ((length l - m) + 1 * m)%nat at 2 by lia. rewrite Nat.div_add by lia. lia.
    + symmetry. apply Nat.div_small. exact H.
Qed.
Lemma chunks_len m l : (0 < m)%nat -> length (chunks m l) = (length l / m)%nat.
Proof. intros. apply chunks_exact_len; [assumption|lia]. Qed.
Lemma next_pow2_pos n : (0 < next_pow2 n)%nat.
Proof. unfold next_pow2. pose proof (Nat.pow_nonzero 2 (Nat.log2_up n)). lia. Qed.

Lemma mk_rks_loop l ext key : Forall (fun g => length (gd g) = l) key -> forall cs init,
  makes (rks_loop_c F tbl ext key cs init) (cl (repeat Fwd (Nat.min (length key) (length cs) * l))).
Proof.
  intros Hk. induction Hk as [|g key Hg _ IH]; intros cs init; [apply makes_quiet|].
  destruct cs as [|c cs]; [apply makes_quiet|]. cbn [rks_loop_c length Nat.min Nat.mul]. rewrite repeat_plus, cl_app.
  apply makes_bind; [|intros init' _; apply IH]. unfold nrlwe_sub_gadget_mul_fast_c. sk T HT. sk f Hf. rewrite <- Hg.
  apply mk_gadget_loop, (lookup_ticks _ _ HT).
Qed.
Lemma mapM_len {A C} (f : A -> option C) l : forall v, mapM f l = Some v -> length v = length l.
Proof.
  induction l as [|x l IH]; intros v E; [now inversion E|]. cbn [mapM] in E. destruct (f x); [|discriminate]. cbn [bind] in E.
  destruct (mapM f l) eqn:El; [|discriminate]. inversion E. cbn. now rewrite (IH _ eq_refl).
Qed.
Lemma neg_head_len l v : neg_head_rev_tail F l = Some v -> length v = length l.
Proof. destruct l; [discriminate|]. cbn [neg_head_rev_tail]. destruct (f_neg F z); [|discriminate]. intros E. inversion E. cbn. now rewrite rev_length. Qed.

(** A ring switching key for [n] coefficients and ring dimension [N], [l] rows per block. *)
Definition rks_shape (l n N : nat) (K : rlwe_ks_key) : Prop :=
  rk_dim K = n /\ length (rk_key K) = (N / next_pow2 n)%nat /\ Forall (fun g => length (gd g) = l) (rk_key K).
Lemma mk_rks l n N K ct : rks_shape l n N K -> length (ra ct) = N ->
  makes (rks_key_switch_rlwe_c F tbl K ct) (cl (switch_calls (N / next_pow2 n) l)).
Proof.
  intros (Hd & Hl & Hk) HN. unfold rks_key_switch_rlwe_c, switch_calls. cbv zeta. rewrite Hd, cl_app. sk b0 Hb. sk cs Hcs.
  assert (L : length cs = (N / next_pow2 n)%nat).
  { destruct (length (ra ct) =? next_pow2 n)%nat.
    - inversion Hcs. rewrite chunks_len by apply next_pow2_pos. now rewrite HN.
    - step Hcs. rewrite (mapM_len _ _ _ Hcs), chunks_len by apply next_pow2_pos. now rewrite (neg_head_len _ _ Hb0), HN. }
  unfold rks_inner_c. apply makes_bind.
  - pose proof (mk_rks_loop l (next_pow2 n) (rk_key K) Hk cs (mk_rlwe (repeat 0 (next_pow2 n)) (repeat b0 (next_pow2 n)))) as H.
    now rewrite Hl, L, Nat.min_id in H.
  - intros y _. apply makes_bind_r; [apply mk_from_ntt|intros x _; apply makes_quiet].
Qed.

(** Evaluation keys of the right shape. *)
Definition ek_shape (N n : nat) (E : eval_key) : Prop :=
  let P := ek_par E in
  rot_shape (bs_len (pp_basis P)) n (ek_br E) /\
  match pp_steps P with
  | BrKsMs => exists K, ek_ks E = KsRlwe K /\ rks_shape (levels F (pp_ks_bits P)) n N K
  | _ => True
  end.
Lemma mk_bootstrap B E c lut N n c' : ek_shape N n E -> length lut = N -> 0 <= pp_N (ek_par E) < 2 ^ 63 ->
  lwe_modulus_switch_assign B (pp_q (ek_par E)) (2 * pp_N (ek_par E)) c = Some c' ->
  makes (bootstrap_c B F tbl E c lut) (cl (bootstrap_calls F (ek_par E) N n (nonzeros (firstn n (la c'))))).
Proof.
  intros (Hr & Hs) HN HNN Hc. unfold bootstrap_c, bootstrap_calls. cbv zeta. rewrite cl_app.
  sk tw Htw. sk u Hu. sk c1 Hc1.
  assert (Etw : tw = 2 * pp_N (ek_par E)).
  { unfold ushl in Htw. change (1 <? 64) with true in Htw. cbv iota in Htw. injection Htw as Htw. rewrite <- Htw.
    change (2 ^ 1) with 2. change (2 ^ 63) with 9223372036854775808 in HNN. change (2 ^ 64) with 18446744073709551616. rewrite Z.mod_small; lia. }
  rewrite Etw, Hc in Hc1. inversion Hc1. subst c1. apply makes_bind; [apply mk_blind; exact Hr|intros acc Hacc].
  rewrite er_blind in Hacc. pose proof (blind_len _ _ _ _ _ Hacc) as La.
  sk b0 H0. sk e He. sk e' He'. sk b1 H1.
  destruct (pp_steps (ek_par E)).
  - sk l Hl. sk l' Hl'. destruct (ek_ks E); [apply makes_none|apply makes_quiet|apply makes_none].
  - destruct Hs as (K & -> & HK). apply makes_bind_r; [apply (mk_rks _ _ _ _ _ HK); cbn [ra]; congruence|intros l Hl; apply makes_quiet].
  - sk l Hl. apply makes_quiet.
Qed.

(** ** Key generation *)

Lemma mk_zero_sample sk a e : makes (nrlwe_zero_sample_c F tbl sk a e) (cl [Fwd]).
Proof. unfold nrlwe_zero_sample_c. apply makes_bind_r; [apply mk_into_ntt|intros v _]. sk b Hb. apply makes_quiet. Qed.
Lemma mk_value_sample sk a e x : makes (nrlwe_value_sample_c F tbl sk a e x) (cl [Fwd]).
Proof. unfold nrlwe_value_sample_c. sk e' He. apply makes_bind_r; [apply mk_into_ntt|intros v _]. sk b Hb. apply makes_quiet. Qed.
Lemma mk_mapC {A C} (f : A -> counted C) m l : (forall x, In x l -> makes (f x) (cl (repeat Fwd m))) ->
  makes (mapC f l) (cl (repeat Fwd (length l * m))).
Proof.
  induction l as [|x l IH]; intros H; [apply makes_quiet|]. cbn [mapC length Nat.mul]. rewrite repeat_plus, cl_app.
  apply makes_bind; [apply H; now left|intros y _]. apply makes_bind_r; [apply IH; intros; apply H; now right|intros t _; apply makes_quiet].
Qed.
Lemma mk_mapC2 {A A' C} (f : A -> A' -> counted C) m l : forall l', (forall x y, In y l' -> makes (f x y) (cl (repeat Fwd m))) ->
  makes (mapC2 f l l') (cl (repeat Fwd (Nat.min (length l) (length l') * m))).
Proof.
  induction l as [|x l IH]; intros l' H; [apply makes_quiet|]. destruct l' as [|y l']; [apply makes_quiet|].
  cbn [mapC2 length Nat.min Nat.mul]. rewrite repeat_plus, cl_app.
  apply makes_bind; [apply H; now left|intros z _]. apply makes_bind_r; [apply IH; intros; apply H; now right|intros t _; apply makes_quiet].
Qed.
Lemma mk_power row bv rnd : (forall p a e, makes (row p a e) (cl [Fwd])) -> forall power,
  makes (power_rows_peeled_c F row bv power rnd) (cl (repeat Fwd (length rnd))).
Proof.
  intros H. induction rnd as [|[a e] rnd IH]; intros power; [apply makes_none|].
  destruct rnd as [|y rnd]; cbn [power_rows_peeled_c].
  - apply makes_bind_r; [apply H|intros r _; apply makes_quiet].
  - change (repeat Fwd (length ((a, e) :: y :: rnd))) with ([Fwd] ++ repeat Fwd (length (y :: rnd))). rewrite cl_app.
    apply makes_bind; [apply H|intros r _]. sk pw Hp. apply makes_bind_r; [apply IH|intros t _; apply makes_quiet].
Qed.
Lemma firstn_len {A} l (rnd : list A) : (l <= length rnd)%nat -> length (firstn l rnd) = l.
Proof. intros. rewrite firstn_length. lia. Qed.
Lemma mk_ng_zero sk b rnd : (bs_len b <= length rnd)%nat -> makes (ng_zero_sample_c F tbl sk b rnd) (cl (repeat Fwd (bs_len b))).
Proof.
  intros H. unfold ng_zero_sample_c. apply makes_bind_r; [|intros d _; apply makes_quiet].
  pose proof (mk_mapC (fun ae => nrlwe_zero_sample_c F tbl sk (fst ae) (snd ae)) 1 (firstn (bs_len b) rnd) (fun x _ => mk_zero_sample sk _ _)) as M.
  rewrite (firstn_len _ _ H), Nat.mul_1_r in M. exact M.
Qed.
Lemma mk_ng_one sk b rnd : (bs_len b <= length rnd)%nat -> makes (ng_one_sample_c F tbl sk b rnd) (cl (repeat Fwd (bs_len b))).
Proof.
  intros H. unfold ng_one_sample_c. apply makes_bind_r; [|intros d _; apply makes_quiet].
  pose proof (mk_power (fun power a e => nrlwe_value_sample_c F tbl sk a e power) (bs_basis b) (firstn (bs_len b) rnd) (fun p a e => mk_value_sample sk a e p) 1) as M.
  rewrite (firstn_len _ _ H) in M. exact M.
Qed.
Lemma mk_ng_neg sk b rnd : (bs_len b <= length rnd)%nat -> makes (ng_neg_secret_sample_c F tbl sk b rnd) (cl (repeat Fwd (bs_len b))).
Proof.
  intros H. unfold ng_neg_secret_sample_c. apply makes_bind_r; [|intros d _; apply makes_quiet].
  match goal with |- makes (power_rows_peeled_c F ?r ?bv 1 ?l) _ => assert (M : makes (power_rows_peeled_c F r bv 1 l) (cl (repeat Fwd (length l)))) end.
  { apply mk_power. intros p a e. apply makes_bind_r; [apply mk_zero_sample|intros r _]. sk a' Ha. apply makes_quiet. }
  rewrite (firstn_len _ _ H) in M. exact M.
Qed.
Lemma mk_rgsw_zero sk b r0 r1 : (bs_len b <= length r0)%nat -> (bs_len b <= length r1)%nat ->
  makes (nrgsw_zero_sample_c F tbl sk b r0 r1) (cl (repeat Fwd (2 * bs_len b))).
Proof.
  intros H0 H1. replace (2 * bs_len b)%nat with (bs_len b + bs_len b)%nat by lia. rewrite repeat_plus, cl_app.
  unfold nrgsw_zero_sample_c. apply makes_bind; [apply mk_ng_zero; exact H0|intros x _].
  apply makes_bind_r; [apply mk_ng_zero; exact H1|intros y _; apply makes_quiet].
Qed.
Lemma mk_rgsw_one sk b r0 r1 : (bs_len b <= length r0)%nat -> (bs_len b <= length r1)%nat ->
  makes (nrgsw_one_sample_c F tbl sk b r0 r1) (cl (repeat Fwd (2 * bs_len b))).
Proof.
  intros H0 H1. replace (2 * bs_len b)%nat with (bs_len b + bs_len b)%nat by lia. rewrite repeat_plus, cl_app.
  unfold nrgsw_one_sample_c. apply makes_bind; [apply mk_ng_neg; exact H0|intros x _].
  apply makes_bind_r; [apply mk_ng_one; exact H1|intros y _; apply makes_quiet].
Qed.
Lemma mk_br_key kp R : enough_draws (kp_par kp) (length (kp_lwe kp)) R ->
  makes (br_key_generate_c F tbl kp R) (cl (repeat Fwd (rotation_key_forward (kp_par kp) (length (kp_lwe kp))))).
Proof.
  unfold enough_draws, rotation_key_forward, br_key_generate_c. cbv zeta. destruct (pp_key (kp_par kp)); intros (L & H);
    (apply makes_bind_r; [|intros k _; apply makes_quiet]).
  - assert (M : makes (binary_generate_c F tbl (kp_lwe kp) (kp_ntt kp) (pp_basis (kp_par kp)) (kd_bin R))
      (cl (repeat Fwd (Nat.min (length (kp_lwe kp)) (length (kd_bin R)) * (2 * bs_len (pp_basis (kp_par kp))))))).
    { apply mk_mapC2. intros s r Hr. destruct (proj1 (Forall_forall _ _) H r Hr) as (h0 & h1).
      destruct (s =? 0); [apply mk_rgsw_zero|apply mk_rgsw_one]; assumption. }
    rewrite L, Nat.min_id in M. exact M.
  - assert (M : makes (ternary_generate_c F tbl (kp_lwe kp) (kp_ntt kp) (pp_basis (kp_par kp)) (kd_ter R))
      (cl (repeat Fwd (Nat.min (length (kp_lwe kp)) (length (kd_ter R)) * (4 * bs_len (pp_basis (kp_par kp))))))).
    { apply mk_mapC2. intros s r Hr. destruct (proj1 (Forall_forall _ _) H r Hr) as (h0 & h1 & h2 & h3).
      destruct r as [[r0 r0'] [r1 r1']]. cbn [fst snd] in *.
      replace (4 * bs_len (pp_basis (kp_par kp)))%nat with (2 * bs_len (pp_basis (kp_par kp)) + 2 * bs_len (pp_basis (kp_par kp)))%nat by lia.
      rewrite repeat_plus, cl_app.
      destruct (s =? 1); [|destruct (s =? 0)];
        (apply makes_bind; [first [apply mk_rgsw_zero; assumption|apply mk_rgsw_one; assumption]|intros x _]);
        (apply makes_bind_r; [first [apply mk_rgsw_zero; assumption|apply mk_rgsw_one; assumption]|intros y _]); apply makes_quiet. }
    rewrite L, Nat.min_id in M. exact M.
Qed.
Lemma mk_rks_rows sk bv rnd : forall z, makes (rks_rows_c F tbl sk bv z rnd) (cl (repeat Fwd (length rnd))).
Proof.
  induction rnd as [|[a e] rnd IH]; intros z; [apply makes_quiet|]. cbn [rks_rows_c].
  change (repeat Fwd (length ((a, e) :: rnd))) with ([Fwd] ++ repeat Fwd (length rnd)). rewrite cl_app.
  apply makes_bind; [apply mk_zero_sample|intros r _]. sk rb' Hr. sk z' Hz. apply makes_bind_r; [apply IH|intros t _; apply makes_quiet].
Qed.
Lemma mk_rks_generate bits sk z S rnd :
  makes (rks_generate_c F tbl bits sk z S rnd)
    (cl (repeat Fwd (1 + (if (next_pow2 (length sk) =? length z)%nat then levels F bits
                          else length z / next_pow2 (length sk) * (1 + levels F bits))))).
Proof.
  rewrite repeat_plus, cl_app. unfold rks_generate_c. cbv zeta. sk u Hu. sk b Hb. sk s Hs.
  apply makes_bind; [apply mk_into_ntt|intros lsk _]. sk bv Hbv.
  apply makes_bind_r; [|intros key _; apply makes_quiet]. unfold levels. rewrite Hb.
  assert (One : forall z0 r, makes (let! _ := quiet (assert (length r =? bs_len b)%nat) in
      let! rows := rks_rows_c F tbl lsk bv z0 r in quiet (Some (mk_gadget rows b))) (cl (repeat Fwd (bs_len b)))).
  { intros z0 r. sk v Hv. apply makes_bind_r; [|intros rows _; apply makes_quiet]. unfold assert in Hv.
    destruct (Nat.eqb_spec (length r) (bs_len b)) as [E|]; [|discriminate]. rewrite <- E. apply mk_rks_rows. }
  destruct (next_pow2 (length sk) =? length z)%nat.
  - sk r Hr. apply makes_bind_r; [apply One|intros g _; apply makes_quiet].
  - sk v Hv. unfold assert in Hv. destruct (Nat.eqb_spec (length (chunks (next_pow2 (length sk)) z)) (length rnd)) as [E|]; [|discriminate].
    rewrite chunks_len in E by apply next_pow2_pos.
    pose proof (mk_mapC2 (fun z0 r => let! z1 := into_ntt_c F tbl z0 in
      let! _ := quiet (assert (length r =? bs_len b)%nat) in
      let! rows := rks_rows_c F tbl lsk bv z1 r in quiet (Some (mk_gadget rows b))) (1 + bs_len b) (chunks (next_pow2 (length sk)) z) rnd) as M.
    rewrite chunks_len, <- E, Nat.min_id in M by apply next_pow2_pos. apply M.
    intros x y _. rewrite repeat_plus, cl_app. apply makes_bind; [apply mk_into_ntt|intros z1 _; apply One].
Qed.
Lemma mk_key_pack P words rwords gauss : makes (key_pack_new_c F tbl P words rwords gauss) (cl [Fwd]).
Proof. unfold key_pack_new_c. sk z Hz. sk s Hs. apply makes_bind_r; [apply mk_into_ntt|intros S _; apply makes_quiet]. Qed.
Lemma mk_eval_key B kp R : enough_draws (kp_par kp) (length (kp_lwe kp)) R ->
  makes (eval_key_new_c B F tbl kp R) (cl (repeat Fwd (key_forward F (kp_par kp) (length (kp_ring kp)) (length (kp_lwe kp))))).
Proof.
  intros H. unfold key_forward. rewrite repeat_plus, cl_app. unfold eval_key_new_c. cbv zeta.
  apply makes_bind; [apply mk_br_key; exact H|intros br _]. apply makes_bind_r; [|intros ks _; apply makes_quiet].
  unfold switch_key_forward. destruct (pp_steps (kp_par kp)).
  - sk K HK. apply makes_quiet.
  - apply makes_bind_r; [apply mk_rks_generate|intros K _; apply makes_quiet].
  - apply makes_quiet.
Qed.

(** ** Shape of generated keys *)

Lemma mapM2_len {A A' C} (f : A -> A' -> option C) l : forall l' v, mapM2 f l l' = Some v -> length v = Nat.min (length l) (length l').
Proof.
  induction l as [|x l IH]; intros [|y l'] v E; try (inversion E; reflexivity). cbn [mapM2] in E. destruct (f x y); [|discriminate].
  cbn [bind] in E. destruct (mapM2 f l l') eqn:El; [|discriminate]. inversion E. cbn. now rewrite (IH _ _ El).
Qed.
Lemma mapM2_all {A A' C} (f : A -> A' -> option C) (Q : C -> Prop) l : forall l' v, mapM2 f l l' = Some v ->
  (forall x y r, In y l' -> f x y = Some r -> Q r) -> Forall Q v.
Proof.
  induction l as [|x l IH]; intros [|y l'] v E H; try (inversion E; constructor). cbn [mapM2] in E. destruct (f x y) eqn:Ef; [|discriminate].
  cbn [bind] in E. destruct (mapM2 f l l') eqn:El; [|discriminate]. inversion E. constructor; [apply (H x y); [now left|exact Ef]|].
  apply (IH _ _ El). intros. apply (H x0 y0); [now right|assumption].
Qed.
Lemma power_len row bv rnd : forall power v, power_rows_peeled F row bv power rnd = Some v -> length v = length rnd.
Proof.
  induction rnd as [|[a e] rnd IH]; intros power v E; [discriminate|]. destruct rnd as [|y rnd]; cbn [power_rows_peeled] in E.
  - step E. now inversion E.
  - step E. step E. step E. inversion E. cbn [length]. now rewrite (IH _ _ Hb1).
Qed.
Lemma zero_rows_of sk b r0 r1 R : (bs_len b <= length r0)%nat -> (bs_len b <= length r1)%nat ->
  nrgsw_zero_sample F tbl sk b r0 r1 = Some R -> rows_of (bs_len b) R.
Proof.
  intros H0 H1 E. unfold nrgsw_zero_sample, ng_zero_sample, zero_rows in E. step E. step E. step Hb. step Hb0. inversion E. inversion Hb. inversion Hb0.
  split; cbn [c_neg c_m gd]; [rewrite (mapM_len _ _ _ Hb1)|rewrite (mapM_len _ _ _ Hb2)]; now apply firstn_len.
Qed.
Lemma one_rows_of sk b r0 r1 R : (bs_len b <= length r0)%nat -> (bs_len b <= length r1)%nat ->
  nrgsw_one_sample F tbl sk b r0 r1 = Some R -> rows_of (bs_len b) R.
Proof.
  intros H0 H1 E. unfold nrgsw_one_sample, ng_neg_secret_sample, ng_one_sample in E. step E. step E. step Hb. step Hb0. inversion E. inversion Hb. inversion Hb0.
  split; cbn [c_neg c_m gd]; [rewrite (power_len _ _ _ _ _ Hb1)|rewrite (power_len _ _ _ _ _ Hb2)]; now apply firstn_len.
Qed.
Lemma rks_rows_len sk bv rnd : forall z v, rks_rows F tbl sk bv z rnd = Some v -> length v = length rnd.
Proof.
  induction rnd as [|[a e] rnd IH]; intros z v E; [now inversion E|]. cbn [rks_rows] in E. step E. step E. step E. step E. inversion E. cbn [length].
  now rewrite (IH _ _ Hb2).
Qed.
Lemma rks_shape_of bits sk z S rnd K : rks_generate F tbl bits sk z S rnd = Some K ->
  rks_shape (levels F bits) (length sk) (length z) K.
Proof.
  unfold rks_generate. cbv zeta. intros E. step E. step E. step E. step E. step E. step E. inversion E. clear E. unfold levels. rewrite Hb0.
  split; [reflexivity|]. split; cbn [rk_key].
  - destruct (Nat.eqb_spec (next_pow2 (length sk)) (length z)) as [Ez|].
    + step Hb4. step Hb4. inversion Hb4. rewrite Ez, Nat.div_same; [reflexivity|]. rewrite <- Ez. pose proof (next_pow2_pos (length sk)). lia.
    + step Hb4. unfold assert in Hb5. destruct (Nat.eqb_spec (length (chunks (next_pow2 (length sk)) z)) (length rnd)) as [E|]; [|discriminate].
      rewrite (mapM2_len _ _ _ _ Hb4), <- E, Nat.min_id. apply chunks_len, next_pow2_pos.
  - destruct (Nat.eqb_spec (next_pow2 (length sk)) (length z)) as [Ez|].
    + destruct (index rnd 0) as [r0|]; [|discriminate]. cbn [bind] in Hb4. step Hb4. inversion Hb4. constructor; [|constructor]. unfold assert in Hb5.
      destruct (Nat.eqb_spec (length r0) (bs_len b)) as [E|]; [|discriminate]. cbn [bind] in Hb5. step Hb5. inversion Hb5. cbn [gd].
      now rewrite (rks_rows_len _ _ _ _ _ Hb6).
    + step Hb4. apply (mapM2_all _ _ _ _ _ Hb4). intros x y r _ E. destruct (into_ntt F tbl x); [|discriminate]. cbn [bind] in E. unfold assert in E.
      destruct (Nat.eqb_spec (length y) (bs_len b)) as [Ey|]; [|discriminate]. cbn [bind] in E. step E. inversion E. cbn [gd].
      now rewrite (rks_rows_len _ _ _ _ _ Hb6).
Qed.
Lemma ek_shape_of B kp R K : enough_draws (kp_par kp) (length (kp_lwe kp)) R -> eval_key_new B F tbl kp R = Some K ->
  ek_par K = kp_par kp /\ ek_shape (length (kp_ring kp)) (length (kp_lwe kp)) K.
Proof.
  unfold eval_key_new. cbv zeta. intros H E. destruct (br_key_generate F tbl kp R) as [br|] eqn:Hbr; [|discriminate]. cbn [bind] in E.
  match type of E with bind ?m _ = _ => destruct m as [ks|] eqn:Hks; [|discriminate] end. cbn [bind] in E. inversion E. clear E.
  split; [reflexivity|]. unfold ek_shape. cbn [ek_par ek_br ek_ks]. split.
  - clear Hks. unfold br_key_generate in Hbr. unfold enough_draws in H. cbv zeta in H. destruct (pp_key (kp_par kp)); destruct H as (L & H).
    + destruct (binary_generate _ _ _ _ _ _) as [k|] eqn:Ek; [|discriminate]. inversion Hbr. unfold binary_generate in Ek. split.
      * rewrite (mapM2_len _ _ _ _ Ek). transitivity (Nat.min (length (kp_lwe kp)) (length (kp_lwe kp))); [f_equal; exact L|apply Nat.min_id].
      * apply (mapM2_all _ _ _ _ _ Ek). intros x y r Hy Er. destruct (proj1 (Forall_forall _ _) H y Hy) as (h0 & h1).
        destruct (x =? 0); [exact (zero_rows_of _ _ _ _ _ h0 h1 Er)|exact (one_rows_of _ _ _ _ _ h0 h1 Er)].
    + destruct (ternary_generate _ _ _ _ _ _) as [k|] eqn:Ek; [|discriminate]. inversion Hbr. unfold ternary_generate in Ek.
      cbn [rot_shape]. rewrite (mapM2_len _ _ _ _ Ek). transitivity (Nat.min (length (kp_lwe kp)) (length (kp_lwe kp))); [f_equal; exact L|apply Nat.min_id].
  - destruct (pp_steps (kp_par kp)); [exact I| |exact I].
    destruct (rks_generate _ _ _ _ _ _ _) as [k|] eqn:Ek; [|discriminate]. inversion Hks. exists k. split; [reflexivity|].
    exact (rks_shape_of _ _ _ _ _ _ Ek).
Qed.

(** ** The gates *)

Definition gate_run (B : Z) (E : eval_key) (N n : nat) (x : option lwe) (t : list dir) : Prop :=
  exists x0 c', x = Some x0 /\ lwe_modulus_switch_assign B (pp_q (ek_par E)) (2 * pp_N (ek_par E)) x0 = Some c' /\
    t = cl (bootstrap_calls F (ek_par E) N n (nonzeros (firstn n (la c')))).
Lemma boot_switch B E c lut y : 0 <= pp_N (ek_par E) < 2 ^ 63 -> bootstrap B F tbl E c lut = Some y ->
  exists c', lwe_modulus_switch_assign B (pp_q (ek_par E)) (2 * pp_N (ek_par E)) c = Some c'.
Proof.
  intros HN E0. unfold bootstrap in E0. cbv zeta in E0. unfold ushl in E0. change (1 <? 64) with true in E0. cbv iota in E0. cbn [bind] in E0.
  change (2 ^ 1) with 2 in E0. rewrite (Z.mul_comm _ 2), Z.mod_small in E0
    by (change (2 ^ 63) with 9223372036854775808 in HN; change (2 ^ 64) with 18446744073709551616; lia).
  step E0. step E0. eexists. reflexivity.
Qed.
Lemma bootstrap_run B E c lut N n y : ek_shape N n E -> length lut = N -> 0 <= pp_N (ek_par E) < 2 ^ 63 ->
  bootstrap B F tbl E c lut = Some y ->
  exists c', lwe_modulus_switch_assign B (pp_q (ek_par E)) (2 * pp_N (ek_par E)) c = Some c' /\
    bootstrap_c B F tbl E c lut = Some (cl (bootstrap_calls F (ek_par E) N n (nonzeros (firstn n (la c')))), y).
Proof.
  intros Hs Hl HN E0. destruct (boot_switch B E c lut y HN E0) as (c' & Hc). exists c'. split; [exact Hc|].
  exact (makes_some _ _ _ _ (er_bootstrap B F tbl E c lut) (mk_bootstrap B E c lut N n c' Hs Hl HN Hc) E0).
Qed.
Lemma two_part_len N mid st lo hi lut : two_part_lut N mid st lo hi = Some lut -> length lut = Z.to_nat N.
Proof.
  unfold two_part_lut. intros E. step E. step E. inversion E. rewrite app_length, !step_fill_len, <- app_length, firstn_skipn. apply repeat_length.
Qed.
Definition is_init (init : field -> Z -> Z -> option (list Z)) : Prop := forall N st lut, init F N st = Some lut -> length lut = Z.to_nat N.
Lemma init_lens : is_init init_nand_lut /\ is_init init_and_majority_lut /\ is_init init_or_lut /\ is_init init_nor_lut /\ is_init init_xor_lut /\ is_init init_xnor_lut.
Proof.
  repeat split; intros N st lut E;
    unfold init_nand_lut, init_and_majority_lut, init_or_lut, init_nor_lut, init_xor_lut, init_xnor_lut,
      init_nand_and_majority_lut, init_or_nor_lut, init_xor_xnor_lut in E;
    destruct (eighths F) as [[e ne]|]; try discriminate; cbn [bind] in E; try (step E); exact (two_part_len _ _ _ _ _ _ E).
Qed.
Lemma gate_run_ok B E N n x init t y : ek_shape N n E -> Z.to_nat (pp_N (ek_par E)) = N -> 0 <= pp_N (ek_par E) < 2 ^ 63 -> is_init init ->
  gate_c B F tbl E x init = Some (t, y) -> gate_run B E N n x t.
Proof.
  intros Hs HN HB Hi G. unfold gate_c in G. cbv zeta in G. destruct x as [x|]; [|discriminate]. cbn [quiet cbind] in G.
  destruct (lut_step _ _) as [st|]; [|discriminate]. cbn [quiet cbind] in G. destruct (init F (pp_N (ek_par E)) st) as [lut|] eqn:El; [|discriminate].
  cbn [quiet cbind] in G. destruct (bootstrap_c B F tbl E x lut) as [[t' y']|] eqn:Eb; [|discriminate]. inversion G. subst. clear G. cbn [app].
  assert (E0 : bootstrap B F tbl E x lut = Some y) by (rewrite <- er_bootstrap, Eb; reflexivity).
  destruct (bootstrap_run B E x lut _ n y Hs (Hi _ _ _ El) HB E0) as (c' & Hc & Hr). exists x, c'. split; [reflexivity|]. split; [exact Hc|].
  rewrite Eb in Hr. now inversion Hr.
Qed.
End Calls.

(** * Own tables count every call, external ones none *)

Lemma own_ticks F tbl : all_own tbl -> forall k T, tbl k = Some T -> ticks F (fun d => [d]) T.
Proof.
  intros H k T E. destruct (H k T E) as (T' & ->). split; intros v t a Hv.
  - unfold t_transform_slice_c in Hv. destruct (t_transform_slice F (OwnTable T') v); inversion Hv; reflexivity.
  - unfold t_inverse_transform_slice_c in Hv. destruct (t_inverse_transform_slice F (OwnTable T') v); inversion Hv; reflexivity.
Qed.
Lemma external_ticks F tbl : all_external tbl -> forall k T, tbl k = Some T -> ticks F (fun _ => []) T.
Proof.
  intros H k T E. destruct (H k T E) as (T' & ->). split; intros v t a Hv.
  - unfold t_transform_slice_c in Hv. destruct (t_transform_slice F (ExtTable T') v); inversion Hv; reflexivity.
  - unfold t_inverse_transform_slice_c in Hv. destruct (t_inverse_transform_slice F (ExtTable T') v); inversion Hv; reflexivity.
Qed.
Lemma flat_map_one (l : list dir) : flat_map (fun d => [d]) l = l.
Proof. induction l; [reflexivity|]. cbn. now f_equal. Qed.
Lemma flat_map_none (l : list dir) : flat_map (fun _ => @nil dir) l = [].
Proof. induction l; [reflexivity|]. assumption. Qed.

(** * Counting the calls *)

Definition calls_of (d : dir) (l : list dir) : Z := Z.of_nat (length (filter (dir_eqb d) l)).
Lemma calls_app d a b : calls_of d (a ++ b) = calls_of d a + calls_of d b.
Proof. unfold calls_of. rewrite filter_app, app_length. lia. Qed.
Lemma calls_repeat d x n : calls_of d (repeat x n) = if dir_eqb d x then Z.of_nat n else 0.
Proof.
  unfold calls_of. induction n as [|n IH]; [destruct (dir_eqb d x); reflexivity|]. cbn [repeat filter].
  destruct (dir_eqb d x); [cbn [length]; lia|exact IH].
Qed.
Lemma calls_product d l : calls_of d (product_calls l) = match d with Fwd => 2 * Z.of_nat l | Inv => 2 end.
Proof. unfold product_calls. rewrite calls_app, calls_repeat. destruct d; cbn [dir_eqb]; [change (calls_of Fwd [Inv; Inv]) with 0|change (calls_of Inv [Inv; Inv]) with 2]; lia. Qed.
Lemma calls_rotation d l z : calls_of d (rotation_calls l z) = Z.of_nat z * match d with Fwd => 2 * Z.of_nat l | Inv => 2 end.
Proof.
  induction z as [|z IH]; [reflexivity|]. change (rotation_calls l (S z)) with (product_calls l ++ rotation_calls l z).
  rewrite calls_app, IH, calls_product. destruct d; lia.
Qed.
Lemma calls_switch d g l : calls_of d (switch_calls g l) = match d with Fwd => Z.of_nat (g * l) | Inv => 2 end.
Proof. unfold switch_calls. rewrite calls_app, calls_repeat. destruct d; cbn [dir_eqb]; [change (calls_of Fwd [Inv; Inv]) with 0|change (calls_of Inv [Inv; Inv]) with 2]; lia. Qed.
Lemma transforms_calls d l : transforms d (map Transform l) = calls_of d l.
Proof. unfold transforms, calls_of. induction l as [|x l IH]; [reflexivity|]. cbn [map filter]. destruct (dir_eqb d x); [cbn [length]; rewrite !Nat2Z.inj_succ; f_equal|]; exact IH. Qed.
Lemma only_counts_map l : only_counts (map Transform l).
Proof. unfold only_counts. induction l; constructor; [exact I|assumption]. Qed.
Lemma F1_cons {A} (Q : A -> Prop) x l : Forall Q (x :: l) -> Q x /\ Forall Q l.
Proof. intros H. inversion H. now split. Qed.
Lemma F2_cons {A C} (Q : A -> C -> Prop) x l y l' : Forall2 Q (x :: l) (y :: l') -> Q x y /\ Forall2 Q l l'.
Proof. intros H. inversion H. now split. Qed.
Lemma calls_nil d : calls_of d [] = 0.
Proof. reflexivity. Qed.
