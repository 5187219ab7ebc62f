(** Monomial transforms of an optimised build. *)
From Coq Require Import ZArith List Arith Bool Lia Znumtheory.
From Verif Require Import Model.Base Model.Shoup Model.Field Model.NTT Model.Poly Model.Release.
From Verif Require Import Proofs.Arith Proofs.NumTheory Proofs.FieldProofs Proofs.NTTProofs Proofs.NTTTableProofs Proofs.PolyProofs Proofs.MonomialProofs Proofs.PolyMain.
Import ListNotations.
Local Open Scope Z_scope.

Lemma rel_mask_ones k : (k < 63)%nat -> rel_mask k = 2 ^ (Z.of_nat k + 1) - 1.
Proof.
  intros Hk. unfold rel_mask, wsub. rewrite (Z.mod_small (64 - Z.of_nat k)) by (change (2 ^ 32) with 4294967296; lia).
  rewrite (Z.mod_small (_ - 1)) by (change (2 ^ 32) with 4294967296; lia). rewrite Z.mod_small by lia.
  replace (64 - Z.of_nat k - 1) with (64 - (Z.of_nat k + 1)) by lia. apply ones_shift. lia.
Qed.

Lemma mod_mod_pow2 a i j : 0 <= i <= j -> (a mod 2 ^ j) mod 2 ^ i = a mod 2 ^ i.
Proof.
  intros H. rewrite (Z.div_mod a (2 ^ j)) at 2 by (pose proof (pow2_pos j); lia).
  replace j with (i + (j - i)) at 2 by lia. rewrite Z.pow_add_r by lia.
  rewrite <- Z.mul_assoc, (Z.mul_comm (2 ^ i)), Z.add_comm. rewrite Z.mod_add by (pose proof (pow2_pos i); lia). reflexivity.
Qed.

Lemma rel_index_correct k i d : (k < 63)%nat ->
  rel_index k i d = ((2 * Z.of_nat i + 1) * d) mod (2 * Z.of_nat (2 ^ k)).
Proof.
  intros Hk. unfold rel_index, wmul, wadd. rewrite rel_mask_ones by exact Hk. rewrite land_mask by lia.
  rewrite Z.add_mod_idemp_l, Z.mul_mod_idemp_l by (pose proof (pow2_pos 64); lia).
  rewrite mod_mod_pow2 by lia. rewrite pow2_succ by lia. rewrite pow2_nat. reflexivity.
Qed.

Section Rel.
Variable F : field.
Hypothesis Hok : fok F.
Local Notation p := (fp F).
Hypothesis Hp : prime p.
Variables (w : Z) (k : nat) (T : ntt_table).
Hypothesis Hp2 : 2 < p.
Hypothesis Hk63 : (k < 63)%nat.
Hypothesis Hw : cong p (npow w (2 ^ k)) (-1).
Hypothesis HT : table_ok F w k T.
Local Notation n := (2 ^ k)%nat.
Local Notation target c d values := (firstn (length values) (mono_ntt F w k c (Z.to_nat d)) ++ skipn n values).

Lemma rel_run (f : nat -> option Z) (g : nat -> Z) values :
  (forall i, (i < n)%nat -> f (bitrev k i) = Some (g i)) ->
  rel_fill f values (nt_rev T) = Some (firstn (length values) (map g (seq 0 n)) ++ skipn n values).
Proof.
  intros H. rewrite (to_rev F w k T HT).
  assert (G : forall l values, (forall i, In i l -> (i < n)%nat) ->
    rel_fill f values (map (bitrev k) l) = Some (firstn (length values) (map g l) ++ skipn (length l) values)).
  { induction l as [|i l IH]; intros [|x vs] Hl; try reflexivity.
    cbn [rel_fill map length firstn skipn app]. rewrite H by (apply Hl; left; reflexivity). cbn [bind].
    rewrite IH by (intros j Hj; apply Hl; right; exact Hj). reflexivity. }
  rewrite G by (intros i Hi; apply in_seq in Hi; lia). rewrite seq_length. reflexivity.
Qed.

Lemma rel_one_run d values : 0 <= d -> rel_fill (rel_one T d) values (nt_rev T) = Some (target 1 d values).
Proof.
  intros Hd. apply rel_run. intros i Hi. unfold rel_one. rewrite (to_logn F w k T HT), rel_index_correct by exact Hk63.
  destruct (ord_power F Hok w k T Hk63 Hw HT i d Hi Hd) as (r & Er & Ir). rewrite Er. cbn [bind].
  rewrite (is_root_value F Hok r _ Ir). rewrite Z.mul_1_l. reflexivity.
Qed.
Lemma rel_neg_one_run d values : 0 <= d -> rel_fill (rel_neg_one T d) values (nt_rev T) = Some (target (-1) d values).
Proof.
  intros Hd. apply rel_run. intros i Hi. unfold rel_neg_one. rewrite (to_logn F w k T HT), rel_index_correct by exact Hk63.
  destruct (ord_power_neg F Hok w k T Hk63 Hw HT i d Hi Hd) as (r & Er & Ir). rewrite Er. cbn [bind].
  rewrite (is_root_value F Hok r _ Ir).
  replace (-1 * npow (zt w k i) (Z.to_nat d)) with (- npow (zt w k i) (Z.to_nat d)) by ring. reflexivity.
Qed.
Lemma rel_gen_run c d values : 0 <= c < p -> 0 <= d -> rel_fill (rel_gen F T c d) values (nt_rev T) = Some (target c d values).
Proof.
  intros Hc Hd. pose proof (B_facts F Hok). apply rel_run. intros i Hi. unfold rel_gen.
  rewrite (to_logn F w k T HT), rel_index_correct by exact Hk63.
  destruct (ord_power F Hok w k T Hk63 Hw HT i d Hi Hd) as (r & Er & Ir). rewrite Er. cbn [bind].
  rewrite (mul_root_correct F Hok r _ c Ir) by lia. rewrite Z.mul_comm. reflexivity.
Qed.

Lemma rel_monomial_correct c d values : 0 <= c < p -> 0 < d -> c <> 0 ->
  rel_transform_monomial F T c d values = Some (target c d values).
Proof.
  intros Hc Hd Hc0. unfold rel_transform_monomial.
  destruct (Z.eqb_spec c 0); [contradiction|]. destruct (Z.eqb_spec d 0); [lia|].
  destruct (Z.eqb_spec c 1) as [->|]; [apply rel_one_run; lia|].
  unfold f_neg_one. destruct (Z.eqb_spec c (p - 1)) as [->|]; [|apply rel_gen_run; lia].
  rewrite rel_neg_one_run by lia. do 3 f_equal. apply (mono_ntt_cong F w k Hp2 Hk63). exists (-1). ring.
Qed.
End Rel.

Lemma map_const_repeat (x : Z) (l : list Z) : map (fun _ => x) l = repeat x (length l).
Proof. induction l as [|a l IH]; [reflexivity|]. cbn [map length repeat]. rewrite IH. reflexivity. Qed.
Lemma firstn_repeat (x : Z) a b : firstn a (repeat x b) = firstn b (repeat x a).
Proof.
  revert b. induction a as [|a IH]; intros [|b]; try reflexivity. cbn [repeat firstn]. rewrite IH. reflexivity.
Qed.

Lemma rel_shape (v values : list Z) n : length v = n ->
  let r := firstn (length values) v ++ skipn n values in
  length r = length values /\ firstn n r = firstn (length values) v /\ skipn n r = skipn n values.
Proof.
  intros Hv r. assert (L : length (firstn (length values) v) = Nat.min (length values) n) by (rewrite firstn_length, Hv; reflexivity).
  unfold r. split; [rewrite app_length, L, skipn_length; lia|].
  rewrite firstn_app, skipn_app, L. destruct (Nat.le_ge_cases n (length values)) as [H|H].
  - rewrite Nat.min_r by exact H. rewrite Nat.sub_diag. cbn [firstn]. rewrite app_nil_r.
    split; [apply firstn_all2; lia|]. rewrite skipn_all2 by lia. reflexivity.
  - rewrite (skipn_all2 values) by exact H. rewrite firstn_nil, app_nil_r, skipn_nil, app_nil_r.
    split; [apply firstn_all2; lia|]. apply skipn_all2. lia.
Qed.

(** What a monomial transform of an optimised build leaves in the destination. *)
Definition rel_result (n : nat) (v values r : list Z) : Prop :=
  length r = length values /\ firstn n r = firstn (length values) v.

Lemma rel_full (n : nat) v values r : length v = n -> length values = n -> rel_result n v values r -> r = v.
Proof.
  intros Hv Hl (Hr & E). rewrite !firstn_all2 in E by lia. exact E.
Qed.

Lemma gen_rel_monomial B p k F T c d values : gen_facts B p k F T -> 0 <= c < p -> 0 <= d ->
  exists v r, transform_slice F T (pmod p (monomial (2 ^ k) c (Z.to_nat d))) = Some v /\ length v = (2 ^ k)%nat /\
    rel_transform_monomial F T c d values = Some r /\ rel_result (2 ^ k) v values r /\
    (c <> 0 -> d <> 0 -> skipn (2 ^ k) r = skipn (2 ^ k) values).
Proof.
  intros G Hc Hd. pose proof (gf_p _ _ _ _ _ G) as E. subst p. pose proof (gf_ok _ _ _ _ _ G) as Hok.
  pose proof (gf_2 _ _ _ _ _ G) as H2. pose proof (gf_k _ _ _ _ _ G) as Hk.
  exists (mono_ntt F (nt_root T) k c (Z.to_nat d)).
  assert (Lv : length (mono_ntt F (nt_root T) k c (Z.to_nat d)) = (2 ^ k)%nat).
  { unfold mono_ntt. rewrite map_length, seq_length. reflexivity. }
  assert (Ev : transform_slice F T (pmod (fp F) (monomial (2 ^ k) c (Z.to_nat d))) = Some (mono_ntt F (nt_root T) k c (Z.to_nat d))).
  { rewrite (gen_transform_ntt _ _ _ _ _ _ G); [|rewrite pmod_length; apply monomial_length|apply pmod_canonical; lia].
    f_equal. rewrite (ntt_pmod F Hok). symmetry. apply (mono_ntt_transform F); apply G. }
  unfold rel_result. rewrite Ev.
  destruct (Z.eq_dec c 0) as [->|Hc0].
  { exists (repeat 0 (length values)). split; [reflexivity|]. split; [exact Lv|]. split; [unfold rel_transform_monomial; cbn [Z.eqb]; rewrite map_const_repeat; reflexivity|].
    split; [|intros H; contradiction H; reflexivity]. split; [apply repeat_length|].
    replace (mono_ntt F (nt_root T) k 0 (Z.to_nat d)) with (repeat 0 (2 ^ k)) by
      (unfold mono_ntt; rewrite <- (map_const_seq 0 0 (2 ^ k)); apply map_ext; intros i; symmetry; apply Z.mod_0_l; lia).
    apply firstn_repeat. }
  destruct (Z.eq_dec d 0) as [->|Hd0].
  { exists (repeat c (length values)). split; [reflexivity|]. split; [exact Lv|]. split.
    { unfold rel_transform_monomial. destruct (Z.eqb_spec c 0); [contradiction|]. cbn [Z.eqb]. rewrite map_const_repeat. reflexivity. }
    split; [|intros _ H; contradiction H; reflexivity]. split; [apply repeat_length|].
    change (Z.to_nat 0) with 0%nat. rewrite (mono_ntt_const F (nt_root T) k Hk c Hc). apply firstn_repeat. }
  eexists. split; [reflexivity|]. split; [exact Lv|]. split.
  { apply (rel_monomial_correct F Hok (nt_root T) k T H2 Hk (gf_root _ _ _ _ _ G) (gf_tab _ _ _ _ _ G)); lia. }
  destruct (rel_shape _ values _ Lv) as (A & A' & A''). auto.
Qed.

Lemma f_neg_one_neq F : 2 < fp F -> f_neg_one F <> 0 /\ f_neg_one F <> 1.
Proof. unfold f_neg_one. lia. Qed.

Lemma rel_one_eq F T d values : rel_transform_coeff_one_monomial T d values = rel_transform_monomial F T 1 d values.
Proof. reflexivity. Qed.
Lemma rel_neg_one_eq F T d values : 2 < fp F ->
  rel_transform_coeff_neg_one_monomial F T d values = rel_transform_monomial F T (f_neg_one F) d values.
Proof.
  intros H. destruct (f_neg_one_neq F H) as (H0 & H1). unfold rel_transform_coeff_neg_one_monomial, rel_transform_monomial.
  rewrite Z.eqb_refl. destruct (Z.eqb_spec (f_neg_one F) 0); [contradiction|]. destruct (Z.eqb_spec (f_neg_one F) 1); [contradiction|]. reflexivity.
Qed.

(** Where the checked build returns, the optimised build returns the same. *)
Lemma uadd_w B a b r : 0 <= a -> 0 <= b -> uadd B a b = Some r -> wadd B a b = r /\ 0 <= r.
Proof.
  unfold uadd, wadd. intros Ha Hb H. destruct (Z.ltb_spec (a + b) (2 ^ B)); [|discriminate]. injection H as <-.
  split; [apply Z.mod_small; lia|lia].
Qed.
Lemma umul_w B a b r : 0 <= a -> 0 <= b -> umul B a b = Some r -> wmul B a b = r /\ 0 <= r.
Proof.
  unfold umul, wmul. intros Ha Hb H. destruct (Z.ltb_spec (a * b) (2 ^ B)); [|discriminate]. injection H as <-.
  split; [apply Z.mod_small; lia|lia].
Qed.
Lemma mono_index_rel k i d x : (k < 63)%nat -> 0 <= d -> mono_index k i d = Some x -> rel_index k i d = x.
Proof.
  intros Hk Hd. unfold mono_index, rel_index. rewrite rel_mask_ones by exact Hk.
  rewrite usub_some by lia. cbn [bind]. rewrite usub_some by lia. cbn [bind]. rewrite ushr_some by lia. cbn [bind].
  replace (64 - Z.of_nat k - 1) with (64 - (Z.of_nat k + 1)) by lia. rewrite ones_shift by lia.
  destruct (umul 64 2 (Z.of_nat i)) as [a|] eqn:Ea; [|discriminate]. cbn [bind].
  apply umul_w in Ea as (-> & Ha); [|lia|lia].
  destruct (uadd 64 a 1) as [b|] eqn:Eb; [|discriminate]. cbn [bind]. apply uadd_w in Eb as (-> & Hb); [|lia|lia].
  destruct (umul 64 b d) as [c|] eqn:Ec; [|discriminate]. cbn [bind]. apply umul_w in Ec as (-> & _); [|lia|lia].
  intros H. injection H as <-. reflexivity.
Qed.
Lemma rel_fill_mapM (f g : nat -> option Z) l : forall values r, (length values <= length l)%nat ->
  (forall i x, f i = Some x -> g i = Some x) ->
  mapM f (firstn (length values) l) = Some r -> rel_fill g values l = Some r.
Proof.
  induction l as [|i l IH]; intros [|x values] r Hl H E; try (cbn in Hl; lia); try exact E.
  cbn [length firstn mapM rel_fill] in *. destruct (f i) as [v|] eqn:Ef; [|discriminate]. cbn [bind] in E.
  rewrite (H _ _ Ef). cbn [bind]. destruct (mapM f (firstn (length values) l)) as [t|] eqn:Et; [|discriminate]. cbn [bind] in E.
  rewrite (IH values t ltac:(lia) H Et). exact E.
Qed.

Lemma gen_rel_agrees B p k F T c d values v : gen_facts B p k F T -> 0 <= d ->
  transform_monomial F T c d (length values) = Some v -> rel_transform_monomial F T c d values = Some v.
Proof.
  intros G Hd. unfold transform_monomial, rel_transform_monomial. rewrite !map_const_repeat.
  destruct (c =? 0); [intros H; exact H|]. destruct (d =? 0); [intros H; exact H|].
  pose proof (gf_tab _ _ _ _ _ G) as HT. pose proof (gf_k _ _ _ _ _ G) as Hk.
  pose proof (to_logn F _ k T HT) as Ek. unfold assert. destruct (Nat.eqb_spec (length values) (2 ^ nt_logn T)) as [El|]; [|discriminate]. cbn [bind].
  assert (Hl : (length values <= length (nt_rev T))%nat).
  { rewrite (to_rev F _ k T HT), map_length, seq_length, El, Ek. lia. }
  assert (K : forall i d' x, 0 <= d' -> mono_index (nt_logn T) i d' = Some x -> rel_index (nt_logn T) i d' = x).
  { intros i d' x. rewrite Ek. apply mono_index_rel. exact Hk. }
  destruct (c =? 1); [|destruct (c =? f_neg_one F)]; intros H; (eapply rel_fill_mapM; [exact Hl| |exact H]); intros i x;
    unfold rel_one, rel_neg_one, rel_gen; destruct (mono_index (nt_logn T) i d) as [ix|] eqn:Ei; try discriminate; cbn [bind];
    rewrite (K i d ix Hd Ei); intros E; exact E.
Qed.
