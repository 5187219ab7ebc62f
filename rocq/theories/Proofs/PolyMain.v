(** Assembly of the transform and polynomial results for the property files. *)
From Coq Require Import ZArith List Arith Bool Lia Znumtheory Setoid Morphisms.
From Verif Require Import Model.Base Model.Shoup Model.Barrett Model.Field Model.NTT Model.Concrete Model.Poly.
From Verif Require Import Proofs.Arith Proofs.NumTheory Proofs.FieldProofs Proofs.NTTProofs Proofs.NTTTableProofs Proofs.ConcreteProofs Proofs.PolyProofs Proofs.MonomialProofs.
Import ListNotations.
Local Open Scope Z_scope.

Record gen_facts (B p : Z) (k : nat) (F : field) (T : ntt_table) : Prop := {
  gf_ok : fok F; gf_w : fw F = B; gf_p : fp F = p; gf_2 : 2 < p; gf_k : (k < 63)%nat;
  gf_root : cong p (npow (nt_root T) (2 ^ k)) (-1);
  gf_tab : table_ok F (nt_root T) k T;
  gf_least : least_root F k (nt_root T) }.

Lemma gen_facts_intro B p k F draws T : wwidth B -> prime p -> derive_field B p = Some F ->
  (forall i, 2 <= draws i <= p - 1) -> generate_ntt_table F draws k = Some (Ok T) -> gen_facts B p k F T.
Proof.
  intros HB Hp HF Hd HT. pose proof (prime_ge_2 p Hp).
  destruct (derive_field_ok B p F HB ltac:(lia) HF) as (Hok & Hw & Hpp).
  subst B p. destruct (generate_ok F Hok Hp draws k T Hd HT) as (H2 & Hk & _ & w & Hl & Ht).
  assert (E : nt_root T = w) by (apply (to_r F w k T Ht)). subst w.
  constructor; auto. apply Hl.
Qed.

Lemma gen_primitive B p k F T : prime p -> gen_facts B p k F T ->
  primitive_root p (2 * 2 ^ Z.of_nat k) (nt_root T) /\ 0 <= nt_root T < p /\
  forall z, 0 <= z < p -> primitive_root p (2 * 2 ^ Z.of_nat k) z -> nt_root T <= z.
Proof.
  intros Hp G. pose proof (gf_p _ _ _ _ _ G) as E. destruct (gf_least _ _ _ _ _ G) as (H1 & H2 & H3).
  rewrite E in *. rewrite <- pow2_nat. pose proof (gf_2 _ _ _ _ _ G).
  split; [apply primitive_root_iff; assumption|]. split; [exact H1|].
  intros z Hz Hr. apply H3; [exact Hz|]. apply primitive_root_iff; assumption.
Qed.

Lemma gen_transform B p k F T a : gen_facts B p k F T -> length a = (2 ^ k)%nat ->
  Forall (fun x => 0 <= x < 4 * p) a ->
  transform_slice F T a =
    Some (map (fun i => ev (nt_root T ^ (2 * Z.of_nat (bitrev k i) + 1)) a mod p) (seq 0 (2 ^ k))).
Proof.
  intros G Hl Ha. pose proof (gf_p _ _ _ _ _ G) as <-.
  rewrite (transform_correct F (gf_ok _ _ _ _ _ G) (nt_root T) k (gf_2 _ _ _ _ _ G) (gf_root _ _ _ _ _ G) T a (gf_tab _ _ _ _ _ G) Hl).
  - f_equal. apply map_ext. intros i. unfold zt, zeta, npow. do 4 f_equal. lia.
  - exact Ha.
Qed.

Lemma gen_canonical4 B p k F T a : gen_facts B p k F T -> canonical p a -> Forall (fun x => 0 <= x < 4 * p) a.
Proof. intros G. pose proof (gf_2 _ _ _ _ _ G). apply Forall_impl. intros; lia. Qed.

Lemma gen_transform_ntt B p k F T a : gen_facts B p k F T -> length a = (2 ^ k)%nat -> canonical p a ->
  transform_slice F T a = Some (ntt_of F (nt_root T) k a).
Proof.
  intros G Hl Ha. pose proof (gf_p _ _ _ _ _ G) as <-.
  apply (transform_correct F (gf_ok _ _ _ _ _ G) (nt_root T) k (gf_2 _ _ _ _ _ G) (gf_root _ _ _ _ _ G) T a (gf_tab _ _ _ _ _ G) Hl).
  apply (gen_canonical4 _ _ _ _ _ _ G Ha).
Qed.

Lemma gen_ctx B p k F T : gen_facts B p k F T -> ctx F (fun _ => Some (OwnTable T)) k (nt_root T).
Proof.
  intros G. pose proof (gf_p _ _ _ _ _ G) as E. unfold ctx. rewrite E.
  split; [apply G|]. split; [apply G|]. split; [apply G|]. exists (OwnTable T). split; [reflexivity|apply G].
Qed.

Lemma gen_roundtrip B p k F T a : prime p -> gen_facts B p k F T -> (0 < k)%nat -> length a = (2 ^ k)%nat -> canonical p a ->
  exists v, transform_slice F T a = Some v /\ length v = (2 ^ k)%nat /\ canonical p v /\ inverse_transform_slice F T v = Some a.
Proof.
  intros Hp G Hk Hl Ha. rewrite (gen_transform_ntt _ _ _ _ _ _ G Hl Ha).
  pose proof (gf_p _ _ _ _ _ G) as E. subst p. pose proof (gf_ok _ _ _ _ _ G) as Hok.
  eexists. split; [reflexivity|]. split; [apply ntt_of_length|]. split; [apply (ntt_of_canonical F Hok)|].
  rewrite (inverse_of_transform F Hok Hp (nt_root T) k (gf_2 _ _ _ _ _ G) (gf_root _ _ _ _ _ G) T a); try assumption.
  - f_equal. apply pmod_small. exact Ha.
  - apply G.
  - apply ntt_of_length.
  - apply (canonical_R2 F Hok), (ntt_of_canonical F Hok).
  - intros i Hi. rewrite nth_ntt_of by exact Hi. apply cong_mod. pose proof (gf_2 _ _ _ _ _ G). lia.
Qed.

Lemma gen_roundtrip' B p k F T v : prime p -> gen_facts B p k F T -> (0 < k)%nat -> length v = (2 ^ k)%nat -> canonical p v ->
  exists a, inverse_transform_slice F T v = Some a /\ length a = (2 ^ k)%nat /\ canonical p a /\ transform_slice F T a = Some v.
Proof.
  intros Hp G Hk Hl Hv. pose proof (gen_ctx _ _ _ _ _ G) as C.
  pose proof (gf_p _ _ _ _ _ G) as E. subst p. pose proof (gf_ok _ _ _ _ _ G) as Hok.
  destruct (ntt_surj F Hok _ k (nt_root T) C v Hl Hv) as (a & La & Ca & ->).
  exists a. destruct (gen_roundtrip _ _ _ _ _ a Hp G Hk La Ca) as (v & E1 & _ & _ & E2).
  rewrite (gen_transform_ntt _ _ _ _ _ _ G La Ca) in E1. injection E1 as <-.
  split; [exact E2|]. split; [exact La|]. split; [exact Ca|]. apply (gen_transform_ntt _ _ _ _ _ _ G La Ca).
Qed.

(** Lazily reduced inputs of the inverse transform. *)
Lemma gen_inverse_lazy B p k F T a u : prime p -> gen_facts B p k F T -> (0 < k)%nat -> length a = (2 ^ k)%nat -> canonical p a ->
  Forall (fun x => 0 <= x < 2 * p) u -> (exists v, transform_slice F T a = Some v /\ pcong p u v) ->
  inverse_transform_slice F T u = Some a.
Proof.
  intros Hp G Hk Hl Ha Hu (v & Ev & Huv). rewrite (gen_transform_ntt _ _ _ _ _ _ G Hl Ha) in Ev. injection Ev as <-.
  pose proof (gf_p _ _ _ _ _ G) as E. subst p. pose proof (gf_ok _ _ _ _ _ G) as Hok.
  rewrite (inverse_of_transform F Hok Hp (nt_root T) k (gf_2 _ _ _ _ _ G) (gf_root _ _ _ _ _ G) T a u); try assumption.
  - f_equal. apply pmod_small. exact Ha.
  - apply G.
  - rewrite (pcong_length _ _ _ Huv). apply ntt_of_length.
  - intros i Hi. rewrite (pcong_nth_inv _ _ _ i Huv). rewrite nth_ntt_of by exact Hi.
    apply cong_mod. pose proof (gf_2 _ _ _ _ _ G). lia.
Qed.

Lemma gen_monomial B p k F T c d : gen_facts B p k F T ->
  0 <= c < p -> (2 * 2 ^ Z.of_nat k - 1) * Z.of_nat d < 2 ^ 64 ->
  exists v, transform_slice F T (pmod p (monomial (2 ^ k) c d)) = Some v /\
    transform_monomial F T c (Z.of_nat d) (2 ^ k) = Some v.
Proof.
  intros G Hc Hf. pose proof (gf_p _ _ _ _ _ G) as E. subst p. pose proof (gf_ok _ _ _ _ _ G) as Hok.
  pose proof (gf_2 _ _ _ _ _ G). rewrite <- pow2_nat in Hf.
  rewrite (transform_monomial_correct F Hok (nt_root T) k T (gf_2 _ _ _ _ _ G) (gf_k _ _ _ _ _ G) (gf_root _ _ _ _ _ G) (gf_tab _ _ _ _ _ G) c (Z.of_nat d) Hc (Zle_0_nat d) Hf).
  eexists. split; [|reflexivity].
  rewrite (gen_transform_ntt _ _ _ _ _ _ G); [|rewrite pmod_length; apply monomial_length|apply pmod_canonical; lia].
  f_equal. rewrite (ntt_pmod F Hok). rewrite Nat2Z.id. symmetry. apply (mono_ntt_transform F); apply G.
Qed.

Lemma gen_monomial_one B p k F T d : gen_facts B p k F T ->
  (2 * 2 ^ Z.of_nat k - 1) * Z.of_nat d < 2 ^ 64 ->
  exists v, transform_slice F T (pmod p (monomial (2 ^ k) 1 d)) = Some v /\
    transform_coeff_one_monomial T (Z.of_nat d) (2 ^ k) = Some v.
Proof.
  intros G Hf. pose proof (gf_p _ _ _ _ _ G) as E. subst p. pose proof (gf_ok _ _ _ _ _ G) as Hok.
  pose proof (gf_2 _ _ _ _ _ G). rewrite <- pow2_nat in Hf.
  rewrite (transform_one_correct F Hok (nt_root T) k T (gf_2 _ _ _ _ _ G) (gf_k _ _ _ _ _ G) (gf_root _ _ _ _ _ G) (gf_tab _ _ _ _ _ G) (Z.of_nat d) (Zle_0_nat d) Hf).
  eexists. split; [|reflexivity].
  rewrite (gen_transform_ntt _ _ _ _ _ _ G); [|rewrite pmod_length; apply monomial_length|apply pmod_canonical; lia].
  f_equal. rewrite (ntt_pmod F Hok). rewrite Nat2Z.id. symmetry. apply (mono_ntt_transform F); apply G.
Qed.

Lemma gen_monomial_neg_one B p k F T d : gen_facts B p k F T ->
  (2 * 2 ^ Z.of_nat k - 1) * Z.of_nat d < 2 ^ 64 ->
  exists v, transform_slice F T (pmod p (monomial (2 ^ k) (-1) d)) = Some v /\
    transform_coeff_neg_one_monomial F T (Z.of_nat d) (2 ^ k) = Some v.
Proof.
  intros G Hf. pose proof (gf_p _ _ _ _ _ G) as E. subst p. pose proof (gf_ok _ _ _ _ _ G) as Hok.
  pose proof (gf_2 _ _ _ _ _ G). rewrite <- pow2_nat in Hf.
  rewrite (transform_neg_one_correct F Hok (nt_root T) k T (gf_2 _ _ _ _ _ G) (gf_k _ _ _ _ _ G) (gf_root _ _ _ _ _ G) (gf_tab _ _ _ _ _ G) (Z.of_nat d) (Zle_0_nat d) Hf).
  eexists. split; [|reflexivity].
  rewrite (gen_transform_ntt _ _ _ _ _ _ G); [|rewrite pmod_length; apply monomial_length|apply pmod_canonical; lia].
  f_equal. rewrite (ntt_pmod F Hok). rewrite Nat2Z.id. symmetry. apply (mono_ntt_transform F); apply G.
Qed.

(** * Polynomials over a table lookup *)

Lemma field_ctx B p k F tbl : wwidth B -> prime p -> derive_field B p = Some F -> serves F tbl k ->
  fok F /\ fp F = p /\ exists w, ctx F tbl k w.
Proof.
  intros HB Hp HF HS. pose proof (prime_ge_2 p Hp).
  destruct (derive_field_ok B p F HB ltac:(lia) HF) as (Hok & _ & <-).
  split; [exact Hok|]. split; [reflexivity|]. apply (serves_ctx F Hok Hp tbl k HS).
Qed.

Lemma poly_mul B p k F tbl a b : wwidth B -> prime p -> derive_field B p = Some F -> serves F tbl k ->
  (0 < k)%nat -> length a = (2 ^ k)%nat -> length b = (2 ^ k)%nat -> canonical p a -> canonical p b ->
  p_mul_assign F tbl a b = Some (pmod p (negacyclic (2 ^ k) a b)).
Proof.
  intros HB Hp HF HS Hk La Lb Ha Hb. destruct (field_ctx B p k F tbl HB Hp HF HS) as (Hok & <- & w & C).
  apply (p_mul_assign_correct F Hok Hp tbl k w C); assumption.
Qed.

Lemma poly_mul_ntt B p k F tbl a b : wwidth B -> prime p -> derive_field B p = Some F -> serves F tbl k ->
  (0 < k)%nat -> length a = (2 ^ k)%nat -> length b = (2 ^ k)%nat -> canonical p a -> canonical p b ->
  exists v, into_ntt F tbl b = Some v /\ p_mul_assign_ntt F tbl a v = Some (pmod p (negacyclic (2 ^ k) a b)).
Proof.
  intros HB Hp HF HS Hk La Lb Ha Hb. destruct (field_ctx B p k F tbl HB Hp HF HS) as (Hok & <- & w & C).
  exists (ntt_of F w k b). split; [apply (into_ntt_canon F Hok tbl k w C b Lb Hb)|].
  apply (p_mul_assign_ntt_correct F Hok Hp tbl k w C); assumption.
Qed.

(** Transform-domain operations mirror the ring operations. *)
Lemma ntt_domain B p k F tbl a b : wwidth B -> prime p -> derive_field B p = Some F -> serves F tbl k ->
  length a = (2 ^ k)%nat -> length b = (2 ^ k)%nat -> canonical p a -> canonical p b ->
  exists u v, into_ntt F tbl a = Some u /\ into_ntt F tbl b = Some v /\
    p_add F u v = into_ntt F tbl (pmod p (padd a b)) /\
    p_sub F u v = into_ntt F tbl (pmod p (psub a b)) /\
    p_neg F u = into_ntt F tbl (pmod p (pneg a)) /\
    n_mul F u v = into_ntt F tbl (pmod p (negacyclic (2 ^ k) a b)) /\
    n_mul_assign_poly F tbl u b = into_ntt F tbl (pmod p (negacyclic (2 ^ k) a b)) /\
    p_add F u v <> None.
Proof.
  intros HB Hp HF HS La Lb Ha Hb. destruct (field_ctx B p k F tbl HB Hp HF HS) as (Hok & <- & w & C).
  pose proof (p_pos F Hok) as Hpos.
  assert (Hm : forall x, length x = (2 ^ k)%nat -> into_ntt F tbl (pmod (fp F) x) = Some (ntt_of F w k x)).
  { intros x Lx. rewrite (into_ntt_canon F Hok tbl k w C); [|rewrite pmod_length; exact Lx|apply pmod_canonical; exact Hpos].
    rewrite (ntt_pmod F Hok). reflexivity. }
  assert (Hcl : forall x y, pcong (fp F) x (ntt_of F w k y) -> pmod (fp F) x = ntt_of F w k y).
  { intros x y H. rewrite (mod_pcong_eq (fp F) _ _ Hpos H). apply pmod_small. apply (ntt_of_canonical F Hok). }
  exists (ntt_of F w k a), (ntt_of F w k b).
  split; [apply (into_ntt_canon F Hok tbl k w C); assumption|]. split; [apply (into_ntt_canon F Hok tbl k w C); assumption|].
  assert (Ll : length (ntt_of F w k a) = length (ntt_of F w k b)) by (rewrite !ntt_of_length; reflexivity).
  pose proof (ntt_of_canonical F Hok w k a) as Ca. pose proof (ntt_of_canonical F Hok w k b) as Cb.
  rewrite (p_add_correct F Hok _ _ Ll Ca Cb), (p_sub_correct F Hok _ _ Ll Ca Cb), (p_neg_correct F _ Ca).
  rewrite (n_mul_correct F Hok _ _ Ll Ca Cb).
  rewrite (n_mul_assign_poly_correct F Hok tbl k w C) by (assumption || apply ntt_of_length).
  rewrite !Hm by (rewrite ?padd_length, ?psub_length, ?pneg_length, ?negacyclic_length by congruence; first [assumption|reflexivity]).
  repeat split; try discriminate; f_equal; apply Hcl.
  - apply (ntt_add F Hok); assumption.
  - apply (ntt_sub F Hok); assumption.
  - apply (ntt_neg F Hok).
  - eapply (ntt_mul F Hok _ _ _ C); assumption.
  - eapply (ntt_mul F Hok _ _ _ C); assumption.
Qed.

Lemma ntt_mac B p k F tbl a b c x : wwidth B -> prime p -> derive_field B p = Some F -> serves F tbl k ->
  length a = (2 ^ k)%nat -> length b = (2 ^ k)%nat -> length c = (2 ^ k)%nat ->
  canonical p a -> canonical p b -> canonical p c ->
  Forall (fun y => 0 <= y < 2 * p) x -> (exists t, into_ntt F tbl c = Some t /\ pcong p x t) ->
  exists u v r, into_ntt F tbl a = Some u /\ into_ntt F tbl b = Some v /\
    ntt_add_mul_assign F x u v = into_ntt F tbl (pmod p (padd c (negacyclic (2 ^ k) a b))) /\
    ntt_add_mul_assign F x u v <> None /\
    ntt_add_mul_assign_fast F x u v = Some r /\ Forall (fun y => 0 <= y < 2 * p) r /\
    (exists t, into_ntt F tbl (pmod p (padd c (negacyclic (2 ^ k) a b))) = Some t /\ pcong p r t) /\
    ((0 < k)%nat -> into_native F tbl r = Some (pmod p (padd c (negacyclic (2 ^ k) a b)))).
Proof.
  intros HB Hp HF HS La Lb Lc Ha Hb Hc Hx (t & Et & Ht).
  destruct (field_ctx B p k F tbl HB Hp HF HS) as (Hok & <- & w & C).
  pose proof (p_pos F Hok) as Hpos.
  rewrite (into_ntt_canon F Hok tbl k w C c Lc Hc) in Et. injection Et as <-.
  exists (ntt_of F w k a), (ntt_of F w k b).
  pose proof (ntt_of_canonical F Hok w k a) as Ca. pose proof (ntt_of_canonical F Hok w k b) as Cb.
  assert (Lx : length x = (2 ^ k)%nat) by (rewrite (pcong_length _ _ _ Ht); apply ntt_of_length).
  set (m := padd c (negacyclic (2 ^ k) a b)).
  assert (Lm : length m = (2 ^ k)%nat) by (unfold m; rewrite padd_length; rewrite ?negacyclic_length; congruence).
  assert (Hcong : pcong (fp F) (padd x (pmul (ntt_of F w k a) (ntt_of F w k b))) (ntt_of F w k m)).
  { eapply pcong_trans; [|apply (ntt_add F Hok); [exact Lc|apply negacyclic_length]].
    change (Forall2 (cong (fp F))) with (pcong (fp F)); rewrite Ht; rewrite (ntt_mul F Hok _ _ _ C a b La Lb); reflexivity. }
  destruct (ntt_add_mul_assign_fast_correct F Hok x (ntt_of F w k a) (ntt_of F w k b)) as (r & Er & Lr & Rr & Cr);
    [rewrite ntt_of_length; exact Lx|rewrite ntt_of_length; exact Lx|apply (R2_word F Hok); exact Hx|
     apply (canonical_word F Hok); assumption|apply (canonical_word F Hok); assumption|].
  exists r.
  assert (Em : into_ntt F tbl (pmod (fp F) m) = Some (ntt_of F w k m)).
  { rewrite (into_ntt_canon F Hok tbl k w C); [|rewrite pmod_length; exact Lm|apply pmod_canonical; exact Hpos].
    rewrite (ntt_pmod F Hok). reflexivity. }
  assert (Ea : ntt_add_mul_assign F x (ntt_of F w k a) (ntt_of F w k b) = Some (ntt_of F w k m)).
  { rewrite (ntt_add_mul_assign_correct F Hok);
      [|rewrite ntt_of_length; exact Lx|rewrite ntt_of_length; exact Lx|apply (R2_word F Hok); exact Hx|
     apply (canonical_word F Hok); assumption|apply (canonical_word F Hok); assumption].
    f_equal. rewrite (mod_pcong_eq (fp F) _ _ Hpos Hcong). apply pmod_small. apply (ntt_of_canonical F Hok). }
  split; [apply (into_ntt_canon F Hok tbl k w C); assumption|]. split; [apply (into_ntt_canon F Hok tbl k w C); assumption|].
  rewrite Em. split; [exact Ea|]. split; [rewrite Ea; discriminate|]. split; [exact Er|]. split; [exact Rr|].
  split; [exists (ntt_of F w k m); split; [reflexivity|]; eapply pcong_trans; [exact Cr|exact Hcong]|].
  intros Hk. apply (into_native_correct F Hok Hp tbl k w C); [exact Hk|exact Lm|exact Rr|].
  eapply pcong_trans; [exact Cr|exact Hcong].
Qed.

(** * Inverses *)
Lemma poly_inv B p k F tbl a b : wwidth B -> prime p -> derive_field B p = Some F -> serves F tbl k ->
  (0 < k)%nat -> length a = (2 ^ k)%nat -> canonical p a ->
  length b = (2 ^ k)%nat -> pmod p (negacyclic (2 ^ k) b a) = monomial (2 ^ k) 1 0 ->
  exists r, p_inv F tbl a = Some r /\ length r = (2 ^ k)%nat /\ canonical p r /\
    pmod p (negacyclic (2 ^ k) r a) = monomial (2 ^ k) 1 0.
Proof.
  intros HB Hp HF HS Hk La Ha Lb E. destruct (field_ctx B p k F tbl HB Hp HF HS) as (Hok & <- & w & C).
  pose proof (p_pos F Hok) as Hpos.
  destruct (p_inv_correct F Hok Hp tbl k w C a Hk La Ha) as (r & Er & Lr & Cr & Hr).
  exists r. split; [exact Er|]. split; [exact Lr|]. split; [exact Cr|]. apply Hr.
  intros i Hi Hz.
  assert (Hc : cong (fp F) (nth i (pmul (ntt_of F w k b) (ntt_of F w k a)) 0) 1).
  { rewrite (pcong_nth_inv _ _ _ i (ntt_mul F Hok _ _ _ C b a Lb La)).
    rewrite <- (ntt_pmod F Hok), E. rewrite nth_ntt_of by exact Hi. rewrite cong_mod by lia.
    rewrite (ev_monomial (fp F)); [|apply pow_nz|apply zt_pow_n; apply C].
    rewrite npow_0. apply cong_of_eq. ring. }
  rewrite nth_pmul, Hz in Hc by (rewrite !ntt_of_length; reflexivity).
  destruct Hc as [q Hq]. pose proof (ctx_gt2 F tbl k w C).
  assert (Hd : (fp F | 1)) by (exists (- q); lia). apply Z.divide_1_r in Hd. lia.
Qed.

(** ** Refused lengths *)
Lemma mul_mismatch F tbl a b : length a <> length b -> p_mul_assign F tbl a b = None /\ p_mul_assign_ntt F tbl a b = None.
Proof.
  intros H. assert (E : same_len a b = None) by (unfold same_len, assert; destruct (Nat.eqb_spec (length a) (length b)); [contradiction|reflexivity]).
  unfold p_mul_assign, p_mul_assign_ntt. rewrite E. split; reflexivity.
Qed.
Lemma mul_no_pow2 F tbl a b : (forall k, length a <> (2 ^ k)%nat) -> into_ntt F tbl a = None /\ into_native F tbl a = None /\
    p_mul_assign F tbl a b = None /\ p_mul_assign_ntt F tbl a b = None /\ p_inv F tbl a = None.
Proof.
  intros H. assert (E : len_pow2 (length a) = None).
  { unfold len_pow2, assert. destruct (is_pow2 (Z.of_nat (length a))) eqn:P; [|reflexivity]. exfalso. unfold is_pow2 in P.
    apply andb_prop in P. destruct P as [P1 P2]. apply Z.eqb_eq in P2. apply (H (Z.to_nat (Z.log2 (Z.of_nat (length a))))).
    apply Nat2Z.inj. rewrite P2 at 1. rewrite Nat2Z.inj_pow, Z2Nat.id by apply Z.log2_nonneg. reflexivity. }
  unfold p_inv, into_ntt, into_native, p_mul_assign, p_mul_assign_ntt. rewrite E. cbn [bind]. repeat split; destruct (same_len a b); reflexivity.
Qed.
