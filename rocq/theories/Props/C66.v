(** C66: the default build (external transform crate behaving as documented) and the build without it
    compute the same polynomials. *)
From Coq Require Import ZArith Znumtheory List Arith Lia Permutation.
From Verif Require Import Spec.Basic Spec.Poly Spec.ConcreteNtt Model.Base Model.Shoup Model.Field Model.NTT Model.Concrete Model.Poly.
From Verif Require Import Proofs.NumTheory Proofs.PolyMath Proofs.FieldProofs Proofs.NTTProofs Proofs.NTTTableProofs Proofs.ConcreteProofs
  Proofs.PolyMain Proofs.BackendProofs Proofs.ExampleTac.
Import ListNotations.
Local Open Scope Z_scope.

(** In either build a table evaluates at the odd powers of its root, in bit-reversed order, undoes
    that, and transforms monomials without writing them out. *)
Theorem C66_table (B p : Z) (k : nat) (F : field) (ext : option plans) (draws : nat -> Z) (t : any_table) :
  wwidth B -> prime p -> derive_field B p = Some F -> build_ok ext -> (forall i, 2 <= draws i <= p - 1) ->
  generate_table F ext draws k = Some (Ok t) ->
  0 <= t_root t < p /\ primitive_root p (2 * 2 ^ Z.of_nat k) (t_root t) /\
  (forall a, length a = (2 ^ k)%nat -> canonical p a ->
     t_transform_slice F t a = Some (evaluations p (t_root t) k a)) /\
  ((1 <= k)%nat -> forall a, length a = (2 ^ k)%nat -> canonical p a ->
     t_inverse_transform_slice F t (evaluations p (t_root t) k a) = Some a) /\
  ((k <= 31)%nat -> forall d, 0 <= d < 2 * 2 ^ Z.of_nat k ->
     (forall c, 0 <= c < p -> t_transform_monomial F t c d (2 ^ k) = Some (monomial_values p (t_root t) k c d)) /\
     t_transform_coeff_one_monomial t d (2 ^ k) = Some (monomial_values p (t_root t) k 1 d) /\
     t_transform_coeff_neg_one_monomial F t d (2 ^ k) = Some (monomial_values p (t_root t) k (-1) d)).
Proof.
  intros HB Hp HF Hb Hd E. pose proof (prime_ge_2 p Hp). destruct (derive_field_ok B p F HB ltac:(lia) HF) as (Hok & _ & <-).
  destruct (table_gen F Hok Hp ext draws k t Hb Hd E) as (_ & _ & Hr & _ & _ & Hprim).
  split; [exact Hr|]. split; [exact Hprim|]. split; [exact (gen_transform F Hok Hp ext draws k t Hb Hd E)|].
  split; [exact (gen_inverse F Hok Hp ext draws k t Hb Hd E)|exact (gen_monomials F Hok Hp ext draws k t Hb Hd E)].
Qed.
Print Assumptions C66_table.

(** The evaluation forms two builds compute hold the same values in some other order; with the same
    root they are equal. *)
Theorem C66_values (B p : Z) (k : nat) (F : field) (ext ext' : option plans) (draws draws' : nat -> Z)
  (t t' : any_table) (a : list Z) :
  wwidth B -> prime p -> derive_field B p = Some F -> build_ok ext -> build_ok ext' ->
  (forall i, 2 <= draws i <= p - 1) -> (forall i, 2 <= draws' i <= p - 1) ->
  generate_table F ext draws k = Some (Ok t) -> generate_table F ext' draws' k = Some (Ok t') ->
  length a = (2 ^ k)%nat -> canonical p a ->
  exists v v', t_transform_slice F t a = Some v /\ t_transform_slice F t' a = Some v' /\
    Permutation v v' /\ (t_root t = t_root t' -> v = v').
Proof.
  intros HB Hp HF Hb Hb' Hd Hd' E E' La Ca. pose proof (prime_ge_2 p Hp).
  destruct (derive_field_ok B p F HB ltac:(lia) HF) as (Hok & _ & <-).
  destruct (table_gen F Hok Hp ext draws k t Hb Hd E) as (H2 & _ & _ & Cw & _).
  destruct (table_gen F Hok Hp ext' draws' k t' Hb' Hd' E') as (_ & _ & _ & Cw' & _).
  eexists. eexists. split; [exact (gen_transform F Hok Hp ext draws k t Hb Hd E a La Ca)|].
  split; [exact (gen_transform F Hok Hp ext' draws' k t' Hb' Hd' E' a La Ca)|].
  split; [exact (evaluations_perm F Hp k _ _ a H2 Cw Cw')|]. intros ->. reflexivity.
Qed.
Print Assumptions C66_values.

(** Products of polynomials do not depend on the build. *)
Theorem C66_products (B p : Z) (k : nat) (F : field) (tbl tbl' : tables) (a b : list Z) :
  wwidth B -> prime p -> derive_field B p = Some F -> serves F tbl k -> serves F tbl' k -> (1 <= k)%nat ->
  length a = (2 ^ k)%nat -> length b = (2 ^ k)%nat -> canonical p a -> canonical p b ->
  p_mul_assign F tbl a b = Some (pmod p (negacyclic (2 ^ k) a b)) /\
  p_mul_assign F tbl' a b = p_mul_assign F tbl a b.
Proof.
  intros HB Hp HF Hs Hs' Hk La Lb Ca Cb.
  rewrite (poly_mul B p k F tbl a b HB Hp HF Hs Hk La Lb Ca Cb), (poly_mul B p k F tbl' a b HB Hp HF Hs' Hk La Lb Ca Cb). auto.
Qed.
Print Assumptions C66_products.

(** Roots kept as plain field elements (default build) and with their precomputed quotient (the
    other) multiply alike, and the search for the least primitive root finds the same one. *)
Theorem C66_roots (B p : Z) (k : nat) (F : field) (draws : nat -> Z) (v r : Z) :
  wwidth B -> prime p -> derive_field B p = Some F -> (forall i, 2 <= draws i <= p - 1) -> 0 <= v < p -> 0 <= r < p ->
  ext_from_root (ext_to_root r) = r /\
  (exists s, to_root F r = Some s /\ sh_value s = r /\ mul_root F v s = Some ((v * r) mod p)) /\
  ext_mul_root F v (ext_to_root r) = Some ((v * r) mod p) /\
  ext_try_minimal_primitive_root F draws (2 * 2 ^ Z.of_nat k) = try_minimal_primitive_root F draws (2 * 2 ^ Z.of_nat k).
Proof.
  intros HB Hp HF Hd Hv Hr. pose proof (prime_ge_2 p Hp). destruct (derive_field_ok B p F HB ltac:(lia) HF) as (Hok & _ & <-).
  pose proof (B_facts F Hok). destruct (ext_mul_root_eq F Hok v r Hv Hr) as (E1 & E2).
  split; [reflexivity|]. split.
  - destruct (to_root_is F Hok r Hr) as (s & Es & Is). exists s. split; [exact Es|]. split.
    + rewrite (is_root_value F Hok s r Is). apply Z.mod_small. exact Hr.
    + rewrite Es in E1. cbn [bind] in E1. congruence.
  - split; [exact E2|]. rewrite <- pow2_nat. exact (ext_min_root_eq F Hok draws k Hd).
Qed.
Print Assumptions C66_roots.

(** The contract can be met: the repository's own transform meets it, for every field and size. *)
Theorem C66_contract_met (B p : Z) (k : nat) (F : field) (draws : nat -> Z) (T : ntt_table) :
  wwidth B -> prime p -> derive_field B p = Some F -> (1 <= k <= 31)%nat -> (forall i, 2 <= draws i <= p - 1) ->
  generate_ntt_table F draws k = Some (Ok T) ->
  exists try_new P, crate_documented try_new /\ try_new (2 ^ Z.of_nat k) p = Some P /\
    pl_root P = nt_root T /\ (forall a, pl_fwd P a = transform_slice F T a).
Proof.
  intros HB Hp HF Hk Hd E. pose proof (prime_ge_2 p Hp). destruct (derive_field_ok B p F HB ltac:(lia) HF) as (Hok & _ & <-).
  exists (crate_of F k T), (plan_of F T). split; [exact (crate_of_generated F Hok Hp draws k T Hk Hd E)|].
  unfold crate_of. rewrite !Z.eqb_refl. auto.
Qed.
Print Assumptions C66_contract_met.

(** 32-bit words, p = 97, two coefficients: a crate whose root is 75, where this repository uses 22.
    X evaluates to [75; 22] in one build and [22; 75] in the other; X * X = -1 in both. *)
Example C66_ex : exists F T try_new t t', prime 97 /\ derive_field 32 97 = Some F /\ build_ok (Some try_new) /\
  generate_table F None (fun _ => 5) 1 = Some (Ok t) /\ generate_table F (Some try_new) (fun _ => 5) 1 = Some (Ok t') /\
  t = OwnTable T /\ t_root t = 22 /\ t_root t' = 75 /\
  t_transform_slice F t [0; 1] = Some [22; 75] /\ t_transform_slice F t' [0; 1] = Some [75; 22] /\
  serves F (fun _ => Some t') 1 /\ p_mul_assign F (fun _ => Some t') [0; 1] [0; 1] = Some [96; 0] /\
  p_mul_assign F (fun _ => Some t) [0; 1] [0; 1] = Some [96; 0].
Proof.
  assert (P97 : prime 97) by (apply small_prime; vm_compute; reflexivity).
  assert (W32 : wwidth 32) by (exists 16; split; [discriminate|reflexivity]).
  destruct (derive_field 32 97) as [F|] eqn:HF; [|vm_compute in HF; discriminate].
  destruct (derive_field_ok 32 97 F W32 ltac:(lia) HF) as (Hok & HB & HP). pose proof HF as HF'. vm_compute in HF'. injection HF' as EF.
  destruct (mapM (fun i => to_root F (75 ^ i mod 97)) [0; 1; 2; 3]) as [ord|] eqn:Eo; [|subst F; vm_compute in Eo; discriminate].
  destruct (ntt_table_new_spec F Hok ltac:(rewrite HP; exact P97) 75 1 ord) as (T' & ET & HT).
  { rewrite HP. lia. } { lia. } { rewrite HP. lia. } { rewrite HP. exists 58. reflexivity. }
  { subst F. vm_compute in Eo. injection Eo as <-. reflexivity. }
  { intros i Hi. subst F. vm_compute in Eo. injection Eo as <-.
    destruct i as [|[|[|[|i]]]]; [| | | |cbn in Hi; lia]; eexists; (split; [reflexivity|vm_compute; reflexivity]). }
  assert (Hc : crate_documented (crate_of F 1 T')).
  { apply (crate_of_documented F Hok ltac:(rewrite HP; exact P97) 75); [rewrite HP; lia|lia|rewrite HP; lia| |exact HT].
    rewrite HP. exists 58. reflexivity. }
  assert (Hg : generate_table F (Some (crate_of F 1 T')) (fun _ => 5) 1 = Some (Ok (ExtTable (mk_concrete 75 (plan_of F T'))))).
  { assert (Hr : nt_root T' = 75) by apply (to_r F 75 1 T' HT). unfold generate_table, backend, concrete_new. rewrite HB. cbn [Z.eqb orb Pos.eqb].
    change (ushl 64 1 (Z.of_nat 1)) with (Some 2). cbn [bind]. unfold crate_of. rewrite !Z.eqb_refl. cbn [andb].
    unfold f_new. cbn [plan_of pl_root]. rewrite Hr, HP. reflexivity. }
  assert (Hs : serves F (fun _ => Some (ExtTable (mk_concrete 75 (plan_of F T')))) 1).
  { exists (Some (crate_of F 1 T')), (fun _ => 5). eexists. split; [exact Hc|]. split; [intros; rewrite HP; split; discriminate|]. split; [exact Hg|reflexivity]. }
  destruct (generate_ntt_table F (fun _ => 5) 1) as [[T|]|] eqn:EG; [|subst F; vm_compute in EG; discriminate..].
  exists F, T, (crate_of F 1 T'), (OwnTable T), (ExtTable (mk_concrete 75 (plan_of F T'))).
  split; [exact P97|]. split; [reflexivity|]. split; [exact Hc|].
  split; [unfold generate_table, backend; destruct (_ || _)%bool; rewrite EG; reflexivity|]. split; [exact Hg|]. split; [reflexivity|].
  clear Hc Hg HT Hok HF. subst F. vm_compute in Eo. injection Eo as <-. vm_compute in ET, EG. injection ET as <-. injection EG as <-.
  split; [vm_compute; reflexivity|]. split; [reflexivity|]. split; [vm_compute; reflexivity|]. split; [vm_compute; reflexivity|].
  split; [exact Hs|]. split; [vm_compute; reflexivity|vm_compute; reflexivity].
Qed.
