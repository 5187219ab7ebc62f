(** C20: the forward transform evaluates at the odd powers of the root. *)
From Coq Require Import ZArith Znumtheory List Arith.
From Verif Require Import Spec.Basic Spec.Poly Model.Base Model.Field Model.NTT.
From Verif Require Import Proofs.NumTheory Proofs.PolyMain.
Import ListNotations.
Local Open Scope Z_scope.

(** The table reports the root it was built from, and that is a primitive 2n-th root of unity. *)
Theorem C20_root (B p : Z) (k : nat) (F : field) (draws : nat -> Z) (T : ntt_table) :
  wwidth B -> prime p -> derive_field B p = Some F -> (forall i, 2 <= draws i <= p - 1) ->
  generate_ntt_table F draws k = Some (Ok T) ->
  primitive_root p (2 * 2 ^ Z.of_nat k) (nt_root T) /\ 0 <= nt_root T < p.
Proof.
  intros HB Hp HF Hd HT. pose proof (gen_facts_intro B p k F draws T HB Hp HF Hd HT) as G.
  destruct (gen_primitive B p k F T Hp G) as (H1 & H2 & _). split; assumption.
Qed.
Print Assumptions C20_root.

(** Inputs may be lazily reduced (below 4p); outputs are canonical. *)
Theorem C20_transform (B p : Z) (k : nat) (F : field) (draws : nat -> Z) (T : ntt_table) (a : list Z) :
  wwidth B -> prime p -> derive_field B p = Some F -> (forall i, 2 <= draws i <= p - 1) ->
  generate_ntt_table F draws k = Some (Ok T) ->
  length a = (2 ^ k)%nat -> Forall (fun x => 0 <= x < 4 * p) a ->
  transform_slice F T a =
    Some (map (fun i => ev (nt_root T ^ (2 * Z.of_nat (bitrev k i) + 1)) a mod p) (seq 0 (2 ^ k))).
Proof.
  intros HB Hp HF Hd HT. apply (gen_transform B p k F T a).
  exact (gen_facts_intro B p k F draws T HB Hp HF Hd HT).
Qed.
Print Assumptions C20_transform.

Example C20_ex : exists F T, prime 97 /\ derive_field 16 97 = Some F /\
  generate_ntt_table F (fun _ => 5) 2 = Some (Ok T) /\ nt_root T = 33 /\
  transform_slice F T [1; 2; 96; 300] = Some [80; 72; 26; 20] /\
  map (fun i => ev (33 ^ (2 * Z.of_nat (bitrev 2 i) + 1)) [1; 2; 96; 300] mod 97) (seq 0 4) = [80; 72; 26; 20].
Proof.
  eexists. eexists. split; [apply small_prime; vm_compute; reflexivity|].
  split; [vm_compute; reflexivity|]. split; [vm_compute; reflexivity|]. vm_compute. auto.
Qed.
