(** C04: Barrett reduction of word slices of any length is exact. *)
From Coq Require Import ZArith List.
From Verif Require Import Spec.Basic Model.Base Model.Barrett Proofs.Arith Proofs.BarrettProofs.
Import ListNotations.
Local Open Scope Z_scope.

Theorem C04_reduce_slice (B v : Z) (m : barrett) (l : list Z) :
  wwidth B -> 0 <= v -> barrett_new B v = Some m ->
  Forall (fun x => 0 <= x < 2 ^ B) l -> l <> [] ->
  reduce_slice B m l = Some (words_value B l mod v) /\
  exists y, lazy_reduce_slice B m l = Some y /\ 0 <= y < 2 * v /\ cong v y (words_value B l).
Proof.
  intros HB Hv Hm Hl Hne. apply barrett_new_inv in Hm; [|assumption|assumption].
  destruct Hm as (_ & <- & Hok). split.
  - apply reduce_slice_correct; assumption.
  - apply lazy_reduce_slice_correct; assumption.
Qed.
Print Assumptions C04_reduce_slice.

Theorem C04_empty_slice_panics (B : Z) (m : barrett) :
  reduce_slice B m [] = None /\ lazy_reduce_slice B m [] = None.
Proof. split; reflexivity. Qed.
Print Assumptions C04_empty_slice_panics.

Example C04_ex : exists m, barrett_new 32 1000000513 = Some m /\
  reduce_slice 32 m [1; 2; 3; 4] = Some ((1 + 2 * 2^32 + 3 * 2^64 + 4 * 2^96) mod 1000000513).
Proof. eexists. split; [vm_compute; reflexivity|]. vm_compute. reflexivity. Qed.
