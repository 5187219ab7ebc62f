(** C25: the lazily filled table cache always serves the right table. *)
From Coq Require Import ZArith Znumtheory List Arith Lia Permutation.
From Verif Require Import Spec.Basic Spec.ConcreteNtt Model.Base Model.Field Model.NTT Model.Concrete Model.Poly Model.Cache.
From Verif Require Import Proofs.NumTheory Proofs.FieldProofs Proofs.NTTTableProofs Proofs.CacheProofs.
Import ListNotations.
Local Open Scope Z_scope.

(** A table handed out for [k] is one the generator built for [k]. *)
Theorem C25_right_table (F : field) (ext : option plans) (h : list call) (k : nat) (d : nat -> nat -> Z)
  (o : list nat -> list nat) (T : any_table) :
  Forall (call_ok F) h -> draws_ok F d o ->
  answer_after F ext h (Get k d o) = GetAnswer k (Some (Ok T)) -> is_table F ext k T.
Proof. exact (right_table F ext h k d o T). Qed.
Print Assumptions C25_right_table.

(** ... hence, for a prime modulus, the same in every process and after every history. *)
Theorem C25_same_everywhere (B p : Z) (F : field) (ext : option plans) (h h' : list call) (k : nat) (d d' : nat -> nat -> Z)
  (o o' : list nat -> list nat) (T T' : any_table) :
  wwidth B -> prime p -> derive_field B p = Some F ->
  Forall (call_ok F) h -> Forall (call_ok F) h' -> draws_ok F d o -> draws_ok F d' o' ->
  answer_after F ext h (Get k d o) = GetAnswer k (Some (Ok T)) ->
  answer_after F ext h' (Get k d' o') = GetAnswer k (Some (Ok T')) -> T = T'.
Proof.
  intros HB Hp HF Hh Hh' Hd Hd' E E'. pose proof (prime_ge_2 p Hp).
  destruct (derive_field_ok B p F HB ltac:(lia) HF) as (Hok & _ & <-).
  destruct (right_table F ext h k d o T Hh Hd E) as (x & Hx & Ex).
  destruct (right_table F ext h' k d' o' T' Hh' Hd' E') as (x' & Hx' & Ex').
  exact (table_det F ext x x' k T T' Hok Hp Hx Hx' Ex Ex').
Qed.
Print Assumptions C25_same_everywhere.

(** Once handed out, a table is handed out again by every later request, whatever happens in
    between (including failing and panicking calls). *)
Theorem C25_never_replaced (F : field) (ext : option plans) (h h' : list call) (k : nat) (d d' : nat -> nat -> Z)
  (o o' : list nat -> list nat) (T : any_table) :
  Forall (call_ok F) h -> Forall (call_ok F) h' -> draws_ok F d o -> draws_ok F d' o' ->
  answer_after F ext h (Get k d o) = GetAnswer k (Some (Ok T)) ->
  answer_after F ext (h ++ Get k d o :: h') (Get k d' o') = GetAnswer k (Some (Ok T)).
Proof. exact (repeat_get F ext h h' k d o d' o' T). Qed.
Print Assumptions C25_never_replaced.

(** Successful initialisation makes every requested size available for ever. *)
Theorem C25_init (F : field) (ext : option plans) (h h' : list call) (ks : list nat) (k : nat) (d d' : nat -> nat -> Z)
  (o o' : list nat -> list nat) :
  Forall (call_ok F) h -> Forall (call_ok F) h' -> draws_ok F d o -> draws_ok F d' o' ->
  answer_after F ext h (Init ks d o) = InitAnswer ks (Some (Ok tt)) -> In k ks ->
  exists T, answer_after F ext (h ++ Init ks d o :: h') (Get k d' o') = GetAnswer k (Some (Ok T)).
Proof. exact (init_then_get F ext h h' ks k d o d' o'). Qed.
Print Assumptions C25_init.

(** No call panics as long as all requested sizes fit the degree type. *)
Theorem C25_no_panic (B p : Z) (F : field) (ext : option plans) (h : list call) :
  wwidth B -> prime p -> derive_field B p = Some F -> build_ok ext ->
  Forall (call_ok F) h -> Forall (call_fits F) h -> Forall answer_ok (snd (run F ext h cache_init)).
Proof.
  intros HB Hp HF Hb Hh Hf. pose proof (prime_ge_2 p Hp).
  destruct (derive_field_ok B p F HB ltac:(lia) HF) as (Hok & _ & <-).
  exact (no_panic F ext h Hok Hp Hb Hh Hf cache_init eq_refl).
Qed.
Print Assumptions C25_no_panic.

(** The cache provides what the polynomial operations assume about the lookup. *)
Theorem C25_serves (F : field) (ext : option plans) (h : list call) (k : nat) (T : any_table) :
  build_ok ext -> Forall (call_ok F) h -> cached (fst (run F ext h cache_init)) k = Some T ->
  serves F (cached (fst (run F ext h cache_init))) k.
Proof. exact (cache_serves F ext h k T). Qed.
Print Assumptions C25_serves.

(** A history with a failing size (7), an initialisation that fails half-way and two successes. *)
Example C25_ex : exists F T, derive_field 16 97 = Some F /\
  let d := fun (_ _ : nat) => 5 in let o := fun l : list nat => l in
  generate_table F None (fun _ => 5) 2 = Some (Ok T) /\
  call_ok F (Get 2%nat d o) /\ call_fits F (Init [1; 2; 7; 3]%nat d o) /\
  answer_after F None [Get 7%nat d o; Get 1%nat d o; Init [1; 2; 7; 3]%nat d o] (Get 2%nat d o) = GetAnswer 2 (Some (Ok T)) /\
  answer_after F None [Get 7%nat d o; Get 1%nat d o] (Init [1; 2; 7; 3]%nat d o) = InitAnswer [1; 2; 7; 3]%nat (Some Err).
Proof.
  eexists. eexists. split; [vm_compute; reflexivity|]. cbn zeta. split; [vm_compute; reflexivity|].
  split; [split; [intros; vm_compute; split; discriminate|apply Permutation_refl]|].
  split; [repeat constructor; vm_compute; reflexivity|].
  split; [vm_compute; reflexivity|vm_compute; reflexivity].
Qed.
