(** C26: concurrent use of the table cache. *)
From Coq Require Import ZArith List Arith Lia.
From Verif Require Import Model.Base Model.Cache.
From Verif Require Import Proofs.CacheProofs.
Import ListNotations.

(** The full statement fails: two threads asking for different sizes reach a state in which one is
    inside a lookup while the other is inside an insertion. *)
Theorem C26_race_refuted :
  exists (progs : list (list tcall)) (s : list nat) (w : world),
    sched s (start None progs) = Some w /\ race w.
Proof.
  exists [[TGet 10; TGet 10]; [TGet 11]], [0; 0; 0; 0; 0; 0; 1; 1; 1; 1]%nat. eexists.
  split; [vm_compute; reflexivity|].
  exists 1%nat, 0%nat. eexists. eexists. split; [lia|]. split; [reflexivity|]. split; [reflexivity|].
  split; [repeat eexists|]. left. exists 10%nat. left. reflexivity.
Qed.
Print Assumptions C26_race_refuted.

(** Missing from the full statement: lookups are not excluded.  Mutations exclude each other, for
    any number of threads and any schedule. *)
Theorem C26_writers_exclusive_partial (cell : option (list nat)) (progs : list (list tcall))
  (s : list nat) (w : world) (i j : nat) (t u : thread) :
  sched s (start cell progs) = Some w ->
  nth_error (w_threads w) i = Some t -> nth_error (w_threads w) j = Some u ->
  mutating t -> mutating u -> i = j.
Proof.
  intros E Ht Hu (k & a & b & Et) (k' & a' & b' & Eu).
  destruct (writers_exclusive cell progs s w E) as (_ & H). apply (H i j t u Ht Hu).
  - unfold locked_pc. rewrite Et. exact I.
  - unfold locked_pc. rewrite Eu. exact I.
Qed.
Print Assumptions C26_writers_exclusive_partial.

(** Race free when every requested size was initialised beforehand. *)
Theorem C26_initialised_partial (m : list nat) (progs : list (list tcall)) (s : list nat) (w : world) :
  Forall (Forall (calls_in m)) progs -> sched s (start (Some m) progs) = Some w -> ~ race w.
Proof. exact (cached_no_race m progs s w). Qed.
Print Assumptions C26_initialised_partial.

(** Race free when the whole process uses a single size, even uninitialised. *)
Theorem C26_single_size_partial (k : nat) (progs : list (list tcall)) (s : list nat) (w : world) :
  Forall (Forall (fun c => c = TGet k)) progs -> sched s (start None progs) = Some w -> ~ race w.
Proof. exact (one_size_no_race k progs s w). Qed.
Print Assumptions C26_single_size_partial.

Example C26_ex : exists w w',
  sched [0; 1; 2; 1; 1; 1; 1; 0; 0; 0; 2; 2]%nat (start None [[TGet 3]; [TGet 3]; [TGet 3]]) = Some w /\
  sched [0; 1; 1; 0; 1; 0]%nat (start (Some [4; 5]) [[TGet 4; TGet 5]; [TInit [5; 4]]]) = Some w'.
Proof. eexists. eexists. split; [vm_compute; reflexivity|vm_compute; reflexivity]. Qed.
