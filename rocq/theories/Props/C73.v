(** C73: threads that ask for transform tables get the right ones under every schedule, never wait for ever,
    and come to results that do not depend on the schedule. *)
From Coq Require Import ZArith Znumtheory List Arith Lia.
From Verif Require Import Spec.Basic Spec.ConcreteNtt Spec.Programs Model.Base Model.Field Model.NTT Model.Concrete Model.Poly Model.Cache Model.Threads.
From Verif Require Import Proofs.NumTheory Proofs.ThreadProofs.
Import ListNotations.
Local Open Scope Z_scope.

(** Every thread's result is one it gets with right answers only: the table of the size asked for; an error
    only if its own search failed and it has not been told before that the size is there; never a panic. *)
Theorem C73_right {A : Type} (B p : Z) (F : field) (ext : option plans) (ps : list (prog A)) (s : list nat) (w : state A)
  (i : nat) (q : prog A) (x : A) :
  wwidth B -> prime p -> derive_field B p = Some F -> build_ok ext ->
  Forall (asks (call_ok F)) ps -> Forall (asks (call_fits F)) ps ->
  moves F ext s (begin ps) = Some w -> nth_error ps i = Some q -> got w i x -> result F ext [] q x.
Proof. intros HB Hp HF Hb Ho Hf. exact (threads_right B p F ext ps HB Hp HF Hb Ho Hf s w i q x). Qed.
Print Assumptions C73_right.

(** If the searches succeed the results are the same under every schedule, and those of each thread running
    alone. *)
Theorem C73_schedule_independent {A : Type} (B p : Z) (F : field) (ext : option plans) (tbl : nat -> any_table)
  (ps : list (prog A)) (s : list nat) (w : state A) (i : nat) (q : prog A) (x : A) :
  wwidth B -> prime p -> derive_field B p = Some F -> build_ok ext ->
  Forall (asks (call_ok F)) ps -> Forall (asks (call_fits F)) ps -> Forall (asks (succeeds F ext tbl)) ps ->
  moves F ext s (begin ps) = Some w -> nth_error ps i = Some q -> got w i x -> x = the_result tbl q.
Proof. intros HB Hp HF Hb Ho Hf Hs. exact (threads_det B p F ext ps HB Hp HF Hb Ho Hf tbl s w i q x Hs). Qed.
Print Assumptions C73_schedule_independent.

(** A table in the cache is never replaced or removed while threads hold it. *)
Theorem C73_stable {A : Type} (B p : Z) (F : field) (ext : option plans) (ps : list (prog A)) (s s' : list nat)
  (w w' : state A) (k : nat) (T : any_table) :
  wwidth B -> prime p -> derive_field B p = Some F -> build_ok ext ->
  Forall (asks (call_ok F)) ps -> Forall (asks (call_fits F)) ps ->
  moves F ext s (begin ps) = Some w -> moves F ext s' w = Some w' ->
  cached (s_cache w) k = Some T -> cached (s_cache w') k = Some T.
Proof. intros HB Hp HF Hb Ho Hf. exact (threads_stable B p F ext ps HB Hp HF Hb Ho Hf s s' w w' k T). Qed.
Print Assumptions C73_stable.

(** Whatever the requests and the modulus, also after panics: while a thread is not done some thread can move,
    and from every reachable state all threads can come to their ends. *)
Theorem C73_no_deadlock {A : Type} (F : field) (ext : option plans) (ps : list (prog A)) (s : list nat) (w : state A) :
  moves F ext s (begin ps) = Some w ->
  (finished w \/ exists i w', move F ext i w = Some w') /\ exists s' w', moves F ext s' w = Some w' /\ finished w'.
Proof. exact (threads_progress F ext ps s w). Qed.
Print Assumptions C73_no_deadlock.

(** ... and no schedule goes on for ever. *)
Theorem C73_ends {A : Type} (F : field) (ext : option plans) (ps : list (prog A)) (f : nat -> state A) :
  f O = begin ps -> ~ (forall n, exists i, move F ext i (f n) = Some (f (S n))).
Proof. exact (threads_finite F ext ps f). Qed.
Print Assumptions C73_ends.

(** Two threads, p = 97: both find the cell empty and wait for the mutex; the first fills it for size 2, the second
    then adds size 4 while the first goes on. *)
Example C73_ex : exists F w, derive_field 16 97 = Some F /\ prime 97 /\ wwidth 16 /\ build_ok None /\
  Forall (asks (call_ok F)) [ask_root 1; ask_root 2] /\ Forall (asks (call_fits F)) [ask_root 1; ask_root 2] /\
  moves F None [0; 1; 0; 0; 0; 1; 1; 0; 1; 1; 1]%nat (begin [ask_root 1; ask_root 2]) = Some w /\ finished w /\
  got w 0 22 /\ got w 1 33 /\ exists T, cached (s_cache w) 1 = Some T.
Proof.
  eexists. eexists. split; [vm_compute; reflexivity|]. split; [apply small_prime; vm_compute; reflexivity|].
  split; [exists 8; split; [discriminate|reflexivity]|]. split; [exact I|].
  assert (Hr : forall P : call -> Prop, (forall k, In k [1; 2]%nat -> P (Get k (fun _ _ => 5) (fun l => l))) -> Forall (asks P) [ask_root 1; ask_root 2]).
  { intros P HP. assert (H : forall k, In k [1; 2]%nat -> asks P (ask_root k)).
    { intros k Hk. split; [apply HP; exact Hk|]. intros [? [[?|]|]|? ?]; exact I. }
    constructor; [apply H; cbn; auto|]. constructor; [apply H; cbn; auto|constructor]. }
  split. { apply Hr. intros k _. split; [intros; vm_compute; split; discriminate|intros l; apply Permutation.Permutation_refl]. }
  split. { apply Hr. intros k [<-|[<-|[]]]; (split; [lia|vm_compute; reflexivity]). }
  split; [vm_compute; reflexivity|]. split; [repeat constructor; eexists; reflexivity|].
  split; [vm_compute; reflexivity|]. split; [vm_compute; reflexivity|]. eexists. vm_compute. reflexivity.
Qed.

(** Their searches succeed, and alone they come to the same results. *)
Example C73_ex_alone : exists F tbl, derive_field 16 97 = Some F /\
  Forall (asks (succeeds F None tbl)) [ask_root 1; ask_root 2] /\
  the_result tbl (ask_root 1) = 22 /\ the_result tbl (ask_root 2) = 33.
Proof.
  assert (H : exists F, derive_field 16 97 = Some F /\ (exists T, generate_table F None (fun _ => 5) 1 = Some (Ok T) /\ t_root T = 22) /\
    (exists T, generate_table F None (fun _ => 5) 2 = Some (Ok T) /\ t_root T = 33)).
  { eexists. split; [vm_compute; reflexivity|]. split; (eexists; split; [vm_compute; reflexivity|reflexivity]). }
  destruct H as (F & EF & (T1 & E1 & R1) & (T2 & E2 & R2)).
  exists F, (fun k => if (k =? 1)%nat then T1 else T2). split; [exact EF|]. split; [|split; [exact R1|exact R2]].
  constructor; [split; [exact E1|intros [? [[?|]|]|? ?]; exact I]|].
  constructor; [split; [exact E2|intros [? [[?|]|]|? ?]; exact I]|constructor].
Qed.
