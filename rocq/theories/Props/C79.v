(** C79: the transform counters count exactly under the memory model of the language. *)
From Coq Require Import ZArith List Bool Arith Lia.
From Verif Require Import Spec.Basic Model.Base Model.Count Model.CountRelaxed Spec.Counting Spec.Relaxed Proofs.RelaxedProofs Proofs.RelaxedTrace.
Import ListNotations.
Local Open Scope Z_scope.

(** Counting is on and nobody switches it or clears the counter: in the end the counter has grown by the
    number of all transforms of its kind, whatever the threads and however their accesses are reordered. *)
Theorem C79_total (d : dir) (E : exec) : consistent E -> undisturbed d E ->
  final_value E (LCtr d) = (ct_get d (ex_start E) + calls_with E (is_transform d E)) mod 2 ^ 32.
Proof. exact (total_relaxed d E). Qed.

(** Meanwhile a read sees at least the transforms that happen before it and none that happen after it. *)
Theorem C79_read (d : dir) (E : exec) (g : nat) : consistent E -> undisturbed d E -> nth_error (ex_calls E) g = Some (Get d) ->
  exists m, read_at E (LCtr d) g = (ct_get d (ex_start E) + m) mod 2 ^ 32 /\
    before d E g <= m <= calls_with E (is_transform d E) - after d E g.
Proof. intros HC HU Hg. exact (get_relaxed d E HC HU g Hg). Qed.

(** A measurement (switch on, clear, let threads transform, wait for them, switch off, read) returns
    exactly the number of transforms made, although flag and counter are different statics. *)
Theorem C79_measured (d : dir) (E : exec) (e c g : nat) : consistent E -> measured d E e c g ->
  read_at E (LCtr d) g = between d E c g mod 2 ^ 32.
Proof. exact (measured_relaxed d E e c g). Qed.

(** While counting is off and nobody switches it on or clears the counter, it keeps its value. *)
Theorem C79_off (d : dir) (E : exec) : consistent E -> ct_on (ex_start E) = false ->
  Forall (fun c => match c with Enable => False | Clear d' => d' <> d | _ => True end) (ex_calls E) ->
  final_value E (LCtr d) = ct_get d (ex_start E) /\ forall g, nth_error (ex_calls E) g = Some (Get d) -> read_at E (LCtr d) g = ct_get d (ex_start E).
Proof. intros HC Off HF. split; [|intros g _]; apply (off_relaxed d E HC Off HF). Qed.

(** Every interleaving run to its end is such an execution: same calls, program order, same values read
    and left. *)
Theorem C79_interleavings (c : counters) (progs : list (list ccall)) (s : list nat) :
  let w := cschedule s (c, cstart progs) in
  (forall t th, nth_error (snd w) t = Some th -> th_add th = None /\ th_prog th = []) ->
  exists E, ex_start E = c /\ ex_calls E = concat progs /\ ex_hb E = program_order progs /\ consistent E /\
    (forall l, final_value E l = at_start (fst w) l) /\
    (forall t th p, nth_error (snd w) t = Some th -> nth_error progs t = Some p ->
       rev (th_seen th) = reads_of E (length (concat (firstn t progs))) (length p)).
Proof. exact (interleaving_consistent c progs s). Qed.

(** Reads that are not ordered after the transforms may see them out of order: one thread makes a forward
    and then an inverse transform, another reads the inverse counter as 1 and then the forward counter
    as 0.  No interleaving does that. *)
Definition C79_progs : list (list ccall) := [[Transform Fwd; Transform Inv]; [Get Inv; Get Fwd]].
Definition C79_on : counters := mk_counters true 0 0.
Definition C79_out_of_order : exec :=
  mk_exec C79_on (concat C79_progs) (fun i j => match i, j with 0%nat, 1%nat | 2%nat, 3%nat => true | _, _ => false end)
    (fun l => match l with LFlag => [] | LCtr Fwd => [0%nat] | LCtr Inv => [1%nat] end)
    (fun l i => match l, i with LCtr Inv, 2%nat => 1%nat | _, _ => 0%nat end).
Theorem C79_reordering :
  consistent C79_out_of_order /\ read_at C79_out_of_order (LCtr Inv) 2 = 1 /\ read_at C79_out_of_order (LCtr Fwd) 3 = 0 /\
  forall s, map th_seen (snd (cschedule s (C79_on, cstart C79_progs))) <> [[]; [0; 1]].
Proof.
  split; [|split; [vm_compute; reflexivity|split; [vm_compute; reflexivity|]]].
  - constructor.
    + intros [|[|[|[|i]]]]; reflexivity.
    + intros [|[|[|[|i]]]] [|[|[|[|j]]]] [|[|[|[|k]]]]; cbn; congruence.
    + intros [|[]]; cbn; repeat constructor; cbn; tauto.
    + intros [|[]] [|[|[|[|[|i]]]]]; cbn; (split; [intros H; repeat destruct H as [H|H]; try discriminate H; try contradiction; auto|intros H; try discriminate H; auto]).
    + intros [|[]] [|[|[|[|i]]]] [|[|[|[|j]]]] [|[|m]] [|[|n]]; cbn; congruence.
    + intros [|[]] [|[|[|[|i]]]] [|[|[|[|j]]]] [|[|m]]; cbn; congruence.
    + intros [|[]] [|[|[|[|i]]]] [|[|[|[|j]]]] [|[|n]]; cbn; congruence.
    + intros [|[]] [|[|[|[|i]]]] [|[|[|[|j]]]]; cbn; try congruence; lia.
    + intros [|[]] [|[|[|[|i]]]]; cbn; try congruence; lia.
  - intros s H. pose (ws := worlds_of 12 [(C79_on, cstart C79_progs)]).
    assert (Hin : In (cschedule s (C79_on, cstart C79_progs)) ws).
    { apply closed_set_spec; [vm_compute; reflexivity|]. unfold ws. vm_compute. auto 60. }
    assert (Hall : forallb (fun w => negb (if list_eq_dec (list_eq_dec Z.eq_dec) (map th_seen (snd w)) [[]; [0; 1]] then true else false)) ws = true) by (vm_compute; reflexivity).
    rewrite forallb_forall in Hall. specialize (Hall _ Hin). rewrite H in Hall. vm_compute in Hall. discriminate.
Qed.

Print Assumptions C79_total.
Print Assumptions C79_read.
Print Assumptions C79_measured.
Print Assumptions C79_off.
Print Assumptions C79_interleavings.
Print Assumptions C79_reordering.

(** A measurement: a transform while counting is off (call 0); switch on (1), clear (2); two transforms in
    parallel (3, 4); switch off (5), read (6).  Call 4 counts first. *)
Definition C79_rank (i : nat) : nat := nth i [0; 1; 2; 3; 3; 4; 5]%nat 0%nat.
Definition C79_run : exec :=
  mk_exec (mk_counters false 41 0) [Transform Fwd; Enable; Clear Fwd; Transform Fwd; Transform Fwd; Disable; Get Fwd]
    (fun i j => (C79_rank i <? C79_rank j)%nat)
    (fun l => match l with LFlag => [1; 5]%nat | LCtr Fwd => [2; 4; 3]%nat | LCtr Inv => [] end)
    (fun l i => match l, i with LFlag, 3%nat | LFlag, 4%nat => 1%nat | LCtr Fwd, 6%nat => 3%nat | _, _ => 0%nat end).
Example C79_ex : consistent C79_run /\ measured Fwd C79_run 1 2 6 /\ between Fwd C79_run 2 6 = 2 /\ read_at C79_run (LCtr Fwd) 6 = 2 /\
  (consistent C79_out_of_order /\ undisturbed Fwd C79_out_of_order).
Proof.
  split; [|split; [|split; [vm_compute; reflexivity|split; [vm_compute; reflexivity|split; [exact (proj1 C79_reordering)|]]]]].
  - constructor.
    + intros i. apply Nat.ltb_irrefl.
    + intros i j k H1 H2. cbn [ex_hb C79_run] in *. apply Nat.ltb_lt in H1, H2. apply Nat.ltb_lt. lia.
    + intros [|[]]; cbn; repeat constructor; cbn; intuition discriminate.
    + intros [|[]] [|[|[|[|[|[|[|[|i]]]]]]]]; cbn; (split; [intros H; repeat destruct H as [H|H]; try discriminate H; try contradiction; auto|intros H; try discriminate H; auto]).
    + intros [|[]] i j [|[|[|[|m]]]] [|[|[|[|n]]]] H E1 E2; cbn in E1, E2; try discriminate; injection E1 as <-; injection E2 as <-; vm_compute in H; try discriminate; lia.
    + intros [|[]] i [|[|[|[|[|[|[|[|j]]]]]]]] [|[|[|[|m]]]] H E1 E2; cbn in E1, E2; try discriminate; injection E1 as <-; vm_compute in H; try discriminate; cbn; lia.
    + intros [|[]] [|[|[|[|[|[|[|[|i]]]]]]]] j [|[|[|[|n]]]] H E1 E2; cbn in E1, E2; try discriminate; injection E2 as <-; vm_compute in H; try discriminate; cbn; lia.
    + intros [|[]] [|[|[|[|[|[|[|[|i]]]]]]]] [|[|[|[|[|[|[|[|j]]]]]]]] H E1 E2; cbn in E1, E2; try discriminate; vm_compute in H; try discriminate; cbn; lia.
    + intros [|[]] [|[|[|[|[|[|[|[|i]]]]]]]] E1; cbn in E1; try discriminate; cbn; lia.
  - unfold measured. split; [reflexivity|]. split; [reflexivity|]. split; [reflexivity|]. split; [reflexivity|]. split; [|split].
    + intros [|[|[|[|[|[|[|[|j]]]]]]]] [H|H]; try discriminate H; [left; reflexivity|]. right. right.
      intros [|[|[|[|[|[|[|[|t]]]]]]]] H1 H2 H3; try discriminate H1; try discriminate H2; reflexivity.
    + intros [|[|[|[|[|[|[|[|j]]]]]]]] H; try discriminate H. left. reflexivity.
    + intros [|[|[|[|[|[|[|[|j]]]]]]]] H; try discriminate H; [left; reflexivity|right; left|right; left]; (split; [reflexivity|split; reflexivity]).
  - split; [reflexivity|]. split; [cbn; lia|]. repeat constructor.
Qed.

(** An interleaving run to its end. *)
Example C79_ex_interleaving :
  let w := cschedule [1; 0; 0; 0; 1; 0]%nat (C79_on, cstart C79_progs) in
  (forall t th, nth_error (snd w) t = Some th -> th_add th = None /\ th_prog th = []) /\ map th_seen (snd w) = [[]; [1; 0]].
Proof. split; [|vm_compute; reflexivity]. intros [|[|[|t]]] th H; vm_compute in H; try discriminate H; injection H as <-; split; reflexivity. Qed.
