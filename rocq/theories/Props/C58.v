(** C58: the transform counters count every transform, under every schedule. *)
From Coq Require Import ZArith List Bool Lia.
From Verif Require Import Model.Base Model.Count Spec.Counting Proofs.CountProofs.
Import ListNotations.
Local Open Scope Z_scope.

(** Counting is on and threads only transform and read.  At any point of any schedule the counter is
    the number of transforms begun minus those still to be added; once all threads are done it is the
    number of all transforms. *)
Theorem C58_schedule d c progs s :
  ct_on c = true -> 0 <= ct_get d c < 2 ^ 32 -> Forall only_counts progs ->
  let w := cschedule s (c, cstart progs) in
  ct_get d (fst w) = (ct_get d c + total d progs - total d (map th_prog (snd w)) - pending d (snd w)) mod 2 ^ 32 /\
  (done (snd w) -> ct_get d (fst w) = (ct_get d c + total d progs) mod 2 ^ 32).
Proof.
  intros On R Q w. pose proof (counts_ok d c progs s On R Q) as E. cbv zeta in E. fold w in E. split; [exact E|].
  intros D. destruct (done_zero d _ D) as (E1 & E2). rewrite E, E1, E2. f_equal. lia.
Qed.
Print Assumptions C58_schedule.

(** While counting is off, transforms leave the counters alone. *)
Theorem C58_off c progs s :
  ct_on c = false -> Forall (Forall (fun x => match x with Enable | Clear _ => False | _ => True end)) progs ->
  let w := cschedule s (c, cstart progs) in
  ct_fwd (fst w) = ct_fwd c /\ ct_inv (fst w) = ct_inv c.
Proof.
  intros Off H. apply (off_schedule s (c, cstart progs)); [exact Off|]. unfold cstart. cbn [snd].
  induction H as [|p ps Hp _ IH]; constructor; [split; [reflexivity|exact Hp]|exact IH].
Qed.
Print Assumptions C58_off.

(** A single thread, from program start, switching counting on and off and clearing as it likes: each
    read returns the transforms of that kind performed while on since the last clear, modulo 2^32. *)
Theorem C58_alone p :
  exists n c, (n <= 2 * length p)%nat /\
    cschedule (repeat 0%nat n) (ct_init, cstart [p]) = (c, [mk_cthread None [] (rev (answers false 0 0 p))]).
Proof.
  destruct (alone_ok p ct_init 0 0 [] eq_refl eq_refl) as (n & c & Hn & E). exists n, c. split; [exact Hn|].
  unfold cstart. cbn [map]. rewrite E. cbn [ct_on ct_init]. now rewrite app_nil_r.
Qed.
Print Assumptions C58_alone.

Example C58_ex :
  let progs := [[Transform Fwd; Transform Inv; Transform Fwd]; [Transform Fwd; Get Fwd]] in
  let c := mk_counters true 4294967295 7 in
  Forall only_counts progs /\ total Fwd progs = 3 /\ total Inv progs = 1 /\
  (* both threads read the flag before either adds *)
  let w := cschedule [0; 1; 0; 0; 1; 0; 1; 0; 0]%nat (c, cstart progs) in
  done (snd w) /\ fst w = mk_counters true 2 8 /\ map th_seen (snd w) = [[]; [1]] /\
  answers false 0 0 [Transform Fwd; Enable; Transform Fwd; Get Fwd; Disable; Transform Fwd; Get Fwd; Clear Fwd; Get Fwd] = [1; 1; 0].
Proof. cbv zeta. split; [repeat constructor|]. repeat split; vm_compute; repeat constructor. Qed.
