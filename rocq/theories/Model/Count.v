(** The transform counters of the [count_ntt] feature.
    [algebra/src/transformation/ntt_table.rs:152-196,302-308,334-340].

    The three statics are atomics; a step of a thread is one access.  Interleavings are sequentially
    consistent: [Relaxed] also allows accesses to different statics to be seen out of order; for that see
    [CountRelaxed]. *)
From Coq Require Import ZArith List Bool.
From Verif Require Import Model.Base.
Import ListNotations.
Local Open Scope Z_scope.

(** Forward ([NTT_COUNT]) or inverse ([INTT_COUNT]).  [ntt_table.rs:157-159]. *)
Inductive dir := Fwd | Inv.
(** Which of [NTT_COUNT], [INTT_COUNT] ([ntt_table.rs:157-159]); no code of its own. *)
Definition dir_eqb (a b : dir) : bool := match a, b with Fwd, Fwd | Inv, Inv => true | _, _ => false end.
(** The calls: lines 161-195, [transform_slice] (300) and [inverse_transform_slice] (332).
    [ntt_table.rs:161-195,300,332]. *)
Inductive ccall := Enable | Disable | Clear (d : dir) | Get (d : dir) | Transform (d : dir).

(** The statics, lines 157-159; [AtomicU32] wraps.  [ntt_table.rs:157-159]. *)
Record counters := mk_counters { ct_on : bool; ct_fwd : Z; ct_inv : Z }.
(** Initial values of the statics, [ntt_table.rs:157-159]. *)
Definition ct_init : counters := mk_counters false 0 0.
(** [AtomicU32::load], [ntt_table.rs:161-195]. *)
Definition ct_get (d : dir) (c : counters) : Z := match d with Fwd => ct_fwd c | Inv => ct_inv c end.
(** [AtomicU32::store], [ntt_table.rs:161-195]. *)
Definition ct_set (d : dir) (v : Z) (c : counters) : counters :=
  match d with Fwd => mk_counters (ct_on c) v (ct_inv c) | Inv => mk_counters (ct_on c) (ct_fwd c) v end.

(** A thread: a pending [fetch_add] (lines 306, 338) after the flag was read as true, the calls to
    come and the values read by [Get] so far, latest first.  [ntt_table.rs:302-308,334-340]. *)
Record cthread := mk_cthread { th_add : option dir; th_prog : list ccall; th_seen : list Z }.

(** One atomic access of [ntt_table.rs:161-195,302-308,334-340].  The transform itself runs after
    the counting, on the caller's data only. *)
Definition cstep (c : counters) (t : cthread) : option (counters * cthread) :=
  match th_add t with
  | Some d => Some (ct_set d (wadd 32 (ct_get d c) 1) c, mk_cthread None (th_prog t) (th_seen t))
  | None =>
      match th_prog t with
      | [] => None
      | Enable :: p => Some (mk_counters true (ct_fwd c) (ct_inv c), mk_cthread None p (th_seen t))
      | Disable :: p => Some (mk_counters false (ct_fwd c) (ct_inv c), mk_cthread None p (th_seen t))
      | Clear d :: p => Some (ct_set d 0 c, mk_cthread None p (th_seen t))
      | Get d :: p => Some (c, mk_cthread None p (ct_get d c :: th_seen t))
      | Transform d :: p => Some (c, mk_cthread (if ct_on c then Some d else None) p (th_seen t))
      end
  end.

(** Replacing one thread of the list (scheduling of [ntt_table.rs:161-195]: no source counterpart).
    *)
Fixpoint set_thread {A} (i : nat) (x : A) (l : list A) : list A :=
  match l, i with [], _ => [] | _ :: l', O => x :: l' | y :: l', S i' => y :: set_thread i' x l' end.
(** Thread [i] takes a step; finished threads stay.  [ntt_table.rs:161-195,302-308,334-340]. *)
Definition cwstep (w : counters * list cthread) (i : nat) : counters * list cthread :=
  match nth_error (snd w) i with
  | Some t => match cstep (fst w) t with Some (c, t') => (c, set_thread i t' (snd w)) | None => w end
  | None => w
  end.
(** A schedule: which thread moves, in turn (the operating system: no source counterpart; the steps
    are those of [ntt_table.rs:161-195,302-308,334-340]). *)
Definition cschedule (s : list nat) (w : counters * list cthread) : counters * list cthread := fold_left cwstep s w.
(** Threads before their first call ([ntt_table.rs:161-195]). *)
Definition cstart (progs : list (list ccall)) : list cthread := map (fun p => mk_cthread None p []) progs.
