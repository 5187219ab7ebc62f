(** The transform counters under the memory model of the language.
    [algebra/src/transformation/ntt_table.rs:152-196,302-308,334-340].

    Every access to the three statics is [Relaxed]: the language promises a single order of the writes
    to each static (its modification order), that a [fetch_add] reads the write just before its own,
    and coherence with happens-before, and nothing else; in particular nothing relates the orders of
    different statics.  So an execution is not an interleaving but a set of calls with these orders. *)
From Coq Require Import ZArith List Bool Arith.
From Verif Require Import Model.Base Model.Count.
Import ListNotations.
Local Open Scope Z_scope.

(** The statics [COUNT_ENABLE], [NTT_COUNT] and [INTT_COUNT] ([ntt_table.rs:157-159]). *)
Inductive loc := LFlag | LCtr (d : dir).

(** An execution: the values of the statics at the start, the calls made by all threads (a call is known
    by its place in the list, which says nothing about time), which calls happen before which (program
    order, spawning and joining of threads, any other synchronisation; no source counterpart), for each
    static the calls that write it ([ntt_table.rs:164,170,188,194,306,338]) in modification order, and
    for each call that loads a static ([ntt_table.rs:176,182,305,337]) how many of these writes come
    before or at the one it reads from; none means that it reads the value at the start. *)
Record exec := mk_exec {
  ex_start : counters;
  ex_calls : list ccall;
  ex_hb : nat -> nat -> bool;
  ex_order : loc -> list nat;
  ex_from : loc -> nat -> nat }.

(** The call with number [i] ([ntt_table.rs:161-195,302-308,334-340]). *)
Definition call_at (E : exec) (i : nat) : option ccall := nth_error (ex_calls E) i.

(** What call [i] leaves in static [l], from what the write before left: [store(true)] (164),
    [store(false)] (170), [store(0)] (188, 194), [fetch_add(1)] (306, 338), which wraps.
    [ntt_table.rs:164-194,306,338]. *)
Definition wrote (E : exec) (l : loc) (i : nat) (v : Z) : Z :=
  match call_at E i with
  | Some Enable => 1
  | Some Disable => 0
  | Some (Clear _) => 0
  | Some (Transform _) => wadd 32 v 1
  | _ => v
  end.
(** The values of the statics at the start, as numbers ([ntt_table.rs:157-159]). *)
Definition at_start (c : counters) (l : loc) : Z :=
  match l with LFlag => if ct_on c then 1 else 0 | LCtr d => ct_get d c end.
(** The value of static [l] after the first [k] writes of its modification order
    ([ntt_table.rs:164,170,188,194,306,338]). *)
Definition value_after (E : exec) (l : loc) (k : nat) : Z :=
  fold_left (fun v i => wrote E l i v) (firstn k (ex_order E l)) (at_start (ex_start E) l).
(** What call [i] reads from [l] ([ntt_table.rs:176,182,305,337]). *)
Definition read_at (E : exec) (l : loc) (i : nat) : Z := value_after E l (ex_from E l i).
(** The value in the end.  [ntt_table.rs:157-159]. *)
Definition final_value (E : exec) (l : loc) : Z := value_after E l (length (ex_order E l)).

(** Calls that load [l]: transforms load the flag (305, 337), [get_*] loads its counter (176, 182).
    [ntt_table.rs:176,182,305,337]. *)
Definition loads (E : exec) (l : loc) (i : nat) : bool :=
  match call_at E i, l with
  | Some (Transform _), LFlag => true
  | Some (Get d), LCtr d' => dir_eqb d d'
  | _, _ => false
  end.
(** Calls that write [l]: a transform adds to its counter if it has read the flag as true
    ([if COUNT_ENABLE.load(..) { ..fetch_add(1, ..) }], 305-307, 337-339).  [ntt_table.rs:164-194,305-307,337-339]. *)
Definition stores (E : exec) (l : loc) (i : nat) : bool :=
  match call_at E i, l with
  | Some Enable, LFlag | Some Disable, LFlag => true
  | Some (Clear d), LCtr d' => dir_eqb d d'
  | Some (Transform d), LCtr d' => dir_eqb d d' && (read_at E LFlag i =? 1)
  | _, _ => false
  end.

(** What the language promises (no source counterpart): the modification order lists exactly the calls
    that write, once each, and is coherent with happens-before, which is a strict order. *)
Record consistent (E : exec) : Prop := mk_consistent {
  co_irr : forall i, ex_hb E i i = false;
  co_trans : forall i j k, ex_hb E i j = true -> ex_hb E j k = true -> ex_hb E i k = true;
  co_once : forall l, NoDup (ex_order E l);
  co_writes : forall l i, In i (ex_order E l) <-> stores E l i = true;
  co_ww : forall l i j m n, ex_hb E i j = true -> nth_error (ex_order E l) m = Some i -> nth_error (ex_order E l) n = Some j -> (m < n)%nat;
  co_wr : forall l i j m, ex_hb E i j = true -> nth_error (ex_order E l) m = Some i -> loads E l j = true -> (m < ex_from E l j)%nat;
  co_rw : forall l i j n, ex_hb E i j = true -> loads E l i = true -> nth_error (ex_order E l) n = Some j -> (ex_from E l i <= n)%nat;
  co_rr : forall l i j, ex_hb E i j = true -> loads E l i = true -> loads E l j = true -> (ex_from E l i <= ex_from E l j)%nat;
  co_from : forall l i, loads E l i = true -> (ex_from E l i <= length (ex_order E l))%nat }.
