(** What the transform counters should say of an execution that is not an interleaving. *)
From Coq Require Import ZArith List Bool Arith.
From Verif Require Import Model.Count Model.CountRelaxed.
Import ListNotations.
Local Open Scope Z_scope.

(** How many calls satisfy [f]. *)
Definition calls_with (E : exec) (f : nat -> bool) : Z := Z.of_nat (length (filter f (seq 0 (length (ex_calls E))))).
(** Call [i] is a transform of direction [d]. *)
Definition is_transform (d : dir) (E : exec) (i : nat) : bool :=
  match nth_error (ex_calls E) i with Some (Transform d') => dir_eqb d d' | _ => false end.
(** Transforms of direction [d] that happen before, after call [i]. *)
Definition before (d : dir) (E : exec) (i : nat) : Z := calls_with E (fun j => is_transform d E j && ex_hb E j i).
Definition after (d : dir) (E : exec) (i : nat) : Z := calls_with E (fun j => is_transform d E j && ex_hb E i j).
(** Transforms of direction [d] between calls [c] and [g]. *)
Definition between (d : dir) (E : exec) (c g : nat) : Z := calls_with E (fun j => is_transform d E j && (ex_hb E c j && ex_hb E j g)).
(** Nobody switches counting on or off or clears the counter of [d]. *)
Definition undisturbed (d : dir) (E : exec) : Prop :=
  ct_on (ex_start E) = true /\ 0 <= ct_get d (ex_start E) < 2 ^ 32 /\
  Forall (fun c => match c with Enable | Disable => False | Clear d' => d' <> d | _ => True end) (ex_calls E).

(** A measurement: counting is switched on at [e] and the counter of [d] cleared at [c], and it is read
    at [g].  Whoever else switches counting does so before [e] or after the transforms that are measured;
    whoever else clears does so before [c] or after [g]; every transform of direction [d] happens before
    [c], or after [e] and [c] and before [g], or after [g]. *)
Definition measured (d : dir) (E : exec) (e c g : nat) : Prop :=
  nth_error (ex_calls E) e = Some Enable /\ nth_error (ex_calls E) c = Some (Clear d) /\ nth_error (ex_calls E) g = Some (Get d) /\
  ex_hb E c g = true /\
  (forall j, nth_error (ex_calls E) j = Some Enable \/ nth_error (ex_calls E) j = Some Disable ->
     j = e \/ ex_hb E j e = true \/ forall t, is_transform d E t = true -> ex_hb E c t = true -> ex_hb E t g = true -> ex_hb E t j = true) /\
  (forall j, nth_error (ex_calls E) j = Some (Clear d) -> j = c \/ ex_hb E j c = true \/ ex_hb E g j = true) /\
  (forall j, is_transform d E j = true -> ex_hb E j c = true \/ (ex_hb E e j = true /\ ex_hb E c j = true /\ ex_hb E j g = true) \/ ex_hb E g j = true).

(** Threads whose calls are numbered one after the other: which thread makes call [i], and program order. *)
Fixpoint owner (progs : list (list ccall)) (i : nat) : nat :=
  match progs with [] => O | p :: r => if (i <? length p)%nat then O else S (owner r (i - length p)) end.
Definition program_order (progs : list (list ccall)) (i j : nat) : bool := (owner progs i =? owner progs j)%nat && (i <? j)%nat.
(** What the reads of the calls numbered [a] to [a + n - 1] return. *)
Definition reads_of (E : exec) (a n : nat) : list Z :=
  flat_map (fun i => match nth_error (ex_calls E) i with Some (Get d) => [read_at E (LCtr d) i] | _ => [] end) (seq a n).
