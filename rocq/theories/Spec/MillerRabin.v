(** One base of the Miller-Rabin test. *)
From Coq Require Import ZArith.
From Verif Require Import Spec.Basic.
Local Open Scope Z_scope.

(** With n - 1 = q * 2^r, q odd: a^q is 1 or -1. *)
Definition passes_at_once (n a : Z) : Prop :=
  exists q r, n - 1 = q * 2 ^ r /\ 0 <= r /\ Z.odd q = true /\ (cong n (a ^ q) 1 \/ cong n (a ^ q) (-1)).
(** -1 turns up after at least one squaring. *)
Definition passes_later (n a : Z) : Prop :=
  exists q r, n - 1 = q * 2 ^ r /\ 0 <= r /\ Z.odd q = true /\ exists j, 1 <= j < r /\ cong n (a ^ (q * 2 ^ j)) (-1).
(** The bases tried: 2, then the drawn ones. *)
Definition base (draw : nat -> Z) (i : nat) : Z := match i with O => 2 | S _ => draw i end.
