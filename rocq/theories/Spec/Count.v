(** Counting over finite ranges of random words. *)
From Coq Require Import ZArith List Bool.
Import ListNotations.
Local Open Scope Z_scope.

(** 0, 1, ..., n-1. *)
Definition range (n : Z) : list Z := map Z.of_nat (seq 0 (Z.to_nat n)).
(** All vectors of [k] numbers below [n]. *)
Fixpoint tuples (k : nat) (n : Z) : list (list Z) :=
  match k with
  | O => [[]]
  | S k' => flat_map (fun x => map (cons x) (tuples k' n)) (range n)
  end.
(** How many entries satisfy [P]. *)
Definition count {A : Type} (P : A -> bool) (l : list A) : Z := Z.of_nat (length (filter P l)).
(** Does the computation return exactly [v]? *)
Definition returns (o : option (list Z)) (v : list Z) : bool :=
  match o with Some l => if list_eq_dec Z.eq_dec l v then true else false | None => false end.
(** A vector of draws as a stream (zeros after the end are never used). *)
Definition stream (l : list Z) (i : nat) : Z := nth i l 0.

(** Product of the weights of the entries. *)
Definition weight_of (wt : Z -> Z) (v : list Z) : Z := fold_right (fun x a => wt x * a) 1 v.
(** Row [n] of Pascal's triangle, and binomial coefficients. *)
Fixpoint pascal (n : nat) : list Z :=
  match n with
  | O => [1]
  | S n' => let r := pascal n' in map (fun ab => fst ab + snd ab) (combine (0 :: r) (r ++ [0]))
  end.
Definition binomial (n : nat) (k : Z) : Z := if k <? 0 then 0 else nth (Z.to_nat k) (pascal n) 0.
