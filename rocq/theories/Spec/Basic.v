(** Specification vocabulary, independent of the model. *)
From Coq Require Import ZArith List.
Import ListNotations.
Local Open Scope Z_scope.

(** Word widths covered by the theorems: even and at least 4 (the code uses 8, 16, 32, 64). *)
Definition wwidth (B : Z) : Prop := exists h, 2 <= h /\ B = 2 * h.

(** Congruence modulo [p]. *)
Definition cong (p a b : Z) : Prop := (p | a - b).

(** Dot product over the integers. *)
Fixpoint dotz (x y : list Z) : Z :=
  match x, y with a :: x', c :: y' => a * c + dotz x' y' | _, _ => 0 end.

(** Value of a little-endian list of width-[B] words. *)
Fixpoint words_value (B : Z) (l : list Z) : Z :=
  match l with [] => 0 | x :: l' => x + 2 ^ B * words_value B l' end.

(** Every entry is a canonical residue modulo [m]. *)
Definition canonical (m : Z) (l : list Z) : Prop := Forall (fun x => 0 <= x < m) l.

(** [n] passes one Miller-Rabin round with base [a]: writing n - 1 = q * 2^r with q odd, either
    a^q = 1 or a^(q 2^j) = -1 for some j < r, modulo n. *)
Definition strong_probable_prime (n a : Z) : Prop :=
  exists q r, n - 1 = q * 2 ^ r /\ 0 <= r /\ Z.odd q = true /\
    (cong n (a ^ q) 1 \/ exists j, 0 <= j < r /\ cong n (a ^ (q * 2 ^ j)) (-1)).

(** Value of a little-endian digit list in base [b]. *)
Fixpoint digits_value (b : Z) (l : list Z) : Z :=
  match l with [] => 0 | x :: l' => x + b * digits_value b l' end.
