(** Decimal numerals as character codes. *)
From Coq Require Import ZArith List.
Import ListNotations.
Local Open Scope Z_scope.

Definition is_digit (c : Z) : Prop := 48 <= c <= 57.
(** Reading left to right. *)
Definition read_decimal (s : list Z) : Z := fold_left (fun n c => 10 * n + (c - 48)) s 0.
(** No leading zero, except for "0" itself. *)
Definition no_leading_zero (s : list Z) : Prop := s = [48] \/ exists c s', s = c :: s' /\ c <> 48.
