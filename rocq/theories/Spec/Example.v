(** What the loop of [bool/examples/bfhe.rs] computes, in the clear. *)
From Coq Require Import Bool.

Definition in_the_clear (v : (bool * bool) * bool) : (bool * bool) * bool :=
  let '((a, b), c) := v in ((if a then b else c, a && b || b && c || c && a), xorb a b).
