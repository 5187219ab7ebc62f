(** Decoding, and the values on which a bounded noise cannot change it. *)
From Coq Require Import ZArith List.
From Verif Require Import Spec.Basic Spec.Switch.
Import ListNotations.
Local Open Scope Z_scope.

(** The message of space [t] nearest to [c] modulo [p]. *)
Definition nearest (p t c : Z) : Z := round_div (c * t) p mod t.
(** Every entry keeps its nearest message when up to [D] is added to or taken from it. *)
Definition far_from_boundary (p t D : Z) (l : list Z) : Prop :=
  Forall (fun c => exists u, 2 * Z.abs (t * c - u * p) + 2 * t * D < p) l.
(** Distance to the nearest multiple of [p]. *)
Definition cabs (p v : Z) : Z := Z.min (v mod p) (p - v mod p).
(** The reduction of a polynomial with coefficients at most [E] in size. *)
Definition small (p E : Z) (n : nat) (e : list Z) : Prop :=
  exists e', length e' = n /\ Forall (fun x => Z.abs x <= E) e' /\ e = map (fun x => x mod p) e'.
(** A mask, and a noise with entries at most [E] in size. *)
Definition row_draw (p E : Z) (n : nat) (r : list Z * list Z) : Prop := length (fst r) = n /\ canonical p (fst r) /\ small p E n (snd r).
