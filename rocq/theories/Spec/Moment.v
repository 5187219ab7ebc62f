(** Finite weighted distributions, and mean squares over them. *)
From Coq Require Import ZArith List Bool.
Import ListNotations.
Local Open Scope Z_scope.

(** Values with integer weights; a value has probability weight / total weight. *)
Definition dist (A : Type) : Type := list (A * Z).

(** Weighted sum of [f]; the expectation of [f] is [wsum D f / mass D]. *)
Fixpoint wsum {A : Type} (D : dist A) (f : A -> Z) : Z :=
  match D with [] => 0 | (x, w) :: D' => w * f x + wsum D' f end.
Definition mass {A : Type} (D : dist A) : Z := wsum D (fun _ => 1).

(** An independent pair, and [n] independent copies. *)
Definition both {A B : Type} (D : dist A) (D' : dist B) : dist (A * B) :=
  flat_map (fun xw => map (fun yv => ((fst xw, fst yv), snd xw * snd yv)) D') D.
Fixpoint each {A : Type} (n : nat) (D : dist A) : dist (list A) :=
  match n with
  | O => [([], 1)]
  | S m => map (fun xl => (fst (fst xl) :: snd (fst xl), snd xl)) (both D (each m D))
  end.

(** Weights are nonnegative, the mean is zero and the mean square at most [V]. *)
Definition centred_dist (V : Z) (D : dist Z) : Prop :=
  Forall (fun xw => 0 <= snd xw) D /\ wsum D (fun x => x) = 0 /\ wsum D (fun x => x * x) <= V * mass D.

(** The representative of [x] modulo [p] of least absolute value. *)
Definition nearest (p x : Z) : Z := let r := x mod p in if 2 * r <? p then r else r - p.
