(** Specification vocabulary for polynomials and transforms, independent of the model. *)
From Coq Require Import ZArith List Arith.
From Verif Require Import Spec.Basic.
Import ListNotations.
Local Open Scope Z_scope.

(** Value at [x] of the polynomial with coefficients [a] (constant term first). *)
Fixpoint ev (x : Z) (a : list Z) : Z :=
  match a with [] => 0 | c :: a' => c + x * ev x a' end.

(** f 0 + ... + f (n-1). *)
Fixpoint zsum (f : nat -> Z) (n : nat) : Z :=
  match n with O => 0 | S m => zsum f m + f m end.

(** Product modulo X^n + 1 of two polynomials with [n] integer coefficients. *)
Definition negacyclic_coeff (n : nat) (a b : list Z) (k : nat) : Z :=
  zsum (fun i => if (i <=? k)%nat then nth i a 0 * nth (k - i) b 0
                 else - (nth i a 0 * nth (n + k - i) b 0)) n.
Definition negacyclic (n : nat) (a b : list Z) : list Z :=
  map (negacyclic_coeff n a b) (seq 0 n).

(** The number whose [k] low bits are those of [i] in reverse order. *)
Fixpoint bitrev (k i : nat) : nat :=
  match k with O => 0 | S k' => (i mod 2) * 2 ^ k' + bitrev k' (i / 2) end%nat.

(** [w] is a primitive [d]-th root of unity modulo [p]. *)
Definition primitive_root (p d w : Z) : Prop :=
  cong p (w ^ d) 1 /\ forall e, 0 < e < d -> ~ cong p (w ^ e) 1.

(** Entrywise congruence. *)
Definition pcong (p : Z) (a b : list Z) : Prop := Forall2 (cong p) a b.

(** Canonical representatives. *)
Definition pmod (p : Z) (a : list Z) : list Z := map (fun x => x mod p) a.

(** Entrywise operations. *)
Fixpoint padd (a b : list Z) : list Z :=
  match a, b with x :: a', y :: b' => (x + y) :: padd a' b' | _, _ => [] end.
Fixpoint psub (a b : list Z) : list Z :=
  match a, b with x :: a', y :: b' => (x - y) :: psub a' b' | _, _ => [] end.
Definition pneg (a : list Z) : list Z := map Z.opp a.
Definition pscale (c : Z) (a : list Z) : list Z := map (Z.mul c) a.

(** Entrywise product. *)
Fixpoint pmul (a b : list Z) : list Z :=
  match a, b with x :: a', y :: b' => (x * y) :: pmul a' b' | _, _ => [] end.

(** c*X^d modulo X^n + 1, for any d. *)
Definition monomial (n : nat) (c : Z) (d : nat) : list Z :=
  map (fun i => if (i =? d mod n)%nat then (if Nat.even (d / n) then c else - c) else 0) (seq 0 n).
