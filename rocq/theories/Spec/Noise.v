(** Randomness of a blind rotation key with the noise as integers, and the error of its output. *)
From Coq Require Import ZArith List Bool.
From Verif Require Import Spec.Basic Spec.Poly Spec.Lattice Spec.Ring Spec.Blind Spec.Moment Model.Lwe Model.Rlwe Model.BlindRotation.
Import ListNotations.
Local Open Scope Z_scope.

(** The uniform (or noise) polynomials of one RGSW sample: the rows of its two halves. *)
Definition rows2 : Type := list (list Z) * list (list Z).
Definition rows2_shape (n l : nat) (P : list Z -> Prop) (r : rows2) : Prop :=
  (length (fst r) = l /\ Forall (fun a => length a = n /\ P a) (fst r)) /\
  (length (snd r) = l /\ Forall (fun a => length a = n /\ P a) (snd r)).

(** What the sampler hands over: uniform rows [u], and the noise rows [e] reduced modulo [p]. *)
Definition draw (p : Z) (u e : rows2) : rgsw_rnd :=
  (combine (fst u) (map (pmod p) (fst e)), combine (snd u) (map (pmod p) (snd e))).
Definition draws (p : Z) (us es : list rows2) : list rgsw_rnd :=
  map (fun ue => draw p (fst ue) (snd ue)) (combine us es).
Definition draws2 (p : Z) (us es : list (rows2 * rows2)) : list (rgsw_rnd * rgsw_rnd) :=
  map (fun ue => (draw p (fst (fst ue)) (fst (snd ue)), draw p (snd (fst ue)) (snd (snd ue)))) (combine us es).

(** Every noise coefficient of one RGSW sample drawn independently from [D]. *)
Definition noise_rows2 (n l : nat) (D : dist Z) : dist rows2 := both (each l (each n D)) (each l (each n D)).

(** Error of coefficient [t]: the phase against X^{-(b - <a,z>)} * lut, as the nearest integer
    modulo [p]. *)
Definition rotation_error (p : Z) (n : nat) (s z lut : list Z) (x : lwe) (t : nat) (ct : rlwe) : Z :=
  nearest p (nth t (rphase n s ct) 0 - nth t (negacyclic n (xpow n (- (lb x - dotz (la x) z))) lut) 0).

(** The same for a run that may have panicked, which counts as the largest error. *)
Definition run_error (p : Z) (n : nat) (s z lut : list Z) (x : lwe) (t : nat) (o : option rlwe) : Z :=
  match o with Some ct => rotation_error p n s z lut x t ct | None => p end.
