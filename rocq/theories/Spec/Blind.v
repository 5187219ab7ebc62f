(** Specification vocabulary for blind rotation. *)
From Coq Require Import ZArith List Bool.
From Verif Require Import Spec.Basic Spec.Poly Spec.Ring Model.Field Model.Poly Model.Rlwe Model.Gadget.
Import ListNotations.
Local Open Scope Z_scope.

(** X^e in Z[X]/(X^n + 1), for any integer e (X has order 2n). *)
Definition xpow (n : nat) (e : Z) : list Z := monomial n 1 (Z.to_nat (e mod (2 * Z.of_nat n))).

(** [RN] is the transform form of an RGSW encryption of [m] under [s] with all noise coefficients
    at most [E]. *)
Definition rgsw_of (F : field) (tbl : tables) (n : nat) (b : basis) (s : list Z) (E : Z) (m : list Z) (RN : rgsw) : Prop :=
  exists R es es', rgsw_to_ntt F tbl R = Some RN /\ rgsw_wf (fp F) n b R /\
    rgsw_encrypts (fp F) n s (bs_basis b) m R es es' /\ Forall (bounded E) es /\ Forall (bounded E) es'.

(** A binary bootstrapping key for the LWE secret [z]: entry i encrypts the constant z_i. *)
Definition binary_key (F : field) (tbl : tables) (n : nat) (b : basis) (s : list Z) (E : Z) (z : list Z) (key : list rgsw) : Prop :=
  Forall2 (fun zi RN => (zi = 0 \/ zi = 1) /\ rgsw_of F tbl n b s E (monomial n zi 0) RN) z key.

(** A ternary one: entry i is a pair encrypting (z_i = 1) and (z_i = -1). *)
Definition ternary_key (F : field) (tbl : tables) (n : nat) (b : basis) (s : list Z) (E : Z) (z : list Z) (key : list (rgsw * rgsw)) : Prop :=
  Forall2 (fun zi RN => (zi = 0 \/ zi = 1 \/ zi = -1) /\
    rgsw_of F tbl n b s E (monomial n (if zi =? 1 then 1 else 0) 0) (fst RN) /\
    rgsw_of F tbl n b s E (monomial n (if zi =? -1 then 1 else 0) 0) (snd RN)) z key.

(** Number of nonzero entries. *)
Definition nonzeros (a : list Z) : Z := Z.of_nat (length (filter (fun x => negb (x =? 0)) a)).

(** A canonical vector congruent to one with entries at most [E] in absolute value. *)
Definition near_zero (p E : Z) (e : list Z) : Prop := Forall (fun x => 0 <= x <= E \/ p - E <= x < p) e.

(** The randomness of one RGSW sample: per row a uniform and a small noise polynomial. *)
Definition drawn_small (p : Z) (n : nat) (E : Z) (l : nat) (rnd : list (list Z * list Z)) : Prop :=
  length rnd = l /\
  Forall (fun ae => (length (fst ae) = n /\ canonical p (fst ae)) /\
                    (length (snd ae) = n /\ canonical p (snd ae) /\ near_zero p E (snd ae))) rnd.

(** [bound] caps the noise, and the phase of [ct] is X^t * lut plus that noise. *)
Definition rotated (p : Z) (n : nat) (s lut : list Z) (t bound : Z) (ct : rlwe) : Prop :=
  rlwe_wf p n ct /\
  exists e, length e = n /\ bounded bound e /\
    pcong p (rphase n s ct) (padd (negacyclic n (xpow n t) lut) e).
