(** Specification vocabulary for key switching and modulus switching. *)
From Coq Require Import ZArith List Bool.
From Verif Require Import Spec.Basic Spec.Poly Spec.Lattice Spec.Ring Model.Field Model.Poly Model.Lwe Model.Rlwe Model.Gadget.
Import ListNotations.
Local Open Scope Z_scope.

(** A key-switching key from [z] to [s] with the given noises: at level [j], for coefficient [i] and
    digit [v], an LWE encryption of v * base^j * z_i under [s] with noise [noise j i v]. *)
Definition lwe_switch_key (q : Z) (s : list Z) (base : Z) (len : nat) (z : list Z) (noise : nat -> nat -> Z -> Z)
    (key : list (list (list lwe))) : Prop :=
  length key = len /\
  forall j inner, nth_error key j = Some inner ->
    length inner = length z /\
    forall i row, nth_error inner i = Some row ->
      forall v, 1 <= v < base ->
        exists ct, nth_error row (Z.to_nat (v - 1)) = Some ct /\ lwe_wf q (length s) ct /\
          cong q (phase q s ct) (v * base ^ Z.of_nat j * nth i z 0 + noise j i v).

(** Digit [j] of [x] in base [base]. *)
Definition digit (base : Z) (x : Z) (j : nat) : Z := (x / base ^ Z.of_nat j) mod base.

(** The noises of the entries selected by the digits of [a] (a zero digit selects none). *)
Definition selected_noise (base : Z) (len : nat) (a : list Z) (noise : nat -> nat -> Z -> Z) : Z :=
  zsum (fun j => zsum (fun i => let d := digit base (nth i a 0) j in if d =? 0 then 0 else noise j i d) (length a)) len.

(** [GN] is the transform form of a gadget encryption of [m] under [s] with noise at most [E]. *)
Definition gadget_of (F : field) (tbl : tables) (n : nat) (b : basis) (s : list Z) (E : Z) (m : list Z) (GN : gadget) : Prop :=
  exists G es, gadget_to_ntt F tbl G = Some GN /\ gadget_wf (fp F) n b G /\
    gadget_encrypts (fp F) n s (bs_basis b) m (gd G) es /\ Forall (bounded E) es.

(** A ring key-switching key from [concat zs] to the LWE secret [s] embedded in dimension [ext]. *)
Definition ring_switch_key (F : field) (tbl : tables) (ext : nat) (b : basis) (s : list Z) (E : Z)
    (zs : list (list Z)) (key : list gadget) : Prop :=
  Forall2 (fun z GN => length z = ext /\ gadget_of F tbl ext b (pad ext s) E z GN) zs key.

(** The draws behind a generated LWE switching key: per level, coefficient and digit a uniform mask
    and a noise word; [drawn_noise] is the noise word of one entry. *)
Definition switch_draws (q : Z) (n : nat) (base : Z) (len m : nat) (rnd : list (list (list (list Z * Z)))) : Prop :=
  length rnd = len /\
  Forall (fun level => length level = m /\
    Forall (fun row => Z.of_nat (length row) = base - 1 /\
      Forall (fun ae => length (fst ae) = n /\ canonical q (fst ae)) row) level) rnd.
Definition drawn_noise (rnd : list (list (list (list Z * Z)))) (j i : nat) (v : Z) : Z :=
  snd (nth (Z.to_nat (v - 1)) (nth i (nth j rnd []) []) ([], 0)).

(** x / y to the nearest integer, halves upwards (0 <= x, 0 < y). *)
Definition round_div (x y : Z) : Z := (2 * x + y) / (2 * y).
(** Sum of absolute values. *)
Fixpoint norm1 (s : list Z) : Z := match s with x :: s' => Z.abs x + norm1 s' | [] => 0 end.
(** [y] modulo [after] encrypts under [s] the rescaled content of [x] modulo [before], up to an error
    of at most [d/2] per unit of |s| and for the body, in units of 1/before. *)
Definition rescaled (before after : Z) (s : list Z) (d : Z) (x y : lwe) : Prop :=
  exists e, 2 * Z.abs e <= d * (1 + norm1 s) /\
    (before * phase after s y) mod (before * after) = (after * phase before s x + e) mod (before * after).
