(** Failure of a bootstrapped gate that ends with an LWE key switch, or with none. *)
From Coq Require Import ZArith List Bool.
From Verif Require Import Spec.Basic Spec.Lattice Spec.Moment Spec.Count Spec.Noise Spec.Boot.
From Verif Require Import Model.Base Model.Plaintext Model.Field Model.Poly Model.Lwe Model.BlindRotation Model.Params Model.Boolean Model.SecretKey.
Import ListNotations.
Local Open Scope Z_scope.

(** Levels of the switching key: none in the order rotation, modulus switching. *)
Definition switch_levels (j : Z) (P : parameters) : nat :=
  match pp_steps P with BrMsKs => Z.to_nat ((j + pp_ks_bits P - 1) / pp_ks_bits P) | _ => 0%nat end.

(** The masks of a switching key, per level, ring coefficient and nonzero digit: any vectors modulo [q] of the
    LWE dimension [n]. *)
Definition switch_masks (q : Z) (n : nat) (base : Z) (len m : nat) (masks : list (list (list (list Z)))) : Prop :=
  length masks = len /\
  Forall (fun level => length level = m /\ Forall (fun row => Z.of_nat (length row) = base - 1 /\ Forall (fun a => length a = n /\ canonical q a) row) level) masks.

(** The rest of the randomness of an evaluation key: masks (uniform) and noise (from [D]) of a ternary rotation
    key of [len] entries in dimension [n]; noise (from [Dk]) of a switching key of [lk] levels. *)
Definition lwe_randomness : Type := (list (rows2 * rows2) * (list (rows2 * rows2) * list (list (list Z))))%type.
Definition lwe_key_randomness (p : Z) (n l lk len : nat) (base : Z) (D Dk : dist Z) : dist lwe_randomness :=
  both (each len (both (noise_rows2 n l (uniform p)) (noise_rows2 n l (uniform p))))
       (both (each len (both (noise_rows2 n l D) (noise_rows2 n l D)))
             (each lk (each n (each (Z.to_nat (base - 1)) Dk)))).

(** The same as key generation receives it: noise reduced modulo [p] and modulo [q]. *)
Definition zip_with {X Y W : Type} (f : X -> Y -> W) (a : list X) (b : list Y) : list W := map (fun xy => f (fst xy) (snd xy)) (combine a b).
Definition lwe_draws (p q : Z) (masks : list (list (list (list Z)))) (x : lwe_randomness) : key_draws :=
  let '(us, (es, fs)) := x in mk_key_draws [] (draws2 p us es) (zip_with (zip_with (zip_with (fun a e => (a, e mod q)))) masks fs) [].

(** 1 when key generation, the gate or decryption panics, or the decrypted bit is not [m]; else 0. *)
Definition lwe_gate_fails (M : msg_type) (B : Z) (F : field) (tbl : tables) (kp : key_pack) (masks : list (list (list (list Z)))) (g : eval_key -> option lwe) (m : bool) (x : lwe_randomness) : Z :=
  match (let* K := eval_key_new B F tbl kp (lwe_draws (fp F) (pp_q (kp_par kp)) masks x) in let* y := g K in kp_decrypt M B kp y) with
  | Some v => if v =? (if m then 1 else 0) then 0 else 1
  | None => 1
  end.

(** Over that randomness, a gate fails with a chance of at most [num]/[den], whatever the masks of the
    switching key.  [n] is the ring dimension, [lk] the number of levels. *)
Definition lwe_fails_at_most (M : msg_type) (B : Z) (F : field) (tbl : tables) (kp : key_pack) (n lk : nat) (D Dk : dist Z) (num den : Z) (g : eval_key -> option lwe) (m : bool) : Prop :=
  let P := kp_par kp in let base := 2 ^ pp_ks_bits P in
  let DD := lwe_key_randomness (fp F) n (bs_len (pp_basis P)) lk (length (kp_lwe kp)) base D Dk in
  forall masks, switch_masks (pp_q P) (length (kp_lwe kp)) base lk n masks ->
  wsum DD (lwe_gate_fails M B F tbl kp masks g m) * den <= num * mass DD.

(** p^2 times a variance of the noise of a bootstrap: the rotation (noise of variance [V]), and the one entry
    of the switching key (noise of variance [Vk]) selected by each digit of the mask. *)
Definition lwe_gate_variance (p : Z) (k : nat) (j bits : Z) (P : parameters) (lk : nat) (V Vk : Z) : Z :=
  let N := Z.of_nat (2 ^ k) in let q := 2 ^ j in
  q * q * (pp_n P * (2 * (2 * (Z.of_nat (bs_len (pp_basis P)) * (N * ((2 ^ bits - 1) * (2 ^ bits - 1) * V)))))) +
  p * p * (Z.of_nat lk * (N * Vk)).
