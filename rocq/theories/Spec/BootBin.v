(** Failure of a bootstrapped gate under a binary LWE key: the counterparts of [Spec.Boot] and [Spec.BootLwe],
    where the rotation key holds one ciphertext per entry of the key, not two. *)
From Coq Require Import ZArith List Bool.
From Verif Require Import Spec.Basic Spec.Poly Spec.Lattice Spec.Moment Spec.Count Spec.Noise Spec.Boot Spec.BootLwe.
From Verif Require Import Model.Base Model.Plaintext Model.Field Model.Poly Model.Lwe Model.BlindRotation Model.Params Model.Boolean Model.SecretKey.
Import ListNotations.
Local Open Scope Z_scope.

(** Everything drawn for a binary rotation key of [len] entries and a ring switching key of one block, in
    dimension [n]: the masks of the rotation key (uniform), its noise (from [D]), the masks of the switching
    key (uniform), its noise (from [Dk]).  [l] and [lk] are the lengths of the two decompositions. *)
Definition bin_randomness : Type := (list rows2 * (list rows2 * (list (list Z) * list (list Z))))%type.
Definition bin_key_randomness (p : Z) (n l lk len : nat) (D Dk : dist Z) : dist bin_randomness :=
  both (each len (noise_rows2 n l (uniform p)))
       (both (each len (noise_rows2 n l D))
             (both (each lk (each n (uniform p))) (each lk (each n Dk)))).

(** The same as key generation receives it: noise reduced modulo [p]. *)
Definition bin_draws (p : Z) (x : bin_randomness) : key_draws :=
  let '(us, (es, (vs, fs))) := x in mk_key_draws (draws p us es) [] [] [combine vs (map (pmod p) fs)].

(** 1 when key generation, the gate or decryption panics, or the decrypted bit is not [m]; else 0. *)
Definition bin_gate_fails (M : msg_type) (B : Z) (F : field) (tbl : tables) (kp : key_pack) (g : eval_key -> option lwe) (m : bool) (x : bin_randomness) : Z :=
  match (let* K := eval_key_new B F tbl kp (bin_draws (fp F) x) in let* y := g K in kp_decrypt M B kp y) with
  | Some v => if v =? (if m then 1 else 0) then 0 else 1
  | None => 1
  end.

(** Over that randomness, a gate fails with a chance of at most [num]/[den].  [n] is the ring dimension, [lk]
    the length of the switching decomposition. *)
Definition bin_fails_at_most (M : msg_type) (B : Z) (F : field) (tbl : tables) (kp : key_pack) (n lk : nat) (D Dk : dist Z) (num den : Z) (g : eval_key -> option lwe) (m : bool) : Prop :=
  let DD := bin_key_randomness (fp F) n (bs_len (pp_basis (kp_par kp))) lk (length (kp_lwe kp)) D Dk in
  wsum DD (bin_gate_fails M B F tbl kp g m) * den <= num * mass DD.

(** p^2 times a variance of the output of a bootstrap, as [gate_variance] with half the noise in the rotation. *)
Definition bin_gate_variance (k : nat) (j bits : Z) (P : parameters) (lk : nat) (V Vk Vp h : Z) : Z :=
  let N := Z.of_nat (2 ^ k) in let q := 2 ^ j in
  q * q * (pp_n P * (2 * (Z.of_nat (bs_len (pp_basis P)) * (N * ((2 ^ bits - 1) * (2 ^ bits - 1) * V))))) +
  (h * Vp + q * q * (Z.of_nat lk * (N * ((2 ^ pp_ks_bits P - 1) * (2 ^ pp_ks_bits P - 1) * Vk)))).

(** The same in the orders that switch the modulus right after the rotation: masks and noise of the rotation
    key, noise of a switching key of [lk] levels. *)
Definition bin_lwe_randomness : Type := (list rows2 * (list rows2 * list (list (list Z))))%type.
Definition bin_lwe_key_randomness (p : Z) (n l lk len : nat) (base : Z) (D Dk : dist Z) : dist bin_lwe_randomness :=
  both (each len (noise_rows2 n l (uniform p)))
       (both (each len (noise_rows2 n l D))
             (each lk (each n (each (Z.to_nat (base - 1)) Dk)))).
Definition bin_lwe_draws (p q : Z) (masks : list (list (list (list Z)))) (x : bin_lwe_randomness) : key_draws :=
  let '(us, (es, fs)) := x in mk_key_draws (draws p us es) [] (zip_with (zip_with (zip_with (fun a e => (a, e mod q)))) masks fs) [].
Definition bin_lwe_gate_fails (M : msg_type) (B : Z) (F : field) (tbl : tables) (kp : key_pack) (masks : list (list (list (list Z)))) (g : eval_key -> option lwe) (m : bool) (x : bin_lwe_randomness) : Z :=
  match (let* K := eval_key_new B F tbl kp (bin_lwe_draws (fp F) (pp_q (kp_par kp)) masks x) in let* y := g K in kp_decrypt M B kp y) with
  | Some v => if v =? (if m then 1 else 0) then 0 else 1
  | None => 1
  end.
Definition bin_lwe_fails_at_most (M : msg_type) (B : Z) (F : field) (tbl : tables) (kp : key_pack) (n lk : nat) (D Dk : dist Z) (num den : Z) (g : eval_key -> option lwe) (m : bool) : Prop :=
  let P := kp_par kp in let base := 2 ^ pp_ks_bits P in
  let DD := bin_lwe_key_randomness (fp F) n (bs_len (pp_basis P)) lk (length (kp_lwe kp)) base D Dk in
  forall masks, switch_masks (pp_q P) (length (kp_lwe kp)) base lk n masks ->
  wsum DD (bin_lwe_gate_fails M B F tbl kp masks g m) * den <= num * mass DD.
Definition bin_lwe_gate_variance (p : Z) (k : nat) (j bits : Z) (P : parameters) (lk : nat) (V Vk : Z) : Z :=
  let N := Z.of_nat (2 ^ k) in let q := 2 ^ j in
  q * q * (pp_n P * (2 * (Z.of_nat (bs_len (pp_basis P)) * (N * ((2 ^ bits - 1) * (2 ^ bits - 1) * V))))) +
  p * p * (Z.of_nat lk * (N * Vk)).
