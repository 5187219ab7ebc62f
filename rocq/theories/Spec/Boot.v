(** Randomness of a whole evaluation key, masks included, and the failure of a bootstrapped gate. *)
From Coq Require Import ZArith List Bool.
From Verif Require Import Spec.Basic Spec.Poly Spec.Moment Spec.Count Spec.Noise.
From Verif Require Import Model.Base Model.Plaintext Model.Field Model.Poly Model.Lwe Model.BlindRotation Model.Params Model.Boolean Model.SecretKey.
Import ListNotations.
Local Open Scope Z_scope.

(** A uniform residue modulo [p]. *)
Definition uniform (p : Z) : dist Z := map (fun v => (v, 1)) (range p).

(** Everything drawn for a ternary rotation key of [len] entries and a ring switching key of one block, in
    dimension [n]: the masks of the rotation key (uniform), its noise (from [D]), the masks of the switching
    key (uniform), its noise (from [Dk]).  [l] and [lk] are the lengths of the two decompositions. *)
Definition randomness : Type := (list (rows2 * rows2) * (list (rows2 * rows2) * (list (list Z) * list (list Z))))%type.
Definition key_randomness (p : Z) (n l lk len : nat) (D Dk : dist Z) : dist randomness :=
  both (each len (both (noise_rows2 n l (uniform p)) (noise_rows2 n l (uniform p))))
       (both (each len (both (noise_rows2 n l D) (noise_rows2 n l D)))
             (both (each lk (each n (uniform p))) (each lk (each n Dk)))).

(** The same as key generation receives it: noise reduced modulo [p]. *)
Definition as_draws (p : Z) (x : randomness) : key_draws :=
  let '(us, (es, (vs, fs))) := x in mk_key_draws [] (draws2 p us es) [] [combine vs (map (pmod p) fs)].

(** 1 when key generation, the gate or decryption panics, or the decrypted bit is not [m]; else 0. *)
Definition gate_fails (M : msg_type) (B : Z) (F : field) (tbl : tables) (kp : key_pack) (g : eval_key -> option lwe) (m : bool) (x : randomness) : Z :=
  match (let* K := eval_key_new B F tbl kp (as_draws (fp F) x) in let* y := g K in kp_decrypt M B kp y) with
  | Some v => if v =? (if m then 1 else 0) then 0 else 1
  | None => 1
  end.

(** Over that randomness, a gate fails with a chance of at most [num]/[den].  [n] is the ring dimension, [lk]
    the length of the switching decomposition. *)
Definition fails_at_most (M : msg_type) (B : Z) (F : field) (tbl : tables) (kp : key_pack) (n lk : nat) (D Dk : dist Z) (num den : Z) (g : eval_key -> option lwe) (m : bool) : Prop :=
  let DD := key_randomness (fp F) n (bs_len (pp_basis (kp_par kp))) lk (length (kp_lwe kp)) D Dk in
  wsum DD (gate_fails M B F tbl kp g m) * den <= num * mass DD.

(** p^2 times a variance of the output of a bootstrap: the rotation (noise of variance [V]), the rounding of
    the mask to the modulus q, felt through the [h] nonzero entries of the LWE secret ([Vp] is p^2/12 rounded
    up), and the switching key (noise of variance [Vk]). *)
Definition gate_variance (k : nat) (j bits : Z) (P : parameters) (lk : nat) (V Vk Vp h : Z) : Z :=
  let N := Z.of_nat (2 ^ k) in let q := 2 ^ j in
  q * q * (pp_n P * (2 * (2 * (Z.of_nat (bs_len (pp_basis P)) * (N * ((2 ^ bits - 1) * (2 ^ bits - 1) * V)))))) +
  (h * Vp + q * q * (Z.of_nat lk * (N * ((2 ^ pp_ks_bits P - 1) * (2 ^ pp_ks_bits P - 1) * Vk)))).
