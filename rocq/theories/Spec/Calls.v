(** How many transforms bootstrapping and key generation should make, from the parameters and the mask
    alone. *)
From Coq Require Import ZArith List Bool.
From Verif Require Import Model.Base Model.Field Model.Poly Model.Gadget Model.BlindRotation Model.KeySwitch Model.Params Model.SecretKey Model.Concrete Model.Count.
Import ListNotations.
Local Open Scope Z_scope.

(** Nonzero entries. *)
Definition nonzeros (l : list Z) : nat := length (filter (fun x => negb (x =? 0)) l).
(** Every table is one of the library's own / of the external crate. *)
Definition all_own (tbl : tables) : Prop := forall k T, tbl k = Some T -> exists T', T = OwnTable T'.
Definition all_external (tbl : tables) : Prop := forall k T, tbl k = Some T -> exists T', T = ExtTable T'.
(** Digits per coefficient at [bits] bits per digit. *)
Definition levels (F : field) (bits : Z) : nat := match basis_new F bits with Some b => bs_len b | None => O end.

(** One product with an RGSW ciphertext, a rotation over a mask with [z] nonzero entries, a switch of [g]
    blocks. *)
Definition product_calls (l : nat) : list dir := repeat Fwd (2 * l) ++ [Inv; Inv].
Definition rotation_calls (l z : nat) : list dir := concat (repeat (product_calls l) z).
Definition switch_calls (g l : nat) : list dir := repeat Fwd (g * l) ++ [Inv; Inv].
(** Bootstrapping: ring dimension [N], [n] mask entries of which [z] are nonzero after switching to 2N. *)
Definition bootstrap_calls (F : field) (P : parameters) (N n z : nat) : list dir :=
  rotation_calls (bs_len (pp_basis P)) z ++
  match pp_steps P with BrKsMs => switch_calls (N / next_pow2 n) (levels F (pp_ks_bits P)) | _ => [] end.
(** Forward transforms of key generation (there are no inverse ones). *)
Definition rotation_key_forward (P : parameters) (n : nat) : nat :=
  (n * (match pp_key P with LBinary => 2 | LTernary => 4 end * bs_len (pp_basis P)))%nat.
Definition switch_key_forward (F : field) (P : parameters) (N n : nat) : nat :=
  match pp_steps P with
  | BrKsMs => let l := levels F (pp_ks_bits P) in
      (1 + (if next_pow2 n =? N then l else N / next_pow2 n * (1 + l)))%nat
  | _ => O
  end.
Definition key_forward (F : field) (P : parameters) (N n : nat) : nat := (rotation_key_forward P n + switch_key_forward F P N n)%nat.

(** Enough randomness for a rotation key of [n] entries with [l] rows per half. *)
Definition enough_draws (P : parameters) (n : nat) (R : key_draws) : Prop :=
  let l := bs_len (pp_basis P) in
  match pp_key P with
  | LBinary => length (kd_bin R) = n /\ Forall (fun r => (l <= length (fst r) /\ l <= length (snd r))%nat) (kd_bin R)
  | LTernary => length (kd_ter R) = n /\
      Forall (fun r => (l <= length (fst (fst r)) /\ l <= length (snd (fst r)) /\ l <= length (fst (snd r)) /\ l <= length (snd (snd r)))%nat) (kd_ter R)
  end.

(** How often the counter of direction [d] is incremented by a bootstrapping. *)
Definition bootstrap_count (d : dir) (F : field) (P : parameters) (N n z : nat) : Z :=
  match d with
  | Fwd => 2 * Z.of_nat (bs_len (pp_basis P)) * Z.of_nat z +
      match pp_steps P with BrKsMs => Z.of_nat (N / next_pow2 n) * Z.of_nat (levels F (pp_ks_bits P)) | _ => 0 end
  | Inv => 2 * Z.of_nat z + match pp_steps P with BrKsMs => 2 | _ => 0 end
  end.
Definition zsum (l : list Z) : Z := fold_right Z.add 0 l.
