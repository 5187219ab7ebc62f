(** Many gates over fresh ciphertexts under one key pair. *)
From Coq Require Import ZArith List Bool Arith.
From Verif Require Import Spec.Basic Spec.Poly Spec.Moment Spec.Count Spec.Noise Spec.Boot Spec.BootLwe Spec.Gates.
From Verif Require Import Model.Base Model.Plaintext Model.Field Model.Poly Model.Lwe Model.Params Model.Boolean Model.SecretKey.
Import ListNotations.
Local Open Scope Z_scope.

(** One of [n] inputs, negated any number of times. *)
Fixpoint literal (n : nat) (c : circuit) : Prop :=
  match c with CInput i => (i < n)%nat | CNot a => literal n a | _ => False end.
(** One bootstrapped gate over literals. *)
Definition one_gate (n : nat) (c : circuit) : Prop :=
  match c with
  | CNand a b | CAnd a b | COr a b | CNor a b | CXor a b | CXnor a b => literal n a /\ literal n b
  | CMajority a b c => literal n a /\ literal n b /\ literal n c
  | _ => False
  end.

(** What is encrypted: bits, each with the mask and the noise drawn for it. *)
Definition inputs : Type := list (bool * (list Z * Z)).
Definition bit_of (ins : inputs) (i : nat) : bool := fst (nth i ins (false, ([], 0))).
Fixpoint encrypt_all (B : Z) (kp : key_pack) (ins : inputs) : option (list lwe) :=
  match ins with
  | [] => Some []
  | (m, (a, e)) :: rest =>
      let* c := kp_encrypt B kp a (e mod pp_q (kp_par kp)) (if m then 1 else 0) in
      let* cs := encrypt_all B kp rest in Some (c :: cs)
  end.
Definition ct_of (cts : list lwe) (i : nat) : lwe := nth i cts (mk_lwe [] 0).
(** Masks of dimension [n] modulo [q], noise at most [E]. *)
Definition inputs_ok (n : nat) (q E : Z) (ins : inputs) : Prop :=
  Forall (fun i => length (fst (snd i)) = n /\ canonical q (fst (snd i)) /\ Z.abs (snd (snd i)) <= E) ins.

(** 1 when one of the gates [cs] on the ciphertexts [cts] of [ins] fails, else 0. *)
Definition layer_fails (M : msg_type) (B : Z) (F : field) (tbl : tables) (kp : key_pack) (ins : inputs) (cts : list lwe) (cs : list circuit) (x : randomness) : Z :=
  if existsb (fun c => gate_fails M B F tbl kp (fun K => crun B F tbl K (ct_of cts) c) (cval (bit_of ins) c) x =? 1) cs then 1 else 0.
Definition lwe_layer_fails (M : msg_type) (B : Z) (F : field) (tbl : tables) (kp : key_pack) (masks : list (list (list (list Z)))) (ins : inputs) (cts : list lwe) (cs : list circuit) (x : lwe_randomness) : Z :=
  if existsb (fun c => lwe_gate_fails M B F tbl kp masks (fun K => crun B F tbl K (ct_of cts) c) (cval (bit_of ins) c) x =? 1) cs then 1 else 0.

(** The chance, over the randomness of the evaluation key, that any of the gates fails is at most [num]/[den]. *)
Definition layer_at_most (M : msg_type) (B : Z) (F : field) (tbl : tables) (kp : key_pack) (n lk : nat) (D Dk : dist Z) (num den : Z) (ins : inputs) (cts : list lwe) (cs : list circuit) : Prop :=
  let DD := key_randomness (fp F) n (bs_len (pp_basis (kp_par kp))) lk (length (kp_lwe kp)) D Dk in
  wsum DD (layer_fails M B F tbl kp ins cts cs) * den <= num * mass DD.
Definition lwe_layer_at_most (M : msg_type) (B : Z) (F : field) (tbl : tables) (kp : key_pack) (n lk : nat) (D Dk : dist Z) (num den : Z) (ins : inputs) (cts : list lwe) (cs : list circuit) : Prop :=
  let P := kp_par kp in let base := 2 ^ pp_ks_bits P in
  let DD := lwe_key_randomness (fp F) n (bs_len (pp_basis P)) lk (length (kp_lwe kp)) base D Dk in
  forall masks, switch_masks (pp_q P) (length (kp_lwe kp)) base lk n masks ->
  wsum DD (lwe_layer_fails M B F tbl kp masks ins cts cs) * den <= num * mass DD.

(** A whole run: key generation from the random words [ws], encryption, evaluation key generation, the gates
    and decryption; 1 when anything panics or a wrong bit comes out, else 0. *)
Definition run_fails (M : msg_type) (B : Z) (F : field) (tbl : tables) (P : parameters) (rwords : nat -> Z) (gauss : list Z) (masks : list (list (list (list Z)))) (ins : inputs) (cs : list circuit) (ws : list Z) (x : lwe_randomness) : Z :=
  match (let* kp := key_pack_new F tbl P (stream ws) rwords gauss in let* cts := encrypt_all B kp ins in Some (kp, cts)) with
  | Some (kp, cts) => lwe_layer_fails M B F tbl kp masks ins cts cs x
  | None => 1
  end.
