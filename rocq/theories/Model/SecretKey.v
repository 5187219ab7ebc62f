(** Secret keys and evaluation keys. [fhe_core/src/secret_key.rs], [bool/src/bfhe/evaluate.rs]. *)
From Coq Require Import ZArith List Bool Arith.
From Verif Require Import Model.Base Model.Field Model.NTT Model.Poly Model.Lwe Model.Rlwe Model.Gadget Model.BlindRotation Model.KeySwitch Model.Params Model.Boolean Model.Sample.
Import ListNotations.
Local Open Scope Z_scope.

(** [SecretKeyPack], [secret_key.rs:44-53]. *)
Record key_pack := mk_key_pack { kp_lwe : list Z; kp_ring : list Z; kp_ntt : list Z; kp_par : parameters }.

(** [create_lwe_secret_key], [secret_key.rs:56-66]. *)
Definition create_lwe_secret_key (P : parameters) (words : nat -> Z) : option (list Z) :=
  match pp_key P with
  | LBinary => sample_binary_values (Z.to_nat (pp_n P)) words
  | LTernary => sample_ternary_values (pp_q P) (Z.to_nat (pp_n P)) words
  end.

(** The closure [convert], [secret_key.rs:100-108]. *)
Definition convert (F : field) (v : Z) : option Z :=
  if v =? 0 then Some 0 else if v =? 1 then Some 1 else usub (fp F) 1.

(** The [match] of [secret_key.rs:69-122].  [gauss] stands for the result of [random_with_gaussian]
    (its sampler is not part of this definition). *)
Definition create_ring_secret_key (F : field) (P : parameters) (lwe_sk : list Z) (words : nat -> Z) (gauss : list Z) : option (list Z) :=
  let N := Z.to_nat (pp_N P) in
  match pp_steps P with
  | BrMsKs =>
      match pp_ring_key P with
      | RBinary => sample_binary_field_vec F N words
      | RTernary => sample_ternary_field_vec F N words
      | RGaussian => None
      end
  | BrKsMs =>
      match pp_ring_key P with
      | RBinary => sample_binary_field_vec F N words
      | RTernary => sample_ternary_field_vec F N words
      | RGaussian => Some gauss
      end
  | BrMs =>
      let* _ := assert (match pp_ring_key P with RGaussian => false | _ => true end) in
      let* _ := assert (pp_n P =? pp_N P) in
      mapM (convert F) lwe_sk
  end.

(** [SecretKeyPack::new], [secret_key.rs:69-122]: two word streams, one for each key. *)
Definition key_pack_new (F : field) (tbl : tables) (P : parameters) (words rwords : nat -> Z) (gauss : list Z) : option key_pack :=
  let* z := create_lwe_secret_key P words in
  let* s := create_ring_secret_key F P z rwords gauss in
  let* S := into_ntt F tbl s in
  Some (mk_key_pack z s S P).

(** The (uniform, noise) draws of evaluation key generation ([bool/src/bfhe/evaluate.rs:48-68]): for
    a binary or a ternary rotation key, and for an LWE or a ring switching key. *)
Record key_draws := mk_key_draws {
  kd_bin : list rgsw_rnd; kd_ter : list (rgsw_rnd * rgsw_rnd);
  kd_lwe : list (list (list (list Z * Z))); kd_ring : list (list (list Z * list Z)) }.

(** [BlindRotationKey::generate], [fhe_core/src/blind_rotation/mod.rs:59-85]. *)
Definition br_key_generate (F : field) (tbl : tables) (kp : key_pack) (R : key_draws) : option br_key :=
  let P := kp_par kp in
  match pp_key P with
  | LBinary => let* k := binary_generate F tbl (kp_lwe kp) (kp_ntt kp) (pp_basis P) (kd_bin R) in Some (BrBinary k)
  | LTernary => let* k := ternary_generate F tbl (kp_lwe kp) (kp_ntt kp) (pp_basis P) (kd_ter R) in Some (BrTernary k)
  end.

(** [EvaluationKey::new], [evaluate.rs:48-68]; [B] is the width of the ciphertext word [C]. *)
Definition eval_key_new (B : Z) (F : field) (tbl : tables) (kp : key_pack) (R : key_draws) : option eval_key :=
  let P := kp_par kp in
  let* br := br_key_generate F tbl kp R in
  let* ks := match pp_steps P with
    | BrMsKs => let* K := lks_generate B (pp_q P) (pp_ks_bits P) (kp_lwe kp) (kp_ring kp) (kd_lwe R) in Some (KsLwe K)
    | BrKsMs => let* K := rks_generate F tbl (pp_ks_bits P) (kp_lwe kp) (kp_ring kp) (kp_ntt kp) (kd_ring R) in Some (KsRlwe K)
    | BrMs => Some KsNone
    end in
  Some (mk_eval_key br ks P).

(** [SecretKeyPack::encrypt] and [decrypt], [secret_key.rs:150-192], with the pack's parameters; the
    [Encryptor] and [Decryptor] of [bool/src/{encrypt,decrypt}.rs] only call them, [KeyGen] of
    [bool/src/key_gen.rs] only calls [SecretKeyPack::new]. *)
Definition kp_encrypt (B : Z) (kp : key_pack) (a : list Z) (e m : Z) : option lwe :=
  encrypt B (pp_t (kp_par kp)) (pp_q (kp_par kp)) (kp_lwe kp) a e m.
(** [SecretKeyPack::decrypt], [secret_key.rs:180-192]. *)
Definition kp_decrypt (M : Plaintext.msg_type) (B : Z) (kp : key_pack) (c : lwe) : option Z :=
  decrypt M B (pp_t (kp_par kp)) (pp_q (kp_par kp)) (kp_lwe kp) c.
