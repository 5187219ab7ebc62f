(** Parameters. [fhe_core/src/parameter.rs], the key types of [fhe_core/src/secret_key.rs]. *)
From Coq Require Import ZArith List Bool.
From Verif Require Import Model.Base Model.Field.
Import ListNotations.
Local Open Scope Z_scope.

(** [parameter.rs:14-30]. *)
Inductive steps := BrMsKs | BrKsMs | BrMs.
(** [secret_key.rs:12-18]. *)
Inductive lwe_key_type := LBinary | LTernary.
(** [secret_key.rs:22-30]. *)
Inductive ring_key_type := RBinary | RTernary | RGaussian.

(** [ConstParameters], [parameter.rs:85-116].  The three standard deviations only select noise
    distributions and are left out. *)
Record const_params := mk_const_params {
  cp_n : Z; cp_t : Z; cp_q : Z; cp_key : lwe_key_type;
  cp_N : Z; cp_Q : Z; cp_ring_key : ring_key_type;
  cp_bits : Z; cp_steps : steps; cp_ks_bits : Z }.

(** [Parameters], [parameter.rs:32-79]. *)
Record parameters := mk_parameters {
  pp_n : Z; pp_t : Z; pp_q : Z; pp_key : lwe_key_type;
  pp_N : Z; pp_Q : Z; pp_ring_key : ring_key_type; pp_basis : basis;
  pp_ks_bits : Z; pp_steps : steps }.

(** [Parameters::new], [parameter.rs:120-179]: [None] is a panic, [Some None] an [Err].  [F] is the
    field the type parameter [Q] stands for; its modulus is not compared with [ring_modulus].
    [usize] is 64 bits wide. *)
Definition params_new (F : field) (c : const_params) : option (option parameters) :=
  if negb (is_pow2 (cp_N c)) then Some None
  else
    let* twice := ushl 64 (cp_N c) 1 in
    let* _ := assert (negb (twice =? 0)) in
    let* m := usub (cp_Q c) 1 in
    let* factor := udiv m twice in
    let* back := umul 64 factor twice in
    if negb (back =? m) then Some None
    else
      let* _ := assert (cp_t c <=? cp_q c) in
      let* _ := assert (is_pow2 (cp_t c) && is_pow2 (cp_q c)) in
      let* b := basis_new F (cp_bits c) in
      Some (Some (mk_parameters (cp_n c) (cp_t c) (cp_q c) (cp_key c) (cp_N c) (cp_Q c) (cp_ring_key c) b
        (cp_ks_bits c) (cp_steps c))).
