(** LWE ciphertexts, encryption and decryption. [lattice/src/lwe.rs],
    [fhe_core/src/secret_key.rs]. *)
From Coq Require Import ZArith List Bool.
From Verif Require Import Model.Base Model.Barrett Model.PowOf2 Model.Reduce Model.Field Model.Poly Model.Plaintext.
Import ListNotations.
Local Open Scope Z_scope.

(** [lwe.rs:20-26]. *)
Record lwe := mk_lwe { la : list Z; lb : Z }.

(** The modular operations an [LWE<T>] method is generic over (the bounds [AddReduce<M>],
    [SubReduce<M>], [SubReduceAssign<M>], [NegReduce<M>], [MulReduce<M>] in [lwe.rs:168-322]; the
    assigning forms of [+], [-x] and [*] share the by-value code). *)
Record mops := mk_mops {
  o_add : Z -> Z -> option Z;
  o_sub : Z -> Z -> option Z;
  o_sub_assign : Z -> Z -> option Z;
  o_neg : Z -> option Z;
  o_mul : Z -> Z -> option Z }.

(** [PowOf2Modulus<C>] ([algebra/src/modulus/powof2/internal_macros.rs:34-91]). *)
Definition p2_mops (B mask : Z) : mops :=
  mk_mops (fun a b => Some (p2_add B mask a b)) (fun a b => Some (p2_sub B mask a b))
          (fun a b => Some (p2_sub B mask a b)) (fun a => Some (p2_neg B mask a))
          (fun a b => Some (p2_mul B mask a b)).
(** [BarrettModulus<T>] ([algebra/src/modulus/barrett/internal_macros.rs:185-300]). *)
Definition barrett_mops (B : Z) (m : barrett) : mops :=
  mk_mops (badd B m) (bsub B m) (fun a b => sub_reduce_assign B a b (bval m)) (bneg m) (bmul B m).
(** Field elements: [+], [+=], [-], [-=] of [LWE<F>] ([lwe.rs:65-159]). *)
Definition field_mops (F : field) : mops :=
  mk_mops (f_add F) (f_sub F) (f_sub_assign F) (f_neg F) (f_mul F).

(** [lwe.rs:72-81,168-184]: [add_component_wise_ref], [add_reduce_component_wise_ref]. *)
Definition lwe_add (O : mops) (x y : lwe) : option lwe :=
  let* _ := same_len (la x) (la y) in
  let* a := mapM2 (o_add O) (la x) (la y) in
  let* b := o_add O (lb x) (lb y) in Some (mk_lwe a b).
(** [lwe.rs:89-111,190-214]: the in-place forms and the by-value forms that call them. *)
Definition lwe_add_inplace (O : mops) (x y : lwe) : option lwe :=
  let* _ := same_len (la x) (la y) in
  let* a := zipA (o_add O) (la x) (la y) in
  let* b := o_add O (lb x) (lb y) in Some (mk_lwe a b).
(** [lwe.rs:120-129,221-237]. *)
Definition lwe_sub (O : mops) (x y : lwe) : option lwe :=
  let* _ := same_len (la x) (la y) in
  let* a := mapM2 (o_sub O) (la x) (la y) in
  let* b := o_sub O (lb x) (lb y) in Some (mk_lwe a b).
(** [lwe.rs:137-159,243-269]. *)
Definition lwe_sub_inplace (O : mops) (x y : lwe) : option lwe :=
  let* _ := same_len (la x) (la y) in
  let* a := zipA (o_sub_assign O) (la x) (la y) in
  let* b := o_sub_assign O (lb x) (lb y) in Some (mk_lwe a b).
(** [lwe.rs:274-283]. *)
Definition lwe_scalar_mul (O : mops) (x : lwe) (c : Z) : option lwe :=
  let* a := mapM (fun v => o_mul O v c) (la x) in
  let* b := o_mul O (lb x) c in Some (mk_lwe a b).
(** [lwe.rs:289-300]: no length check, [zip] leaves a longer [self.a] tail unchanged. *)
Definition lwe_add_scaled (O : mops) (x y : lwe) (c : Z) : option lwe :=
  let* a := zipA (fun v r => let* w := o_mul O r c in o_add O v w) (la x) (la y) in
  let* w := o_mul O (lb y) c in
  let* b := o_add O (lb x) w in Some (mk_lwe a b).
(** [lwe.rs:304-322]: by-value and in-place. *)
Definition lwe_neg (O : mops) (x : lwe) : option lwe :=
  let* a := mapM (o_neg O) (la x) in
  let* b := o_neg O (lb x) in Some (mk_lwe a b).

(** [lwe.rs:327-352] for a power-of-two modulus.  The mask [a] (uniform draws) and the error [e]
    (drawn from the noise distribution) are parameters; the mask is taken to the key's length. *)
Definition lwe_zero_sample (B mask : Z) (s a : list Z) (e : Z) : option lwe :=
  let a := firstn (length s) a in
  let* d := p2_dot B mask a s in
  Some (mk_lwe a (p2_add B mask d e)).

(** [secret_key.rs:150-177].  [q] is [lwe_cipher_modulus_value]; the modulus object is
    [to_power_of_2_modulus(q)]. *)
Definition encrypt (B t q : Z) (s a : list Z) (e m : Z) : option lwe :=
  let* mask := p2_new q in
  let* z := lwe_zero_sample B mask s a e in
  let* c := encode B m t q in
  Some (mk_lwe (la z) (p2_add B mask (lb z) c)).

(** [secret_key.rs:181-192]. *)
Definition decrypt (M : msg_type) (B t q : Z) (s : list Z) (ct : lwe) : option Z :=
  let* mask := p2_new q in
  let* d := p2_dot B mask (la ct) s in
  decode M (p2_sub B mask (lb ct) d) t q.

(** [secret_key.rs:196-215]. *)
Definition decrypt_with_noise (M : msg_type) (B t q : Z) (s : list Z) (ct : lwe) : option (Z * Z) :=
  let* mask := p2_new q in
  let* d := p2_dot B mask (la ct) s in
  let p := p2_sub B mask (lb ct) d in
  let* m := decode M p t q in
  let* fresh := encode B m t q in
  Some (m, Z.min (p2_sub B mask p fresh) (p2_sub B mask fresh p)).
