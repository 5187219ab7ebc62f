(** The number theoretic transform of the default build.  With the [concrete-ntt] feature the u32 and
    u64 fields use the external crate of that name through [algebra/src/transformation/concrete.rs];
    the u8 and u16 fields, and every field with the feature off, use [Model/NTT.v].

    The crate is not part of the repository.  Its functions are parameters of the model: what the
    theorems assume about them is written down in [Spec/ConcreteNtt.v]. *)
From Coq Require Import ZArith List Bool Arith.
From Verif Require Import Model.Base Model.Field Model.NTT.
Import ListNotations.
Local Open Scope Z_scope.

(** [concrete_ntt::prime32::Plan], [concrete_ntt::prime64::Plan] (external): the methods called in
    [concrete.rs:2-80,83-161].  Transforms take and return the contents of the slice; monomials take
    the coefficient, the degree and the length of the destination. *)
Record plan := mk_plan {
  pl_root : Z;
  pl_fwd : list Z -> option (list Z);
  pl_inv : list Z -> option (list Z);
  pl_normalize : list Z -> option (list Z);
  pl_fwd_monomial : Z -> Z -> nat -> option (list Z);
  pl_fwd_coeff_one_monomial : Z -> nat -> option (list Z);
  pl_fwd_coeff_neg_one_monomial : Z -> nat -> option (list Z) }.

(** [Plan::try_new(polynomial_size, modulus)] (external).  [algebra/src/transformation/concrete.rs:29,110]. *)
Definition plans := Z -> Z -> option plan.

(** [concrete.rs:13-19,94-100]: [ConcreteTable]. *)
Record concrete_table := mk_concrete { cn_root : Z; cn_plan : plan }.

(** [concrete.rs:25-32,106-113]. *)
Definition concrete_new (F : field) (try_new : plans) (logn : nat) : option (res concrete_table) :=
  let* n := ushl 64 1 (Z.of_nat logn) in
  match try_new n (fp F) with
  | None => Some Err
  | Some P => let* root := f_new F (pl_root P) in Some (Ok (mk_concrete root P))
  end.
(** [concrete.rs:44-48,125-129]. *)
Definition concrete_transform_slice (t : concrete_table) (v : list Z) : option (list Z) :=
  pl_fwd (cn_plan t) v.
(** [concrete.rs:50-55,131-136]. *)
Definition concrete_inverse_transform_slice (t : concrete_table) (v : list Z) : option (list Z) :=
  let* v := pl_inv (cn_plan t) v in pl_normalize (cn_plan t) v.
(** [concrete.rs:62-66,143-147]. *)
Definition concrete_transform_monomial (t : concrete_table) (coeff degree : Z) (len : nat) : option (list Z) :=
  pl_fwd_monomial (cn_plan t) coeff degree len.
(** [concrete.rs:68-72,149-153]. *)
Definition concrete_transform_coeff_one_monomial (t : concrete_table) (degree : Z) (len : nat) : option (list Z) :=
  pl_fwd_coeff_one_monomial (cn_plan t) degree len.
(** [concrete.rs:74-78,155-159]. *)
Definition concrete_transform_coeff_neg_one_monomial (t : concrete_table) (degree : Z) (len : nat) : option (list Z) :=
  pl_fwd_coeff_neg_one_monomial (cn_plan t) degree len.

(** [NTTField::Table] as chosen in [algebra_derive/src/ntt.rs:20-29]. *)
Inductive any_table := OwnTable (T : ntt_table) | ExtTable (T : concrete_table).

(** [AbstractNTT::root] ([transformation/mod.rs:22], [ntt_table.rs:292-295], [concrete.rs:39-42]). *)
Definition t_root (t : any_table) : Z :=
  match t with OwnTable T => nt_root T | ExtTable T => cn_root T end.
(** [AbstractNTT::transform_slice] ([transformation/mod.rs:82]). *)
Definition t_transform_slice (F : field) (t : any_table) (v : list Z) : option (list Z) :=
  match t with OwnTable T => transform_slice F T v | ExtTable T => concrete_transform_slice T v end.
(** [AbstractNTT::inverse_transform_slice] ([transformation/mod.rs:92]). *)
Definition t_inverse_transform_slice (F : field) (t : any_table) (v : list Z) : option (list Z) :=
  match t with OwnTable T => inverse_transform_slice F T v | ExtTable T => concrete_inverse_transform_slice T v end.
(** [MonomialNTT::transform_monomial] ([transformation/mod.rs:98]). *)
Definition t_transform_monomial (F : field) (t : any_table) (coeff degree : Z) (len : nat) : option (list Z) :=
  match t with
  | OwnTable T => transform_monomial F T coeff degree len
  | ExtTable T => concrete_transform_monomial T coeff degree len
  end.
(** [MonomialNTT::transform_coeff_one_monomial] ([transformation/mod.rs:101-104]). *)
Definition t_transform_coeff_one_monomial (t : any_table) (degree : Z) (len : nat) : option (list Z) :=
  match t with
  | OwnTable T => transform_coeff_one_monomial T degree len
  | ExtTable T => concrete_transform_coeff_one_monomial T degree len
  end.
(** [MonomialNTT::transform_coeff_neg_one_monomial] ([transformation/mod.rs:107-110]). *)
Definition t_transform_coeff_neg_one_monomial (F : field) (t : any_table) (degree : Z) (len : nat) : option (list Z) :=
  match t with
  | OwnTable T => transform_coeff_neg_one_monomial F T degree len
  | ExtTable T => concrete_transform_coeff_neg_one_monomial T degree len
  end.

(** The build: [None] with the [concrete-ntt] feature off, otherwise the crate's [try_new].  Fields of
    32 and 64 bits use it ([algebra_derive/src/ntt.rs:20-28]). *)
Definition backend (F : field) (ext : option plans) : option plans :=
  if (fw F =? 32) || (fw F =? 64) then ext else None.

(** [algebra_derive/src/ntt.rs:327-397] ([generate_ntt_table] of the derived field). *)
Definition generate_table (F : field) (ext : option plans) (draws : nat -> Z) (logn : nat)
  : option (res any_table) :=
  match backend F ext with
  | Some try_new =>
      let* r := concrete_new F try_new logn in
      Some (match r with Ok t => Ok (ExtTable t) | Err => Err end)
  | None =>
      let* r := generate_ntt_table F draws logn in
      Some (match r with Ok t => Ok (OwnTable t) | Err => Err end)
  end.

(** With the crate in use, [Root] is the field itself: [to_root] and [from_root] are the identity
    ([algebra_derive/src/ntt.rs:199-209,230-240]) and [mul_root], [mul_root_assign] plain products
    ([:261-271,294-304]). *)
Definition ext_to_root (v : Z) : Z := v.
(** [algebra_derive/src/ntt.rs:199-209]. *)
Definition ext_from_root (r : Z) : Z := r.
(** [algebra_derive/src/ntt.rs:261-271,294-304]. *)
Definition ext_mul_root (F : field) (v r : Z) : option Z := f_mul F v r.
(** [algebra_derive/src/ntt.rs:136-142] with that [mul_root_assign]. *)
Definition ext_min_root_step (F : field) (g : Z) (st : Z * Z) : option (Z * Z) :=
  let '(root, cur) := st in
  let root := if cur <? root then cur else root in
  let* cur := ext_mul_root F cur g in
  Some (root, cur).
(** [algebra_derive/src/ntt.rs:130-145] with those roots. *)
Definition ext_try_minimal_primitive_root (F : field) (draws : nat -> Z) (degree : Z) : option (res Z) :=
  let* r := try_primitive_root F draws degree in
  match r with
  | Err => Some Err
  | Ok root =>
      let* sq := f_mul F root root in
      let* ' (root, _) := iterM (Z.to_nat degree) (ext_min_root_step F (ext_to_root sq)) (root, root) in
      Some (Ok root)
  end.
