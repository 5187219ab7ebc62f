(** Polynomials in coefficient and transform form. [algebra/src/polynomial/native_polynomial.rs],
    [algebra/src/polynomial/ntt_polynomial.rs].

    Both types wrap a vector of field elements and are modelled by lists.  [tbl k] is the outcome
    of [F::get_ntt_table(k).unwrap()]: the cache behind it is modelled in [Model/Cache.v]. *)
From Coq Require Import ZArith List Bool Arith.
From Verif Require Import Model.Base Model.Field Model.NTT Model.Concrete Spec.ConcreteNtt.
Import ListNotations.
Local Open Scope Z_scope.

(** The table lookup used by the polynomial operations ([get_ntt_table(log_n).unwrap()]).
    [native_polynomial.rs:49,526,628,645]. *)
Definition tables := nat -> option any_table.

(** [l.iter_mut().zip(r).for_each(|(l, r)| *l = f(l, r))]: entries of [l] beyond [r] stay.
    E.g. [native_polynomial.rs:409]. *)
Fixpoint zipA (f : Z -> Z -> option Z) (l r : list Z) : option (list Z) :=
  match l, r with
  | x :: l', y :: r' => let* v := f x y in let* t := zipA f l' r' in Some (v :: t)
  | _, _ => Some l
  end.
(** [a.iter().zip(b).zip(dst).for_each(|((x, y), z)| *z = f(x, y))].  [native_polynomial.rs:176-192]. *)
Fixpoint zipD (f : Z -> Z -> option Z) (a b dst : list Z) : option (list Z) :=
  match a, b, dst with
  | x :: a', y :: b', _ :: d' => let* v := f x y in let* t := zipD f a' b' d' in Some (v :: t)
  | _, _, _ => Some dst
  end.
(** [x.into_iter().zip(y).zip(z).for_each(|((a, b), c)| *a = f(a, b, c))].  [ntt_polynomial.rs:587-592,624-628]. *)
Fixpoint zipA3 (f : Z -> Z -> Z -> option Z) (x y z : list Z) : option (list Z) :=
  match x, y, z with
  | a :: x', b :: y', c :: z' => let* v := f a b c in let* t := zipA3 f x' y' z' in Some (v :: t)
  | _, _, _ => Some x
  end.
(** [des.into_iter().zip(x).zip(y).zip(z).for_each(|(((d, a), b), c)| *d = f(a, b, c))].
    [ntt_polynomial.rs:604-610]. *)
Fixpoint zipD3 (f : Z -> Z -> Z -> option Z) (des x y z : list Z) : option (list Z) :=
  match des, x, y, z with
  | _ :: d', a :: x', b :: y', c :: z' =>
      let* v := f a b c in let* t := zipD3 f d' x' y' z' in Some (v :: t)
  | _, _, _, _ => Some des
  end.

(** [debug_assert_eq!(self.coeff_count(), rhs.coeff_count())].  E.g. [native_polynomial.rs:408]. *)
Definition same_len (a b : list Z) : option unit := assert (length a =? length b)%nat.

(** [native_polynomial.rs:405-449] ([+=] and the owned forms), [ntt_polynomial.rs:312-356]. *)
Definition p_add_assign (F : field) (a b : list Z) : option (list Z) :=
  let* _ := same_len a b in zipA (f_add F) a b.
(** [native_polynomial.rs:451-460], [ntt_polynomial.rs:358-367]: [&a + &b]. *)
Definition p_add (F : field) (a b : list Z) : option (list Z) :=
  let* _ := same_len a b in mapM2 (f_add F) a b.
(** [native_polynomial.rs:176-183], [ntt_polynomial.rs:170-177]. *)
Definition p_add_inplace (F : field) (a b dst : list Z) : option (list Z) := zipD (f_add F) a b dst.
(** [native_polynomial.rs:462-495], [ntt_polynomial.rs:369-402]: [-=] and [a - b]. *)
Definition p_sub_assign (F : field) (a b : list Z) : option (list Z) :=
  let* _ := same_len a b in zipA (f_sub_assign F) a b.
(** [native_polynomial.rs:508-517], [ntt_polynomial.rs:415-424]: [&a - &b]. *)
Definition p_sub (F : field) (a b : list Z) : option (list Z) :=
  let* _ := same_len a b in mapM2 (f_sub F) a b.
(** [native_polynomial.rs:497-506], [ntt_polynomial.rs:404-413]: [&a - b], overwriting [b]. *)
Definition p_sub_rev (F : field) (a b : list Z) : option (list Z) :=
  let* _ := same_len a b in zipA (fun r l => f_sub F l r) b a.
(** [native_polynomial.rs:188-195], [ntt_polynomial.rs:182-189]. *)
Definition p_sub_inplace (F : field) (a b dst : list Z) : option (list Z) := zipD (f_sub F) a b dst.
(** [native_polynomial.rs:199-201,654-674], [ntt_polynomial.rs:205-207,536-556]. *)
Definition p_neg (F : field) (a : list Z) : option (list Z) := mapM (f_neg F) a.
(** [native_polynomial.rs:161-171], [ntt_polynomial.rs:155-165]. *)
Definition p_mul_scalar (F : field) (a : list Z) (c : Z) : option (list Z) :=
  mapM (fun v => f_mul F v c) a.
(** [native_polynomial.rs:204-210]. *)
Definition p_evaluate (F : field) (a : list Z) (x : Z) : option Z :=
  foldM (fun acc c => let* m := f_mul F acc x in f_add F c m) 0 (rev a).

(** [trailing_zeros] of a vector length.  [native_polynomial.rs:49,525,627,644]. *)
Definition len_log (n : nat) : nat := Z.to_nat (trailing_zeros 64 (Z.of_nat n)).
(** [debug_assert!(coeff_count.is_power_of_two())] ([ntt_polynomial.rs:41],
    [lattice/src/rlwe.rs:302]). *)
Definition len_pow2 (n : nat) : option unit := assert (is_pow2 (Z.of_nat n)).

(** [ntt_polynomial.rs:38-47] ([into_ntt_polynomial]). *)
Definition into_ntt (F : field) (tbl : tables) (a : list Z) : option (list Z) :=
  let* _ := len_pow2 (length a) in
  let* T := tbl (len_log (length a)) in
  t_transform_slice F T a.
(** [native_polynomial.rs:44-53] ([into_native_polynomial]). *)
Definition into_native (F : field) (tbl : tables) (v : list Z) : option (list Z) :=
  let* _ := len_pow2 (length v) in
  let* T := tbl (len_log (length v)) in
  t_inverse_transform_slice F T v.

(** [native_polynomial.rs:702-706]. *)
Definition ntt_mul_assign_fast (F : field) (l r : list Z) : option (list Z) := zipA (f_mul_fast F) l r.

(** [native_polynomial.rs:519-580]: [a *= b], [a * b]. *)
Definition p_mul_assign (F : field) (tbl : tables) (a b : list Z) : option (list Z) :=
  let* _ := same_len a b in
  let* _ := len_pow2 (length a) in
  let* T := tbl (len_log (length a)) in
  let* rhs := t_transform_slice F T b in
  let* lhs := t_transform_slice F T a in
  let* lhs := ntt_mul_assign_fast F lhs rhs in
  t_inverse_transform_slice F T lhs.
(** [native_polynomial.rs:582-652]: [a *= v] with [v] in transform form. *)
Definition p_mul_assign_ntt (F : field) (tbl : tables) (a v : list Z) : option (list Z) :=
  let* _ := same_len a v in
  let* _ := len_pow2 (length a) in
  let* T := tbl (len_log (length a)) in
  let* lhs := t_transform_slice F T a in
  let* lhs := ntt_mul_assign_fast F lhs v in
  t_inverse_transform_slice F T lhs.

(** [ntt_polynomial.rs:426-470]: [*=] and the owned forms. *)
Definition n_mul_assign (F : field) (a b : list Z) : option (list Z) :=
  let* _ := same_len a b in zipA (f_mul F) a b.
(** [ntt_polynomial.rs:472-481]: [&a * &b]. *)
Definition n_mul (F : field) (a b : list Z) : option (list Z) :=
  let* _ := same_len a b in mapM2 (f_mul F) a b.
(** [ntt_polynomial.rs:194-201]. *)
Definition n_mul_inplace (F : field) (a b dst : list Z) : option (list Z) := zipD (f_mul F) a b dst.
(** [ntt_polynomial.rs:483-515]: [v *= a] with [a] in coefficient form. *)
Definition n_mul_assign_poly (F : field) (tbl : tables) (v a : list Z) : option (list Z) :=
  let* _ := same_len v a in
  let* r := into_ntt F tbl a in
  n_mul_assign F v r.
(** [ntt_polynomial.rs:558-576]. *)
Definition n_inv (F : field) (v : list Z) : option (list Z) := mapM (f_inv F) v.
(** [native_polynomial.rs:676-697]. *)
Definition p_inv (F : field) (tbl : tables) (a : list Z) : option (list Z) :=
  let* v := into_ntt F tbl a in
  let* v := n_inv F v in
  into_native F tbl v.
(** [ntt_polynomial.rs:583-592]. *)
Definition ntt_add_mul_assign (F : field) (x y z : list Z) : option (list Z) := zipA3 (f_add_mul F) x y z.
(** [ntt_polynomial.rs:599-610]. *)
Definition ntt_add_mul_inplace (F : field) (x y z des : list Z) : option (list Z) :=
  zipD3 (f_add_mul F) des x y z.
(** [ntt_polynomial.rs:620-629]. *)
Definition ntt_add_mul_assign_fast (F : field) (x y z : list Z) : option (list Z) :=
  zipA3 (f_add_mul_fast F) x y z.

(** [tbl] serves degree 2^k: [get_ntt_table(k)] succeeded, returning a table built by
    [generate_ntt_table] from some random draws ([algebra_derive/src/ntt.rs:149-160]), in a build
    without the external transform or with one behaving as documented. *)
Definition serves (F : field) (tbl : tables) (k : nat) : Prop :=
  exists ext draws T, build_ok ext /\ (forall i, 2 <= draws i <= fp F - 1) /\
    generate_table F ext draws k = Some (Ok T) /\ tbl k = Some T.
