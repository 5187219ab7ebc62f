(** RLWE ciphertexts in coefficient and transform form. [lattice/src/rlwe.rs].

    [RLWE<F>] and [NTTRLWE<F>] both hold two vectors of field elements and share one record. *)
From Coq Require Import ZArith List Bool Arith.
From Verif Require Import Model.Base Model.Field Model.NTT Model.Concrete Model.Poly Model.Lwe.
Import ListNotations.
Local Open Scope Z_scope.

(** [rlwe.rs:27-34,611-616]. *)
Record rlwe := mk_rlwe { ra : list Z; rb : list Z }.

(** [rlwe.rs:97-100,104-110,642-655] ([new], [from_ref]). *)
Definition rlwe_new (a b : list Z) : option rlwe := let* _ := same_len a b in Some (mk_rlwe a b).
(** [rlwe.rs:125-130,659-664]. *)
Definition rlwe_zero (n : nat) : rlwe := mk_rlwe (repeat 0 n) (repeat 0 n).

(** Applying a polynomial operation to both components (the shape of [rlwe.rs:212-291]). *)
Definition on_both (f : list Z -> list Z -> option (list Z)) (x y : rlwe) : option rlwe :=
  let* a := f (ra x) (ra y) in let* b := f (rb x) (rb y) in Some (mk_rlwe a b).
(** The same with a destination ([rlwe.rs:278-291,817-830]). *)
Definition on_both3 (f : list Z -> list Z -> list Z -> option (list Z)) (x y d : rlwe) : option rlwe :=
  let* a := f (ra x) (ra y) (ra d) in let* b := f (rb x) (rb y) (rb d) in Some (mk_rlwe a b).

(** [rlwe.rs:212-217,761-766] ([add_element_wise_ref]). *)
Definition rlwe_add_ref (F : field) := on_both (p_add F).
(** [rlwe.rs:226-231,264-267,770-775,803-806] ([add_element_wise], [add_assign_element_wise],
    [add_element_wise_assign]). *)
Definition rlwe_add_assign (F : field) := on_both (p_add_assign F).
(** [rlwe.rs:240-245,784-789]. *)
Definition rlwe_sub_ref (F : field) := on_both (p_sub F).
(** [rlwe.rs:254-259,272-275,793-798,811-814]. *)
Definition rlwe_sub_assign (F : field) := on_both (p_sub_assign F).
(** [rlwe.rs:280-283,819-822]. *)
Definition rlwe_add_inplace (F : field) := on_both3 (p_add_inplace F).
(** [rlwe.rs:288-291,827-830]. *)
Definition rlwe_sub_inplace (F : field) := on_both3 (p_sub_inplace F).

(** [rlwe.rs:618-626] ([NTTRLWE::from(RLWE)]). *)
Definition rlwe_to_ntt (F : field) (tbl : tables) (x : rlwe) : option rlwe :=
  let* a := into_ntt F tbl (ra x) in let* b := into_ntt F tbl (rb x) in Some (mk_rlwe a b).
(** [rlwe.rs:75-83] ([RLWE::from(NTTRLWE)]). *)
Definition rlwe_from_ntt (F : field) (tbl : tables) (x : rlwe) : option rlwe :=
  let* a := into_native F tbl (ra x) in let* b := into_native F tbl (rb x) in Some (mk_rlwe a b).
(** [rlwe.rs:674-686].  The destination only contributes its length. *)
Definition inverse_transform_inplace (F : field) (tbl : tables) (x dst : rlwe) : option rlwe :=
  let* _ := len_pow2 (length (ra dst)) in
  let* T := tbl (len_log (length (ra dst))) in
  let* _ := same_len (ra dst) (ra x) in
  let* _ := same_len (rb dst) (rb x) in
  let* a := t_inverse_transform_slice F T (ra x) in
  let* b := t_inverse_transform_slice F T (rb x) in
  Some (mk_rlwe a b).

(** [rlwe.rs:296-317] ([RLWE::mul_ntt_polynomial_inplace]; result in transform form). *)
Definition rlwe_mul_ntt_poly (F : field) (tbl : tables) (x : rlwe) (v : list Z) (dst : rlwe) : option rlwe :=
  let* _ := len_pow2 (length v) in
  let* T := tbl (len_log (length v)) in
  let* _ := same_len (ra dst) (ra x) in
  let* _ := same_len (rb dst) (rb x) in
  let* a := t_transform_slice F T (ra x) in
  let* b := t_transform_slice F T (rb x) in
  let* a := n_mul_assign F a v in
  let* b := n_mul_assign F b v in
  Some (mk_rlwe a b).

(** [rlwe.rs:834-837] ([NTTRLWE::mul_ntt_polynomial_assign]). *)
Definition nrlwe_mul_assign (F : field) (x : rlwe) (v : list Z) : option rlwe :=
  let* a := n_mul_assign F (ra x) v in let* b := n_mul_assign F (rb x) v in Some (mk_rlwe a b).
(** [rlwe.rs:842-849] ([NTTRLWE::mul_ntt_polynomial_inplace]). *)
Definition nrlwe_mul_inplace (F : field) (x : rlwe) (v : list Z) (dst : rlwe) : option rlwe :=
  let* a := n_mul_inplace F (ra x) v (ra dst) in let* b := n_mul_inplace F (rb x) v (rb dst) in Some (mk_rlwe a b).
(** [rlwe.rs:853-860]. *)
Definition nrlwe_add_mul (F : field) (acc g : rlwe) (d : list Z) : option rlwe :=
  let* a := ntt_add_mul_assign F (ra acc) (ra g) d in
  let* b := ntt_add_mul_assign F (rb acc) (rb g) d in Some (mk_rlwe a b).
(** [rlwe.rs:867-874]. *)
Definition nrlwe_add_mul_fast (F : field) (acc g : rlwe) (d : list Z) : option rlwe :=
  let* a := ntt_add_mul_assign_fast F (ra acc) (ra g) d in
  let* b := ntt_add_mul_assign_fast F (rb acc) (rb g) d in Some (mk_rlwe a b).
(** [rlwe.rs:878-886]. *)
Definition nrlwe_add_mul_inplace (F : field) (x g : rlwe) (d : list Z) (dst : rlwe) : option rlwe :=
  let* a := ntt_add_mul_inplace F (ra x) (ra g) d (ra dst) in
  let* b := ntt_add_mul_inplace F (rb x) (rb g) d (rb dst) in Some (mk_rlwe a b).

(** * Sample extraction *)

(** [rlwe.rs:331-339].  [a[1..]] panics on an empty vector, as does [b[0]]. *)
Definition extract_lwe (F : field) (x : rlwe) : option lwe :=
  let* a := mapM (f_neg F) (ra x) in
  match a with
  | [] => None
  | a0 :: r => let* a0 := f_neg F a0 in let* b0 := index (rb x) 0 in Some (mk_lwe (a0 :: rev r) b0)
  end.
(** [rlwe.rs:343-350]. *)
Definition extract_lwe_locally (F : field) (x : rlwe) : option lwe :=
  match ra x with
  | [] => None
  | a0 :: r => let* r := mapM (f_neg F) (rev r) in let* b0 := index (rb x) 0 in Some (mk_lwe (a0 :: r) b0)
  end.
(** [rlwe.rs:354-357]. *)
Definition extract_lwe_reverse_locally (x : rlwe) : option lwe :=
  let* b0 := index (rb x) 0 in Some (mk_lwe (ra x) b0).
(** [rlwe.rs:361-366]. *)
Definition extract_partial_lwe_reverse_locally (x : rlwe) (dim : nat) : option lwe :=
  let* b0 := index (rb x) 0 in Some (mk_lwe (firstn dim (ra x)) b0).
(** [rlwe.rs:370-379]. *)
Definition extract_partial_lwe_locally (F : field) (x : rlwe) (dim : nat) : option lwe :=
  match ra x with
  | [] => None
  | a0 :: r => let* r := mapM (f_neg F) (rev r) in let* b0 := index (rb x) 0 in Some (mk_lwe (firstn dim (a0 :: r)) b0)
  end.

(** * Monomial rotations *)

(** [x[0..r]], [y[n_sub_r..]] of [rlwe.rs:396-402]: panic past the end. *)
Definition slice_to (l : list Z) (i : nat) : option (list Z) := if (i <=? length l)%nat then Some (firstn i l) else None.
(** [x[r..]], [y[n_sub_r..]] of [rlwe.rs:396-402]: panic past the end. *)
Definition slice_from (l : list Z) (i : nat) : option (list Z) := if (i <=? length l)%nat then Some (skipn i l) else None.

(** The two-slice update shared by the [rotate_*] closures ([rlwe.rs:390-405,411-426,444-458,
    464-478]): [x[0..r]] is combined with [y[m..]] by [f], [x[r..]] with [y[0..m]] by [g]. *)
Definition rotate (f g : Z -> Z -> option Z) (x y : list Z) (r m : nat) : option (list Z) :=
  let* x0 := slice_to x r in
  let* y1 := slice_from y m in
  let* x0 := zipA f x0 y1 in
  let* x1 := slice_from x r in
  let* y0 := slice_to y m in
  let* x1 := zipA g x1 y0 in
  Some (x0 ++ x1).

(** [rlwe.rs:390-405]: [*u = -v] then [*u = v], then [x -= y]. *)
Definition rotate_sub_low (F : field) (x y : list Z) (r m : nat) : option (list Z) :=
  let* x := rotate (fun _ v => f_neg F v) (fun _ v => Some v) x y r m in p_sub_assign F x y.
(** [rlwe.rs:411-426]. *)
Definition rotate_sub_high (F : field) (x y : list Z) (r m : nat) : option (list Z) :=
  let* x := rotate (fun _ v => Some v) (fun _ v => f_neg F v) x y r m in p_sub_assign F x y.

(** [rlwe.rs:382-432].  [n] is [rlwe_dimension]. *)
Definition mul_monic_monomial_sub_one (F : field) (x : rlwe) (n r : nat) (dst : rlwe) : option rlwe :=
  if (r <=? n)%nat then
    let m := (n - r)%nat in
    let* a := rotate_sub_low F (ra dst) (ra x) r m in
    let* b := rotate_sub_low F (rb dst) (rb x) r m in Some (mk_rlwe a b)
  else
    let r := (r - n)%nat in
    let* _ := assert (r <=? n)%nat in
    let m := (n - r)%nat in
    let* a := rotate_sub_high F (ra dst) (ra x) r m in
    let* b := rotate_sub_high F (rb dst) (rb x) r m in Some (mk_rlwe a b).

(** [rlwe.rs:435-484]. *)
Definition add_assign_rhs_mul_monomial (F : field) (x rhs : rlwe) (n r : nat) : option rlwe :=
  if (r <=? n)%nat then
    let m := (n - r)%nat in
    let* a := rotate (f_sub_assign F) (f_add F) (ra x) (ra rhs) r m in
    let* b := rotate (f_sub_assign F) (f_add F) (rb x) (rb rhs) r m in Some (mk_rlwe a b)
  else
    let r := (r - n)%nat in
    let* _ := assert (r <=? n)%nat in
    let m := (n - r)%nat in
    let* a := rotate (f_add F) (f_sub_assign F) (ra x) (ra rhs) r m in
    let* b := rotate (f_add F) (f_sub_assign F) (rb x) (rb rhs) r m in Some (mk_rlwe a b).

(** * Samples.  The uniform polynomial [a] and the noise polynomial [e] are parameters (the code
    draws them with the key's length). *)

(** [rlwe.rs:577-595]; [sk] is the key in transform form. *)
Definition rlwe_zero_sample (F : field) (tbl : tables) (sk a e : list Z) : option rlwe :=
  let* v := into_ntt F tbl a in
  let* v := n_mul_assign F v sk in
  let* v := into_native F tbl v in
  let* b := p_add_assign F e v in
  Some (mk_rlwe a b).
(** [rlwe.rs:1034-1049]; [a] is drawn in transform form. *)
Definition nrlwe_zero_sample (F : field) (tbl : tables) (sk a e : list Z) : option rlwe :=
  let* v := into_ntt F tbl e in
  let* b := ntt_add_mul_assign F v a sk in
  Some (mk_rlwe a b).
(** [e[0] += value] ([rlwe.rs:1065], [gadget/rlwe.rs:187,211]). *)
Definition add_at_0 (F : field) (l : list Z) (v : Z) : option (list Z) :=
  match l with [] => None | x :: r => let* x := f_add F x v in Some (x :: r) end.
(** [rlwe.rs:1052-1071]. *)
Definition nrlwe_value_sample (F : field) (tbl : tables) (sk a e : list Z) (value : Z) : option rlwe :=
  let* e := add_at_0 F e value in
  let* v := into_ntt F tbl e in
  let* b := ntt_add_mul_assign F v a sk in
  Some (mk_rlwe a b).
