(** The optimised build, part 2: transforms, polynomials, LWE and ring ciphertexts, gadget products.
    See Model/OptArith for the differences from the checked build. *)
From Coq Require Import ZArith List Bool Arith.
From Verif Require Import Model.Base Model.Reduce Model.Gcd Model.Barrett Model.PowOf2 Model.Shoup Model.Field Model.Prime Model.BabyBear Model.Goldilocks Model.NTT Model.Concrete Model.Poly Model.DecomposeAt Model.Plaintext Model.Lwe Model.Rlwe Model.Gadget Model.OptArith.
Import ListNotations.
Local Open Scope Z_scope.

(** * Model/NTT *)
(** [utils/reverse.rs:20-27]. *)
Definition reverse_lsbs_o (B x bits : Z) : option Z :=
  let* _ := debug_assert_o (bits <? B) in
  if (x =? 0) || (bits =? 0) then Some 0
  else
    let* s := usub_o 32 B bits in
    ushr_o B (rev_bits (Z.to_nat B) x) s.
(** [algebra_derive/src/ntt.rs:199-227,230-258]: [to_root]; [from_root] is [sh_value]. *)
Definition to_root_o (F : field) (v : Z) : option shoup := shoup_new_o (fw F) v (fp F).
(** [algebra_derive/src/ntt.rs:82-95]. *)
Definition is_primitive_root_o (F : field) (root degree : Z) : option bool :=
  let* _ := debug_assert_o (root <? fp F) in
  let* _ := debug_assert_o ((1 <? degree) && is_pow2 degree) in
  if root =? 0 then Some false
  else
    let* h := ushr_o (fw F) degree 1 in
    let* r := f_pow_o F root h in
    Some (r =? fp F - 1).
(** [algebra_derive/src/ntt.rs:115-127]: the [any] loop over at most [n] draws. *)
Fixpoint root_search_o (F : field) (degree quotient : Z) (n : nat) (draws : nat -> Z)
  : option (res Z) :=
  match n with
  | O => Some Err
  | S m =>
      let* w := f_pow_o F (draws O) quotient in
      let* ok := is_primitive_root_o F w degree in
      if ok : bool then Some (Ok w) else root_search_o F degree quotient m (fun i => draws (S i))
  end.
(** [algebra_derive/src/ntt.rs:97-128].  [draws i] is the i-th sample of
    [Uniform::new_inclusive(2, modulus - 1)], which panics on an empty range. *)
Definition try_primitive_root_o (F : field) (draws : nat -> Z) (degree : Z) : option (res Z) :=
  let* m1 := usub_o (fw F) (fp F) 1 in
  let* q := udiv m1 degree in
  let* qd := umul_o (fw F) q degree in
  if negb (m1 =? qd) then Some Err
  else
    let* _ := assert (2 <=? m1) in
    root_search_o F degree q 100 draws.
(** [algebra_derive/src/ntt.rs:130-145]. *)
Definition try_minimal_primitive_root_o (F : field) (draws : nat -> Z) (degree : Z) : option (res Z) :=
  let* r := try_primitive_root_o F draws degree in
  match r with
  | Err => Some Err
  | Ok root =>
      let* sq := f_mul_o F root root in
      let* g := to_root_o F sq in
      let* ' (root, _) := iterM (Z.to_nat degree) (min_root_step F g) (root, root) in
      Some (Ok root)
  end.
(** [ntt_table.rs:52-101].  The slices [..n] and [n+1..] of the ordinal powers panic when too
    short.  Simplified: the optimised build would shift by [log_n] modulo 64; the model keeps the exact power for [log_n >= 64]. *)
Definition ntt_table_new_o (F : field) (root : Z) (logn : nat) (ord : list shoup) : option ntt_table :=
  let* _ := debug_assert_o (Z.of_nat logn <? 64) in
  let n := (2 ^ logn)%nat in
  let* lst := nth_error (rev ord) 0 in
  let inv_root := sh_value lst in
  let* pr := f_mul_o F root inv_root in
  let* _ := debug_assert_o (pr =? 1) in
  let* root_one := nth_error ord 0 in
  let* revs := mapM (fun i => reverse_lsbs_o 64 (Z.of_nat i) (Z.of_nat logn)) (seq 0 n) in
  let revs := map Z.to_nat revs in
  let* roots := upd (repeat root_default n) 0 root_one in
  let* _ := assert (n <=? length ord)%nat in
  let* roots := scatter 0 (combine (firstn n ord) revs) roots in
  let* inv_roots := upd (repeat root_default n) 0 root_one in
  let* _ := assert (n + 1 <=? length ord)%nat in
  let* inv_roots := scatter 1 (combine (rev (skipn (n + 1) ord)) revs) inv_roots in
  let* di := f_inv_o F (f_from_usize F (Z.of_nat n)) in
  let* inv_degree := to_root_o F di in
  Some (mk_ntt_table root inv_root logn inv_degree roots inv_roots ord revs).
(** [algebra_derive/src/ntt.rs:384-390]: the remaining powers. *)
Fixpoint ordinal_powers_o (F : field) (factor : shoup) (n : nat) (power : Z) : option (list shoup) :=
  match n with
  | O => Some []
  | S m =>
      let* power := mul_root F power factor in
      let* r := to_root_o F power in
      let* t := ordinal_powers_o F factor m power in
      Some (r :: t)
  end.
(** [algebra_derive/src/ntt.rs:371-395]. *)
Definition generate_ntt_table_o (F : field) (draws : nat -> Z) (logn : nat) : option (res ntt_table) :=
  let* n := ushl_o 64 1 (Z.of_nat logn) in
  let* root_one := to_root_o F 1 in
  let* n2 := umul_o 64 n 2 in
  let* _ := assert (n2 <? 2 ^ fw F) in
  let* r := try_minimal_primitive_root_o F draws n2 in
  match r with
  | Err => Some Err
  | Ok root =>
      let* factor := to_root_o F root in
      let* tail := ordinal_powers_o F factor (2 * 2 ^ logn - 2) root in
      let* t := ntt_table_new_o F root logn (root_one :: factor :: tail) in
      Some (Ok t)
  end.
(** [F::MODULUS_VALUE << 1u32].  [ntt_table.rs:379-422]. *)
Definition two_p_o (F : field) : option Z := ushl_o (fw F) (fp F) 1.
(** [ntt_table.rs:378-384]. *)
Definition guard_o (F : field) (a : Z) : option Z :=
  let* t := two_p_o F in if t <=? a then usub a t else Some a.
(** [ntt_table.rs:387-396]. *)
Definition ntt_normalize_o (F : field) (a : Z) : option Z :=
  let* t := two_p_o F in
  let* r := (if t <=? a then usub a t else Some a) in
  if fp F <=? r then usub r (fp F) else Some r.
(** [ntt_table.rs:406-408]. *)
Definition add_no_reduce_o (F : field) (a b : Z) : option Z := uadd_o (fw F) a b.
(** [ntt_table.rs:411-418]. *)
Definition add_fast_o (F : field) (a b : Z) : option Z :=
  let* r := uadd_o (fw F) a b in
  let* t := two_p_o F in
  if t <=? r then usub r t else Some r.
(** [ntt_table.rs:421-423]. *)
Definition sub_fast_o (F : field) (a b : Z) : option Z :=
  let* t := two_p_o F in let* s := uadd_o (fw F) a t in usub_o (fw F) s b.
(** [ntt_table.rs:315-322]: one forward butterfly. *)
Definition fwd_bfly_o (F : field) (r : shoup) (i j : Z) : option (Z * Z) :=
  let* u := guard_o F i in
  let v := mul_root_fast F j r in
  let* i' := add_no_reduce_o F u v in
  let* j' := sub_fast_o F u v in
  Some (i', j').
(** [ntt_table.rs:347-354]: one inverse butterfly. *)
Definition inv_bfly_o (F : field) (r : shoup) (u v : Z) : option (Z * Z) :=
  let* i' := add_fast_o F u v in
  let* d := sub_fast_o F u v in
  Some (i', mul_root_fast F d r).
(** [ntt_table.rs:311-324]: the gaps 2^(k-1), ..., 1. *)
Fixpoint fwd_stages_o (F : field) (k : nat) (vals : list Z) (roots : list shoup)
  : option (list Z * list shoup) :=
  match k with
  | O => Some (vals, roots)
  | S k' =>
      let gap := (2 ^ k')%nat in
      let* ' (vals, roots) := layer (fwd_bfly_o F) gap (length vals / (2 * gap)) vals roots in
      fwd_stages_o F k' vals roots
  end.
(** [ntt_table.rs:297-327] (the [count_ntt] feature is not modelled).  Simplified: on a slice whose length is not that of the table (rejected by the [debug_assert] of the checked build) the model processes what is there. *)
Definition transform_slice_o (F : field) (T : ntt_table) (vals : list Z) : option (list Z) :=
  let* _ := debug_assert_o (length vals =? 2 ^ nt_logn T)%nat in
  let* _ := assert (1 <=? length (nt_roots T))%nat in
  let* ' (vals, _) := fwd_stages_o F (nt_logn T) vals (skipn 1 (nt_roots T)) in
  mapM (ntt_normalize_o F) vals.
(** [ntt_table.rs:345-356]: the gaps 2^x, ..., 2^(x+cnt-1). *)
Fixpoint inv_stages_o (F : field) (cnt x : nat) (vals : list Z) (roots : list shoup)
  : option (list Z * list shoup) :=
  match cnt with
  | O => Some (vals, roots)
  | S cnt' =>
      let gap := (2 ^ x)%nat in
      let* ' (vals, roots) := layer (inv_bfly_o F) gap (length vals / (2 * gap)) vals roots in
      inv_stages_o F cnt' (S x) vals roots
  end.
(** [ntt_table.rs:365-371]: the last, scaled butterfly. *)
Definition inv_last_bfly_o (F : field) (scalar scaled : shoup) (u v : Z) : option (Z * Z) :=
  let* s := add_no_reduce_o F u v in
  let* d := sub_fast_o F u v in
  Some (mul_root_fast F s scalar, mul_root_fast F d scaled).
(** [ntt_table.rs:329-374]; [0..log_n - 1] panics when [log_n] is 0.  Simplified off the path of the library: for one coefficient the model answers [None], as in the checked build; the tables of this library have at least two. *)
Definition inverse_transform_slice_o (F : field) (T : ntt_table) (vals : list Z) : option (list Z) :=
  let* _ := debug_assert_o (length vals =? 2 ^ nt_logn T)%nat in
  let* _ := assert (1 <=? length (nt_inv_roots T))%nat in
  match nt_logn T with
  | O => None
  | S k =>
      let* ' (vals, roots) := inv_stages_o F k 0 vals (skipn 1 (nt_inv_roots T)) in
      let gap := (2 ^ k)%nat in
      let scalar := nt_inv_degree T in
      let* r := nth_error roots 0 in
      let* sr := mul_root F (sh_value r) scalar in
      let* scaled := to_root_o F sr in
      let* ' (a, b) := zip_update (inv_last_bfly_o F scalar scaled) (firstn gap vals) (skipn gap vals) in
      mapM (intt_normalize F) (a ++ b)
  end.
(** [((2 * i + 1) * degree) & mask] with [mask = usize::MAX >> (64 - log_n - 1)]
    ([ntt_table.rs:217-224]); the products are checked. *)
Definition mono_index_o (logn : nat) (i : nat) (degree : Z) : option Z :=
  let* s := usub_o 32 64 (Z.of_nat logn) in
  let* s := usub_o 32 s 1 in
  let* mask := ushr_o 64 (2 ^ 64 - 1) s in
  let* d := umul_o 64 2 (Z.of_nat i) in
  let* d := uadd_o 64 d 1 in
  let* d := umul_o 64 d degree in
  Some (Z.land d mask).
(** The closure bodies [ntt_table.rs:202-244,257-263,278-284]; the zip stops at the shorter of
    the destination and the permutation. *)
Definition mono_one_o (T : ntt_table) (degree : Z) (len : nat) : option (list Z) :=
  mapM (fun i => let* ix := mono_index_o (nt_logn T) i degree in
                 let* r := ord_at T ix in Some (sh_value r)) (firstn len (nt_rev T)).
(** The closure of [transform_coeff_neg_one_monomial] ([ntt_table.rs:278-284]) and of coefficient -1
    in [transform_monomial]. *)
Definition mono_neg_one_o (T : ntt_table) (degree : Z) (len : nat) : option (list Z) :=
  mapM (fun i => let* ix := mono_index_o (nt_logn T) i degree in
                 let* r := ord_at T (Z.lxor ix (Z.of_nat (2 ^ nt_logn T))) in Some (sh_value r))
       (firstn len (nt_rev T)).
(** The closure of [transform_monomial] for any other coefficient ([ntt_table.rs:236-242]). *)
Definition mono_gen_o (F : field) (T : ntt_table) (coeff degree : Z) (len : nat) : option (list Z) :=
  mapM (fun i => let* ix := mono_index_o (nt_logn T) i degree in
                 let* r := ord_at T ix in mul_root F coeff r) (firstn len (nt_rev T)).
(** [ntt_table.rs:202-244]; [len] is the length of the destination, whose old contents are
    overwritten. *)
Definition transform_monomial_o (F : field) (T : ntt_table) (coeff degree : Z) (len : nat)
  : option (list Z) :=
  if coeff =? 0 then Some (repeat 0 len)
  else if degree =? 0 then Some (repeat coeff len)
  else
    let* _ := debug_assert_o (len =? 2 ^ nt_logn T)%nat in
    if coeff =? 1 then mono_one_o T degree len
    else if coeff =? f_neg_one F then mono_neg_one_o T degree len
    else mono_gen_o F T coeff degree len.
(** [ntt_table.rs:246-264]. *)
Definition transform_coeff_one_monomial_o (T : ntt_table) (degree : Z) (len : nat) : option (list Z) :=
  if degree =? 0 then Some (repeat 1 len)
  else let* _ := debug_assert_o (len =? 2 ^ nt_logn T)%nat in mono_one_o T degree len.
(** [ntt_table.rs:266-285]. *)
Definition transform_coeff_neg_one_monomial_o (F : field) (T : ntt_table) (degree : Z) (len : nat)
  : option (list Z) :=
  if degree =? 0 then Some (repeat (f_neg_one F) len)
  else let* _ := debug_assert_o (len =? 2 ^ nt_logn T)%nat in mono_neg_one_o T degree len.

(** * Model/Concrete *)
(** [concrete.rs:25-32,106-113]. *)
Definition concrete_new_o (F : field) (try_new : plans) (logn : nat) : option (res concrete_table) :=
  let* n := ushl_o 64 1 (Z.of_nat logn) in
  match try_new n (fp F) with
  | None => Some Err
  | Some P => let* root := f_new F (pl_root P) in Some (Ok (mk_concrete root P))
  end.
(** [AbstractNTT::transform_slice] ([transformation/mod.rs:82]). *)
Definition t_transform_slice_o (F : field) (t : any_table) (v : list Z) : option (list Z) :=
  match t with OwnTable T => transform_slice_o F T v | ExtTable T => concrete_transform_slice T v end.
(** [AbstractNTT::inverse_transform_slice] ([transformation/mod.rs:92]). *)
Definition t_inverse_transform_slice_o (F : field) (t : any_table) (v : list Z) : option (list Z) :=
  match t with OwnTable T => inverse_transform_slice_o F T v | ExtTable T => concrete_inverse_transform_slice T v end.
(** [MonomialNTT::transform_monomial] ([transformation/mod.rs:98]). *)
Definition t_transform_monomial_o (F : field) (t : any_table) (coeff degree : Z) (len : nat) : option (list Z) :=
  match t with
  | OwnTable T => transform_monomial_o F T coeff degree len
  | ExtTable T => concrete_transform_monomial T coeff degree len
  end.
(** [MonomialNTT::transform_coeff_one_monomial] ([transformation/mod.rs:101-104]). *)
Definition t_transform_coeff_one_monomial_o (t : any_table) (degree : Z) (len : nat) : option (list Z) :=
  match t with
  | OwnTable T => transform_coeff_one_monomial_o T degree len
  | ExtTable T => concrete_transform_coeff_one_monomial T degree len
  end.
(** [MonomialNTT::transform_coeff_neg_one_monomial] ([transformation/mod.rs:107-110]). *)
Definition t_transform_coeff_neg_one_monomial_o (F : field) (t : any_table) (degree : Z) (len : nat) : option (list Z) :=
  match t with
  | OwnTable T => transform_coeff_neg_one_monomial_o F T degree len
  | ExtTable T => concrete_transform_coeff_neg_one_monomial T degree len
  end.
(** [algebra_derive/src/ntt.rs:327-397] ([generate_ntt_table] of the derived field). *)
Definition generate_table_o (F : field) (ext : option plans) (draws : nat -> Z) (logn : nat)
  : option (res any_table) :=
  match backend F ext with
  | Some try_new =>
      let* r := concrete_new_o F try_new logn in
      Some (match r with Ok t => Ok (ExtTable t) | Err => Err end)
  | None =>
      let* r := generate_ntt_table_o F draws logn in
      Some (match r with Ok t => Ok (OwnTable t) | Err => Err end)
  end.
(** [algebra_derive/src/ntt.rs:261-271,294-304]. *)
Definition ext_mul_root_o (F : field) (v r : Z) : option Z := f_mul_o F v r.
(** [algebra_derive/src/ntt.rs:136-142] with that [mul_root_assign]. *)
Definition ext_min_root_step_o (F : field) (g : Z) (st : Z * Z) : option (Z * Z) :=
  let '(root, cur) := st in
  let root := if cur <? root then cur else root in
  let* cur := ext_mul_root_o F cur g in
  Some (root, cur).
(** [algebra_derive/src/ntt.rs:130-145] with those roots. *)
Definition ext_try_minimal_primitive_root_o (F : field) (draws : nat -> Z) (degree : Z) : option (res Z) :=
  let* r := try_primitive_root_o F draws degree in
  match r with
  | Err => Some Err
  | Ok root =>
      let* sq := f_mul_o F root root in
      let* ' (root, _) := iterM (Z.to_nat degree) (ext_min_root_step_o F (ext_to_root sq)) (root, root) in
      Some (Ok root)
  end.

(** * Model/Poly *)
(** [debug_assert_eq!(self.coeff_count(), rhs.coeff_count())].  E.g. [native_polynomial.rs:408]. *)
Definition same_len_o (a b : list Z) : option unit := debug_assert_o (length a =? length b)%nat.
(** [native_polynomial.rs:405-449] ([+=] and the owned forms), [ntt_polynomial.rs:312-356]. *)
Definition p_add_assign_o (F : field) (a b : list Z) : option (list Z) :=
  let* _ := same_len_o a b in zipA (f_add_o F) a b.
(** [native_polynomial.rs:451-460], [ntt_polynomial.rs:358-367]: [&a + &b]. *)
Definition p_add_o (F : field) (a b : list Z) : option (list Z) :=
  let* _ := same_len_o a b in mapM2 (f_add_o F) a b.
(** [native_polynomial.rs:176-183], [ntt_polynomial.rs:170-177]. *)
Definition p_add_inplace_o (F : field) (a b dst : list Z) : option (list Z) := zipD (f_add_o F) a b dst.
(** [native_polynomial.rs:462-495], [ntt_polynomial.rs:369-402]: [-=] and [a - b]. *)
Definition p_sub_assign_o (F : field) (a b : list Z) : option (list Z) :=
  let* _ := same_len_o a b in zipA (f_sub_assign_o F) a b.
(** [native_polynomial.rs:508-517], [ntt_polynomial.rs:415-424]: [&a - &b]. *)
Definition p_sub_o (F : field) (a b : list Z) : option (list Z) :=
  let* _ := same_len_o a b in mapM2 (f_sub_o F) a b.
(** [native_polynomial.rs:497-506], [ntt_polynomial.rs:404-413]: [&a - b], overwriting [b]. *)
Definition p_sub_rev_o (F : field) (a b : list Z) : option (list Z) :=
  let* _ := same_len_o a b in zipA (fun r l => f_sub_o F l r) b a.
(** [native_polynomial.rs:188-195], [ntt_polynomial.rs:182-189]. *)
Definition p_sub_inplace_o (F : field) (a b dst : list Z) : option (list Z) := zipD (f_sub_o F) a b dst.
(** [native_polynomial.rs:199-201,654-674], [ntt_polynomial.rs:205-207,536-556]. *)
Definition p_neg_o (F : field) (a : list Z) : option (list Z) := mapM (f_neg_o F) a.
(** [native_polynomial.rs:161-171], [ntt_polynomial.rs:155-165]. *)
Definition p_mul_scalar_o (F : field) (a : list Z) (c : Z) : option (list Z) :=
  mapM (fun v => f_mul_o F v c) a.
(** [native_polynomial.rs:204-210]. *)
Definition p_evaluate_o (F : field) (a : list Z) (x : Z) : option Z :=
  foldM (fun acc c => let* m := f_mul_o F acc x in f_add_o F c m) 0 (rev a).
(** [debug_assert!(coeff_count.is_power_of_two())] ([ntt_polynomial.rs:41],
    [lattice/src/rlwe.rs:302]). *)
Definition len_pow2_o (n : nat) : option unit := debug_assert_o (is_pow2 (Z.of_nat n)).
(** [ntt_polynomial.rs:38-47] ([into_ntt_polynomial]). *)
Definition into_ntt_o (F : field) (tbl : tables) (a : list Z) : option (list Z) :=
  let* _ := len_pow2_o (length a) in
  let* T := tbl (len_log (length a)) in
  t_transform_slice_o F T a.
(** [native_polynomial.rs:44-53] ([into_native_polynomial]). *)
Definition into_native_o (F : field) (tbl : tables) (v : list Z) : option (list Z) :=
  let* _ := len_pow2_o (length v) in
  let* T := tbl (len_log (length v)) in
  t_inverse_transform_slice_o F T v.
(** [native_polynomial.rs:702-706]. *)
Definition ntt_mul_assign_fast_o (F : field) (l r : list Z) : option (list Z) := zipA (f_mul_fast_o F) l r.
(** [native_polynomial.rs:519-580]: [a *= b], [a * b]. *)
Definition p_mul_assign_o (F : field) (tbl : tables) (a b : list Z) : option (list Z) :=
  let* _ := same_len_o a b in
  let* _ := len_pow2_o (length a) in
  let* T := tbl (len_log (length a)) in
  let* rhs := t_transform_slice_o F T b in
  let* lhs := t_transform_slice_o F T a in
  let* lhs := ntt_mul_assign_fast_o F lhs rhs in
  t_inverse_transform_slice_o F T lhs.
(** [native_polynomial.rs:582-652]: [a *= v] with [v] in transform form. *)
Definition p_mul_assign_ntt_o (F : field) (tbl : tables) (a v : list Z) : option (list Z) :=
  let* _ := same_len_o a v in
  let* _ := len_pow2_o (length a) in
  let* T := tbl (len_log (length a)) in
  let* lhs := t_transform_slice_o F T a in
  let* lhs := ntt_mul_assign_fast_o F lhs v in
  t_inverse_transform_slice_o F T lhs.
(** [ntt_polynomial.rs:426-470]: [*=] and the owned forms. *)
Definition n_mul_assign_o (F : field) (a b : list Z) : option (list Z) :=
  let* _ := same_len_o a b in zipA (f_mul_o F) a b.
(** [ntt_polynomial.rs:472-481]: [&a * &b]. *)
Definition n_mul_o (F : field) (a b : list Z) : option (list Z) :=
  let* _ := same_len_o a b in mapM2 (f_mul_o F) a b.
(** [ntt_polynomial.rs:194-201]. *)
Definition n_mul_inplace_o (F : field) (a b dst : list Z) : option (list Z) := zipD (f_mul_o F) a b dst.
(** [ntt_polynomial.rs:483-515]: [v *= a] with [a] in coefficient form. *)
Definition n_mul_assign_poly_o (F : field) (tbl : tables) (v a : list Z) : option (list Z) :=
  let* _ := same_len_o v a in
  let* r := into_ntt_o F tbl a in
  n_mul_assign_o F v r.
(** [ntt_polynomial.rs:558-576]. *)
Definition n_inv_o (F : field) (v : list Z) : option (list Z) := mapM (f_inv_o F) v.
(** [native_polynomial.rs:676-697]. *)
Definition p_inv_o (F : field) (tbl : tables) (a : list Z) : option (list Z) :=
  let* v := into_ntt_o F tbl a in
  let* v := n_inv_o F v in
  into_native_o F tbl v.
(** [ntt_polynomial.rs:583-592]. *)
Definition ntt_add_mul_assign_o (F : field) (x y z : list Z) : option (list Z) := zipA3 (f_add_mul_o F) x y z.
(** [ntt_polynomial.rs:599-610]. *)
Definition ntt_add_mul_inplace_o (F : field) (x y z des : list Z) : option (list Z) :=
  zipD3 (f_add_mul_o F) des x y z.
(** [ntt_polynomial.rs:620-629]. *)
Definition ntt_add_mul_assign_fast_o (F : field) (x y z : list Z) : option (list Z) :=
  zipA3 (f_add_mul_fast_o F) x y z.

(** * Model/DecomposeAt *)
(** [decompose_lsb_bits_at], [decomposable_field.rs:60-63], over [zip]: surplus entries on either
    side stay.  Result: (self, destination). *)
Fixpoint lsb_zip_o (F : field) (mask bits : Z) (self dest : list Z) : option (list Z * list Z) :=
  match self, dest with
  | v :: self', _ :: dest' =>
      let* t := ushr_o (fw F) v bits in
      let* ' (s, d) := lsb_zip_o F mask bits self' dest' in
      Some (t :: s, Z.land v mask :: d)
  | _, _ => Some (self, dest)
  end.
(** [native_polynomial.rs:340-348]. *)
Definition p_lsb_inplace_o (F : field) (b : basis) (self dest : list Z) : option (list Z * list Z) :=
  let* _ := debug_assert_o (length dest =? length self)%nat in
  lsb_zip_o F (bs_mask b) (bs_bits b) self dest.
(** The loop of [native_polynomial.rs:324-332]. *)
Fixpoint decompose_rows_o (F : field) (b : basis) (self : list Z) (dest : list (list Z)) : option (list Z * list (list Z)) :=
  match dest with
  | [] => Some (self, [])
  | d :: dest' =>
      let* _ := debug_assert_o (length d =? length self)%nat in
      let* ' (s, d') := lsb_zip_o F (bs_mask b) (bs_bits b) self d in
      let* ' (s', ds) := decompose_rows_o F b s dest' in
      Some (s', d' :: ds)
  end.
(** [native_polynomial.rs:318-333]. *)
Definition p_decompose_inplace_o (F : field) (b : basis) (self : list Z) (dest : list (list Z)) : option (list Z * list (list Z)) :=
  let* _ := assert (length dest =? bs_len b)%nat in
  decompose_rows_o F b self dest.

(** * Model/Plaintext *)
(** [plaintext.rs:78-92]; [B] is the width of the ciphertext type [C]; [m] is the message cast to
    [u64]. *)
Definition encode_o (B m t q : Z) : option Z :=
  let* _ := debug_assert_o (is_pow2 q && is_pow2 t) in
  let* _ := assert (m <? t) in
  let* d := udiv q t in
  let* c := ushl_o 64 m (trailing_zeros 64 d) in
  Some (ucast B c).
(** [plaintext.rs:106-119]. *)
Definition decode_o (M : msg_type) (c t q : Z) : option Z :=
  let* _ := debug_assert_o (is_pow2 q && is_pow2 t) in
  let* d := udiv q t in
  let* s := usub_o 32 (trailing_zeros 64 d) 1 in
  let* temp := ushr_o 64 c s in
  let* r := uadd_o 64 (temp / 2) (Z.land temp 1) in
  let* m := usub_o 64 t 1 in
  shrink M (Z.land r m).

(** * Model/Lwe *)
(** [BarrettModulus<T>] ([algebra/src/modulus/barrett/internal_macros.rs:185-300]). *)
Definition barrett_mops_o (B : Z) (m : barrett) : mops :=
  mk_mops (badd_o B m) (bsub_o B m) (fun a b => sub_reduce_assign_o B a b (bval m)) (bneg_o B m) (bmul_o B m).
(** Field elements: [+], [+=], [-], [-=] of [LWE<F>] ([lwe.rs:65-159]). *)
Definition field_mops_o (F : field) : mops :=
  mk_mops (f_add_o F) (f_sub_o F) (f_sub_assign_o F) (f_neg_o F) (f_mul_o F).
(** [lwe.rs:72-81,168-184]: [add_component_wise_ref], [add_reduce_component_wise_ref]. *)
Definition lwe_add_o (O : mops) (x y : lwe) : option lwe :=
  let* _ := same_len_o (la x) (la y) in
  let* a := mapM2 (o_add O) (la x) (la y) in
  let* b := o_add O (lb x) (lb y) in Some (mk_lwe a b).
(** [lwe.rs:89-111,190-214]: the in-place forms and the by-value forms that call them. *)
Definition lwe_add_inplace_o (O : mops) (x y : lwe) : option lwe :=
  let* _ := same_len_o (la x) (la y) in
  let* a := zipA (o_add O) (la x) (la y) in
  let* b := o_add O (lb x) (lb y) in Some (mk_lwe a b).
(** [lwe.rs:120-129,221-237]. *)
Definition lwe_sub_o (O : mops) (x y : lwe) : option lwe :=
  let* _ := same_len_o (la x) (la y) in
  let* a := mapM2 (o_sub O) (la x) (la y) in
  let* b := o_sub O (lb x) (lb y) in Some (mk_lwe a b).
(** [lwe.rs:137-159,243-269]. *)
Definition lwe_sub_inplace_o (O : mops) (x y : lwe) : option lwe :=
  let* _ := same_len_o (la x) (la y) in
  let* a := zipA (o_sub_assign O) (la x) (la y) in
  let* b := o_sub_assign O (lb x) (lb y) in Some (mk_lwe a b).
(** [lwe.rs:327-352] for a power-of-two modulus.  The mask [a] (uniform draws) and the error [e]
    (drawn from the noise distribution) are parameters; the mask is taken to the key's length. *)
Definition lwe_zero_sample_o (B mask : Z) (s a : list Z) (e : Z) : option lwe :=
  let a := firstn (length s) a in
  let* d := p2_dot_o B mask a s in
  Some (mk_lwe a (p2_add B mask d e)).
(** [secret_key.rs:150-177].  [q] is [lwe_cipher_modulus_value]; the modulus object is
    [to_power_of_2_modulus(q)]. *)
Definition encrypt_o (B t q : Z) (s a : list Z) (e m : Z) : option lwe :=
  let* mask := p2_new q in
  let* z := lwe_zero_sample_o B mask s a e in
  let* c := encode_o B m t q in
  Some (mk_lwe (la z) (p2_add B mask (lb z) c)).
(** [secret_key.rs:181-192]. *)
Definition decrypt_o (M : msg_type) (B t q : Z) (s : list Z) (ct : lwe) : option Z :=
  let* mask := p2_new q in
  let* d := p2_dot_o B mask (la ct) s in
  decode_o M (p2_sub B mask (lb ct) d) t q.
(** [secret_key.rs:196-215]. *)
Definition decrypt_with_noise_o (M : msg_type) (B t q : Z) (s : list Z) (ct : lwe) : option (Z * Z) :=
  let* mask := p2_new q in
  let* d := p2_dot_o B mask (la ct) s in
  let p := p2_sub B mask (lb ct) d in
  let* m := decode_o M p t q in
  let* fresh := encode_o B m t q in
  Some (m, Z.min (p2_sub B mask p fresh) (p2_sub B mask fresh p)).

(** * Model/Rlwe *)
(** [rlwe.rs:212-217,761-766] ([add_element_wise_ref]). *)
Definition rlwe_add_ref_o (F : field) := on_both (p_add_o F).
(** [rlwe.rs:226-231,264-267,770-775,803-806] ([add_element_wise], [add_assign_element_wise],
    [add_element_wise_assign]). *)
Definition rlwe_add_assign_o (F : field) := on_both (p_add_assign_o F).
(** [rlwe.rs:240-245,784-789]. *)
Definition rlwe_sub_ref_o (F : field) := on_both (p_sub_o F).
(** [rlwe.rs:254-259,272-275,793-798,811-814]. *)
Definition rlwe_sub_assign_o (F : field) := on_both (p_sub_assign_o F).
(** [rlwe.rs:280-283,819-822]. *)
Definition rlwe_add_inplace_o (F : field) := on_both3 (p_add_inplace_o F).
(** [rlwe.rs:288-291,827-830]. *)
Definition rlwe_sub_inplace_o (F : field) := on_both3 (p_sub_inplace_o F).
(** [rlwe.rs:618-626] ([NTTRLWE::from(RLWE)]). *)
Definition rlwe_to_ntt_o (F : field) (tbl : tables) (x : rlwe) : option rlwe :=
  let* a := into_ntt_o F tbl (ra x) in let* b := into_ntt_o F tbl (rb x) in Some (mk_rlwe a b).
(** [rlwe.rs:75-83] ([RLWE::from(NTTRLWE)]). *)
Definition rlwe_from_ntt_o (F : field) (tbl : tables) (x : rlwe) : option rlwe :=
  let* a := into_native_o F tbl (ra x) in let* b := into_native_o F tbl (rb x) in Some (mk_rlwe a b).
(** [rlwe.rs:674-686].  The destination only contributes its length. *)
Definition inverse_transform_inplace_o (F : field) (tbl : tables) (x dst : rlwe) : option rlwe :=
  let* _ := len_pow2_o (length (ra dst)) in
  let* T := tbl (len_log (length (ra dst))) in
  let* _ := same_len (ra dst) (ra x) in
  let* _ := same_len (rb dst) (rb x) in
  let* a := t_inverse_transform_slice_o F T (ra x) in
  let* b := t_inverse_transform_slice_o F T (rb x) in
  Some (mk_rlwe a b).
(** [rlwe.rs:296-317] ([RLWE::mul_ntt_polynomial_inplace]; result in transform form). *)
Definition rlwe_mul_ntt_poly_o (F : field) (tbl : tables) (x : rlwe) (v : list Z) (dst : rlwe) : option rlwe :=
  let* _ := len_pow2_o (length v) in
  let* T := tbl (len_log (length v)) in
  let* _ := same_len (ra dst) (ra x) in
  let* _ := same_len (rb dst) (rb x) in
  let* a := t_transform_slice_o F T (ra x) in
  let* b := t_transform_slice_o F T (rb x) in
  let* a := n_mul_assign_o F a v in
  let* b := n_mul_assign_o F b v in
  Some (mk_rlwe a b).
(** [rlwe.rs:834-837] ([NTTRLWE::mul_ntt_polynomial_assign]). *)
Definition nrlwe_mul_assign_o (F : field) (x : rlwe) (v : list Z) : option rlwe :=
  let* a := n_mul_assign_o F (ra x) v in let* b := n_mul_assign_o F (rb x) v in Some (mk_rlwe a b).
(** [rlwe.rs:842-849] ([NTTRLWE::mul_ntt_polynomial_inplace]). *)
Definition nrlwe_mul_inplace_o (F : field) (x : rlwe) (v : list Z) (dst : rlwe) : option rlwe :=
  let* a := n_mul_inplace_o F (ra x) v (ra dst) in let* b := n_mul_inplace_o F (rb x) v (rb dst) in Some (mk_rlwe a b).
(** [rlwe.rs:853-860]. *)
Definition nrlwe_add_mul_o (F : field) (acc g : rlwe) (d : list Z) : option rlwe :=
  let* a := ntt_add_mul_assign_o F (ra acc) (ra g) d in
  let* b := ntt_add_mul_assign_o F (rb acc) (rb g) d in Some (mk_rlwe a b).
(** [rlwe.rs:867-874]. *)
Definition nrlwe_add_mul_fast_o (F : field) (acc g : rlwe) (d : list Z) : option rlwe :=
  let* a := ntt_add_mul_assign_fast_o F (ra acc) (ra g) d in
  let* b := ntt_add_mul_assign_fast_o F (rb acc) (rb g) d in Some (mk_rlwe a b).
(** [rlwe.rs:878-886]. *)
Definition nrlwe_add_mul_inplace_o (F : field) (x g : rlwe) (d : list Z) (dst : rlwe) : option rlwe :=
  let* a := ntt_add_mul_inplace_o F (ra x) (ra g) d (ra dst) in
  let* b := ntt_add_mul_inplace_o F (rb x) (rb g) d (rb dst) in Some (mk_rlwe a b).
(** [rlwe.rs:331-339].  [a[1..]] panics on an empty vector, as does [b[0]]. *)
Definition extract_lwe_o (F : field) (x : rlwe) : option lwe :=
  let* a := mapM (f_neg_o F) (ra x) in
  match a with
  | [] => None
  | a0 :: r => let* a0 := f_neg_o F a0 in let* b0 := index (rb x) 0 in Some (mk_lwe (a0 :: rev r) b0)
  end.
(** [rlwe.rs:343-350]. *)
Definition extract_lwe_locally_o (F : field) (x : rlwe) : option lwe :=
  match ra x with
  | [] => None
  | a0 :: r => let* r := mapM (f_neg_o F) (rev r) in let* b0 := index (rb x) 0 in Some (mk_lwe (a0 :: r) b0)
  end.
(** [rlwe.rs:370-379]. *)
Definition extract_partial_lwe_locally_o (F : field) (x : rlwe) (dim : nat) : option lwe :=
  match ra x with
  | [] => None
  | a0 :: r => let* r := mapM (f_neg_o F) (rev r) in let* b0 := index (rb x) 0 in Some (mk_lwe (firstn dim (a0 :: r)) b0)
  end.
(** [rlwe.rs:390-405]: [*u = -v] then [*u = v], then [x -= y]. *)
Definition rotate_sub_low_o (F : field) (x y : list Z) (r m : nat) : option (list Z) :=
  let* x := rotate (fun _ v => f_neg_o F v) (fun _ v => Some v) x y r m in p_sub_assign_o F x y.
(** [rlwe.rs:411-426]. *)
Definition rotate_sub_high_o (F : field) (x y : list Z) (r m : nat) : option (list Z) :=
  let* x := rotate (fun _ v => Some v) (fun _ v => f_neg_o F v) x y r m in p_sub_assign_o F x y.
(** [rlwe.rs:382-432].  [n] is [rlwe_dimension]. *)
Definition mul_monic_monomial_sub_one_o (F : field) (x : rlwe) (n r : nat) (dst : rlwe) : option rlwe :=
  if (r <=? n)%nat then
    let m := (n - r)%nat in
    let* a := rotate_sub_low_o F (ra dst) (ra x) r m in
    let* b := rotate_sub_low_o F (rb dst) (rb x) r m in Some (mk_rlwe a b)
  else
    let r := (r - n)%nat in
    let* _ := assert (r <=? n)%nat in
    let m := (n - r)%nat in
    let* a := rotate_sub_high_o F (ra dst) (ra x) r m in
    let* b := rotate_sub_high_o F (rb dst) (rb x) r m in Some (mk_rlwe a b).
(** [rlwe.rs:435-484]. *)
Definition add_assign_rhs_mul_monomial_o (F : field) (x rhs : rlwe) (n r : nat) : option rlwe :=
  if (r <=? n)%nat then
    let m := (n - r)%nat in
    let* a := rotate (f_sub_assign_o F) (f_add_o F) (ra x) (ra rhs) r m in
    let* b := rotate (f_sub_assign_o F) (f_add_o F) (rb x) (rb rhs) r m in Some (mk_rlwe a b)
  else
    let r := (r - n)%nat in
    let* _ := assert (r <=? n)%nat in
    let m := (n - r)%nat in
    let* a := rotate (f_add_o F) (f_sub_assign_o F) (ra x) (ra rhs) r m in
    let* b := rotate (f_add_o F) (f_sub_assign_o F) (rb x) (rb rhs) r m in Some (mk_rlwe a b).
(** [rlwe.rs:577-595]; [sk] is the key in transform form. *)
Definition rlwe_zero_sample_o (F : field) (tbl : tables) (sk a e : list Z) : option rlwe :=
  let* v := into_ntt_o F tbl a in
  let* v := n_mul_assign_o F v sk in
  let* v := into_native_o F tbl v in
  let* b := p_add_assign_o F e v in
  Some (mk_rlwe a b).
(** [rlwe.rs:1034-1049]; [a] is drawn in transform form. *)
Definition nrlwe_zero_sample_o (F : field) (tbl : tables) (sk a e : list Z) : option rlwe :=
  let* v := into_ntt_o F tbl e in
  let* b := ntt_add_mul_assign_o F v a sk in
  Some (mk_rlwe a b).
(** [e[0] += value] ([rlwe.rs:1065], [gadget/rlwe.rs:187,211]). *)
Definition add_at_0_o (F : field) (l : list Z) (v : Z) : option (list Z) :=
  match l with [] => None | x :: r => let* x := f_add_o F x v in Some (x :: r) end.
(** [rlwe.rs:1052-1071]. *)
Definition nrlwe_value_sample_o (F : field) (tbl : tables) (sk a e : list Z) (value : Z) : option rlwe :=
  let* e := add_at_0_o F e value in
  let* v := into_ntt_o F tbl e in
  let* b := ntt_add_mul_assign_o F v a sk in
  Some (mk_rlwe a b).

(** * Model/Gadget *)
(** [gadget/rlwe.rs:31-55,260-273] ([new], [from_ref]). *)
Definition gadget_new_o (d : list rlwe) (b : basis) : option gadget :=
  let* _ := debug_assert_o (length d =? bs_len b)%nat in Some (mk_gadget d b).
(** [gadget/rlwe.rs:240-248] ([NTTGadgetRLWE::from(GadgetRLWE)]). *)
Definition gadget_to_ntt_o (F : field) (tbl : tables) (G : gadget) : option gadget :=
  let* d := mapM (rlwe_to_ntt_o F tbl) (gd G) in Some (mk_gadget d (gb G)).
(** The loop over the rows shared by every gadget product
    ([gadget/rlwe.rs:119-124,143-149,353-357,381-386,411-416], [rlwe.rs:925-930,953-957,976-980,999-1004,1026-1030]): split one digit off the polynomial
    into the decomposition space (of length [dlen]), transform it, and run the closure [step].  Simplified: a decomposition space of another length (rejected by the [debug_assert] of the checked build) is not distinguished. *)
Fixpoint gadget_loop_o (F : field) (T : any_table) (step : rlwe -> rlwe -> list Z -> option rlwe)
    (b : basis) (dlen : nat) (rows : list rlwe) (f : list Z) (acc : rlwe) : option rlwe :=
  match rows with
  | [] => Some acc
  | g :: rows' =>
      let* _ := debug_assert_o (dlen =? length f)%nat in
      let* ' (d, f) := poly_decompose_lsb_o F (bs_mask b) (bs_bits b) f in
      let* d := t_transform_slice_o F T d in
      let* acc := step acc g d in
      gadget_loop_o F T step b dlen rows' f acc
  end.
(** [gadget/rlwe.rs:107-109] (and every other product): [coeff_count] is a power of two with a table. *)
Definition lookup_o (tbl : tables) (f : list Z) : option any_table :=
  let* _ := len_pow2_o (length f) in tbl (len_log (length f)).
(** The closure of [gadget/rlwe.rs:119-124,143-149]: the product goes through [temp]. *)
Definition mul_then_add_o (F : field) (tbl : tables) (n : nat) (acc g : rlwe) (d : list Z) : option rlwe :=
  let* t := rlwe_mul_ntt_poly_o F tbl g d (rlwe_zero n) in rlwe_add_assign_o F acc t.
(** [gadget/rlwe.rs:106-126] ([GadgetRLWE::mul_polynomial]). *)
Definition g_mul_polynomial_o (F : field) (tbl : tables) (G : gadget) (f : list Z) : option rlwe :=
  let* T := lookup_o tbl f in
  let n := length f in
  let* r := gadget_loop_o F T (mul_then_add_o F tbl n) (gb G) n (gd G) f (rlwe_zero n) in
  rlwe_from_ntt_o F tbl r.
(** [gadget/rlwe.rs:130-151]. *)
Definition g_mul_polynomial_add_rlwe_o (F : field) (tbl : tables) (G : gadget) (f : list Z) (x : rlwe) : option rlwe :=
  let* T := lookup_o tbl f in
  let n := length f in
  let* x := rlwe_to_ntt_o F tbl x in
  let* r := gadget_loop_o F T (mul_then_add_o F tbl n) (gb G) n (gd G) f x in
  rlwe_from_ntt_o F tbl r.
(** [gadget/rlwe.rs:341-360] ([NTTGadgetRLWE::mul_polynomial]). *)
Definition ng_mul_polynomial_o (F : field) (tbl : tables) (G : gadget) (f : list Z) : option rlwe :=
  let* T := lookup_o tbl f in
  gadget_loop_o F T (nrlwe_add_mul_o F) (gb G) (length f) (gd G) f (rlwe_zero (length f)).
(** [gadget/rlwe.rs:364-387] ([step] := exact closure) and 394-417 ([step] := fast closure).
    [dlen], [plen]: lengths of the decomposition and polynomial spaces; [dst] is zeroed. *)
Definition ng_mul_polynomial_inplace_with_o (step : field -> rlwe -> rlwe -> list Z -> option rlwe)
    (F : field) (tbl : tables) (G : gadget) (f : list Z) (dlen plen : nat) (dst : rlwe) : option rlwe :=
  let* T := lookup_o tbl f in
  let* _ := assert (plen =? length f)%nat in
  gadget_loop_o F T (step F) (gb G) dlen (gd G) f
    (mk_rlwe (repeat 0 (length (ra dst))) (repeat 0 (length (rb dst)))).
(** [gadget/rlwe.rs:364-387]. *)
Definition ng_mul_polynomial_inplace_o := ng_mul_polynomial_inplace_with_o nrlwe_add_mul_o.
(** [gadget/rlwe.rs:394-417]. *)
Definition ng_mul_polynomial_inplace_fast_o := ng_mul_polynomial_inplace_with_o nrlwe_add_mul_fast_o.
(** [rlwe.rs:910-931] (exact closure) and 938-958 (fast closure). *)
Definition nrlwe_add_gadget_mul_with_o (step : field -> rlwe -> rlwe -> list Z -> option rlwe)
    (F : field) (tbl : tables) (x : rlwe) (G : gadget) (f : list Z) (dlen plen : nat) : option rlwe :=
  let* _ := assert (length f =? plen)%nat in
  let* T := lookup_o tbl f in
  gadget_loop_o F T (step F) (gb G) dlen (gd G) f x.
(** [rlwe.rs:910-931]. *)
Definition nrlwe_add_gadget_mul_assign_o := nrlwe_add_gadget_mul_with_o nrlwe_add_mul_o.
(** [rlwe.rs:938-958]. *)
Definition nrlwe_add_gadget_mul_assign_fast_o := nrlwe_add_gadget_mul_with_o nrlwe_add_mul_fast_o.
(** [rlwe.rs:890-906]. *)
Definition nrlwe_add_gadget_mul_o (F : field) (tbl : tables) (x : rlwe) (G : gadget) (f : list Z) : option rlwe :=
  nrlwe_add_gadget_mul_assign_o F tbl x G f (length f) (length f).
(** [rlwe.rs:965-981]: consumes [f]; no polynomial space. *)
Definition nrlwe_add_gadget_mul_inplace_fast_o (F : field) (tbl : tables) (x : rlwe) (G : gadget) (f : list Z) (dlen : nat) : option rlwe :=
  let* T := lookup_o tbl f in
  gadget_loop_o F T (nrlwe_add_mul_fast_o F) (gb G) dlen (gd G) f x.
(** [rlwe.rs:985-1005] (exact closure) and 1012-1031 (fast closure): the negated polynomial is
    decomposed. *)
Definition nrlwe_sub_gadget_mul_with_o (step : field -> rlwe -> rlwe -> list Z -> option rlwe)
    (F : field) (tbl : tables) (x : rlwe) (G : gadget) (f : list Z) (dlen : nat) : option rlwe :=
  let* T := lookup_o tbl f in
  let* f := p_neg_o F f in
  gadget_loop_o F T (step F) (gb G) dlen (gd G) f x.
(** [rlwe.rs:985-1005]. *)
Definition nrlwe_sub_gadget_mul_o := nrlwe_sub_gadget_mul_with_o nrlwe_add_mul_o.
(** [rlwe.rs:1012-1031]. *)
Definition nrlwe_sub_gadget_mul_fast_o := nrlwe_sub_gadget_mul_with_o nrlwe_add_mul_fast_o.
(** [gadget/rlwe.rs:420-433]: [self + rhs * v] row by row, over the shortest of the three. *)
Fixpoint ng_add_mul_inplace_o (F : field) (l r : list rlwe) (v : list Z) (dst : list rlwe) : option (list rlwe) :=
  match dst, l, r with
  | d :: dst', x :: l', y :: r' =>
      let* z := nrlwe_add_mul_inplace_o F x y v d in
      let* t := ng_add_mul_inplace_o F l' r' v dst' in Some (z :: t)
  | _, _, _ => Some dst
  end.
(** [gadget/rlwe.rs:420-433]. *)
Definition gadget_add_mul_inplace_o (F : field) (x y : gadget) (v : list Z) (dst : gadget) : option gadget :=
  let* d := ng_add_mul_inplace_o F (gd x) (gd y) v (gd dst) in Some (mk_gadget d (gb dst)).
(** [gadget/rlwe.rs:85-102,320-337]. *)
Definition gadget_op_inplace_o (f : rlwe -> rlwe -> rlwe -> option rlwe) (x y dst : gadget) : option gadget :=
  let* _ := debug_assert_o (bs_basis (gb x) =? bs_basis (gb y)) in
  let* d := rows_inplace f (gd x) (gd y) (gd dst) in Some (mk_gadget d (gb dst)).
(** [gadget/rlwe.rs:156-169]. *)
Definition g_zero_sample_o (F : field) (tbl : tables) (sk : list Z) := zero_rows (rlwe_zero_sample_o F tbl sk).
(** [gadget/rlwe.rs:438-451]. *)
Definition ng_zero_sample_o (F : field) (tbl : tables) (sk : list Z) := zero_rows (nrlwe_zero_sample_o F tbl sk).
(** [gadget/rlwe.rs:185-190,209-214]: [len] iterations, the power is multiplied by the basis after
    every row (a checked multiplication of words). *)
Fixpoint power_rows_o (F : field) (row : Z -> list Z -> list Z -> option rlwe) (bv power : Z)
    (rnd : list (list Z * list Z)) : option (list rlwe) :=
  match rnd with
  | [] => Some []
  | (a, e) :: rnd' =>
      let* r := row power a e in
      let* power := umul_o (fw F) power bv in
      let* t := power_rows_o F row bv power rnd' in
      Some (r :: t)
  end.
(** [gadget/rlwe.rs:467-480,499-508]: the last row is peeled off, so the last power is not
    multiplied again. *)
Fixpoint power_rows_peeled_o (F : field) (row : Z -> list Z -> list Z -> option rlwe) (bv power : Z)
    (rnd : list (list Z * list Z)) : option (list rlwe) :=
  match rnd with
  | [] => None
  | [(a, e)] => let* r := row power a e in Some [r]
  | (a, e) :: rnd' =>
      let* r := row power a e in
      let* power := umul_o (fw F) power bv in
      let* t := power_rows_peeled_o F row bv power rnd' in
      Some (r :: t)
  end.
(** [gadget/rlwe.rs:172-193]. *)
Definition g_one_sample_o (F : field) (tbl : tables) (sk : list Z) (b : basis) (rnd : list (list Z * list Z)) : option gadget :=
  let* d := power_rows_o F (fun power a e =>
      let* r := rlwe_zero_sample_o F tbl sk a e in
      let* b0 := add_at_0_o F (rb r) power in Some (mk_rlwe (ra r) b0)) (bs_basis b) 1 (firstn (bs_len b) rnd) in
  Some (mk_gadget d b).
(** [gadget/rlwe.rs:196-217]. *)
Definition g_neg_secret_sample_o (F : field) (tbl : tables) (sk : list Z) (b : basis) (rnd : list (list Z * list Z)) : option gadget :=
  let* d := power_rows_o F (fun power a e =>
      let* r := rlwe_zero_sample_o F tbl sk a e in
      let* a0 := add_at_0_o F (ra r) power in Some (mk_rlwe a0 (rb r))) (bs_basis b) 1 (firstn (bs_len b) rnd) in
  Some (mk_gadget d b).
(** [gadget/rlwe.rs:454-483]. *)
Definition ng_one_sample_o (F : field) (tbl : tables) (sk : list Z) (b : basis) (rnd : list (list Z * list Z)) : option gadget :=
  let* d := power_rows_peeled_o F (fun power a e => nrlwe_value_sample_o F tbl sk a e power)
      (bs_basis b) 1 (firstn (bs_len b) rnd) in
  Some (mk_gadget d b).
(** [gadget/rlwe.rs:486-511]: the power is added to every transformed entry. *)
Definition ng_neg_secret_sample_o (F : field) (tbl : tables) (sk : list Z) (b : basis) (rnd : list (list Z * list Z)) : option gadget :=
  let* d := power_rows_peeled_o F (fun power a e =>
      let* r := nrlwe_zero_sample_o F tbl sk a e in
      let* a := mapM (fun v => f_add_o F v power) (ra r) in Some (mk_rlwe a (rb r))) (bs_basis b) 1 (firstn (bs_len b) rnd) in
  Some (mk_gadget d b).
(** [rgsw.rs:220-228]. *)
Definition rgsw_to_ntt_o (F : field) (tbl : tables) (R : rgsw) : option rgsw :=
  let* x := gadget_to_ntt_o F tbl (c_neg R) in let* y := gadget_to_ntt_o F tbl (c_m R) in Some (mk_rgsw x y).
(** [rlwe.rs:492-496] with [add_gadget_rlwe_mul_polynomial] (321-327). *)
Definition rlwe_mul_rgsw_o (F : field) (tbl : tables) (x : rlwe) (R : rgsw) : option rlwe :=
  let* t := g_mul_polynomial_o F tbl (c_neg R) (ra x) in
  g_mul_polynomial_add_rlwe_o F tbl (c_m R) (rb x) t.
(** [rlwe.rs:504-510]. *)
Definition rlwe_mul_ntt_rgsw_o (F : field) (tbl : tables) (x : rlwe) (R : rgsw) : option rlwe :=
  let* t := ng_mul_polynomial_o F tbl (c_neg R) (ra x) in
  let* t := nrlwe_add_gadget_mul_o F tbl t (c_m R) (rb x) in
  rlwe_from_ntt_o F tbl t.
(** [rlwe.rs:549-574] ([mul_ntt_rgsw_inplace]). *)
Definition rlwe_mul_ntt_rgsw_inplace_o (F : field) (tbl : tables) (x : rlwe) (R : rgsw)
    (dlen plen : nat) (median dst : rlwe) : option rlwe :=
  let* t := ng_mul_polynomial_inplace_fast_o F tbl (c_neg R) (ra x) dlen plen median in
  let* t := nrlwe_add_gadget_mul_assign_fast_o F tbl t (c_m R) (rb x) dlen plen in
  inverse_transform_inplace_o F tbl t dst.
(** [rlwe.rs:518-541] ([mul_assign_ntt_rgsw]: the destination is [self]). *)
Definition rlwe_mul_assign_ntt_rgsw_o (F : field) (tbl : tables) (x : rlwe) (R : rgsw)
    (dlen plen : nat) (median : rlwe) : option rlwe :=
  rlwe_mul_ntt_rgsw_inplace_o F tbl x R dlen plen median x.
(** [rgsw.rs:126-144] ([mul_small_ntt_rgsw]). *)
Definition rgsw_mul_small_ntt_o (F : field) (tbl : tables) (R S : rgsw) : option rgsw :=
  let b := gb (c_neg R) in
  let* c0 := mapM (fun x => rlwe_mul_ntt_rgsw_o F tbl x S) (gd (c_neg R)) in
  let* g0 := gadget_new_o c0 b in
  let* c1 := mapM (fun x => rlwe_mul_ntt_rgsw_o F tbl x S) (gd (c_m R)) in
  let* g1 := gadget_new_o c1 b in
  Some (mk_rgsw g0 g1).
(** [rgsw.rs:116-119]. *)
Definition rgsw_mul_small_o (F : field) (tbl : tables) (R S : rgsw) : option rgsw :=
  let* S := rgsw_to_ntt_o F tbl S in rgsw_mul_small_ntt_o F tbl R S.
(** [rgsw.rs:311-318]. *)
Definition nrgsw_mul_assign_o (F : field) (R : rgsw) (v : list Z) : option rgsw :=
  let* d1 := mapM (fun x => nrlwe_mul_assign_o F x v) (gd (c_m R)) in
  let* d0 := mapM (fun x => nrlwe_mul_assign_o F x v) (gd (c_neg R)) in
  Some (mk_rgsw (mk_gadget d0 (gb (c_neg R))) (mk_gadget d1 (gb (c_m R)))).
(** [rgsw.rs:321-338]. *)
Definition nrgsw_add_mul_inplace_o (F : field) (R S : rgsw) (v : list Z) (dst : rgsw) : option rgsw :=
  let* g0 := gadget_add_mul_inplace_o F (c_neg R) (c_neg S) v (c_neg dst) in
  let* g1 := gadget_add_mul_inplace_o F (c_m R) (c_m S) v (c_m dst) in
  Some (mk_rgsw g0 g1).
(** [rgsw.rs:149-172,343-366]: the two gadgets draw their own randomness. *)
Definition rgsw_zero_sample_o (F : field) (tbl : tables) (sk : list Z) (b : basis) (r0 r1 : list (list Z * list Z)) : option rgsw :=
  let* x := g_zero_sample_o F tbl sk b r0 in let* y := g_zero_sample_o F tbl sk b r1 in Some (mk_rgsw x y).
(** [rgsw.rs:343-366]. *)
Definition nrgsw_zero_sample_o (F : field) (tbl : tables) (sk : list Z) (b : basis) (r0 r1 : list (list Z * list Z)) : option rgsw :=
  let* x := ng_zero_sample_o F tbl sk b r0 in let* y := ng_zero_sample_o F tbl sk b r1 in Some (mk_rgsw x y).
(** [rgsw.rs:175-193,369-392]. *)
Definition rgsw_one_sample_o (F : field) (tbl : tables) (sk : list Z) (b : basis) (r0 r1 : list (list Z * list Z)) : option rgsw :=
  let* x := g_neg_secret_sample_o F tbl sk b r0 in let* y := g_one_sample_o F tbl sk b r1 in Some (mk_rgsw x y).
(** [rgsw.rs:369-392]. *)
Definition nrgsw_one_sample_o (F : field) (tbl : tables) (sk : list Z) (b : basis) (r0 r1 : list (list Z * list Z)) : option rgsw :=
  let* x := ng_neg_secret_sample_o F tbl sk b r0 in let* y := ng_one_sample_o F tbl sk b r1 in Some (mk_rgsw x y).
(** [rgsw.rs:95-108,295-308] ([op] := [gadget_op_inplace] of addition or subtraction). *)
Definition rgsw_op_inplace_o (f : rlwe -> rlwe -> rlwe -> option rlwe) (R S dst : rgsw) : option rgsw :=
  let* g1 := gadget_op_inplace_o f (c_m R) (c_m S) (c_m dst) in
  let* g0 := gadget_op_inplace_o f (c_neg R) (c_neg S) (c_neg dst) in
  Some (mk_rgsw g0 g1).
