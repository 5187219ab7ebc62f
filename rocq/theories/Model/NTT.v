(** Number theoretic transform. [algebra/src/transformation/ntt_table.rs],
    [algebra_derive/src/ntt.rs] (with the [concrete-ntt] feature off, and for the u8/u16 fields
    with the feature on), [algebra/src/utils/reverse.rs].

    Slice lengths, positions and [log_n] are [nat]; [usize] has 64 bits. *)
From Coq Require Import ZArith List Bool Arith.
From Verif Require Import Model.Base Model.Shoup Model.Field.
Import ListNotations.
Local Open Scope Z_scope.

(** [Result<T, AlgebraError>]; the payload of the error is not modelled.  E.g. [algebra_derive/src/ntt.rs:149,162]. *)
Inductive res (A : Type) := Ok (a : A) | Err.
Arguments Ok {A} a.
Arguments Err {A}.

(** std [reverse_bits] restricted to the [n] low bits: bit i becomes bit n-1-i.  [reverse.rs:25]. *)
Fixpoint rev_bits (n : nat) (x : Z) : Z :=
  match n with O => 0 | S m => (x mod 2) * 2 ^ Z.of_nat m + rev_bits m (x / 2) end.

(** [utils/reverse.rs:20-27]. *)
Definition reverse_lsbs (B x bits : Z) : option Z :=
  let* _ := assert (bits <? B) in
  if (x =? 0) || (bits =? 0) then Some 0
  else
    let* s := usub B bits in
    ushr B (rev_bits (Z.to_nat B) x) s.

(** [algebra_derive/src/ntt.rs:199-227,230-258]: [to_root]; [from_root] is [sh_value]. *)
Definition to_root (F : field) (v : Z) : option shoup := shoup_new (fw F) v (fp F).
(** [algebra_derive/src/ntt.rs:263-327]: [mul_root], [mul_root_assign]. *)
Definition mul_root (F : field) (v : Z) (r : shoup) : option Z := shoup_mul (fw F) r v (fp F).

(** [algebra_derive/src/ntt.rs:82-95]. *)
Definition is_primitive_root (F : field) (root degree : Z) : option bool :=
  let* _ := assert (root <? fp F) in
  let* _ := assert ((1 <? degree) && is_pow2 degree) in
  if root =? 0 then Some false
  else
    let* h := ushr (fw F) degree 1 in
    let* r := f_pow F root h in
    Some (r =? fp F - 1).

(** [algebra_derive/src/ntt.rs:115-127]: the [any] loop over at most [n] draws. *)
Fixpoint root_search (F : field) (degree quotient : Z) (n : nat) (draws : nat -> Z)
  : option (res Z) :=
  match n with
  | O => Some Err
  | S m =>
      let* w := f_pow F (draws O) quotient in
      let* ok := is_primitive_root F w degree in
      if ok : bool then Some (Ok w) else root_search F degree quotient m (fun i => draws (S i))
  end.

(** [algebra_derive/src/ntt.rs:97-128].  [draws i] is the i-th sample of
    [Uniform::new_inclusive(2, modulus - 1)], which panics on an empty range. *)
Definition try_primitive_root (F : field) (draws : nat -> Z) (degree : Z) : option (res Z) :=
  let* m1 := usub (fp F) 1 in
  let* q := udiv m1 degree in
  let* qd := umul (fw F) q degree in
  if negb (m1 =? qd) then Some Err
  else
    let* _ := assert (2 <=? m1) in
    root_search F degree q 100 draws.

(** [algebra_derive/src/ntt.rs:136-142]: one iteration of the minimum search. *)
Definition min_root_step (F : field) (g : shoup) (st : Z * Z) : option (Z * Z) :=
  let '(root, cur) := st in
  let root := if cur <? root then cur else root in
  let* cur := mul_root F cur g in
  Some (root, cur).

(** [algebra_derive/src/ntt.rs:130-145]. *)
Definition try_minimal_primitive_root (F : field) (draws : nat -> Z) (degree : Z) : option (res Z) :=
  let* r := try_primitive_root F draws degree in
  match r with
  | Err => Some Err
  | Ok root =>
      let* sq := f_mul F root root in
      let* g := to_root F sq in
      let* ' (root, _) := iterM (Z.to_nat degree) (min_root_step F g) (root, root) in
      Some (Ok root)
  end.

(** [ntt_table.rs:31-44]. *)
Record ntt_table := mk_ntt_table {
  nt_root : Z; nt_inv_root : Z; nt_logn : nat; nt_inv_degree : shoup;
  nt_roots : list shoup; nt_inv_roots : list shoup; nt_ord : list shoup; nt_rev : list nat }.

(** [v[i] = x]: panics out of bounds.  E.g. [ntt_table.rs:69-97]. *)
Fixpoint upd {A : Type} (l : list A) (i : nat) (x : A) : option (list A) :=
  match l, i with
  | [], _ => None
  | _ :: l', O => Some (x :: l')
  | y :: l', S j => let* r := upd l' j x in Some (y :: r)
  end.

(** [Root::default()].  [ntt_table.rs:69,78]. *)
Definition root_default : shoup := mk_shoup 0 0.

(** [ntt_table.rs:69-76,79-88]: writing each item at its position plus [off]. *)
Definition scatter (off : nat) (items : list (shoup * nat)) (dst : list shoup) : option (list shoup) :=
  foldM (fun d it => upd d (snd it + off)%nat (fst it)) dst items.

(** [ntt_table.rs:52-101].  The slices [..n] and [n+1..] of the ordinal powers panic when too
    short. *)
Definition ntt_table_new (F : field) (root : Z) (logn : nat) (ord : list shoup) : option ntt_table :=
  let* _ := assert (Z.of_nat logn <? 64) in
  let n := (2 ^ logn)%nat in
  let* lst := nth_error (rev ord) 0 in
  let inv_root := sh_value lst in
  let* pr := f_mul F root inv_root in
  let* _ := assert (pr =? 1) in
  let* root_one := nth_error ord 0 in
  let* revs := mapM (fun i => reverse_lsbs 64 (Z.of_nat i) (Z.of_nat logn)) (seq 0 n) in
  let revs := map Z.to_nat revs in
  let* roots := upd (repeat root_default n) 0 root_one in
  let* _ := assert (n <=? length ord)%nat in
  let* roots := scatter 0 (combine (firstn n ord) revs) roots in
  let* inv_roots := upd (repeat root_default n) 0 root_one in
  let* _ := assert (n + 1 <=? length ord)%nat in
  let* inv_roots := scatter 1 (combine (rev (skipn (n + 1) ord)) revs) inv_roots in
  let* di := f_inv F (f_from_usize F (Z.of_nat n)) in
  let* inv_degree := to_root F di in
  Some (mk_ntt_table root inv_root logn inv_degree roots inv_roots ord revs).

(** [algebra_derive/src/ntt.rs:384-390]: the remaining powers. *)
Fixpoint ordinal_powers (F : field) (factor : shoup) (n : nat) (power : Z) : option (list shoup) :=
  match n with
  | O => Some []
  | S m =>
      let* power := mul_root F power factor in
      let* r := to_root F power in
      let* t := ordinal_powers F factor m power in
      Some (r :: t)
  end.

(** [algebra_derive/src/ntt.rs:371-395]. *)
Definition generate_ntt_table (F : field) (draws : nat -> Z) (logn : nat) : option (res ntt_table) :=
  let* n := ushl 64 1 (Z.of_nat logn) in
  let* root_one := to_root F 1 in
  let* n2 := umul 64 n 2 in
  let* _ := assert (n2 <? 2 ^ fw F) in
  let* r := try_minimal_primitive_root F draws n2 in
  match r with
  | Err => Some Err
  | Ok root =>
      let* factor := to_root F root in
      let* tail := ordinal_powers F factor (2 * 2 ^ logn - 2) root in
      let* t := ntt_table_new F root logn (root_one :: factor :: tail) in
      Some (Ok t)
  end.

(** * Transforms *)

(** [F::MODULUS_VALUE << 1u32].  [ntt_table.rs:379-422]. *)
Definition two_p (F : field) : option Z := ushl (fw F) (fp F) 1.

(** [ntt_table.rs:378-384]. *)
Definition guard (F : field) (a : Z) : option Z :=
  let* t := two_p F in if t <=? a then usub a t else Some a.
(** [ntt_table.rs:387-396]. *)
Definition ntt_normalize (F : field) (a : Z) : option Z :=
  let* t := two_p F in
  let* r := (if t <=? a then usub a t else Some a) in
  if fp F <=? r then usub r (fp F) else Some r.
(** [ntt_table.rs:399-403]. *)
Definition intt_normalize (F : field) (a : Z) : option Z :=
  if fp F <=? a then usub a (fp F) else Some a.
(** [ntt_table.rs:406-408]. *)
Definition add_no_reduce (F : field) (a b : Z) : option Z := uadd (fw F) a b.
(** [ntt_table.rs:411-418]. *)
Definition add_fast (F : field) (a b : Z) : option Z :=
  let* r := uadd (fw F) a b in
  let* t := two_p F in
  if t <=? r then usub r t else Some r.
(** [ntt_table.rs:421-423]. *)
Definition sub_fast (F : field) (a b : Z) : option Z :=
  let* t := two_p F in let* s := uadd (fw F) a t in usub s b.
(** [ntt_table.rs:426-433]. *)
Definition mul_root_fast (F : field) (a : Z) (r : shoup) : Z :=
  let hw := snd (widening_mul (fw F) a (sh_quotient r)) in
  wsub (fw F) (wmul (fw F) (sh_value r) a) (wmul (fw F) hw (fp F)).

(** [ntt_table.rs:315-322]: one forward butterfly. *)
Definition fwd_bfly (F : field) (r : shoup) (i j : Z) : option (Z * Z) :=
  let* u := guard F i in
  let v := mul_root_fast F j r in
  let* i' := add_no_reduce F u v in
  let* j' := sub_fast F u v in
  Some (i', j').
(** [ntt_table.rs:347-354]: one inverse butterfly. *)
Definition inv_bfly (F : field) (r : shoup) (u v : Z) : option (Z * Z) :=
  let* i' := add_fast F u v in
  let* d := sub_fast F u v in
  Some (i', mul_root_fast F d r).

(** [zip(v0, v1)] updating both halves in place.  [ntt_table.rs:317-322,349-354]. *)
Fixpoint zip_update (f : Z -> Z -> option (Z * Z)) (v0 v1 : list Z) : option (list Z * list Z) :=
  match v0, v1 with
  | i :: v0', j :: v1' =>
      let* ' (i', j') := f i j in
      let* ' (a, b) := zip_update f v0' v1' in
      Some (i' :: a, j' :: b)
  | _, _ => Some (v0, v1)
  end.

(** [ntt_table.rs:313-324,345-356]: the loop over [chunks_exact_mut(gap << 1)], [c] chunks left;
    returns the values and the rest of the root iterator. *)
Fixpoint layer (bfly : shoup -> Z -> Z -> option (Z * Z)) (gap c : nat) (vals : list Z)
  (roots : list shoup) : option (list Z * list shoup) :=
  match c with
  | O => Some (vals, roots)
  | S c' =>
      match roots with
      | [] => None
      | r :: roots' =>
          let* ' (a, b) := zip_update (bfly r) (firstn gap vals) (firstn gap (skipn gap vals)) in
          let* ' (rest, roots'') := layer bfly gap c' (skipn (2 * gap) vals) roots' in
          Some (a ++ b ++ rest, roots'')
      end
  end.

(** [ntt_table.rs:311-324]: the gaps 2^(k-1), ..., 1. *)
Fixpoint fwd_stages (F : field) (k : nat) (vals : list Z) (roots : list shoup)
  : option (list Z * list shoup) :=
  match k with
  | O => Some (vals, roots)
  | S k' =>
      let gap := (2 ^ k')%nat in
      let* ' (vals, roots) := layer (fwd_bfly F) gap (length vals / (2 * gap)) vals roots in
      fwd_stages F k' vals roots
  end.

(** [ntt_table.rs:297-327] (the [count_ntt] feature is not modelled). *)
Definition transform_slice (F : field) (T : ntt_table) (vals : list Z) : option (list Z) :=
  let* _ := assert (length vals =? 2 ^ nt_logn T)%nat in
  let* _ := assert (1 <=? length (nt_roots T))%nat in
  let* ' (vals, _) := fwd_stages F (nt_logn T) vals (skipn 1 (nt_roots T)) in
  mapM (ntt_normalize F) vals.

(** [ntt_table.rs:345-356]: the gaps 2^x, ..., 2^(x+cnt-1). *)
Fixpoint inv_stages (F : field) (cnt x : nat) (vals : list Z) (roots : list shoup)
  : option (list Z * list shoup) :=
  match cnt with
  | O => Some (vals, roots)
  | S cnt' =>
      let gap := (2 ^ x)%nat in
      let* ' (vals, roots) := layer (inv_bfly F) gap (length vals / (2 * gap)) vals roots in
      inv_stages F cnt' (S x) vals roots
  end.

(** [ntt_table.rs:365-371]: the last, scaled butterfly. *)
Definition inv_last_bfly (F : field) (scalar scaled : shoup) (u v : Z) : option (Z * Z) :=
  let* s := add_no_reduce F u v in
  let* d := sub_fast F u v in
  Some (mul_root_fast F s scalar, mul_root_fast F d scaled).

(** [ntt_table.rs:329-374]; [0..log_n - 1] panics when [log_n] is 0. *)
Definition inverse_transform_slice (F : field) (T : ntt_table) (vals : list Z) : option (list Z) :=
  let* _ := assert (length vals =? 2 ^ nt_logn T)%nat in
  let* _ := assert (1 <=? length (nt_inv_roots T))%nat in
  match nt_logn T with
  | O => None
  | S k =>
      let* ' (vals, roots) := inv_stages F k 0 vals (skipn 1 (nt_inv_roots T)) in
      let gap := (2 ^ k)%nat in
      let scalar := nt_inv_degree T in
      let* r := nth_error roots 0 in
      let* sr := mul_root F (sh_value r) scalar in
      let* scaled := to_root F sr in
      let* ' (a, b) := zip_update (inv_last_bfly F scalar scaled) (firstn gap vals) (skipn gap vals) in
      mapM (intt_normalize F) (a ++ b)
  end.

(** * Monomials *)

(** [((2 * i + 1) * degree) & mask] with [mask = usize::MAX >> (64 - log_n - 1)]
    ([ntt_table.rs:217-224]); the products are checked. *)
Definition mono_index (logn : nat) (i : nat) (degree : Z) : option Z :=
  let* s := usub 64 (Z.of_nat logn) in
  let* s := usub s 1 in
  let* mask := ushr 64 (2 ^ 64 - 1) s in
  let* d := umul 64 2 (Z.of_nat i) in
  let* d := uadd 64 d 1 in
  let* d := umul 64 d degree in
  Some (Z.land d mask).

(** [get_unchecked(index)]: undefined behaviour out of bounds, modelled as a panic.
    [ntt_table.rs:225,233,241,262,283]. *)
Definition ord_at (T : ntt_table) (idx : Z) : option shoup := nth_error (nt_ord T) (Z.to_nat idx).

(** The closure bodies [ntt_table.rs:202-244,257-263,278-284]; the zip stops at the shorter of
    the destination and the permutation. *)
Definition mono_one (T : ntt_table) (degree : Z) (len : nat) : option (list Z) :=
  mapM (fun i => let* ix := mono_index (nt_logn T) i degree in
                 let* r := ord_at T ix in Some (sh_value r)) (firstn len (nt_rev T)).
(** The closure of [transform_coeff_neg_one_monomial] ([ntt_table.rs:278-284]) and of coefficient -1
    in [transform_monomial]. *)
Definition mono_neg_one (T : ntt_table) (degree : Z) (len : nat) : option (list Z) :=
  mapM (fun i => let* ix := mono_index (nt_logn T) i degree in
                 let* r := ord_at T (Z.lxor ix (Z.of_nat (2 ^ nt_logn T))) in Some (sh_value r))
       (firstn len (nt_rev T)).
(** The closure of [transform_monomial] for any other coefficient ([ntt_table.rs:236-242]). *)
Definition mono_gen (F : field) (T : ntt_table) (coeff degree : Z) (len : nat) : option (list Z) :=
  mapM (fun i => let* ix := mono_index (nt_logn T) i degree in
                 let* r := ord_at T ix in mul_root F coeff r) (firstn len (nt_rev T)).

(** [ntt_table.rs:202-244]; [len] is the length of the destination, whose old contents are
    overwritten. *)
Definition transform_monomial (F : field) (T : ntt_table) (coeff degree : Z) (len : nat)
  : option (list Z) :=
  if coeff =? 0 then Some (repeat 0 len)
  else if degree =? 0 then Some (repeat coeff len)
  else
    let* _ := assert (len =? 2 ^ nt_logn T)%nat in
    if coeff =? 1 then mono_one T degree len
    else if coeff =? f_neg_one F then mono_neg_one T degree len
    else mono_gen F T coeff degree len.
(** [ntt_table.rs:246-264]. *)
Definition transform_coeff_one_monomial (T : ntt_table) (degree : Z) (len : nat) : option (list Z) :=
  if degree =? 0 then Some (repeat 1 len)
  else let* _ := assert (len =? 2 ^ nt_logn T)%nat in mono_one T degree len.
(** [ntt_table.rs:266-285]. *)
Definition transform_coeff_neg_one_monomial (F : field) (T : ntt_table) (degree : Z) (len : nat)
  : option (list Z) :=
  if degree =? 0 then Some (repeat (f_neg_one F) len)
  else let* _ := assert (len =? 2 ^ nt_logn T)%nat in mono_neg_one T degree len.
