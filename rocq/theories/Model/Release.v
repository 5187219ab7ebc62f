(** The monomial transforms as an optimised build runs them: overflow checks and debug assertions
    are off, so the index products wrap and the destination may have any length.
    [algebra/src/transformation/ntt_table.rs:198-286]. *)
From Coq Require Import ZArith List Bool.
From Verif Require Import Model.Base Model.Shoup Model.Field Model.NTT.
Import ListNotations.
Local Open Scope Z_scope.

(** [usize::MAX >> (usize::BITS - log_n - 1)] without checks ([ntt_table.rs:217,255,274]): the
    subtractions wrap in 32 bits and the shift amount is taken modulo 64. *)
Definition rel_mask (logn : nat) : Z :=
  (2 ^ 64 - 1) / 2 ^ (wsub 32 (wsub 32 64 (Z.of_nat logn)) 1 mod 64).

(** [((2 * i + 1) * degree) & mask] without checks ([ntt_table.rs:224,240,261]). *)
Definition rel_index (logn : nat) (i : nat) (degree : Z) : Z :=
  Z.land (wmul 64 (wadd 64 (wmul 64 2 (Z.of_nat i)) 1) degree) (rel_mask logn).

(** [values.iter_mut().zip(&self.reverse_lsbs).for_each(..)] ([ntt_table.rs:220-221,258-259]): the
    zip stops at the shorter side and leaves the rest of the destination as it was.  [None] is an
    out-of-bounds [get_unchecked], which is undefined behaviour. *)
Fixpoint rel_fill (f : nat -> option Z) (values : list Z) (revs : list nat) : option (list Z) :=
  match values, revs with
  | [], _ => Some []
  | _, [] => Some values
  | _ :: values', i :: revs' =>
      let* v := f i in
      let* rest := rel_fill f values' revs' in
      Some (v :: rest)
  end.

(** Closure bodies: coefficient 1 ([ntt_table.rs:222-226,260-263]). *)
Definition rel_one (T : ntt_table) (degree : Z) (i : nat) : option Z :=
  let* r := ord_at T (rel_index (nt_logn T) i degree) in Some (sh_value r).
(** Coefficient -1 ([ntt_table.rs:231-234,281-284]); [n] is [1 << log_n]. *)
Definition rel_neg_one (T : ntt_table) (degree : Z) (i : nat) : option Z :=
  let* r := ord_at T (Z.lxor (rel_index (nt_logn T) i degree) (Z.of_nat (2 ^ nt_logn T))) in Some (sh_value r).
(** Any other coefficient ([ntt_table.rs:239-242]). *)
Definition rel_gen (F : field) (T : ntt_table) (coeff degree : Z) (i : nat) : option Z :=
  let* r := ord_at T (rel_index (nt_logn T) i degree) in mul_root F coeff r.

(** [ntt_table.rs:202-244]. *)
Definition rel_transform_monomial (F : field) (T : ntt_table) (coeff degree : Z) (values : list Z)
  : option (list Z) :=
  if coeff =? 0 then Some (map (fun _ => 0) values)
  else if degree =? 0 then Some (map (fun _ => coeff) values)
  else if coeff =? 1 then rel_fill (rel_one T degree) values (nt_rev T)
  else if coeff =? f_neg_one F then rel_fill (rel_neg_one T degree) values (nt_rev T)
  else rel_fill (rel_gen F T coeff degree) values (nt_rev T).

(** [ntt_table.rs:246-264]. *)
Definition rel_transform_coeff_one_monomial (T : ntt_table) (degree : Z) (values : list Z)
  : option (list Z) :=
  if degree =? 0 then Some (map (fun _ => 1) values)
  else rel_fill (rel_one T degree) values (nt_rev T).

(** [ntt_table.rs:266-285]. *)
Definition rel_transform_coeff_neg_one_monomial (F : field) (T : ntt_table) (degree : Z) (values : list Z)
  : option (list Z) :=
  if degree =? 0 then Some (map (fun _ => f_neg_one F) values)
  else rel_fill (rel_neg_one T degree) values (nt_rev T).
