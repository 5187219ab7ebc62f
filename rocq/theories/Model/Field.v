(** Field types produced by the derive macros. [algebra_derive/src/{field,ops,fhe_field,
    decomposable_field,basic,attr}.rs], [algebra/src/decompose_basis.rs]. *)
From Coq Require Import ZArith List Bool.
From Verif Require Import Model.Base Model.Reduce Model.Gcd Model.Barrett.
Import ListNotations.
Local Open Scope Z_scope.

(** A derived field type: word width and its Barrett modulus constant
    ([ops.rs:7-23], [field.rs:94-102]). *)
Record field := mk_field { fw : Z; fmod : barrett }.
(** [MODULUS_VALUE], [field.rs:94-102]. *)
Definition fp (F : field) : Z := bval (fmod F).

(** The derive macro: [attr.rs:33-50] (leading zeros check) and [ops.rs:16-19] (the modulus is
    built by [BarrettModulus::new] in a const context).  [None] is a compile error. *)
Definition derive_field (B p : Z) : option field :=
  let* _ := assert (2 <=? leading_zeros B p) in
  let* m := barrett_new B p in
  Some (mk_field B m).

(** [field.rs:105-112]. *)
Definition f_new (F : field) (v : Z) : option Z :=
  if v <? fp F then Some v else reduce1 (fw F) (fmod F) v.

(** [ops.rs:25-63] (the by-reference and assigning forms call the same function). *)
Definition f_add (F : field) (a b : Z) : option Z := add_reduce (fw F) a b (fp F).
(** [ops.rs:65-85]. *)
Definition f_sub (F : field) (a b : Z) : option Z := sub_reduce (fw F) a b (fp F).
(** [ops.rs:87-101] ([-=]). *)
Definition f_sub_assign (F : field) (a b : Z) : option Z := sub_reduce_assign (fw F) a b (fp F).
(** [ops.rs:105-143]. *)
Definition f_mul (F : field) (a b : Z) : option Z := bmul (fw F) (fmod F) a b.
(** [ops.rs:145-157]. *)
Definition f_neg (F : field) (a : Z) : option Z := neg_reduce a (fp F).
(** [ops.rs:159-171]; the exponent type is the value type. *)
Definition f_pow (F : field) (a e : Z) : option Z := bexp (fw F) (fw F) (fmod F) a e.
(** [ops.rs:173-211]. *)
Definition f_div (F : field) (a b : Z) : option Z := bdiv (fw F) (fmod F) a b.
(** [ops.rs:213-227]. *)
Definition f_inv (F : field) (a : Z) : option Z :=
  let* e := usub (fp F) 2 in f_pow F a e.

(** [basic.rs:8-20,139-163]. *)
Definition f_neg_one (F : field) : Z := fp F - 1.

(** [fhe_field.rs:24-27]. *)
Definition f_add_mul (F : field) (c a b : Z) : option Z :=
  reduce2 (fw F) (fmod F) (carrying_mul (fw F) a b c).
(** [fhe_field.rs:30-33]. *)
Definition f_mul_fast (F : field) (a b : Z) : option Z := lazy_bmul (fw F) (fmod F) a b.
(** [fhe_field.rs:36-40]. *)
Definition f_add_mul_fast (F : field) (c a b : Z) : option Z :=
  lazy_reduce2 (fw F) (fmod F) (carrying_mul (fw F) a b c).

(** [algebra_derive/src/ntt.rs:55-65]: [From<usize>] ([usize] has 64 bits). *)
Definition f_from_usize (F : field) (v : Z) : Z :=
  if v <? fp F then ucast (fw F) v else ucast (fw F) (v mod fp F).

(** [decompose_basis.rs:12-20]. *)
Record basis := mk_basis { bs_basis : Z; bs_len : nat; bs_mask : Z; bs_bits : Z }.

(** [decompose_basis.rs:31-51].  [div_ceil] panics on a zero divisor, but the shift by the full
    width already panicked. *)
Definition basis_new (F : field) (bits : Z) : option basis :=
  let mb := fw F - leading_zeros (fw F) (fp F) in
  let* _ := assert (bits <=? mb) in
  let* mb := (if is_pow2 (fp F) then usub mb 1 else Some mb) in
  let* s := usub (fw F) bits in
  let* mask := ushr (fw F) (2 ^ fw F - 1) s in
  let* b := ushl (fw F) 1 bits in
  let* _ := udiv mb bits in
  Some (mk_basis b (Z.to_nat ((mb + bits - 1) / bits)) mask bits).

(** [decomposable_field.rs:18-35]: the loop over [ret], which starts as zeros. *)
Fixpoint decompose_loop (B mask bits : Z) (n : nat) (temp : Z) : option (list Z) :=
  match n with
  | O => Some []
  | S n' =>
      if temp =? 0 then Some (repeat 0 n)
      else
        let* t := ushr B temp bits in
        let* r := decompose_loop B mask bits n' t in
        Some (Z.land temp mask :: r)
  end.
(** [decomposable_field.rs:18-35]. *)
Definition f_decompose (F : field) (b : basis) (v : Z) : option (list Z) :=
  decompose_loop (fw F) (bs_mask b) (bs_bits b) (bs_len b) v.

(** [decomposable_field.rs:37-50]. *)
Fixpoint f_decompose_at (F : field) (b : basis) (v : Z) (dest : list Z) : option (list Z) :=
  match dest with
  | [] => Some []
  | _ :: d' =>
      if v =? 0 then Some dest
      else
        let* t := ushr (fw F) v (bs_bits b) in
        let* r := f_decompose_at F b t d' in
        Some (Z.land v (bs_mask b) :: r)
  end.

(** [decomposable_field.rs:52-63]: (digit, remaining value). *)
Definition f_decompose_lsb (F : field) (mask bits v : Z) : option (Z * Z) :=
  let* t := ushr (fw F) v bits in Some (Z.land v mask, t).

(** One pass of [decompose_lsb_bits] over a polynomial
    ([algebra/src/polynomial/native_polynomial.rs:304-307], [decompose_lsb_bits_inplace] 339-347). *)
Fixpoint poly_decompose_lsb (F : field) (mask bits : Z) (a : list Z) : option (list Z * list Z) :=
  match a with
  | [] => Some ([], [])
  | v :: a' =>
      let* ' (d, t) := f_decompose_lsb F mask bits v in
      let* ' (ds, ts) := poly_decompose_lsb F mask bits a' in
      Some (d :: ds, t :: ts)
  end.

(** [native_polynomial.rs:302-310] ([decompose]; [decompose_inplace] 316-332 runs the same loop
    and leaves the same digits in the destination). *)
Fixpoint poly_decompose_loop (F : field) (mask bits : Z) (n : nat) (a : list Z)
  : option (list (list Z)) :=
  match n with
  | O => Some []
  | S n' =>
      let* ' (d, a) := poly_decompose_lsb F mask bits a in
      let* r := poly_decompose_loop F mask bits n' a in
      Some (d :: r)
  end.
(** [native_polynomial.rs:298-311]. *)
Definition poly_decompose (F : field) (b : basis) (a : list Z) : option (list (list Z)) :=
  poly_decompose_loop F (bs_mask b) (bs_bits b) (bs_len b) a.
