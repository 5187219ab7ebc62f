(** Modular operations with a plain word as the modulus, and exponentiation skeleton. *)
From Coq Require Import ZArith List Bool.
From Verif Require Import Model.Base.
Import ListNotations.
Local Open Scope Z_scope.

(** [algebra/src/reduce/macros.rs:7-14] (and the [_assign] form, 19-26, which stores the same value). *)
Definition add_reduce (B a b m : Z) : option Z :=
  let* r := uadd B a b in
  if m <=? r then usub r m else Some r.

(** [algebra/src/reduce/macros.rs:33-39]. *)
Definition sub_reduce (B a b m : Z) : option Z :=
  if b <=? a then usub a b
  else let* t := usub m b in uadd B t a.

(** [algebra/src/reduce/macros.rs:44-50]. *)
Definition sub_reduce_assign (B a b m : Z) : option Z :=
  if b <=? a then usub a b
  else let* t := usub m b in uadd B a t.

(** [algebra/src/reduce/macros.rs:57-63] (and 68-72). *)
Definition neg_reduce (a m : Z) : option Z :=
  if a =? 0 then Some 0 else usub m a.

(** [algebra/src/reduce/macros.rs:118-223]: the unit modulus means wrap-around arithmetic. *)
Definition add_reduce_unit (B a b : Z) : Z := wadd B a b.
(** [algebra/src/reduce/macros.rs:150-164]. *)
Definition sub_reduce_unit (B a b : Z) : Z := wsub B a b.
(** [algebra/src/reduce/macros.rs:166-180]. *)
Definition neg_reduce_unit (B a : Z) : Z := wneg B a.
(** [algebra/src/reduce/macros.rs:182-196]. *)
Definition mul_reduce_unit (B a b : Z) : Z := wmul B a b.

(** The square-and-multiply loop body shared by every [exp_reduce]
    ([algebra/src/modulus/barrett/ops.rs:130-136], [powof2/internal_macros.rs:121-127],
    [baby_bear/ops.rs:110-116], [goldilocks/ops.rs:137-143]).  State: (exp, power, intermediate). *)
Definition exp_step (mul : Z -> Z -> option Z) (st : Z * Z * Z) : option (Z * Z * Z) :=
  let '(e, power, inter) := st in
  let e := e / 2 in
  let* power := mul power power in
  let* inter := (if Z.odd e then mul inter power else Some inter) in
  Some (e, power, inter).

(** The common text of the four [exp_reduce] functions
    ([algebra/src/modulus/barrett/ops.rs:108-138] and the copies named above).
    [EB] is the width of the exponent type, [one] the value returned for exponent zero,
    [ok] the [debug_assert!]ed condition on the base. *)
Definition exp_generic (EB : Z) (mul : Z -> Z -> option Z) (one : Z) (ok : bool) (a e : Z)
  : option Z :=
  if e =? 0 then Some one
  else
    let* _ := assert ok in
    let tz := trailing_zeros EB e in
    let* power := iterM (Z.to_nat tz) (fun x => mul x x) a in
    let e := e / 2 ^ tz in
    if e =? 1 then Some power
    else
      let* st := iterM (Z.to_nat (bit_len e - 1)) (exp_step mul) (e, power, power) in
      let '(_, _, inter) := st in Some inter.

(** [exp_power_of_2_reduce] ([algebra/src/modulus/barrett/ops.rs:146-154] and copies). *)
Definition exp_pow2_generic (mul : Z -> Z -> option Z) (a k : Z) : option Z :=
  iterM (Z.to_nat k) (fun x => mul x x) a.
