(** Goldilocks field. [algebra/src/modulus/goldilocks/{mod,ops}.rs]. *)
From Coq Require Import ZArith List Bool.
From Verif Require Import Model.Base Model.Reduce.
Import ListNotations.
Local Open Scope Z_scope.

(** [mod.rs:9-11]. *)
Definition EPSILON : Z := 2 ^ 32 - 1.
(** [mod.rs:11]. *)
Definition GP : Z := 0xFFFFFFFF00000001.

(** [mod.rs:26-33]. *)
Definition to_canonical (v : Z) : option Z := if GP <=? v then usub v GP else Some v.

(** Registers {0}, {1} and the carry flag of the inline assembly of [mod.rs:93-115]. *)
Record asm_state := mk_asm { r0 : Z; r1 : Z; carry_flag : bool }.
(** [add {0}, {1}], [mod.rs:97]: 64-bit sum, carry flag set on overflow. *)
Definition asm_add (s : asm_state) : asm_state :=
  let '(r, c) := overflowing_add 64 (r0 s) (r1 s) in mk_asm r (r1 s) c.
(** [sbb {1:e}, {1:e}], [mod.rs:106]: 32-bit subtraction with borrow of the low half of {1} from itself;
    a 32-bit write clears the upper half of the register. *)
Definition asm_sbb (s : asm_state) : asm_state :=
  let lo := r1 s mod 2 ^ 32 in
  let d := lo - lo - b2z (carry_flag s) in
  mk_asm (r0 s) (d mod 2 ^ 32) (d <? 0).
(** [mod.rs:93-115], x86-64. *)
Definition add_no_canon_x86 (x y : Z) : option Z :=
  let s := asm_sbb (asm_add (mk_asm x y false)) in uadd 64 (r0 s) (r1 s).

(** [mod.rs:118-123], the other architectures.  [reduce96] and [reduce128] below call this variant; the
    two are equal on all words (C13). *)
Definition add_no_canon (x y : Z) : option Z :=
  let '(r, carry) := overflowing_add 64 x y in
  uadd 64 r (EPSILON * b2z carry).

(** [mod.rs:129-132]. *)
Definition reduce96 (x_lo x_hi : Z) : option Z :=
  let* t1 := umul 64 x_hi EPSILON in add_no_canon x_lo t1.

(** [mod.rs:137-148]; [split] (150-153) takes the low and high words. *)
Definition reduce128 (x : Z) : option Z :=
  let x_lo := ucast 64 x in
  let x_hi := ucast 64 (x / 2 ^ 64) in
  let x_hi_hi := x_hi / 2 ^ 32 in
  let x_hi_lo := Z.land x_hi EPSILON in
  let '(t0, borrow) := overflowing_sub 64 x_lo x_hi_hi in
  let* t0 := (if borrow then usub t0 EPSILON else Some t0) in
  let* t1 := umul 64 x_hi_lo EPSILON in
  add_no_canon t0 t1.

(** [ops.rs:15-21] (and 26-30). *)
Definition gl_reduce (x : Z) : option Z := if GP <? x then usub x GP else Some x.

(** [ops.rs:37-44]. *)
Definition gl_add (a b : Z) : option Z :=
  let '(sum, over) := overflowing_add 64 a b in
  let '(sum, over) := overflowing_add 64 sum (b2z over * EPSILON) in
  if over then uadd 64 sum EPSILON else Some sum.

(** [ops.rs:58-65]. *)
Definition gl_sub (a b : Z) : option Z :=
  let '(diff, under) := overflowing_sub 64 a b in
  let '(diff, under) := overflowing_sub 64 diff (b2z under * EPSILON) in
  if under then usub diff EPSILON else Some diff.

(** [ops.rs:79-85]. *)
Definition gl_neg (a : Z) : option Z := if a =? 0 then Some 0 else usub GP a.

(** [ops.rs:99-101]. *)
Definition gl_mul (a b : Z) : option Z := reduce128 (a * b).

(** [ops.rs:115-145]. *)
Definition gl_exp (EB a e : Z) : option Z := exp_generic EB gl_mul 1 (a <? GP) a e.

(** [ops.rs:150-158]. *)
Definition gl_exp_pow2 (a k : Z) : option Z := exp_pow2_generic gl_mul a k.

(** [mod.rs:157-160] [exp_acc::<N>(base, tail)]: square N times, multiply by tail. *)
Definition gl_exp_acc (n base tail : Z) : option Z :=
  let* t := gl_exp_pow2 base n in gl_mul t tail.

(** [mod.rs:45-84]; the inner option is the Rust [Option]. *)
Definition gl_try_inverse (v : Z) : option (option Z) :=
  if v =? 0 then Some None
  else
    let* s := gl_mul v v in
    let* t2 := gl_mul s v in
    let* s := gl_mul t2 t2 in
    let* t3 := gl_mul s v in
    let* t6 := gl_exp_acc 3 t3 t3 in
    let* t12 := gl_exp_acc 6 t6 t6 in
    let* t24 := gl_exp_acc 12 t12 t12 in
    let* t30 := gl_exp_acc 6 t24 t6 in
    let* s := gl_mul t30 t30 in
    let* t31 := gl_mul s v in
    let* t63 := gl_exp_acc 32 t31 t31 in
    let* s := gl_mul t63 t63 in
    let* r := gl_mul s v in
    Some (Some r).

(** [ops.rs:173-175]. *)
Definition gl_inv (v : Z) : option Z := let* r := gl_try_inverse v in r.

(** [ops.rs:189-191]. *)
Definition gl_div (a b : Z) : option Z := let* i := gl_inv b in gl_mul a i.

(** [ops.rs:204-216]. *)
Definition gl_dot (a b : list Z) : option Z :=
  let* _ := assert (Nat.eqb (length a) (length b)) in
  foldM (fun acc xy => let* t := gl_mul (fst xy) (snd xy) in gl_add t acc) 0 (combine a b).
