(** Baby Bear field in Montgomery form. [algebra/src/modulus/baby_bear/{mod,ops}.rs]. *)
From Coq Require Import ZArith List Bool.
From Verif Require Import Model.Base Model.Reduce.
Import ListNotations.
Local Open Scope Z_scope.

(** [mod.rs:11-19]. *)
Definition BP : Z := 0x78000001.
(** [mod.rs:12]. *)
Definition MONTY_BITS : Z := 32.
(** [mod.rs:15]. *)
Definition MONTY_MU : Z := 0x88000001.
(** [mod.rs:19]. *)
Definition MONTY_MASK : Z := 2 ^ 32 - 1.

(** [mod.rs:70-72]. *)
Definition to_monty (x : Z) : Z := ucast 32 ((x * 2 ^ MONTY_BITS) mod BP).

(** [mod.rs:109-117]; [t * P] cannot exceed 64 bits but is checked anyway. *)
Definition monty_reduce (x : Z) : option Z :=
  let t := Z.land (wmul 64 x MONTY_MU) MONTY_MASK in
  let* u := umul 64 t BP in
  let '(xu, over) := overflowing_sub 64 x u in
  let hi := ucast 32 (xu / 2 ^ MONTY_BITS) in
  let corr := if over then BP else 0 in
  Some (wadd 32 hi corr).

(** [mod.rs:102-104]. *)
Definition from_monty (x : Z) : option Z := monty_reduce x.

(** [mod.rs:74-90]: the loop over the entries. *)
Fixpoint to_monty_array (l : list Z) : list Z := match l with x :: r => to_monty x :: to_monty_array r | [] => [] end.
(** [mod.rs:92-97]: 128-bit product. *)
Definition to_monty_64 (x : Z) : Z := ucast 32 (ucast 128 (x * 2 ^ MONTY_BITS) mod BP).

(** [mod.rs:25-32]. *)
Definition MONTY_ZERO : Z := to_monty 0.
(** [mod.rs:29-30]. *)
Definition MONTY_TWO : Z := to_monty 2.
(** [mod.rs:27-28]. *)
Definition MONTY_ONE : Z := to_monty 1.
(** [mod.rs:31-32]. *)
Definition MONTY_NEG_ONE : Z := to_monty (BP - 1).

(** [ops.rs:15-22]. *)
Definition bb_add (a b : Z) : option Z :=
  let* sum := uadd 32 a b in
  let '(c, over) := overflowing_sub 32 sum BP in
  Some (if over then sum else c).

(** [ops.rs:36-41]. *)
Definition bb_sub (a b : Z) : option Z :=
  let '(d, over) := overflowing_sub 32 a b in
  Some (wadd 32 d (if over then BP else 0)).

(** [ops.rs:55-57]. *)
Definition bb_neg (a : Z) : option Z := bb_sub 0 a.

(** [ops.rs:71-74]. *)
Definition bb_mul (a b : Z) : option Z :=
  let* p := umul 64 a b in monty_reduce p.

(** [ops.rs:88-118]: the zero exponent returns the plain word 1. *)
Definition bb_exp (EB a e : Z) : option Z := exp_generic EB bb_mul 1 (a <? BP) a e.

(** [ops.rs:123-131]. *)
Definition bb_exp_pow2 (a k : Z) : option Z := exp_pow2_generic bb_mul a k.

(** [mod.rs:34-65]; the inner option is the Rust [Option]. *)
Definition bb_try_inverse (v : Z) : option (option Z) :=
  if v =? 0 then Some None
  else
    let p1 := v in
    let* p100000000 := bb_exp_pow2 p1 8 in
    let* p100000001 := bb_mul p100000000 p1 in
    let* p10000000000000000 := bb_exp_pow2 p100000000 8 in
    let* p10000000100000001 := bb_mul p10000000000000000 p100000001 in
    let* p10000000100000001000 := bb_exp_pow2 p10000000100000001 3 in
    let* p1000000010000000100000000 := bb_exp_pow2 p10000000100000001000 5 in
    let* p1000000010000000100000001 := bb_mul p1000000010000000100000000 p1 in
    let* p1000010010000100100001001 :=
      bb_mul p1000000010000000100000001 p10000000100000001000 in
    let* p10000000100000001000000010 :=
      bb_mul p1000000010000000100000001 p1000000010000000100000001 in
    let* p11000010110000101100001011 :=
      bb_mul p10000000100000001000000010 p1000010010000100100001001 in
    let* p100000001000000010000000100 :=
      bb_mul p10000000100000001000000010 p10000000100000001000000010 in
    let* p111000011110000111100001111 :=
      bb_mul p100000001000000010000000100 p11000010110000101100001011 in
    let* p1110000111100001111000011110000 := bb_exp_pow2 p111000011110000111100001111 4 in
    let* r := bb_mul p1110000111100001111000011110000 p111000011110000111100001111 in
    Some (Some r).

(** [ops.rs:136-138]: [unwrap]. *)
Definition bb_inv (v : Z) : option Z := let* r := bb_try_inverse v in r.

(** [ops.rs:162-164]. *)
Definition bb_div (a b : Z) : option Z := let* i := bb_inv b in bb_mul a i.

(** [ops.rs:177-189]. *)
Definition bb_dot (a b : list Z) : option Z :=
  let* _ := assert (Nat.eqb (length a) (length b)) in
  foldM (fun acc xy => let* t := bb_mul (fst xy) (snd xy) in bb_add t acc) 0 (combine a b).
