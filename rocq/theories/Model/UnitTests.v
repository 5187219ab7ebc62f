(** The randomised unit tests of the [algebra] crate, as functions of what they draw: [algebra/src] and
    [algebra/tests/derive_test.rs].  [None] is a failed assertion or any other panic.

    The word widths and moduli are parameters where the code fixes them. *)
From Coq Require Import ZArith List Bool SpecFloat.
From Verif Require Import Model.Base Model.Reduce Model.Barrett Model.Gcd Model.Prime Model.Shoup Model.PowOf2 Model.BabyBear Model.Goldilocks.
From Verif Require Import Model.Block Model.Aes Model.Prg Model.Field Model.ModSwitch Model.Gaussian Model.Sampled Model.Example.
Import ListNotations.
Local Open Scope Z_scope.

(** [assert_eq!] on words.  E.g. [algebra/tests/derive_test.rs:32]. *)
Definition assert_eq (x y : Z) : option unit := assert (x =? y).

(** [test_modulus_create], [algebra/src/modulus/barrett/mod.rs:69-76], for one width. *)
Definition ut_create (B m : Z) : option unit := let* _ := barrett_new B m in Some tt.
(** [test_barret_reduce], [barrett/mod.rs:79-87]. *)
Definition ut_reduce (B m v : Z) : option unit :=
  let* modulus := barrett_new B m in
  let* r := reduce1 B modulus v in
  let* w := urem v m in assert_eq r w.
(** [test_barret_reduce_128], [barrett/mod.rs:90-101]; the array form calls the pair form. *)
Definition ut_reduce_128 (B m lw hw : Z) : option unit :=
  let* modulus := barrett_new B m in
  let* h := ushl (2 * B) hw B in
  let* v := uadd (2 * B) h lw in
  let* w := urem v m in
  let* r := reduce2 B modulus (lw, hw) in
  assert_eq r (ucast B w).

(** The loop of [simple_pow], [algebra/src/modulus/barrett/ops.rs:262-273]. *)
Fixpoint simple_loop (fuel : nat) (B P power inter e : Z) : option Z :=
  match fuel with
  | O => None
  | S fuel' =>
      let* inter := (if Z.odd e then let* x := umul (2 * B) inter power in let* y := urem x P in Some (ucast B y) else Some inter) in
      let e := e / 2 in
      if e =? 0 then Some inter
      else
        let* x := umul (2 * B) power power in
        let* y := urem x P in
        simple_loop fuel' B P (ucast B y) inter e
  end.
(** [simple_pow], [barrett/ops.rs:251-275]. *)
Definition simple_pow (B base e P : Z) : option Z :=
  if e =? 0 then Some 1
  else
    let* _ := assert (base <? P) in
    if e =? 1 then Some base else simple_loop (Z.to_nat B) B P base 1 e.
(** [test_pow_mod_simple], [barrett/ops.rs:236-249], with the (base, exponent) pairs drawn (there five). *)
Definition ut_pow (B P : Z) (draws : list (Z * Z)) : option unit :=
  let* modulus := barrett_new B P in
  foldM (fun _ be =>
    let* x := simple_pow B (fst be) (snd be) P in
    let* y := bexp B B modulus (fst be) (snd be) in
    assert_eq x y) tt draws.
(** [test_inverse], [barrett/ops.rs:278-300]; [draw] are the bases of the primality test. *)
Definition ut_inverse (B m : Z) (draw : nat -> Z) (value : Z) : option unit :=
  let m := if Z.land m 1 =? 0 then Z.lor m 1 else m in
  let* modulus := barrett_new B m in
  let* prime := probably_prime B modulus 20 draw in
  if prime then
    let* inv := binv B modulus value in
    let* x := bmul B modulus value inv in
    assert_eq x 1
  else Some tt.
(** [test_shoup_factor], [algebra/src/modulus/shoup/mod.rs:52-67]. *)
Definition ut_shoup (B m a b : Z) : option unit :=
  let* modulus := barrett_new B m in
  let* factor := shoup_new B a m in
  let* rb := reduce1 B modulus b in
  let* x := bmul B modulus a rb in
  let* y := shoup_mul B factor b m in
  assert_eq x y.

(** [next_power_of_two] ([algebra/src/modulus/powof2/mod.rs:54-57,80]) for a positive number. *)
Definition next_power_of_two (B x : Z) : option Z :=
  let r := 2 ^ bit_len (x - 1) in if r <? 2 ^ B then Some r else None.
(** [test_modulus_create], [powof2/mod.rs:51-58], for one width. *)
Definition ut_p2_create (B r : Z) : option unit :=
  let* m := next_power_of_two B r in
  let* _ := p2_new m in Some tt.
(** [test_modulus_create_panic], [powof2/mod.rs:60-74]: [#[should_panic]] turns a panic into success.  The
    draws up to the first that is no power of two. *)
Fixpoint ut_p2_panic (draws : list Z) : drawn unit :=
  match draws with
  | [] => Looping
  | r :: draws' => if is_pow2 r then ut_p2_panic draws' else match p2_new r with Some _ => Panicked | None => Got tt end
  end.
(** [test_reduce], [powof2/mod.rs:77-107]: [r] is the number drawn for the modulus, the others are in the
    order of the code. *)
Definition ut_p2_reduce (B r v a1 b1 a2 b2 a3 b3 a4 : Z) : option unit :=
  let* m := next_power_of_two B r in
  let* mask := p2_new m in
  let* w := urem v m in
  let* _ := assert_eq (p2_reduce mask v) w in
  let* s := uadd B a1 b1 in
  let* w := urem s m in
  let* _ := assert_eq (p2_add B mask a1 b1) w in
  let* s := uadd B m a2 in
  let* s := usub s b2 in
  let* w := urem s m in
  let* _ := assert_eq (p2_sub B mask a2 b2) w in
  let* s := umul (2 * B) a3 b3 in
  let* w := urem s m in
  let* _ := assert_eq (p2_mul B mask a3 b3) (ucast B w) in
  let a_neg := p2_neg B mask a4 in
  let* _ := assert_eq (p2_add B mask a_neg a4) 0 in
  assert_eq (p2_neg B mask 0) 0.

(** [test_extended_gcd], [algebra/src/utils/gcd.rs:146-156]: the identity in [i128]. *)
Definition ut_gcd (B x y : Z) : option unit :=
  let* '(a, b, d) := extended_gcd B x y in
  let* ax := schk (2 * B) (a * x) in
  let* yb := schk (2 * B) (b * y) in
  let* s := schk (2 * B) (ax + yb) in
  assert_eq s d.

(** [(modulus as f64).sqrt().ceil() as u64], [algebra/src/utils/prime.rs:124]. *)
Definition f64_ceil_to (B : Z) (x : spec_float) : Z :=
  match x with
  | S754_zero _ | S754_nan => 0
  | S754_infinity s => if s then 0 else 2 ^ B - 1
  | S754_finite s m e =>
    if s then 0 else Z.min (2 ^ B - 1) (if 0 <=? e then Zpos m * 2 ^ e else - ((- Zpos m) / 2 ^ (- e)))
  end.
(** [root], [prime.rs:124]. *)
Definition prime_root (B m : Z) : Z := f64_ceil_to B (SFsqrt 53 1024 (f64_of m)).
(** [simple_prime_test], [prime.rs:123-135]: [(3..=root).step_by(2)] has (root - 1) / 2 members. *)
Definition simple_prime_test (B m : Z) : bool :=
  if m mod 2 =? 0 then false
  else forallb (fun i => negb (m mod (3 + 2 * Z.of_nat i) =? 0)) (seq 0 (Z.to_nat ((prime_root B m - 1) / 2))).
(** [test_prime_test], [prime.rs:138-147], with the moduli drawn (there five), each with the bases drawn
    for it. *)
Definition ut_prime (B : Z) (draws : list (Z * (nat -> Z))) : option unit :=
  foldM (fun _ mb =>
    let* modulus := barrett_new B (fst mb) in
    let* is_prime := probably_prime B modulus 20 (snd mb) in
    assert (Bool.eqb is_prime (simple_prime_test B (fst mb)))) tt draws.

(** The reference power of [algebra/src/modulus/baby_bear/mod.rs:241-252] and
    [algebra/src/modulus/goldilocks/mod.rs:265-275]. *)
Fixpoint pow_loop (mul : Z -> Z -> option Z) (fuel : nat) (res base e : Z) : option Z :=
  match fuel with
  | O => None
  | S fuel' =>
      if e =? 0 then Some res
      else
        let* res := (if Z.odd e then mul res base else Some res) in
        let* base := mul base base in
        pow_loop mul fuel' res base (e / 2)
  end.

(** The sum of [baby_bear/mod.rs:231-234]. *)
Definition bb_plain_dot (xs ys : list Z) : option Z :=
  foldM (fun acc ab =>
    let* x := umul 64 (fst ab) (snd ab) in
    let* y := urem x BP in
    let* z := uadd 64 acc (ucast 32 y) in
    let* w := urem z BP in Some (ucast 32 w)) 0 (combine xs ys).
(** [test_baby_bear], [baby_bear/mod.rs:149-239], from line 162 on: [an], [bn] and the two vectors (there
    of five) are drawn below P, so the two [while] loops (165-171) do not run. *)
Definition ut_bb_body (an bn : Z) (xs ys : list Z) : option unit :=
  let am := to_monty an in
  let bm := to_monty bn in
  let* r := from_monty am in
  let* _ := assert_eq an r in
  let* s := uadd 64 an bn in
  let* want := urem s BP in
  let* x := bb_add am bm in
  let* r := from_monty x in
  let* _ := assert_eq r (ucast 32 want) in
  let* s := uadd 64 BP an in
  let* s := usub s bn in
  let* want := urem s BP in
  let* x := bb_sub am bm in
  let* r := from_monty x in
  let* _ := assert_eq r (ucast 32 want) in
  let* s := usub BP an in
  let* want := urem s BP in
  let* x := bb_neg am in
  let* r := from_monty x in
  let* _ := assert_eq r (ucast 32 want) in
  let* s := umul 64 an bn in
  let* want := urem s BP in
  let* x := bb_mul am bm in
  let* r := from_monty x in
  let* _ := assert_eq r (ucast 32 want) in
  let* binv := bb_inv bm in
  let* x := bb_mul bm binv in
  let* r := from_monty x in
  let* _ := assert_eq r 1 in
  let* x := bb_div am bm in
  let* y := bb_mul am binv in
  let* _ := assert_eq x y in
  let* r := from_monty x in
  let* i := from_monty binv in
  let* s := umul 64 an i in
  let* want := urem s BP in
  let* _ := assert_eq r (ucast 32 want) in
  let* x := bb_exp 32 am 0 in
  let* _ := assert_eq x 1 in
  let* x := bb_exp 32 am 1 in
  let* _ := assert_eq x am in
  let* x := bb_exp 32 am bm in
  let* y := pow_loop bb_mul 33 MONTY_ONE am bm in
  let* _ := assert_eq x y in
  let* result := bb_plain_dot xs ys in
  let* ans := bb_dot (map to_monty xs) (map to_monty ys) in
  let* r := from_monty ans in
  assert_eq r result.
(** The whole of it: [b_n] is the first nonzero draw ([baby_bear/mod.rs:154-159]). *)
Definition ut_baby_bear (an : Z) (bs xs ys : list Z) : drawn unit :=
  dbind (first_nonzero bs) (fun bn => dlift (ut_bb_body an bn xs ys)).

(** The sum of [goldilocks/mod.rs:257-260]. *)
Definition gl_plain_dot (xs ys : list Z) : option Z :=
  foldM (fun acc ab => let* t := gl_mul (fst ab) (snd ab) in gl_add t acc) 0 (combine xs ys).
(** [test_baby_bear] of [goldilocks/mod.rs:186-263], from line 198 on; the [_assign] forms run the same
    code as the others. *)
Definition ut_gl_body (a b : Z) (xs ys : list Z) : option unit :=
  let* x := gl_add a b in
  let* r := to_canonical x in
  let* s := uadd 128 a b in
  let* want := urem s GP in
  let* _ := assert_eq r (ucast 64 want) in
  let* x := gl_sub a b in
  let* r := to_canonical x in
  let* s := uadd 128 GP a in
  let* s := usub s b in
  let* want := urem s GP in
  let* _ := assert_eq r (ucast 64 want) in
  let* x := gl_neg a in
  let* r := to_canonical x in
  let* s := usub GP a in
  let* want := urem s GP in
  let* _ := assert_eq r (ucast 64 want) in
  let* x := gl_mul a b in
  let* r := to_canonical x in
  let* s := umul 128 a b in
  let* want := urem s GP in
  let* _ := assert_eq r (ucast 64 want) in
  let* binv := gl_inv b in
  let* x := gl_mul b binv in
  let* r := to_canonical x in
  let* _ := assert_eq r 1 in
  let* x := gl_div a b in
  let* r := to_canonical x in
  let* y := gl_mul a binv in
  let* want := to_canonical y in
  let* _ := assert_eq r want in
  let* x := gl_exp 64 a 0 in
  let* r := to_canonical x in
  let* _ := assert_eq r 1 in
  let* x := gl_exp 64 a 1 in
  let* r := to_canonical x in
  let* _ := assert_eq r a in
  let* x := gl_exp 64 a b in
  let* r := to_canonical x in
  let* y := pow_loop gl_mul 65 1 a b in
  let* _ := assert_eq r y in
  let* result := gl_plain_dot xs ys in
  let* ans := gl_dot xs ys in
  let* r := to_canonical ans in
  assert_eq r result.
(** The whole of it: [b] is the first nonzero draw ([goldilocks/mod.rs:191-196]). *)
Definition ut_goldilocks (a : Z) (bs xs ys : list Z) : drawn unit :=
  dbind (first_nonzero bs) (fun b => dlift (ut_gl_body a b xs ys)).

(** [assert_eq!] on blocks ([algebra/src/utils/block.rs:121-126]) and [unwrap] of [try_from_slice]. *)
Definition assert_blocks (x y : list Z) : option unit := assert (block_eq x y).
(** [Block::try_from_slice(..).unwrap()], [block.rs:261,300,303]. *)
Definition slice_block (s : list Z) : option (list Z) := let* r := try_from_slice s in r.
(** [type_test], [block.rs:241-262]: the array, the pair and the integer drawn. *)
Definition ut_block_types (bs : list Z) (x y w : Z) : option unit :=
  let* _ := assert (if list_eq_dec Z.eq_dec (to_u8s (of_u8s bs)) bs then true else false) in
  let '(x', y') := to_u64s (of_u64s x y) in
  let* _ := assert ((x' =? x) && (y' =? y)) in
  let* _ := assert_eq (to_u128 (of_u128 w)) w in
  let* b := slice_block (of_u128 w) in
  assert_blocks (of_u128 w) b.
(** [bit_test], [block.rs:265-292]. *)
Definition ut_block_bits (x y : Z) : option unit :=
  let bx := of_u128 x in
  let by_ := of_u128 y in
  let vx := to_u128 bx in
  let vy := to_u128 by_ in
  let* _ := assert_blocks (of_u128 (Z.lxor vx vy)) (block_xor bx by_) in
  let* _ := assert_blocks (of_u128 (Z.lor vx vy)) (block_or bx by_) in
  assert_blocks (of_u128 (Z.land vx vy)) (block_and bx by_).
(** [to_bytes_test], [block.rs:295-305]. *)
Definition ut_block_bytes (x y : Z) : option unit :=
  let* b := slice_block (of_u128 x) in
  let* _ := assert_blocks (of_u128 x) b in
  let* b := slice_block (of_u128 y) in
  assert_blocks (of_u128 y) b.
(** [prg_test], [algebra/src/utils/prg.rs:144-149]: [Prg::new] (102-105) draws the seed. *)
Definition ut_prg (A : arch) (seed : list Z) : option unit :=
  let* g := prg_from_seed A seed in
  let* '(x, _) := random_blocks A 2 g in
  assert (negb (block_eq (firstn 16 x) (skipn 16 x))).

(** The parts of [test_fp], [algebra/tests/derive_test.rs:20-120]: addition (28-37). *)
Definition fp_add (F : field) (p a b : Z) : option unit :=
  let* s := uadd (fw F) a b in
  let* c := urem s p in
  let* x := f_new F a in let* y := f_new F b in let* z := f_new F c in
  let* r := f_add F x y in assert_eq r z.
(** Subtraction (39-48).  [algebra/tests/derive_test.rs:39-48]. *)
Definition fp_sub (F : field) (p a b : Z) : option unit :=
  let* s := usub a b in
  let* c := urem s p in
  let* x := f_new F a in let* y := f_new F b in let* z := f_new F c in
  let* r := f_sub F x y in
  let* _ := assert_eq r z in
  let* r := f_sub_assign F x y in assert_eq r z.
(** Multiplication (50-59).  [algebra/tests/derive_test.rs:50-59]. *)
Definition fp_mul (F : field) (p a b : Z) : option unit :=
  let* s := umul (2 * fw F) a b in
  let* c := urem s p in
  let* x := f_new F a in let* y := f_new F b in let* z := f_new F (ucast (fw F) c) in
  let* r := f_mul F x y in assert_eq r z.
(** Division (61-71).  [algebra/tests/derive_test.rs:61-71]. *)
Definition fp_div (F : field) (p a b : Z) : option unit :=
  let* m := barrett_new (fw F) p in
  let* e := usub p 2 in
  let* binv := bexp (fw F) (fw F) m b e in
  let* s := umul (2 * fw F) a binv in
  let* c := urem s p in
  let* x := f_new F a in let* y := f_new F b in let* z := f_new F (ucast (fw F) c) in
  let* r := f_div F x y in assert_eq r z.
(** Negation (73-79).  [algebra/tests/derive_test.rs:73-79]. *)
Definition fp_neg (F : field) (a : Z) : option unit :=
  let* x := f_new F a in
  let* y := f_neg F x in
  let* r := f_add F x y in
  let* _ := assert_eq r 0 in
  let* y := f_neg F 0 in assert_eq 0 y.
(** Inversion (81-85).  [algebra/tests/derive_test.rs:81-85]. *)
Definition fp_inv (F : field) (p a : Z) : option unit :=
  let* m := barrett_new (fw F) p in
  let* e := usub p 2 in
  let* ainv := bexp (fw F) (fw F) m a e in
  let* x := f_new F a in let* z := f_new F ainv in
  let* r := f_inv F x in
  let* _ := assert_eq r z in
  let* r := f_mul F x z in assert_eq r 1.
(** Associativity (87-98), commutativity (100-104), the units (106-109) and distributivity (111-119).
    [algebra/tests/derive_test.rs:87-119]. *)
Definition fp_laws (F : field) (a b c a' b' u a'' b'' c'' : Z) : option unit :=
  let* x := f_new F a in let* y := f_new F b in let* z := f_new F c in
  let* s := f_add F x y in let* l := f_add F s z in
  let* s := f_add F y z in let* r := f_add F x s in
  let* _ := assert_eq l r in
  let* s := f_mul F x y in let* l := f_mul F s z in
  let* s := f_mul F y z in let* r := f_mul F x s in
  let* _ := assert_eq l r in
  let* x := f_new F a' in let* y := f_new F b' in
  let* l := f_add F x y in let* r := f_add F y x in
  let* _ := assert_eq l r in
  let* l := f_mul F x y in let* r := f_mul F y x in
  let* _ := assert_eq l r in
  let* x := f_new F u in let* n := f_new F 0 in let* o := f_new F 1 in
  let* l := f_add F x n in
  let* _ := assert_eq l x in
  let* l := f_mul F x o in
  let* _ := assert_eq l x in
  let* x := f_new F a'' in let* y := f_new F b'' in let* z := f_new F c'' in
  let* s := f_add F x y in let* l := f_mul F s z in
  let* s := f_mul F x z in let* t := f_mul F y z in let* r := f_add F s t in
  assert_eq l r.
(** [test_fp], [derive_test.rs:20-120]: [d] lists the numbers drawn, in order; [draw] are the bases of
    [is_prime_field] ([algebra_derive/src/prime.rs:20-22], twenty rounds). *)
Definition ut_fp (F : field) (p : Z) (draw : nat -> Z) (d : list Z) : option unit :=
  match d with
  | [a1; b1; a2; b2; a3; b3; a4; b4; a5; a6; a7; b7; c7; a8; b8; a9; a10; b10; c10] =>
      let* prime := probably_prime (fw F) (fmod F) 20 draw in
      let* _ := assert prime in
      let* _ := fp_add F p a1 b1 in
      let* _ := fp_sub F p a2 b2 in
      let* _ := fp_mul F p a3 b3 in
      let* _ := fp_div F p a4 b4 in
      let* _ := fp_neg F a5 in
      let* _ := fp_inv F p a6 in
      fp_laws F a7 b7 c7 a8 b8 a9 a10 b10 c10
  | _ => None
  end.
(** [B.pow(i)] ([derive_test.rs:135], [algebra/tests/polynomial_test.rs:166]): repeated multiplication,
    checked. *)
Definition upow (W b : Z) (i : nat) : option Z := if b ^ Z.of_nat i <? 2 ^ W then Some (b ^ Z.of_nat i) else None.
(** [test_decompose], [derive_test.rs:122-139]. *)
Definition ut_decompose (F : field) (bits a : Z) : option unit :=
  let* b := basis_new F bits in
  let* ds := f_decompose F b a in
  let* compose := foldM (fun acc id =>
    let* w := upow (fw F) (2 ^ bits) (fst id) in
    let* k := f_new F w in
    let* t := f_mul F (snd id) k in
    f_add F acc t) 0 (combine (seq 0 (length ds)) ds) in
  assert_eq compose a.
