(** The optimised build (release profile: overflow checks and debug assertions off), part 1: words and moduli.

    Every definition below repeats the one of the same name (without [_o]) of Model/{Reduce,Gcd,Barrett,PowOf2,Shoup,Field,Prime,BabyBear,Goldilocks} with the checked
    operations of [Base] replaced by wrapping ones and the [debug_assert!]s removed; [assert!]s, indexing,
    slicing, division by zero and [unwrap] still panic.  Definitions without any of those are shared.
    Conditional subtractions that cannot wrap ([if m <= r then r - m]) are shared too. *)
From Coq Require Import ZArith List Bool Arith.
From Verif Require Import Model.Base Model.Reduce Model.Gcd Model.Barrett Model.PowOf2 Model.Shoup Model.Field Model.Prime Model.BabyBear Model.Goldilocks.
Import ListNotations.
Local Open Scope Z_scope.

(** std [+] of width [B], release profile: wraps.  (On words this is the sum modulo 2^[B].).
    E.g. [algebra/src/reduce/macros.rs:8]. *)
Definition uadd_o (B a b : Z) : option Z := Some (if a + b <? 2 ^ B then a + b else (a + b) mod 2 ^ B).
(** std [-], release profile: wraps.  E.g. [algebra/src/reduce/macros.rs:10,61]. *)
Definition usub_o (B a b : Z) : option Z := Some (if b <=? a then a - b else (a - b) mod 2 ^ B).
(** std [*], release profile: wraps.  E.g. [algebra/src/utils/gcd.rs:126]. *)
Definition umul_o (B a b : Z) : option Z := Some (if a * b <? 2 ^ B then a * b else (a * b) mod 2 ^ B).
(** std [<<], release profile: the amount is reduced modulo the width.  E.g. [algebra/src/decompose_basis.rs:42]. *)
Definition ushl_o (B a s : Z) : option Z := Some ((a * 2 ^ (if s <? B then s else s mod B)) mod 2 ^ B).
(** std [>>], release profile: the amount is reduced modulo the width.  E.g. [algebra/src/decompose_basis.rs:41]. *)
Definition ushr_o (B a s : Z) : option Z := Some (a / 2 ^ (if s <? B then s else s mod B)).
(** std signed arithmetic, release profile: two's complement of width [B].  [algebra/src/utils/gcd.rs:93-122]. *)
Definition schk_o (B a : Z) : option Z :=
  Some (if (- 2 ^ (B - 1) <=? a) && (a <? 2 ^ (B - 1)) then a else (a + 2 ^ (B - 1)) mod 2 ^ B - 2 ^ (B - 1)).
(** std signed [+], release profile.  E.g. [algebra/src/utils/gcd.rs:93,97]. *)
Definition sadd_o (B a b : Z) : option Z := schk_o B (a + b).
(** std signed [-], release profile.  E.g. [algebra/src/utils/gcd.rs:94,117]. *)
Definition ssub_o (B a b : Z) : option Z := schk_o B (a - b).
(** [debug_assert!], [debug_assert_eq!]: not compiled.  E.g. [algebra/src/polynomial/native_polynomial.rs:408]. *)
Definition debug_assert_o (b : bool) : option unit := Some tt.

(** * Model/Reduce *)
(** [algebra/src/reduce/macros.rs:7-14] (and the [_assign] form, 19-26, which stores the same value). *)
Definition add_reduce_o (B a b m : Z) : option Z :=
  let* r := uadd_o B a b in
  if m <=? r then usub r m else Some r.
(** [algebra/src/reduce/macros.rs:33-39]. *)
Definition sub_reduce_o (B a b m : Z) : option Z :=
  if b <=? a then usub a b
  else let* t := usub_o B m b in uadd_o B t a.
(** [algebra/src/reduce/macros.rs:44-50]. *)
Definition sub_reduce_assign_o (B a b m : Z) : option Z :=
  if b <=? a then usub a b
  else let* t := usub_o B m b in uadd_o B a t.
(** [algebra/src/reduce/macros.rs:57-63] (and 68-72). *)
Definition neg_reduce_o (B a m : Z) : option Z :=
  if a =? 0 then Some 0 else usub_o B m a.
(** The common text of the four [exp_reduce] functions
    ([algebra/src/modulus/barrett/ops.rs:108-138] and the copies named above).
    [EB] is the width of the exponent type, [one] the value returned for exponent zero,
    [ok] the [debug_assert!]ed condition on the base. *)
Definition exp_generic_o (EB : Z) (mul : Z -> Z -> option Z) (one : Z) (ok : bool) (a e : Z)
  : option Z :=
  if e =? 0 then Some one
  else
    let* _ := debug_assert_o ok in
    let tz := trailing_zeros EB e in
    let* power := iterM (Z.to_nat tz) (fun x => mul x x) a in
    let e := e / 2 ^ tz in
    if e =? 1 then Some power
    else
      let* st := iterM (Z.to_nat (bit_len e - 1)) (exp_step mul) (e, power, power) in
      let '(_, _, inter) := st in Some inter.

(** * Model/Gcd *)
(** [m >>= m.trailing_zeros()] ([gcd.rs:41-42,47,50]); a zero operand would shift by the
    width, which panics. *)
Definition strip_tz_o (B m : Z) : option Z := ushr_o B m (trailing_zeros B m).
(** The [while m != n] loop of [gcd] ([gcd.rs:44-52]).  [fuel] bounds the number of iterations;
    running out of fuel is reported as [None] (proved unreachable).  Running out of fuel is [None] here too; the code would loop. *)
Fixpoint gcd_loop_o (fuel : nat) (B m n : Z) : option Z :=
  if m =? n then Some m
  else match fuel with
       | O => None
       | S fuel' =>
           if n <? m then
             let* d := usub m n in let* m' := strip_tz_o B d in gcd_loop_o fuel' B m' n
           else
             let* d := usub n m in let* n' := strip_tz_o B d in gcd_loop_o fuel' B m n'
       end.
(** [gcd.rs:29-54]. *)
Definition gcd_o (B x y : Z) : option Z :=
  if (x =? 0) || (y =? 0) then Some (Z.lor x y)
  else
    let shift := trailing_zeros B (Z.lor x y) in
    let* m := strip_tz_o B x in
    let* n := strip_tz_o B y in
    let* g := gcd_loop_o (gcd_fuel B) B m n in
    ushl_o B g shift.
(** [gcd.rs:57-64]. *)
Definition coprime_o (B x y : Z) : option bool := let* g := gcd_o B x y in Some (g <=? 1).
(** [gcd.rs:62-64]. *)
Definition not_coprime_o (B x y : Z) : option bool := let* g := gcd_o B x y in Some (1 <? g).
(** One of the two inner [while u % 2 == 0] loops of [extended_gcd] ([gcd.rs:87-99] for
    (u,a,b), [gcd.rs:101-113] for (v,c,d)).  Out of fuel = [None] (proved unreachable). *)
Fixpoint halve_o (fuel : nat) (B x y u a b : Z) : option (Z * Z * Z) :=
  if Z.even u then
    match fuel with
    | O => None
    | S fuel' =>
        let u := u / 2 in
        if Z.even a && Z.even b then halve_o fuel' B x y u (a / 2) (b / 2)
        else if scast B x <? b then
          let* a' := sadd_o B a (scast B y) in
          let* b' := ssub_o B b (scast B x) in
          halve_o fuel' B x y u (a' / 2) (b' / 2)
        else
          let* a' := ssub_o B a (scast B y) in
          let* b' := sadd_o B b (scast B x) in
          halve_o fuel' B x y u (a' / 2) (b' / 2)
    end
  else Some (u, a, b).
(** The outer [loop] of [extended_gcd] ([gcd.rs:86-128]).  Running out of fuel is [None] here too; the code would loop. *)
Fixpoint xgcd_loop_o (fuel : nat) (B x y u v a b c d : Z) : option (Z * Z * Z) :=
  match fuel with
  | O => None
  | S fuel' =>
      let* ' (u, a, b) := halve_o (Z.to_nat B) B x y u a b in
      let* ' (v, c, d) := halve_o (Z.to_nat B) B x y v c d in
      if v <=? u then
        let* u := usub u v in
        let* a := ssub_o B a c in
        let* b := ssub_o B b d in
        if u =? 0 then Some (c, d, v) else xgcd_loop_o fuel' B x y u v a b c d
      else
        let* v := usub v u in
        let* c := ssub_o B c a in
        let* d := ssub_o B d b in
        if u =? 0 then Some (c, d, v) else xgcd_loop_o fuel' B x y u v a b c d
  end.
(** [gcd.rs:66-129]. *)
Definition extended_gcd_o (B x y : Z) : option (Z * Z * Z) :=
  if (x =? 0) || (y =? 0) then Some (0, 0, 0)
  else
    let shift := trailing_zeros B (Z.lor x y) in
    let* x := ushr_o B x shift in
    let* y := ushr_o B y shift in
    let* g := ushl_o B 1 shift in
    let* ' (c, d, v) := xgcd_loop_o (S (gcd_fuel B)) B x y x y 1 0 0 1 in
    let* gv := umul_o B g v in
    Some (c, d, gv).
(** [algebra/src/reduce/macros.rs:84-88]: bring the Bezout coefficient into [0,m). *)
Definition inv_fix_o (B inv m : Z) : option Z :=
  if 0 <? inv then Some (ucast B inv)
  else let* t := sadd_o B inv (scast B m) in Some (ucast B t).
(** [algebra/src/reduce/macros.rs:76-89]. *)
Definition inv_reduce_o (B a m : Z) : option Z :=
  let* _ := debug_assert_o (a <? m) in
  let* ' (_, inv, g) := extended_gcd_o B m a in
  let* _ := assert (g =? 1) in
  inv_fix_o B inv m.
(** [algebra/src/reduce/macros.rs:93-111]; the inner option is [Result] ([None] = [Err]). *)
Definition try_inv_reduce_o (B a m : Z) : option (option Z) :=
  let* _ := debug_assert_o (a <? m) in
  let* ' (_, inv, g) := extended_gcd_o B m a in
  if g =? 1 then let* r := inv_fix_o B inv m in Some (Some r) else Some None.

(** * Model/Barrett *)
(** [internal_macros.rs:28-32]. *)
Definition div_half_o (B rem divisor : Z) : option (Z * Z) :=
  let h := B / 2 in
  let* n1 := ushl_o B rem h in
  let* hi := udiv n1 divisor in
  let* rem := urem n1 divisor in
  let* n2 := ushl_o B rem h in
  let* lo := udiv n2 divisor in
  let* rem := urem n2 divisor in
  let* hs := ushl_o B hi h in
  Some (Z.lor hs lo, rem).
(** [internal_macros.rs:21-25]; the wide type has twice the width. *)
Definition div_wide_o (B hi divisor : Z) : option (Z * Z) :=
  let* lhs := ushl_o (2 * B) hi B in
  let* q := udiv lhs divisor in
  let* r := urem lhs divisor in
  Some (ucast B q, ucast B r).
(** [internal_macros.rs:34-54]: quotient words (low, high). *)
Definition div_inplace_o (B v : Z) : option (Z * Z) :=
  let half := (2 ^ B - 1) / 2 ^ (B / 2) in
  if v <=? half then
    let* ' (q1, r) := div_half_o B 1 v in
    let* ' (q0, _) := div_half_o B r v in
    Some (q0, q1)
  else
    let* ' (q1, r) := div_wide_o B 1 v in
    let* ' (q0, _) := div_wide_o B r v in
    Some (q0, q1).
(** [internal_macros.rs:11-70]. *)
Definition barrett_new_o (B v : Z) : option barrett :=
  if (v =? 0) || (v =? 1) then None
  else
    let* _ := assert (bit_len v <? B - 1) in
    let* ' (q0, q1) := div_inplace_o B v in
    Some (mk_barrett v q0 q1).
(** [internal_macros.rs:202-240] (array) and [311-349] (tuple): little endian (x0, x1). *)
Definition lazy_reduce2_o (B : Z) (m : barrett) (x : Z * Z) : option Z :=
  let '(x0, x1) := x in
  let ah := widening_mul_hw B x0 (br0 m) in
  let '(b0, b1) := carrying_mul B x0 (br1 m) ah in
  let '(c0, c1) := widening_mul B x1 (br0 m) in
  let d := wmul B x1 (br1 m) in
  let* t := uadd_o B b1 c1 in
  let* bch := uadd_o B t (b2z (snd (overflowing_add B b0 c0))) in
  let q := wadd B d bch in
  Some (wsub B x0 (wmul B q (bval m))).
(** [internal_macros.rs:271-280], [380-389]. *)
Definition reduce2_o (B : Z) (m : barrett) (x : Z * Z) : option Z :=
  let* r := lazy_reduce2_o B m x in final_sub (bval m) r.
(** [internal_macros.rs:396-410]. *)
Definition lazy_reduce_slice_o (B : Z) (m : barrett) (l : list Z) : option Z :=
  match l with
  | [] => None
  | [v] => if v <? bval m then Some v else Some (lazy_reduce1 B m v)
  | _ => rfold_last (fun acc x => lazy_reduce2_o B m (x, acc)) l
  end.
(** [internal_macros.rs:417-431]. *)
Definition reduce_slice_o (B : Z) (m : barrett) (l : list Z) : option Z :=
  match l with
  | [] => None
  | [v] => if v <? bval m then Some v else reduce1 B m v
  | _ => rfold_last (fun acc x => reduce2_o B m (x, acc)) l
  end.
(** [barrett/ops.rs:13-77]: add/sub/neg delegate to the plain word modulus. *)
Definition badd_o (B : Z) (m : barrett) (a b : Z) : option Z := add_reduce_o B a b (bval m).
(** [barrett/ops.rs:35-55]. *)
Definition bsub_o (B : Z) (m : barrett) (a b : Z) : option Z := sub_reduce_o B a b (bval m).
(** [barrett/ops.rs:57-77]. *)
Definition bneg_o (B : Z) (m : barrett) (a : Z) : option Z := neg_reduce_o B a (bval m).
(** [barrett/ops.rs:87-89]. *)
Definition bmul_o (B : Z) (m : barrett) (a b : Z) : option Z := reduce2_o B m (widening_mul B a b).
(** [barrett/ops.rs:207-209]. *)
Definition lazy_bmul_o (B : Z) (m : barrett) (a b : Z) : option Z :=
  lazy_reduce2_o B m (widening_mul B a b).
(** [barrett/ops.rs:108-138]. *)
Definition bexp_o (B EB : Z) (m : barrett) (a e : Z) : option Z :=
  exp_generic_o EB (bmul_o B m) 1 (a <? bval m) a e.
(** [barrett/ops.rs:146-154]. *)
Definition bexp_pow2_o (B : Z) (m : barrett) (a k : Z) : option Z :=
  exp_pow2_generic (bmul_o B m) a k.
(** [barrett/ops.rs:162-164]. *)
Definition binv_o (B : Z) (m : barrett) (a : Z) : option Z := inv_reduce_o B a (bval m).
(** [barrett/ops.rs:184-186]. *)
Definition bdiv_o (B : Z) (m : barrett) (a b : Z) : option Z :=
  let* i := binv_o B m b in bmul_o B m a i.
(** The chunk closure of [dot_product_reduce] ([internal_macros.rs:520-526]). *)
Definition dot_chunk_o (B : Z) (m : barrett) (a b : list Z) : option Z :=
  reduce2_o B m (fold_left (fun c ab => multiply_add B c (fst ab) (snd ab)) (combine a b) (0, 0)).
(** [chunks_exact(16)] zipped and folded ([internal_macros.rs:518-529]): an incomplete last
    chunk is ignored.  [n] = number of whole chunks left. *)
Fixpoint dot_chunks_o (B : Z) (m : barrett) (n : nat) (a b : list Z) (acc : Z) : option Z :=
  match n with
  | O => Some acc
  | S n' =>
      let* c := dot_chunk_o B m (firstn 16 a) (firstn 16 b) in
      let* acc := badd_o B m acc c in
      dot_chunks_o B m n' (skipn 16 a) (skipn 16 b) acc
  end.
(** [internal_macros.rs:502-530]. *)
Definition bdot_o (B : Z) (m : barrett) (a b : list Z) : option Z :=
  let* _ := debug_assert_o (Nat.eqb (length a) (length b)) in
  dot_chunks_o B m (Nat.div (Nat.min (length a) (length b)) 16) a b 0.

(** * Model/PowOf2 *)
(** [internal_macros.rs:98-129]. *)
Definition p2_exp_o (B EB mask a e : Z) : option Z :=
  exp_generic_o EB (fun x y => Some (p2_mul B mask x y)) 1 (a <=? mask) a e.
(** [internal_macros.rs:150-165]. *)
Definition p2_dot_o (B mask : Z) (a b : list Z) : option Z :=
  let* _ := debug_assert_o (Nat.eqb (length a) (length b)) in
  Some (p2_reduce mask
          (fold_left (fun acc xy => wadd B (wmul B (fst xy) (snd xy)) acc) (combine a b) 0)).

(** * Model/Shoup *)
(** [internal_macros.rs:8-14]. *)
Definition shoup_new_o (B v m : Z) : option shoup :=
  let* _ := debug_assert_o (v <? m) in
  let* q := udiv (v * 2 ^ B) m in
  Some (mk_shoup v (ucast B q)).
(** [internal_macros.rs:18-22]. *)
Definition shoup_set_modulus_o (B : Z) (s : shoup) (m : Z) : option shoup :=
  let* _ := debug_assert_o (sh_value s <? m) in
  let* q := udiv (sh_value s * 2 ^ B) m in
  Some (mk_shoup (sh_value s) (ucast B q)).
(** [internal_macros.rs:28-31]. *)
Definition shoup_set_o (B : Z) (s : shoup) (v m : Z) : option shoup :=
  shoup_set_modulus_o B (mk_shoup v (sh_quotient s)) m.

(** * Model/Field *)
(** The derive macro: [attr.rs:33-50] (leading zeros check) and [ops.rs:16-19] (the modulus is
    built by [BarrettModulus::new] in a const context).  [None] is a compile error. *)
Definition derive_field_o (B p : Z) : option field :=
  let* _ := assert (2 <=? leading_zeros B p) in
  let* m := barrett_new_o B p in
  Some (mk_field B m).
(** [ops.rs:25-63] (the by-reference and assigning forms call the same function). *)
Definition f_add_o (F : field) (a b : Z) : option Z := add_reduce_o (fw F) a b (fp F).
(** [ops.rs:65-85]. *)
Definition f_sub_o (F : field) (a b : Z) : option Z := sub_reduce_o (fw F) a b (fp F).
(** [ops.rs:87-101] ([-=]). *)
Definition f_sub_assign_o (F : field) (a b : Z) : option Z := sub_reduce_assign_o (fw F) a b (fp F).
(** [ops.rs:105-143]. *)
Definition f_mul_o (F : field) (a b : Z) : option Z := bmul_o (fw F) (fmod F) a b.
(** [ops.rs:145-157]. *)
Definition f_neg_o (F : field) (a : Z) : option Z := neg_reduce_o (fw F) a (fp F).
(** [ops.rs:159-171]; the exponent type is the value type. *)
Definition f_pow_o (F : field) (a e : Z) : option Z := bexp_o (fw F) (fw F) (fmod F) a e.
(** [ops.rs:173-211]. *)
Definition f_div_o (F : field) (a b : Z) : option Z := bdiv_o (fw F) (fmod F) a b.
(** [ops.rs:213-227]. *)
Definition f_inv_o (F : field) (a : Z) : option Z :=
  let* e := usub_o (fw F) (fp F) 2 in f_pow_o F a e.
(** [fhe_field.rs:24-27]. *)
Definition f_add_mul_o (F : field) (c a b : Z) : option Z :=
  reduce2_o (fw F) (fmod F) (carrying_mul (fw F) a b c).
(** [fhe_field.rs:30-33]. *)
Definition f_mul_fast_o (F : field) (a b : Z) : option Z := lazy_bmul_o (fw F) (fmod F) a b.
(** [fhe_field.rs:36-40]. *)
Definition f_add_mul_fast_o (F : field) (c a b : Z) : option Z :=
  lazy_reduce2_o (fw F) (fmod F) (carrying_mul (fw F) a b c).
(** [decompose_basis.rs:31-51].  [div_ceil] panics on a zero divisor, but the shift by the full
    width already panicked. *)
Definition basis_new_o (F : field) (bits : Z) : option basis :=
  let mb := fw F - leading_zeros (fw F) (fp F) in
  let* _ := assert (bits <=? mb) in
  let* mb := (if is_pow2 (fp F) then usub_o 32 mb 1 else Some mb) in
  let* s := usub_o 32 (fw F) bits in
  let* mask := ushr_o (fw F) (2 ^ fw F - 1) s in
  let* b := ushl_o (fw F) 1 bits in
  let* _ := udiv mb bits in
  Some (mk_basis b (Z.to_nat ((mb + bits - 1) / bits)) mask bits).
(** [decomposable_field.rs:18-35]: the loop over [ret], which starts as zeros. *)
Fixpoint decompose_loop_o (B mask bits : Z) (n : nat) (temp : Z) : option (list Z) :=
  match n with
  | O => Some []
  | S n' =>
      if temp =? 0 then Some (repeat 0 n)
      else
        let* t := ushr_o B temp bits in
        let* r := decompose_loop_o B mask bits n' t in
        Some (Z.land temp mask :: r)
  end.
(** [decomposable_field.rs:18-35]. *)
Definition f_decompose_o (F : field) (b : basis) (v : Z) : option (list Z) :=
  decompose_loop_o (fw F) (bs_mask b) (bs_bits b) (bs_len b) v.
(** [decomposable_field.rs:37-50]. *)
Fixpoint f_decompose_at_o (F : field) (b : basis) (v : Z) (dest : list Z) : option (list Z) :=
  match dest with
  | [] => Some []
  | _ :: d' =>
      if v =? 0 then Some dest
      else
        let* t := ushr_o (fw F) v (bs_bits b) in
        let* r := f_decompose_at_o F b t d' in
        Some (Z.land v (bs_mask b) :: r)
  end.
(** [decomposable_field.rs:52-63]: (digit, remaining value). *)
Definition f_decompose_lsb_o (F : field) (mask bits v : Z) : option (Z * Z) :=
  let* t := ushr_o (fw F) v bits in Some (Z.land v mask, t).
(** One pass of [decompose_lsb_bits] over a polynomial
    ([algebra/src/polynomial/native_polynomial.rs:304-307], [decompose_lsb_bits_inplace] 339-347). *)
Fixpoint poly_decompose_lsb_o (F : field) (mask bits : Z) (a : list Z) : option (list Z * list Z) :=
  match a with
  | [] => Some ([], [])
  | v :: a' =>
      let* ' (d, t) := f_decompose_lsb_o F mask bits v in
      let* ' (ds, ts) := poly_decompose_lsb_o F mask bits a' in
      Some (d :: ds, t :: ts)
  end.
(** [native_polynomial.rs:302-310] ([decompose]; [decompose_inplace] 316-332 runs the same loop
    and leaves the same digits in the destination). *)
Fixpoint poly_decompose_loop_o (F : field) (mask bits : Z) (n : nat) (a : list Z)
  : option (list (list Z)) :=
  match n with
  | O => Some []
  | S n' =>
      let* ' (d, a) := poly_decompose_lsb_o F mask bits a in
      let* r := poly_decompose_loop_o F mask bits n' a in
      Some (d :: r)
  end.
(** [native_polynomial.rs:298-311]. *)
Definition poly_decompose_o (F : field) (b : basis) (a : list Z) : option (list (list Z)) :=
  poly_decompose_loop_o F (bs_mask b) (bs_bits b) (bs_len b) a.

(** * Model/Prime *)
(** [prime.rs:92-101]: the [for _ in 1..r] loop followed by [return false].  [Some true] is
    [break 'next_round], which leaves the round loop, after which the function returns true;
    [Some false] is [return false]. *)
Fixpoint mr_inner_o (B : Z) (m : barrett) (n : nat) (x : Z) : option bool :=
  match n with
  | O => Some false
  | S n' =>
      let* x := bmul_o B m x x in
      if x =? bval m - 1 then Some true
      else if x =? 1 then Some false
      else mr_inner_o B m n' x
  end.
(** [prime.rs:81-103]: the rounds loop; [draw i] is what [distribution.sample] returns in round
    [i]; [i] is the current round, [n] the number of rounds left. *)
Fixpoint mr_rounds_o (B : Z) (m : barrett) (q r : Z) (draw : nat -> Z) (n i : nat) : option bool :=
  match n with
  | O => Some true
  | S n' =>
      let a := if Nat.eqb i 0 then 2 else draw i in
      let* x := bexp_o B B m a q in
      if (x =? 1) || (x =? bval m - 1) then mr_rounds_o B m q r draw n' (S i)
      else mr_inner_o B m (Z.to_nat (r - 1)) x
  end.
(** [prime.rs:19-104].  The random generator is replaced by the stream [draw]. *)
Definition probably_prime_o (B : Z) (m : barrett) (rounds : nat) (draw : nat -> Z) : option bool :=
  let value := bval m in
  if value =? 0 then Some false
  else if value <? 64 then Some (negb (Z.land prime_bit_mask (2 ^ value) =? 0))
  else if Z.land value 1 =? 0 then Some false
  else if existsb (fun d => value mod d =? 0) trial_divisors then Some false
  else
    let* v1 := usub_o B value 1 in
    let r := trailing_zeros B v1 in
    let* q := ushr_o B v1 r in
    mr_rounds_o B m q r draw rounds 0.

(** * Model/BabyBear *)
(** [mod.rs:109-117]; [t * P] cannot exceed 64 bits but is checked anyway. *)
Definition monty_reduce_o (x : Z) : option Z :=
  let t := Z.land (wmul 64 x MONTY_MU) MONTY_MASK in
  let* u := umul_o 64 t BP in
  let '(xu, over) := overflowing_sub 64 x u in
  let hi := ucast 32 (xu / 2 ^ MONTY_BITS) in
  let corr := if over then BP else 0 in
  Some (wadd 32 hi corr).
(** [mod.rs:102-104]. *)
Definition from_monty_o (x : Z) : option Z := monty_reduce_o x.
(** [ops.rs:15-22]. *)
Definition bb_add_o (a b : Z) : option Z :=
  let* sum := uadd_o 32 a b in
  let '(c, over) := overflowing_sub 32 sum BP in
  Some (if over then sum else c).
(** [ops.rs:71-74]. *)
Definition bb_mul_o (a b : Z) : option Z :=
  let* p := umul_o 64 a b in monty_reduce_o p.
(** [ops.rs:88-118]: the zero exponent returns the plain word 1. *)
Definition bb_exp_o (EB a e : Z) : option Z := exp_generic_o EB bb_mul_o 1 (a <? BP) a e.
(** [ops.rs:123-131]. *)
Definition bb_exp_pow2_o (a k : Z) : option Z := exp_pow2_generic bb_mul_o a k.
(** [mod.rs:34-65]; the inner option is the Rust [Option]. *)
Definition bb_try_inverse_o (v : Z) : option (option Z) :=
  if v =? 0 then Some None
  else
    let p1 := v in
    let* p100000000 := bb_exp_pow2_o p1 8 in
    let* p100000001 := bb_mul_o p100000000 p1 in
    let* p10000000000000000 := bb_exp_pow2_o p100000000 8 in
    let* p10000000100000001 := bb_mul_o p10000000000000000 p100000001 in
    let* p10000000100000001000 := bb_exp_pow2_o p10000000100000001 3 in
    let* p1000000010000000100000000 := bb_exp_pow2_o p10000000100000001000 5 in
    let* p1000000010000000100000001 := bb_mul_o p1000000010000000100000000 p1 in
    let* p1000010010000100100001001 :=
      bb_mul_o p1000000010000000100000001 p10000000100000001000 in
    let* p10000000100000001000000010 :=
      bb_mul_o p1000000010000000100000001 p1000000010000000100000001 in
    let* p11000010110000101100001011 :=
      bb_mul_o p10000000100000001000000010 p1000010010000100100001001 in
    let* p100000001000000010000000100 :=
      bb_mul_o p10000000100000001000000010 p10000000100000001000000010 in
    let* p111000011110000111100001111 :=
      bb_mul_o p100000001000000010000000100 p11000010110000101100001011 in
    let* p1110000111100001111000011110000 := bb_exp_pow2_o p111000011110000111100001111 4 in
    let* r := bb_mul_o p1110000111100001111000011110000 p111000011110000111100001111 in
    Some (Some r).
(** [ops.rs:136-138]: [unwrap]. *)
Definition bb_inv_o (v : Z) : option Z := let* r := bb_try_inverse_o v in r.
(** [ops.rs:162-164]. *)
Definition bb_div_o (a b : Z) : option Z := let* i := bb_inv_o b in bb_mul_o a i.
(** [ops.rs:177-189]. *)
Definition bb_dot_o (a b : list Z) : option Z :=
  let* _ := debug_assert_o (Nat.eqb (length a) (length b)) in
  foldM (fun acc xy => let* t := bb_mul_o (fst xy) (snd xy) in bb_add_o t acc) 0 (combine a b).

(** * Model/Goldilocks *)
(** [mod.rs:93-115], x86-64. *)
Definition add_no_canon_x86_o (x y : Z) : option Z :=
  let s := asm_sbb (asm_add (mk_asm x y false)) in uadd_o 64 (r0 s) (r1 s).
(** [mod.rs:118-123], the other architectures.  [reduce96] and [reduce128] below call this variant; the
    two are equal on all words (C13). *)
Definition add_no_canon_o (x y : Z) : option Z :=
  let '(r, carry) := overflowing_add 64 x y in
  uadd_o 64 r (EPSILON * b2z carry).
(** [mod.rs:129-132]. *)
Definition reduce96_o (x_lo x_hi : Z) : option Z :=
  let* t1 := umul_o 64 x_hi EPSILON in add_no_canon_o x_lo t1.
(** [mod.rs:137-148]; [split] (150-153) takes the low and high words. *)
Definition reduce128_o (x : Z) : option Z :=
  let x_lo := ucast 64 x in
  let x_hi := ucast 64 (x / 2 ^ 64) in
  let x_hi_hi := x_hi / 2 ^ 32 in
  let x_hi_lo := Z.land x_hi EPSILON in
  let '(t0, borrow) := overflowing_sub 64 x_lo x_hi_hi in
  let* t0 := (if borrow then usub_o 64 t0 EPSILON else Some t0) in
  let* t1 := umul_o 64 x_hi_lo EPSILON in
  add_no_canon_o t0 t1.
(** [ops.rs:37-44]. *)
Definition gl_add_o (a b : Z) : option Z :=
  let '(sum, over) := overflowing_add 64 a b in
  let '(sum, over) := overflowing_add 64 sum (b2z over * EPSILON) in
  if over then uadd_o 64 sum EPSILON else Some sum.
(** [ops.rs:58-65]. *)
Definition gl_sub_o (a b : Z) : option Z :=
  let '(diff, under) := overflowing_sub 64 a b in
  let '(diff, under) := overflowing_sub 64 diff (b2z under * EPSILON) in
  if under then usub_o 64 diff EPSILON else Some diff.
(** [ops.rs:79-85]. *)
Definition gl_neg_o (a : Z) : option Z := if a =? 0 then Some 0 else usub_o 64 GP a.
(** [ops.rs:99-101]. *)
Definition gl_mul_o (a b : Z) : option Z := reduce128_o (a * b).
(** [ops.rs:115-145]. *)
Definition gl_exp_o (EB a e : Z) : option Z := exp_generic_o EB gl_mul_o 1 (a <? GP) a e.
(** [ops.rs:150-158]. *)
Definition gl_exp_pow2_o (a k : Z) : option Z := exp_pow2_generic gl_mul_o a k.
(** [mod.rs:157-160] [exp_acc::<N>(base, tail)]: square N times, multiply by tail. *)
Definition gl_exp_acc_o (n base tail : Z) : option Z :=
  let* t := gl_exp_pow2_o base n in gl_mul_o t tail.
(** [mod.rs:45-84]; the inner option is the Rust [Option]. *)
Definition gl_try_inverse_o (v : Z) : option (option Z) :=
  if v =? 0 then Some None
  else
    let* s := gl_mul_o v v in
    let* t2 := gl_mul_o s v in
    let* s := gl_mul_o t2 t2 in
    let* t3 := gl_mul_o s v in
    let* t6 := gl_exp_acc_o 3 t3 t3 in
    let* t12 := gl_exp_acc_o 6 t6 t6 in
    let* t24 := gl_exp_acc_o 12 t12 t12 in
    let* t30 := gl_exp_acc_o 6 t24 t6 in
    let* s := gl_mul_o t30 t30 in
    let* t31 := gl_mul_o s v in
    let* t63 := gl_exp_acc_o 32 t31 t31 in
    let* s := gl_mul_o t63 t63 in
    let* r := gl_mul_o s v in
    Some (Some r).
(** [ops.rs:173-175]. *)
Definition gl_inv_o (v : Z) : option Z := let* r := gl_try_inverse_o v in r.
(** [ops.rs:189-191]. *)
Definition gl_div_o (a b : Z) : option Z := let* i := gl_inv_o b in gl_mul_o a i.
(** [ops.rs:204-216]. *)
Definition gl_dot_o (a b : list Z) : option Z :=
  let* _ := debug_assert_o (Nat.eqb (length a) (length b)) in
  foldM (fun acc xy => let* t := gl_mul_o (fst xy) (snd xy) in gl_add_o t acc) 0 (combine a b).
