(** Barrett modulus. [algebra/src/modulus/barrett/{internal_macros,mod,ops}.rs]. *)
From Coq Require Import ZArith List Bool.
From Verif Require Import Model.Base Model.Reduce Model.Gcd.
Import ListNotations.
Local Open Scope Z_scope.

(** [barrett/mod.rs:34-39]: value and the two words of the reciprocal. *)
Record barrett := mk_barrett { bval : Z; br0 : Z; br1 : Z }.

(** [internal_macros.rs:28-32]. *)
Definition div_half (B rem divisor : Z) : option (Z * Z) :=
  let h := B / 2 in
  let* n1 := ushl B rem h in
  let* hi := udiv n1 divisor in
  let* rem := urem n1 divisor in
  let* n2 := ushl B rem h in
  let* lo := udiv n2 divisor in
  let* rem := urem n2 divisor in
  let* hs := ushl B hi h in
  Some (Z.lor hs lo, rem).

(** [internal_macros.rs:21-25]; the wide type has twice the width. *)
Definition div_wide (B hi divisor : Z) : option (Z * Z) :=
  let* lhs := ushl (2 * B) hi B in
  let* q := udiv lhs divisor in
  let* r := urem lhs divisor in
  Some (ucast B q, ucast B r).

(** [internal_macros.rs:34-54]: quotient words (low, high). *)
Definition div_inplace (B v : Z) : option (Z * Z) :=
  let half := (2 ^ B - 1) / 2 ^ (B / 2) in
  if v <=? half then
    let* ' (q1, r) := div_half B 1 v in
    let* ' (q0, _) := div_half B r v in
    Some (q0, q1)
  else
    let* ' (q1, r) := div_wide B 1 v in
    let* ' (q0, _) := div_wide B r v in
    Some (q0, q1).

(** [internal_macros.rs:11-70]. *)
Definition barrett_new (B v : Z) : option barrett :=
  if (v =? 0) || (v =? 1) then None
  else
    let* _ := assert (bit_len v <? B - 1) in
    let* ' (q0, q1) := div_inplace B v in
    Some (mk_barrett v q0 q1).

(** [internal_macros.rs:74-76]. *)
Definition bit_count (m : barrett) : Z := bit_len (bval m).

(** [internal_macros.rs:107-130]. *)
Definition lazy_reduce1 (B : Z) (m : barrett) (x : Z) : Z :=
  let tmp := widening_mul_hw B x (br0 m) in
  let tmp := carrying_mul_hw B x (br1 m) tmp in
  wsub B x (wmul B tmp (bval m)).

(** The final conditional subtraction ([internal_macros.rs:166-170,275-279,384-388]). *)
Definition final_sub (m r : Z) : option Z := if m <=? r then usub r m else Some r.

(** [internal_macros.rs:162-171]. *)
Definition reduce1 (B : Z) (m : barrett) (x : Z) : option Z :=
  final_sub (bval m) (lazy_reduce1 B m x).

(** [internal_macros.rs:202-240] (array) and [311-349] (tuple): little endian (x0, x1). *)
Definition lazy_reduce2 (B : Z) (m : barrett) (x : Z * Z) : option Z :=
  let '(x0, x1) := x in
  let ah := widening_mul_hw B x0 (br0 m) in
  let '(b0, b1) := carrying_mul B x0 (br1 m) ah in
  let '(c0, c1) := widening_mul B x1 (br0 m) in
  let d := wmul B x1 (br1 m) in
  let* t := uadd B b1 c1 in
  let* bch := uadd B t (b2z (snd (overflowing_add B b0 c0))) in
  let q := wadd B d bch in
  Some (wsub B x0 (wmul B q (bval m))).

(** [internal_macros.rs:271-280], [380-389]. *)
Definition reduce2 (B : Z) (m : barrett) (x : Z * Z) : option Z :=
  let* r := lazy_reduce2 B m x in final_sub (bval m) r.

(** [other.iter().rfold(last, ..)] of [internal_macros.rs:406-408,427-429]: the list is little
    endian, the last element is the initial accumulator. *)
Fixpoint rfold_last (f : Z -> Z -> option Z) (l : list Z) : option Z :=
  match l with
  | [] => None
  | [v] => Some v
  | x :: l' => let* acc := rfold_last f l' in f acc x
  end.

(** [internal_macros.rs:396-410]. *)
Definition lazy_reduce_slice (B : Z) (m : barrett) (l : list Z) : option Z :=
  match l with
  | [] => None
  | [v] => if v <? bval m then Some v else Some (lazy_reduce1 B m v)
  | _ => rfold_last (fun acc x => lazy_reduce2 B m (x, acc)) l
  end.

(** [internal_macros.rs:417-431]. *)
Definition reduce_slice (B : Z) (m : barrett) (l : list Z) : option Z :=
  match l with
  | [] => None
  | [v] => if v <? bval m then Some v else reduce1 B m v
  | _ => rfold_last (fun acc x => reduce2 B m (x, acc)) l
  end.

(** [barrett/ops.rs:13-77]: add/sub/neg delegate to the plain word modulus. *)
Definition badd (B : Z) (m : barrett) (a b : Z) : option Z := add_reduce B a b (bval m).
(** [barrett/ops.rs:35-55]. *)
Definition bsub (B : Z) (m : barrett) (a b : Z) : option Z := sub_reduce B a b (bval m).
(** [barrett/ops.rs:57-77]. *)
Definition bneg (m : barrett) (a : Z) : option Z := neg_reduce a (bval m).

(** [barrett/ops.rs:87-89]. *)
Definition bmul (B : Z) (m : barrett) (a b : Z) : option Z := reduce2 B m (widening_mul B a b).

(** [barrett/ops.rs:207-209]. *)
Definition lazy_bmul (B : Z) (m : barrett) (a b : Z) : option Z :=
  lazy_reduce2 B m (widening_mul B a b).

(** [barrett/ops.rs:108-138]. *)
Definition bexp (B EB : Z) (m : barrett) (a e : Z) : option Z :=
  exp_generic EB (bmul B m) 1 (a <? bval m) a e.

(** [barrett/ops.rs:146-154]. *)
Definition bexp_pow2 (B : Z) (m : barrett) (a k : Z) : option Z :=
  exp_pow2_generic (bmul B m) a k.

(** [barrett/ops.rs:162-164]. *)
Definition binv (B : Z) (m : barrett) (a : Z) : option Z := inv_reduce B a (bval m).

(** [barrett/ops.rs:184-186]. *)
Definition bdiv (B : Z) (m : barrett) (a b : Z) : option Z :=
  let* i := binv B m b in bmul B m a i.

(** [internal_macros.rs:508-513]: [c += a * b] on a double word; the carry out is dropped. *)
Definition multiply_add (B : Z) (c : Z * Z) (a b : Z) : Z * Z :=
  let '(lw, hw) := widening_mul B a b in
  let '(c0, carry) := overflowing_add B (fst c) lw in
  let '(c1, _) := carrying_add B (snd c) hw carry in
  (c0, c1).

(** The chunk closure of [dot_product_reduce] ([internal_macros.rs:520-526]). *)
Definition dot_chunk (B : Z) (m : barrett) (a b : list Z) : option Z :=
  reduce2 B m (fold_left (fun c ab => multiply_add B c (fst ab) (snd ab)) (combine a b) (0, 0)).

(** [chunks_exact(16)] zipped and folded ([internal_macros.rs:518-529]): an incomplete last
    chunk is ignored.  [n] = number of whole chunks left. *)
Fixpoint dot_chunks (B : Z) (m : barrett) (n : nat) (a b : list Z) (acc : Z) : option Z :=
  match n with
  | O => Some acc
  | S n' =>
      let* c := dot_chunk B m (firstn 16 a) (firstn 16 b) in
      let* acc := badd B m acc c in
      dot_chunks B m n' (skipn 16 a) (skipn 16 b) acc
  end.

(** [internal_macros.rs:502-530]. *)
Definition bdot (B : Z) (m : barrett) (a b : list Z) : option Z :=
  let* _ := assert (Nat.eqb (length a) (length b)) in
  dot_chunks B m (Nat.div (Nat.min (length a) (length b)) 16) a b 0.
