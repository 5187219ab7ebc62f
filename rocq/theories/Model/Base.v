(** Words, panics and checked arithmetic.

    A word of width [B] is a [Z] in [0, 2^B).  [None] is a panic. *)
From Coq Require Import ZArith List Bool.
Import ListNotations.
Local Open Scope Z_scope.

(** Sequencing of computations that may panic (no file or line: Rust unwinding, everywhere in
    [/repo]). *)
Definition bind {A C : Type} (x : option A) (f : A -> option C) : option C :=
  match x with Some a => f a | None => None end.

Notation "'let*' x := e 'in' f" := (bind e (fun x => f))
  (at level 200, x name, e at level 100, f at level 200, right associativity).
Notation "'let*' ' p := e 'in' f" := (bind e (fun x => match x with p => f end))
  (at level 200, p pattern, e at level 100, f at level 200, right associativity).

(** [assert!] / [debug_assert!]: panic when the condition is false.
    E.g. [algebra/src/modulus/powof2/internal_macros.rs:9], [algebra/src/polynomial/native_polynomial.rs:408]. *)
Definition assert (b : bool) : option unit := if b then Some tt else None.

(** Iterator [map] whose closure may panic.  E.g. [lattice/src/rlwe.rs:332]. *)
Fixpoint mapM {A C : Type} (f : A -> option C) (l : list A) : option (list C) :=
  match l with
  | [] => Some []
  | x :: l' => let* y := f x in let* r := mapM f l' in Some (y :: r)
  end.

(** [a.iter().zip(b).map(f)]: stops at the shorter list.  E.g. [algebra/src/polynomial/native_polynomial.rs:457]. *)
Fixpoint mapM2 {A A' C : Type} (f : A -> A' -> option C) (l : list A) (l' : list A')
  : option (list C) :=
  match l, l' with
  | x :: r, x' :: r' => let* y := f x x' in let* t := mapM2 f r r' in Some (y :: t)
  | _, _ => Some []
  end.

(** [iter().fold(acc, f)] whose closure may panic.  E.g. [algebra/src/polynomial/native_polynomial.rs:209]. *)
Fixpoint foldM {A C : Type} (f : C -> A -> option C) (acc : C) (l : list A) : option C :=
  match l with
  | [] => Some acc
  | x :: l' => let* acc' := f acc x in foldM f acc' l'
  end.

(** [for _ in 0..n] updating a state.  E.g. [algebra/src/modulus/barrett/ops.rs:119,149]. *)
Fixpoint iterM {A : Type} (n : nat) (f : A -> option A) (s : A) : option A :=
  match n with
  | O => Some s
  | S n' => let* s' := f s in iterM n' f s'
  end.

(** Debug-profile unsigned arithmetic of width [B] (std integer [+ - *]): panics on overflow.
    E.g. [algebra/src/reduce/macros.rs:8]. *)
Definition uadd (B a b : Z) : option Z := if a + b <? 2 ^ B then Some (a + b) else None.
(** std integer [-], debug profile: panics below zero.  E.g. [algebra/src/reduce/macros.rs:10,61]. *)
Definition usub (a b : Z) : option Z := if b <=? a then Some (a - b) else None.
(** std integer [*], debug profile: panics on overflow.  E.g. [algebra/src/utils/gcd.rs:126]. *)
Definition umul (B a b : Z) : option Z := if a * b <? 2 ^ B then Some (a * b) else None.

(** std integer [/]: panics on a zero divisor.  E.g. [bool/src/bfhe/evaluate.rs:39]. *)
Definition udiv (a b : Z) : option Z := if b =? 0 then None else Some (a / b).
(** std integer [%]: panics on a zero divisor.
    E.g. [algebra/src/utils/prime.rs:55-66], [bool/src/bfhe/evaluate.rs:38,40]. *)
Definition urem (a b : Z) : option Z := if b =? 0 then None else Some (a mod b).

(** [a << s], [a >> s]: panic when the shift amount reaches the width, high bits are dropped.
    E.g. [algebra/src/decompose_basis.rs:42], [algebra/src/utils/gcd.rs:75]. *)
Definition ushl (B a s : Z) : option Z := if s <? B then Some ((a * 2 ^ s) mod 2 ^ B) else None.
(** std [a >> s], debug profile: panics when the shift amount reaches the width.
    E.g. [algebra/src/decompose_basis.rs:41], [bool/src/bfhe/evaluate.rs:86]. *)
Definition ushr (B a s : Z) : option Z := if s <? B then Some (a / 2 ^ s) else None.

(** [algebra/src/primitive/wrapping.rs:22-60] (delegates to std [wrapping_*]). *)
Definition wadd (B a b : Z) : Z := (a + b) mod 2 ^ B.
(** [algebra/src/primitive/wrapping.rs:62-81] (std [wrapping_sub]). *)
Definition wsub (B a b : Z) : Z := (a - b) mod 2 ^ B.
(** [algebra/src/primitive/wrapping.rs:83-102] (std [wrapping_mul]). *)
Definition wmul (B a b : Z) : Z := (a * b) mod 2 ^ B.
(** [algebra/src/primitive/wrapping.rs:104-148] (std [wrapping_neg]). *)
Definition wneg (B a : Z) : Z := (- a) mod 2 ^ B.

(** [as] cast to a width-[B] unsigned type ([algebra/src/primitive/cast.rs:77-104]). *)
Definition ucast (B a : Z) : Z := a mod 2 ^ B.

(** std [overflowing_add]: wrapped sum and overflow flag.  [algebra/src/primitive/widening/carrying_add.rs:38-39]. *)
Definition overflowing_add (B a b : Z) : Z * bool := (wadd B a b, 2 ^ B <=? a + b).
(** std [overflowing_sub]: wrapped difference and borrow flag.
    [algebra/src/primitive/widening/borrowing_sub.rs:30-31]. *)
Definition overflowing_sub (B a b : Z) : Z * bool := (wsub B a b, a <? b).

(** [bool as T].  E.g. [algebra/src/primitive/widening/carrying_add.rs:39]. *)
Definition b2z (b : bool) : Z := if b then 1 else 0.

(** [algebra/src/primitive/widening/carrying_add.rs:30-42] (the intrinsic versions used for
    u32/u64 on x86_64 have the same meaning). *)
Definition carrying_add (B a b : Z) (c : bool) : Z * bool :=
  let '(x, o1) := overflowing_add B a b in
  let '(y, o2) := overflowing_add B x (b2z c) in (y, o1 || o2).

(** [algebra/src/primitive/widening/borrowing_sub.rs:22-34]. *)
Definition borrowing_sub (B a b : Z) (c : bool) : Z * bool :=
  let '(x, o1) := overflowing_sub B a b in
  let '(y, o2) := overflowing_sub B x (b2z c) in (y, o1 || o2).

(** [algebra/src/primitive/widening/widening_mul.rs:19-44].  The wide product fits in twice
    the width for words, so the wide multiplication is not checked. *)
Definition widening_mul (B a b : Z) : Z * Z := ((a * b) mod 2 ^ B, (a * b) / 2 ^ B).
(** [algebra/src/primitive/widening/widening_mul.rs:33-44]: the high word. *)
Definition widening_mul_hw (B a b : Z) : Z := (a * b) / 2 ^ B.

(** [algebra/src/primitive/widening/carrying_mul.rs:29-54]. *)
Definition carrying_mul (B a b c : Z) : Z * Z :=
  ((a * b + c) mod 2 ^ B, (a * b + c) / 2 ^ B).
(** [algebra/src/primitive/widening/carrying_mul.rs:43-54]: the high word. *)
Definition carrying_mul_hw (B a b c : Z) : Z := (a * b + c) / 2 ^ B.

(** std [BITS - leading_zeros]: the bit length.
    E.g. [algebra/src/decompose_basis.rs:33], [algebra/src/modulus/barrett/internal_macros.rs:59,75]. *)
Definition bit_len (a : Z) : Z := if a =? 0 then 0 else Z.log2 a + 1.
(** std [leading_zeros].  E.g. [algebra/src/modulus/barrett/ops.rs:130]. *)
Definition leading_zeros (B a : Z) : Z := B - bit_len a.

(** std [trailing_zeros] (of zero: the width).  E.g. [algebra/src/utils/gcd.rs:38]. *)
Fixpoint pos_tz (p : positive) : Z :=
  match p with xO p' => 1 + pos_tz p' | _ => 0 end.
(** std [trailing_zeros] (of zero: the width).  E.g. [algebra/src/utils/gcd.rs:38]. *)
Definition trailing_zeros (B a : Z) : Z :=
  match a with Zpos p => pos_tz p | _ => B end.

(** std [is_power_of_two].
    E.g. [algebra/src/modulus/powof2/internal_macros.rs:9], [algebra/src/polynomial/native_polynomial.rs:523]. *)
Definition is_pow2 (a : Z) : bool := (0 <? a) && (a =? 2 ^ Z.log2 a).

(** Signed words of width [B]: debug-profile arithmetic panics outside [-2^(B-1), 2^(B-1)).
    [algebra/src/utils/gcd.rs:93-122]. *)
Definition schk (B a : Z) : option Z :=
  if (- 2 ^ (B - 1) <=? a) && (a <? 2 ^ (B - 1)) then Some a else None.
(** std signed [+], debug profile.  E.g. [algebra/src/utils/gcd.rs:93,97]. *)
Definition sadd (B a b : Z) : option Z := schk B (a + b).
(** std signed [-], debug profile.  E.g. [algebra/src/utils/gcd.rs:94,117]. *)
Definition ssub (B a b : Z) : option Z := schk B (a - b).
(** [x as SignedT] for an unsigned word.  E.g. [algebra/src/utils/gcd.rs:92-97]. *)
Definition scast (B a : Z) : Z := if a <? 2 ^ (B - 1) then a else a - 2 ^ B.

(** Indexing [v[i]]: panics out of bounds.  E.g. [bool/src/bfhe/evaluate.rs:86], [lattice/src/rlwe.rs:336]. *)
Definition index {A : Type} (l : list A) (i : nat) : option A := nth_error l i.
