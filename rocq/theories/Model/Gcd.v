(** Binary gcd, extended binary gcd and modular inversion.
    [algebra/src/utils/gcd.rs], [algebra/src/reduce/macros.rs:75-112]. *)
From Coq Require Import ZArith List Bool.
From Verif Require Import Model.Base.
Import ListNotations.
Local Open Scope Z_scope.

(** [m >>= m.trailing_zeros()] ([gcd.rs:41-42,47,50]); a zero operand would shift by the
    width, which panics. *)
Definition strip_tz (B m : Z) : option Z := ushr B m (trailing_zeros B m).

(** The [while m != n] loop of [gcd] ([gcd.rs:44-52]).  [fuel] bounds the number of iterations;
    running out of fuel is reported as [None] (proved unreachable). *)
Fixpoint gcd_loop (fuel : nat) (B m n : Z) : option Z :=
  if m =? n then Some m
  else match fuel with
       | O => None
       | S fuel' =>
           if n <? m then
             let* d := usub m n in let* m' := strip_tz B d in gcd_loop fuel' B m' n
           else
             let* d := usub n m in let* n' := strip_tz B d in gcd_loop fuel' B m n'
       end.

(** Number of iterations always sufficient for the loops of [gcd.rs:29-129] (the code has no bound).
    *)
Definition gcd_fuel (B : Z) : nat := Z.to_nat (2 * B).

(** [gcd.rs:29-54]. *)
Definition gcd (B x y : Z) : option Z :=
  if (x =? 0) || (y =? 0) then Some (Z.lor x y)
  else
    let shift := trailing_zeros B (Z.lor x y) in
    let* m := strip_tz B x in
    let* n := strip_tz B y in
    let* g := gcd_loop (gcd_fuel B) B m n in
    ushl B g shift.

(** [gcd.rs:57-64]. *)
Definition coprime (B x y : Z) : option bool := let* g := gcd B x y in Some (g <=? 1).
(** [gcd.rs:62-64]. *)
Definition not_coprime (B x y : Z) : option bool := let* g := gcd B x y in Some (1 <? g).

(** One of the two inner [while u % 2 == 0] loops of [extended_gcd] ([gcd.rs:87-99] for
    (u,a,b), [gcd.rs:101-113] for (v,c,d)).  Out of fuel = [None] (proved unreachable). *)
Fixpoint halve (fuel : nat) (B x y u a b : Z) : option (Z * Z * Z) :=
  if Z.even u then
    match fuel with
    | O => None
    | S fuel' =>
        let u := u / 2 in
        if Z.even a && Z.even b then halve fuel' B x y u (a / 2) (b / 2)
        else if scast B x <? b then
          let* a' := sadd B a (scast B y) in
          let* b' := ssub B b (scast B x) in
          halve fuel' B x y u (a' / 2) (b' / 2)
        else
          let* a' := ssub B a (scast B y) in
          let* b' := sadd B b (scast B x) in
          halve fuel' B x y u (a' / 2) (b' / 2)
    end
  else Some (u, a, b).

(** The outer [loop] of [extended_gcd] ([gcd.rs:86-128]). *)
Fixpoint xgcd_loop (fuel : nat) (B x y u v a b c d : Z) : option (Z * Z * Z) :=
  match fuel with
  | O => None
  | S fuel' =>
      let* ' (u, a, b) := halve (Z.to_nat B) B x y u a b in
      let* ' (v, c, d) := halve (Z.to_nat B) B x y v c d in
      if v <=? u then
        let* u := usub u v in
        let* a := ssub B a c in
        let* b := ssub B b d in
        if u =? 0 then Some (c, d, v) else xgcd_loop fuel' B x y u v a b c d
      else
        let* v := usub v u in
        let* c := ssub B c a in
        let* d := ssub B d b in
        if u =? 0 then Some (c, d, v) else xgcd_loop fuel' B x y u v a b c d
  end.

(** [gcd.rs:66-129]. *)
Definition extended_gcd (B x y : Z) : option (Z * Z * Z) :=
  if (x =? 0) || (y =? 0) then Some (0, 0, 0)
  else
    let shift := trailing_zeros B (Z.lor x y) in
    let* x := ushr B x shift in
    let* y := ushr B y shift in
    let* g := ushl B 1 shift in
    let* ' (c, d, v) := xgcd_loop (S (gcd_fuel B)) B x y x y 1 0 0 1 in
    let* gv := umul B g v in
    Some (c, d, gv).

(** [algebra/src/reduce/macros.rs:84-88]: bring the Bezout coefficient into [0,m). *)
Definition inv_fix (B inv m : Z) : option Z :=
  if 0 <? inv then Some (ucast B inv)
  else let* t := sadd B inv (scast B m) in Some (ucast B t).

(** [algebra/src/reduce/macros.rs:76-89]. *)
Definition inv_reduce (B a m : Z) : option Z :=
  let* _ := assert (a <? m) in
  let* ' (_, inv, g) := extended_gcd B m a in
  let* _ := assert (g =? 1) in
  inv_fix B inv m.

(** [algebra/src/reduce/macros.rs:93-111]; the inner option is [Result] ([None] = [Err]). *)
Definition try_inv_reduce (B a m : Z) : option (option Z) :=
  let* _ := assert (a <? m) in
  let* ' (_, inv, g) := extended_gcd B m a in
  if g =? 1 then let* r := inv_fix B inv m in Some (Some r) else Some None.
