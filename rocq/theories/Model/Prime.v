(** Miller-Rabin test. [algebra/src/utils/prime.rs]. *)
From Coq Require Import ZArith List Bool.
From Verif Require Import Model.Base Model.Reduce Model.Barrett.
Import ListNotations.
Local Open Scope Z_scope.

(** [prime.rs:20-38]: bit mask of the primes below 64. *)
Definition prime_bit_mask : Z :=
  fold_left (fun m i => Z.lor m (2 ^ i))
    [2; 3; 5; 7; 11; 13; 17; 19; 23; 29; 31; 37; 41; 43; 47; 53; 59; 61] 0.

(** [prime.rs:55-72]: the divisors tried. *)
Definition trial_divisors : list Z := [3; 5; 7; 11; 13; 17; 19; 23; 29; 31; 37; 41; 43; 47; 53].

(** [prime.rs:92-101]: the [for _ in 1..r] loop followed by [return false].  [Some true] is
    [break 'next_round], which leaves the round loop, after which the function returns true;
    [Some false] is [return false]. *)
Fixpoint mr_inner (B : Z) (m : barrett) (n : nat) (x : Z) : option bool :=
  match n with
  | O => Some false
  | S n' =>
      let* x := bmul B m x x in
      if x =? bval m - 1 then Some true
      else if x =? 1 then Some false
      else mr_inner B m n' x
  end.

(** [prime.rs:81-103]: the rounds loop; [draw i] is what [distribution.sample] returns in round
    [i]; [i] is the current round, [n] the number of rounds left. *)
Fixpoint mr_rounds (B : Z) (m : barrett) (q r : Z) (draw : nat -> Z) (n i : nat) : option bool :=
  match n with
  | O => Some true
  | S n' =>
      let a := if Nat.eqb i 0 then 2 else draw i in
      let* x := bexp B B m a q in
      if (x =? 1) || (x =? bval m - 1) then mr_rounds B m q r draw n' (S i)
      else mr_inner B m (Z.to_nat (r - 1)) x
  end.

(** [prime.rs:19-104].  The random generator is replaced by the stream [draw]. *)
Definition probably_prime (B : Z) (m : barrett) (rounds : nat) (draw : nat -> Z) : option bool :=
  let value := bval m in
  if value =? 0 then Some false
  else if value <? 64 then Some (negb (Z.land prime_bit_mask (2 ^ value) =? 0))
  else if Z.land value 1 =? 0 then Some false
  else if existsb (fun d => value mod d =? 0) trial_divisors then Some false
  else
    let* v1 := usub value 1 in
    let r := trailing_zeros B v1 in
    let* q := ushr B v1 r in
    mr_rounds B m q r draw rounds 0.
