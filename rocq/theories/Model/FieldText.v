(** What a derived field type does besides arithmetic: comparison, constants, printing and serde.
    [algebra_derive/src/basic.rs]. *)
From Coq Require Import ZArith List Bool.
From Verif Require Import Model.Base Model.Field.
Import ListNotations.
Local Open Scope Z_scope.

(** [basic.rs:45-64] ([Ord], [PartialOrd], [PartialEq]). *)
Definition f_cmp (x y : Z) : comparison := Z.compare x y.
(** [basic.rs:59-64]. *)
Definition f_eqb (x y : Z) : bool := x =? y.
(** [basic.rs:88-137]. *)
Definition f_zero : Z := 0.
(** [basic.rs:97-99]. *)
Definition f_is_zero (x : Z) : bool := x =? 0.
(** [basic.rs:117-119]. *)
Definition f_one : Z := 1.
(** [basic.rs:127-130]. *)
Definition f_is_one (x : Z) : bool := x =? 1.
(** [basic.rs:147-156]. *)
Definition f_is_neg_one (F : field) (x : Z) : bool := x =? fp F - 1.

(** [basic.rs:77-86]: [Display] of the word, by std: the decimal digits without leading zeros, as
    character codes.  [fuel] bounds the digits; a [B]-bit word has at most [B]. *)
Fixpoint dec_digits (fuel : nat) (x : Z) (acc : list Z) : list Z :=
  match fuel with
  | O => acc
  | S fuel' => let acc := 48 + x mod 10 :: acc in if x / 10 =? 0 then acc else dec_digits fuel' (x / 10) acc
  end.
(** [basic.rs:81-83]. *)
Definition f_display (F : field) (x : Z) : list Z := dec_digits (Z.to_nat (fw F)) x [].

(** [basic.rs:165-184]: [serialize_uN(self.0)]; the token of serde's data model is its integer. *)
Definition f_serialize (x : Z) : Z := x.
(** [basic.rs:186-206]: [uN::deserialize] fails ([Some None]) for an integer outside the type, then
    [Field::new]; the outer [None] would be a panic. *)
Definition f_deserialize (F : field) (token : Z) : option (option Z) :=
  if (0 <=? token) && (token <? 2 ^ fw F) then let* x := f_new F token in Some (Some x) else Some None.
