(** Straight-line programs of the linear operations on LWE ciphertexts, as a client writes them: they work on
    numbered registers, by-value operations append a register and in-place ones overwrite their left operand. *)
From Coq Require Import ZArith List.
From Verif Require Import Model.Base Model.Lwe.
Import ListNotations.
Local Open Scope Z_scope.

Inductive linop :=
| LAdd (x y : nat) | LAddTo (x y : nat) | LSub (x y : nat) | LSubFrom (x y : nat)
| LNeg (x : nat) | LScale (x : nat) (k : Z) | LAddScaled (x y : nat) (k : Z).

(** Register [i] replaced; [None] if there is none. *)
Fixpoint set_reg {A : Type} (i : nat) (v : A) (l : list A) : option (list A) :=
  match l, i with
  | [], _ => None
  | _ :: l', O => Some (v :: l')
  | x :: l', S i' => match set_reg i' v l' with Some r => Some (x :: r) | None => None end
  end.

(** What a program computes with given addition, subtraction, negation and scaling. *)
Definition step_with {A : Type} (add addto sub subfrom : A -> A -> option A) (neg : A -> option A) (scale : A -> Z -> option A)
    (addscaled : A -> A -> Z -> option A) (op : linop) (r : list A) : option (list A) :=
  let reg i (f : A -> option (list A)) := match nth_error r i with Some v => f v | None => None end in
  let push (v : option A) := match v with Some v => Some (r ++ [v]) | None => None end in
  let put i (v : option A) := match v with Some v => set_reg i v r | None => None end in
  match op with
  | LAdd x y => reg x (fun a => reg y (fun b => push (add a b)))
  | LAddTo x y => reg x (fun a => reg y (fun b => put x (addto a b)))
  | LSub x y => reg x (fun a => reg y (fun b => push (sub a b)))
  | LSubFrom x y => reg x (fun a => reg y (fun b => put x (subfrom a b)))
  | LNeg x => reg x (fun a => push (neg a))
  | LScale x k => reg x (fun a => put x (scale a k))
  | LAddScaled x y k => reg x (fun a => reg y (fun b => put x (addscaled a b k)))
  end.
Fixpoint run {A : Type} (step : linop -> list A -> option (list A)) (p : list linop) (r : list A) : option (list A) :=
  match p with
  | [] => Some r
  | op :: p' => match step op r with Some r => run step p' r | None => None end
  end.

(** On integers: messages and errors. *)
Definition int_step : linop -> list Z -> option (list Z) :=
  step_with (fun a b => Some (a + b)) (fun a b => Some (a + b)) (fun a b => Some (a - b)) (fun a b => Some (a - b))
    (fun a => Some (- a)) (fun a k => Some (k * a)) (fun a b k => Some (a + k * b)).
Definition run_int : list linop -> list Z -> option (list Z) := run int_step.
(** On bounds: how much larger than those of the inputs the errors can be. *)
Definition weight_step : linop -> list Z -> option (list Z) :=
  step_with (fun a b => Some (a + b)) (fun a b => Some (a + b)) (fun a b => Some (a + b)) (fun a b => Some (a + b))
    (fun a => Some a) (fun a k => Some (Z.abs k * a)) (fun a b k => Some (a + Z.abs k * b)).
Definition run_weight : list linop -> list Z -> option (list Z) := run weight_step.
(** On ciphertexts modulo [q], with the library's operations; a constant is handed over as a residue. *)
Definition lwe_step (q : Z) (O : mops) : linop -> list lwe -> option (list lwe) :=
  step_with (lwe_add O) (lwe_add_inplace O) (lwe_sub O) (lwe_sub_inplace O)
    (lwe_neg O) (fun x k => lwe_scalar_mul O x (k mod q)) (fun x y k => lwe_add_scaled O x y (k mod q)).
Definition run_lwe (q : Z) (O : mops) : list linop -> list lwe -> option (list lwe) := run (lwe_step q O).

(** A fresh encryption: mask, error, message; the sampler hands the error over as a residue. *)
Definition fresh (B t q : Z) (s : list Z) (x : lwe) (ame : list Z * Z * Z) : Prop :=
  let '(a, m, e) := ame in encrypt B t q s a (e mod q) m = Some x.
