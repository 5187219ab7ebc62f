(** Straight-line programs on ring ciphertexts, as a client of the lattice crate writes them: numbered registers of RLWE
    ciphertexts and a list of RGSW ciphertexts.  By-value operations append a register, in-place ones overwrite their left operand. *)
From Coq Require Import ZArith List Arith.
From Verif Require Import Spec.Basic Spec.Poly Spec.Ring Spec.LinProg Model.Base Model.Field Model.NTT Model.Poly Model.Rlwe Model.Gadget.
Import ListNotations.
Local Open Scope Z_scope.

Inductive ringop :=
| RAdd (x y : nat) | RAddTo (x y : nat) | RSub (x y : nat) | RSubFrom (x y : nat)
| RExt (x i : nat) | RExtTo (x i : nat)          (* external product with RGSW ciphertext i *)
| RRotSub (x r : nat)                            (* (X^r - 1) times x *)
| RAddRot (x y r : nat).                         (* x plus X^r times y *)

(** One step, for any kind of register [A] and of key [K]. *)
Definition rstep_with {A K : Type} (add addto sub subfrom : A -> A -> option A) (ext extto : A -> K -> option A)
    (rotsub : A -> nat -> option A) (addrot : A -> A -> nat -> option A) (ks : list K) (op : ringop) (r : list A) : option (list A) :=
  let get {T} (l : list T) i (f : T -> option (list A)) := match nth_error l i with Some v => f v | None => None end in
  let push (v : option A) := match v with Some v => Some (r ++ [v]) | None => None end in
  let put i (v : option A) := match v with Some v => set_reg i v r | None => None end in
  match op with
  | RAdd x y => get r x (fun a => get r y (fun b => push (add a b)))
  | RAddTo x y => get r x (fun a => get r y (fun b => put x (addto a b)))
  | RSub x y => get r x (fun a => get r y (fun b => push (sub a b)))
  | RSubFrom x y => get r x (fun a => get r y (fun b => put x (subfrom a b)))
  | RExt x i => get r x (fun a => get ks i (fun k => push (ext a k)))
  | RExtTo x i => get r x (fun a => get ks i (fun k => put x (extto a k)))
  | RRotSub x d => get r x (fun a => push (rotsub a d))
  | RAddRot x y d => get r x (fun a => get r y (fun b => put x (addrot a b d)))
  end.
Fixpoint rrun {A : Type} (step : ringop -> list A -> option (list A)) (p : list ringop) (r : list A) : option (list A) :=
  match p with
  | [] => Some r
  | op :: p' => match step op r with Some r => rrun step p' r | None => None end
  end.

(** With the operations of the library, the RGSW ciphertexts in transformed form; [med] is the workspace. *)
Definition rlwe_step (F : field) (tbl : tables) (n : nat) (med : rlwe) : list rgsw -> ringop -> list rlwe -> option (list rlwe) :=
  rstep_with (rlwe_add_ref F) (rlwe_add_assign F) (rlwe_sub_ref F) (rlwe_sub_assign F)
    (rlwe_mul_ntt_rgsw F tbl) (fun x R => rlwe_mul_assign_ntt_rgsw F tbl x R n n med)
    (fun x r => mul_monic_monomial_sub_one F x n r (rlwe_zero n)) (fun x y r => add_assign_rhs_mul_monomial F x y n r).

(** The sum of the absolute values of the coefficients. *)
Definition norm1 (m : list Z) : Z := fold_right (fun x s => Z.abs x + s) 0 m.

(** On plaintext polynomials modulo X^n + 1, with a bound on the noise next to each: the sum of the bounds for sums and rotations,
    the bound times the norm of the RGSW message plus a fixed [gain] for an external product.  Exponents go up to 2n. *)
Definition plain_step (n : nat) (gain : Z) : list (list Z) -> ringop -> list (list Z * Z) -> option (list (list Z * Z)) :=
  let add a b := Some (padd (fst a) (fst b), snd a + snd b) in
  let sub a b := Some (psub (fst a) (fst b), snd a + snd b) in
  let ext a m := Some (negacyclic n m (fst a), norm1 m * snd a + gain) in
  rstep_with add add sub sub ext ext
    (fun a r => if (r <=? 2 * n)%nat then Some (psub (negacyclic n (monomial n 1 r) (fst a)) (fst a), 2 * snd a) else None)
    (fun a b r => if (r <=? 2 * n)%nat then Some (padd (fst a) (negacyclic n (monomial n 1 r) (fst b)), snd a + snd b) else None).

(** [x] encrypts the polynomial [v] under the key [s], the noise being at most [E] in absolute value. *)
Definition rlwe_holds (p : Z) (n : nat) (s : list Z) (x : rlwe) (vE : list Z * Z) : Prop :=
  let '(v, E) := vE in
  rlwe_wf p n x /\ length v = n /\ exists e, length e = n /\ bounded E e /\ pcong p (rphase n s x) (padd v e).
(** [RN] is the transformed form of an RGSW encryption of [m], the noise of its rows being at most [E]. *)
Definition rgsw_holds (F : field) (tbl : tables) (p : Z) (n : nat) (b : basis) (s : list Z) (base E : Z) (RN : rgsw) (m : list Z) : Prop :=
  length m = n /\ exists R es es', rgsw_wf p n b R /\ rgsw_to_ntt F tbl R = Some RN /\ rgsw_encrypts p n s base m R es es' /\
    Forall (fun e => length e = n /\ bounded E e) es /\ Forall (fun e => length e = n /\ bounded E e) es'.

(** The multiplexer x + R (y - x) with these operations. *)
Definition cmux (F : field) (tbl : tables) (n : nat) (med : rlwe) (R : rgsw) (x y : rlwe) : option rlwe :=
  match rrun (rlwe_step F tbl n med [R]) [RSub 1 0; RExtTo 2 0; RAddTo 2 0] [x; y] with Some [_; _; z] => Some z | _ => None end.
(** A tree of multiplexers: the first selector chooses within neighbouring pairs of the table, the next among the results, and so on. *)
Fixpoint cmux_layer (F : field) (tbl : tables) (n : nat) (med : rlwe) (R : rgsw) (l : list rlwe) : option (list rlwe) :=
  match l with
  | [] => Some []
  | x :: y :: l' => let* z := cmux F tbl n med R x y in let* r := cmux_layer F tbl n med R l' in Some (z :: r)
  | _ => None
  end.
Fixpoint cmux_tree (F : field) (tbl : tables) (n : nat) (med : rlwe) (Rs : list rgsw) (l : list rlwe) : option rlwe :=
  match Rs with
  | [] => match l with [x] => Some x | _ => None end
  | R :: Rs' => let* l' := cmux_layer F tbl n med R l in cmux_tree F tbl n med Rs' l'
  end.
(** The number with the given binary digits, the lowest first; a bit as a constant polynomial. *)
Fixpoint selected (bs : list bool) : nat := match bs with [] => 0 | b :: r => (if b then 1 else 0) + 2 * selected r end.
Definition bit_poly (n : nat) (b : bool) : list Z := monomial n (if b then 1 else 0) 0.

(** [R] is an RGSW encryption of [m], the noise of its rows being at most [E]. *)
Definition rgsw_has (p : Z) (n : nat) (b : basis) (s : list Z) (base : Z) (R : rgsw) (mE : list Z * Z) : Prop :=
  let '(m, E) := mE in
  length m = n /\ 0 <= E /\ rgsw_wf p n b R /\ exists es es', rgsw_encrypts p n s base m R es es' /\
    Forall (fun e => length e = n /\ bounded E e) es /\ Forall (fun e => length e = n /\ bounded E e) es'.
(** The product of a list of RGSW ciphertexts, from the left, and of the messages with the bounds. *)
Fixpoint rgsw_product (F : field) (tbl : tables) (acc : rgsw) (Rs : list rgsw) : option rgsw :=
  match Rs with [] => Some acc | R :: Rs' => let* acc := rgsw_mul_small F tbl acc R in rgsw_product F tbl acc Rs' end.
Fixpoint plain_product (n : nat) (l base : Z) (acc : list Z * Z) (ms : list (list Z * Z)) : list Z * Z :=
  match ms with
  | [] => acc
  | (m, E) :: ms' => plain_product n l base (negacyclic n m (fst acc), norm1 m * snd acc + 2 * (l * (Z.of_nat n * ((base - 1) * E)))) ms'
  end.
