(** Power-of-two modulus. [algebra/src/modulus/powof2/{mod,internal_macros}.rs]. *)
From Coq Require Import ZArith List Bool.
From Verif Require Import Model.Base Model.Reduce.
Import ListNotations.
Local Open Scope Z_scope.

(** [internal_macros.rs:8-11]: the modulus is represented by its mask. *)
Definition p2_new (v : Z) : option Z :=
  let* _ := assert ((1 <? v) && is_pow2 v) in usub v 1.

(** [internal_macros.rs:18-20]. *)
Definition p2_reduce (mask x : Z) : Z := Z.land x mask.
(** [internal_macros.rs:34-36,41-43]. *)
Definition p2_add (B mask a b : Z) : Z := Z.land (wadd B a b) mask.
(** [internal_macros.rs:50-52,57-59]. *)
Definition p2_sub (B mask a b : Z) : Z := Z.land (wsub B a b) mask.
(** [internal_macros.rs:66-68,73-75]. *)
Definition p2_neg (B mask a : Z) : Z := Z.land (wneg B a) mask.
(** [internal_macros.rs:82-84,89-91]. *)
Definition p2_mul (B mask a b : Z) : Z := Z.land (wmul B a b) mask.

(** [internal_macros.rs:98-129]. *)
Definition p2_exp (B EB mask a e : Z) : option Z :=
  exp_generic EB (fun x y => Some (p2_mul B mask x y)) 1 (a <=? mask) a e.

(** [internal_macros.rs:134-143]. *)
Definition p2_exp_pow2 (B mask a k : Z) : option Z :=
  exp_pow2_generic (fun x y => Some (p2_mul B mask x y)) a k.

(** [internal_macros.rs:150-165]. *)
Definition p2_dot (B mask : Z) (a b : list Z) : option Z :=
  let* _ := assert (Nat.eqb (length a) (length b)) in
  Some (p2_reduce mask
          (fold_left (fun acc xy => wadd B (wmul B (fst xy) (snd xy)) acc) (combine a b) 0)).
