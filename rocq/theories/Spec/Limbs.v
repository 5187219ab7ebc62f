(** Multi-word integers and how a caller chains single-word operations over them. *)
From Coq Require Import ZArith List.
Import ListNotations.
Local Open Scope Z_scope.

(** Little-endian numbers of [B]-bit words. *)
Definition word (B x : Z) : Prop := 0 <= x < 2 ^ B.
Fixpoint value (B : Z) (l : list Z) : Z := match l with [] => 0 | x :: l' => x + 2 ^ B * value B l' end.

(** Word by word, handing the flag (or high word) [c] on. *)
Fixpoint chain {C : Type} (op : Z -> Z -> C -> Z * C) (a b : list Z) (c : C) : list Z * C :=
  match a, b with
  | x :: a', y :: b' => let (z, c1) := op x y c in let (r, c2) := chain op a' b' c1 in (z :: r, c2)
  | _, _ => ([], c)
  end.
(** A number times one word. *)
Fixpoint chain_word (op : Z -> Z -> Z -> Z * Z) (a : list Z) (w c : Z) : list Z * Z :=
  match a with
  | x :: a' => let (z, c1) := op x w c in let (r, c2) := chain_word op a' w c1 in (z :: r, c2)
  | [] => ([], c)
  end.
