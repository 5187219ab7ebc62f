(** What the transform counters should say. *)
From Coq Require Import ZArith List Bool.
From Verif Require Import Model.Count.
Import ListNotations.
Local Open Scope Z_scope.

(** Transforms of direction [d] in a list of calls. *)
Definition transforms (d : dir) (p : list ccall) : Z :=
  Z.of_nat (length (filter (fun c => match c with Transform d' => dir_eqb d d' | _ => false end) p)).
Definition total (d : dir) (ps : list (list ccall)) : Z := fold_right (fun p a => transforms d p + a) 0 ps.
(** No thread has calls or additions left. *)
Definition done (ts : list cthread) : Prop := Forall (fun t => th_add t = None /\ th_prog t = []) ts.
(** Only transforms and reads. *)
Definition only_counts (p : list ccall) : Prop := Forall (fun c => match c with Transform _ | Get _ => True | _ => False end) p.

(** One thread on its own: the values its [Get]s return, for transforms counted so far [f], [i]. *)
Fixpoint answers (on : bool) (f i : Z) (p : list ccall) : list Z :=
  match p with
  | [] => []
  | Enable :: p' => answers true f i p'
  | Disable :: p' => answers false f i p'
  | Clear Fwd :: p' => answers on 0 i p'
  | Clear Inv :: p' => answers on f 0 p'
  | Get Fwd :: p' => f mod 2 ^ 32 :: answers on f i p'
  | Get Inv :: p' => i mod 2 ^ 32 :: answers on f i p'
  | Transform Fwd :: p' => answers on (if on then f + 1 else f) i p'
  | Transform Inv :: p' => answers on f (if on then i + 1 else i) p'
  end.
(** Transforms of direction [d] that have read the flag but not yet been added. *)
Definition pending (d : dir) (ts : list cthread) : Z :=
  Z.of_nat (length (filter (fun t => match th_add t with Some d' => dir_eqb d d' | None => false end) ts)).
