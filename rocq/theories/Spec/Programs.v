(** What programs that ask for tables should come to. *)
From Coq Require Import ZArith List.
From Verif Require Import Model.Base Model.Field Model.NTT Model.Concrete Spec.ConcreteNtt Model.Poly Model.Cache Model.Threads.
Import ListNotations.

(** All requests the program can make satisfy [P]. *)
Fixpoint asks {A} (P : call -> Prop) (p : prog A) : Prop :=
  match p with Ret _ => True | Ask c next => P c /\ forall a, asks P (next a) end.

(** The right answers to a thread that already knows the sizes [known] to be there: a table of the size asked
    for, or an error when a size is not known and the request's own search for a root of unity fails; never
    a panic. *)
Definition right_answer (F : field) (ext : option plans) (known : list nat) (c : call) (a : answer) : Prop :=
  match c, a with
  | Get k d _, GetAnswer k' r =>
      k' = k /\
      match r with
      | Some (Ok T) => is_table F ext k T
      | Some Err => ~ In k known /\ generate_table F ext (d k) k = Some Err
      | None => False
      end
  | Init ks d _, InitAnswer ks' r =>
      ks' = ks /\
      match r with
      | Some (Ok _) => True
      | Some Err => exists k, In k ks /\ ~ In k known /\ generate_table F ext (d k) k = Some Err
      | None => False
      end
  | _, _ => False
  end.
(** The sizes known after an answer. *)
Definition learn (a : answer) (known : list nat) : list nat :=
  match a with
  | GetAnswer k (Some (Ok _)) => k :: known
  | InitAnswer ks (Some (Ok _)) => ks ++ known
  | _ => known
  end.
(** The results a program can have when all answers are right. *)
Fixpoint result {A} (F : field) (ext : option plans) (known : list nat) (p : prog A) (x : A) : Prop :=
  match p with
  | Ret y => x = y
  | Ask c next => exists a, right_answer F ext known c a /\ result F ext (learn a known) (next a) x
  end.

(** The answer when all searches succeed, [tbl k] being the table for [k]; the result then. *)
Definition the_answer (tbl : nat -> any_table) (c : call) : answer :=
  match c with Get k _ _ => GetAnswer k (Some (Ok (tbl k))) | Init ks _ _ => InitAnswer ks (Some (Ok tt)) end.
Fixpoint the_result {A} (tbl : nat -> any_table) (p : prog A) : A :=
  match p with Ret y => y | Ask c next => the_result tbl (next (the_answer tbl c)) end.
(** The searches of the request succeed. *)
Definition succeeds (F : field) (ext : option plans) (tbl : nat -> any_table) (c : call) : Prop :=
  match c with
  | Get k d _ => generate_table F ext (d k) k = Some (Ok (tbl k))
  | Init ks d _ => forall k, In k ks -> generate_table F ext (d k) k = Some (Ok (tbl k))
  end.

(** All threads have their results. *)
Definition finished {A} (w : state A) : Prop := Forall (fun t => exists x, t = Run (Ret x)) (s_threads w).
(** Thread [i] has the result [x]. *)
Definition got {A} (w : state A) (i : nat) (x : A) : Prop := nth_error (s_threads w) i = Some (Run (Ret x)).

(** For the examples: a thread that asks for the size [k] and returns the root of the table, or 0. *)
Definition ask_root (k : nat) : prog Z :=
  Ask (Get k (fun _ _ => 5%Z) (fun l => l)) (fun a =>
    match a with GetAnswer _ (Some (Ok T)) => Ret (t_root T) | _ => Ret 0%Z end).
