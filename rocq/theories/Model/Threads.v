(** Threads sharing the table cache, with the tables themselves, failing generations, panics and
    poisoning. [algebra_derive/src/ntt.rs:149-193].

    The threads' own computations are programs that issue requests and continue with the answers (the two
    closures of [rayon::join] at [bool/src/bfhe/evaluate.rs:327], or any other caller).  One step is one
    access to the shared statics; each access is atomic (simplification: this is what an execution without
    data race means, see C26 for when that is so). *)
From Coq Require Import ZArith List Bool Arith.
From Verif Require Import Model.Base Model.Field Model.NTT Model.Concrete Spec.ConcreteNtt Model.Poly Model.Cache.
Import ListNotations.

(** A computation that asks for tables: a result, or a request and what is done with the answer (the callers
    of [algebra_derive/src/ntt.rs:149-193]). *)
Inductive prog (A : Type) :=
| Ret (a : A)
| Ask (c : call) (next : answer -> prog A).
Arguments Ret {A}.
Arguments Ask {A}.

(** Where a thread is; lines of [algebra_derive/src/ntt.rs].  [back] is the size [get_ntt_table] goes on to look
    up after [init_ntt_table] returns, if it was the caller. *)
Inductive tstate (A : Type) :=
| Run (p : prog A)                                                    (* between requests *)
| Look (k : nat) (d : nat -> nat -> Z) (o : list nat -> list nat) (next : answer -> prog A)
                                                                      (* 151: has the map, about to look up *)
| Wait (ks : list nat) (d : nat -> nat -> Z) (o : list nat -> list nat) (back : option nat) (next : answer -> prog A)
                                                                      (* 163: about to take the mutex *)
| Fill (ks todo : list nat) (fresh : option tmap) (d : nat -> nat -> Z) (back : option nat) (next : answer -> prog A)
                                                                      (* 170, 182: in the loop, mutex held;
                                                                         [fresh]: the private map of 180 *)
| Insert (ks : list nat) (k : nat) (T : any_table) (todo : list nat) (d : nat -> nat -> Z) (back : option nat) (next : answer -> prog A)
                                                                      (* 172: about to insert, mutex held *)
| Reread (k : nat) (next : answer -> prog A).                         (* 158: the second lookup *)
Arguments Run {A}.
Arguments Look {A}.
Arguments Wait {A}.
Arguments Fill {A}.
Arguments Insert {A}.
Arguments Reread {A}.

(** [init_ntt_table] has returned [r] ([ntt.rs:156-159] for [get_ntt_table], else the caller). *)
Definition returned {A} (ks : list nat) (back : option nat) (next : answer -> prog A) (r : option (res unit)) : tstate A :=
  match back with
  | None => Run (next (InitAnswer ks r))
  | Some k =>
      match r with
      | Some (Ok _) => Reread k next
      | Some Err => Run (next (GetAnswer k (Some Err)))
      | None => Run (next (GetAnswer k None))
      end
  end.

(** One step of a thread: new statics, whether the mutex is held, new thread; [None] if it cannot move
    ([ntt.rs:149-193]). *)
Definition step {A} (F : field) (ext : option plans) (c : cache) (lock : bool) (t : tstate A)
  : option (cache * bool * tstate A) :=
  match t with
  | Run (Ret _) => None
  | Run (Ask (Get k d o) next) =>
      (* 150: [NTT_TABLE.get()] *)
      match c_cell c with
      | Some _ => Some (c, lock, Look k d o next)
      | None => Some (c, lock, Wait [k] d o (Some k) next)
      end
  | Run (Ask (Init ks d o) next) => Some (c, lock, Wait ks d o None next)
  | Look k d o next =>
      match cached c k with
      | Some T => Some (c, lock, Run (next (GetAnswer k (Some (Ok T)))))
      | None => Some (c, lock, Wait [k] d o (Some k) next)
      end
  | Wait ks d o back next =>
      if lock then None
      else if c_poison c then Some (c, lock, returned ks back next None)  (* 163: [unwrap] of a poisoned lock *)
      else
        match c_cell c with
        | Some m =>
            let missing := filter (fun k => negb (existsb (Nat.eqb k) (map fst m))) (nodup Nat.eq_dec ks) in
            Some (c, true, Fill ks (o missing) None d back next)
        | None => Some (c, true, Fill ks (o (nodup Nat.eq_dec ks)) (Some []) d back next)
        end
  | Fill ks [] None d back next => Some (c, false, returned ks back next (Some (Ok tt)))
  | Fill ks [] (Some m) d back next =>
      (* 186: [set] fails if the cell has a value *)
      match c_cell c with
      | Some _ => Some (c, false, returned ks back next (Some Err))
      | None => Some (mk_cache (c_poison c) (Some m), false, returned ks back next (Some (Ok tt)))
      end
  | Fill ks (k :: todo) fresh d back next =>
      match generate_table F ext (d k) k with
      | None => Some (mk_cache true (c_cell c), false, returned ks back next None)
      | Some Err => Some (c, false, returned ks back next (Some Err))
      | Some (Ok T) =>
          match fresh with
          | Some m => Some (c, lock, Fill ks todo (Some (map_insert k T m)) d back next)
          | None => Some (c, lock, Insert ks k T todo d back next)
          end
      end
  | Insert ks k T todo d back next =>
      let* m := c_cell c in
      Some (mk_cache (c_poison c) (Some (map_insert k T m)), lock, Fill ks todo None d back next)
  | Reread k next =>
      Some (c, lock, Run (next (GetAnswer k (match cached c k with Some T => Some (Ok T) | None => None end))))
  end.

(** The statics of [ntt.rs:50-53] and the threads. *)
Record state (A : Type) := mk_state { s_cache : cache; s_lock : bool; s_threads : list (tstate A) }.
Arguments mk_state {A}.
Arguments s_cache {A}.
Arguments s_lock {A}.
Arguments s_threads {A}.

(** Thread [i] makes one step of [ntt.rs:149-193]. *)
Definition move {A} (F : field) (ext : option plans) (i : nat) (w : state A) : option (state A) :=
  let* t := nth_error (s_threads w) i in
  let* ' (c, lock, t') := step F ext (s_cache w) (s_lock w) t in
  let* ts := upd (s_threads w) i t' in
  Some (mk_state c lock ts).
(** A schedule is the list of the threads that move (the operating system: no source counterpart). *)
Fixpoint moves {A} (F : field) (ext : option plans) (s : list nat) (w : state A) : option (state A) :=
  match s with
  | [] => Some w
  | i :: s' => let* w' := move F ext i w in moves F ext s' w'
  end.
(** The threads before their first request, in a fresh process ([ntt.rs:50-53]). *)
Definition begin {A} (ps : list (prog A)) : state A := mk_state cache_init false (map Run ps).
