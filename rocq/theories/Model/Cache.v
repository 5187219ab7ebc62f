(** The lazily filled table cache generated for every field. [algebra_derive/src/ntt.rs:50-53]
    ([static mut NTT_TABLE: OnceCell<HashMap<u32, Arc<Table>>>], [static NTT_MUTEX]) and
    [algebra_derive/src/ntt.rs:149-193]. *)
From Coq Require Import ZArith List Bool Arith Permutation.
From Verif Require Import Model.Base Model.Field Model.NTT Model.Concrete Spec.ConcreteNtt Model.Poly.
Import ListNotations.
Local Open Scope Z_scope.

(** * Calls executed one at a time *)

(** The hash map from [log_n] to tables.  [ntt.rs:51]. *)
Definition tmap := list (nat * any_table).
(** [HashMap::get].  [ntt.rs:151,158]. *)
Fixpoint map_get (m : tmap) (k : nat) : option any_table :=
  match m with
  | [] => None
  | (k', T) :: m' => if (k' =? k)%nat then Some T else map_get m' k
  end.
(** [HashMap::insert].  [ntt.rs:172,183]. *)
Definition map_insert (k : nat) (T : any_table) (m : tmap) : tmap :=
  (k, T) :: filter (fun e => negb (fst e =? k)%nat) m.

(** The statics: [c_poison] is the poison flag of the mutex, set when a panic unwinds through the
    guard.  [ntt.rs:51-53]. *)
Record cache := mk_cache { c_poison : bool; c_cell : option tmap }.
(** The statics of a fresh process ([algebra_derive/src/ntt.rs:50-53]). *)
Definition cache_init : cache := mk_cache false None.

(** [algebra_derive/src/ntt.rs:170-173,181-184]: the loop over the missing sizes.  [?] leaves the
    entries inserted so far in place; a panic (None) as well. *)
Fixpoint fill (gen : nat -> option (res any_table)) (ks : list nat) (m : tmap) : tmap * option (res unit) :=
  match ks with
  | [] => (m, Some (Ok tt))
  | k :: ks' =>
      match gen k with
      | None => (m, None)
      | Some Err => (m, Some Err)
      | Some (Ok T) => fill gen ks' (map_insert k T m)
      end
  end.

(** [algebra_derive/src/ntt.rs:162-193].  [order] is the iteration order of the hash sets and
    [draws k] the random numbers drawn while generating the table for [k]; both are arbitrary.  [ext] is
    the build.
    [OnceCell::set] cannot fail here: every other [set] happens under the same mutex. *)
Definition init_ntt_table (F : field) (ext : option plans) (draws : nat -> nat -> Z) (order : list nat -> list nat)
  (ks : list nat) (st : cache) : cache * option (res unit) :=
  let gen k := generate_table F ext (draws k) k in
  if c_poison st then (st, None)
  else
    match c_cell st with
    | Some m =>
        let missing := filter (fun k => negb (existsb (Nat.eqb k) (map fst m))) (nodup Nat.eq_dec ks) in
        let '(m', r) := fill gen (order missing) m in
        (mk_cache (match r with None => true | _ => false end) (Some m'), r)
    | None =>
        match fill gen (order (nodup Nat.eq_dec ks)) [] with
        | (_, None) => (mk_cache true None, None)
        | (_, Some Err) => (st, Some Err)
        | (m', Some (Ok _)) => (mk_cache false (Some m'), Some (Ok tt))
        end
    end.

(** The table stored for [k], if any.  [ntt.rs:150-151]. *)
Definition cached (st : cache) (k : nat) : option any_table :=
  match c_cell st with Some m => map_get m k | None => None end.

(** [algebra_derive/src/ntt.rs:149-160]. *)
Definition get_ntt_table (F : field) (ext : option plans) (draws : nat -> nat -> Z) (order : list nat -> list nat)
  (k : nat) (st : cache) : cache * option (res any_table) :=
  match cached st k with
  | Some T => (st, Some (Ok T))
  | None =>
      match init_ntt_table F ext draws order [k] st with
      | (st', None) => (st', None)
      | (st', Some Err) => (st', Some Err)
      | (st', Some (Ok _)) =>
          (st', match cached st' k with Some T => Some (Ok T) | None => None end)
      end
  end.

(** One call of a history: [get_ntt_table] or [init_ntt_table] ([algebra_derive/src/ntt.rs:149-193])
    with the random numbers and hash-set order it meets. *)
Inductive call :=
| Get (k : nat) (draws : nat -> nat -> Z) (order : list nat -> list nat)
| Init (ks : list nat) (draws : nat -> nat -> Z) (order : list nat -> list nat).
(** What such a call returns ([algebra_derive/src/ntt.rs:149-193]). *)
Inductive answer :=
| GetAnswer (k : nat) (r : option (res any_table))
| InitAnswer (ks : list nat) (r : option (res unit)).

(** Dispatch to the two functions of [algebra_derive/src/ntt.rs:149-193]. *)
Definition do_call (F : field) (ext : option plans) (c : call) (st : cache) : cache * answer :=
  match c with
  | Get k draws order => let '(st', r) := get_ntt_table F ext draws order k st in (st', GetAnswer k r)
  | Init ks draws order => let '(st', r) := init_ntt_table F ext draws order ks st in (st', InitAnswer ks r)
  end.

(** A history of calls of [algebra_derive/src/ntt.rs:149-193], one after the other (the caller: no
    source counterpart). *)
Fixpoint run (F : field) (ext : option plans) (h : list call) (st : cache) : cache * list answer :=
  match h with
  | [] => (st, [])
  | c :: h' =>
      let '(st', a) := do_call F ext c st in
      let '(st'', l) := run F ext h' st' in (st'', a :: l)
  end.

(** ** Vocabulary about histories (no source counterpart) *)

(** [T] is what the generator builds for [k] from some stream of random numbers.  [ntt.rs:171,182]. *)
Definition is_table (F : field) (ext : option plans) (k : nat) (T : any_table) : Prop :=
  exists d, (forall i, 2 <= d i <= fp F - 1) /\ generate_table F ext d k = Some (Ok T).

(** The random numbers are in range and [order] enumerates sets.  The enumeration at [ntt.rs:170,181]. *)
Definition draws_ok (F : field) (draws : nat -> nat -> Z) (order : list nat -> list nat) : Prop :=
  (forall k i, 2 <= draws k i <= fp F - 1) /\ (forall l, Permutation (order l) l).
(** A call as the environment can make it (vocabulary about [algebra_derive/src/ntt.rs:149-193]). *)
Definition call_ok (F : field) (c : call) : Prop :=
  match c with Get _ d o => draws_ok F d o | Init _ d o => draws_ok F d o end.

(** The answer to call [c] after history [h], starting from the fresh process.  [ntt.rs:149-160]. *)
Definition answer_after (F : field) (ext : option plans) (h : list call) (c : call) : answer :=
  snd (do_call F ext c (fst (run F ext h cache_init))).

(** [2n] fits the degree type, otherwise [try_into().unwrap()] panics.  [ntt.rs:345,376]. *)
Definition fits (F : field) (k : nat) : Prop := (k < 63)%nat /\ 2 * 2 ^ Z.of_nat k < 2 ^ fw F.
(** Every size of the call fits in that sense ([algebra_derive/src/ntt.rs:345,376]). *)
Definition call_fits (F : field) (c : call) : Prop :=
  match c with Get k _ _ => fits F k | Init ks _ _ => Forall (fits F) ks end.

(** The call did not panic (vocabulary about [algebra_derive/src/ntt.rs:149-193]). *)
Definition answer_ok (a : answer) : Prop :=
  match a with GetAnswer _ r => r <> None | InitAnswer _ r => r <> None end.

(** * Interleaved calls

    Threads execute lists of calls.  Only the accesses to the shared map are modelled: which sizes
    it holds, which thread is inside a lookup or an insertion, and the mutex.  Tables are dropped
    and generation always succeeds. *)

(** The calls: [get_ntt_table], [init_ntt_table] ([algebra_derive/src/ntt.rs:149-193]). *)
Inductive tcall := TGet (k : nat) | TInit (ks : list nat).

(** Program counter of a thread; lines of [algebra_derive/src/ntt.rs]. *)
Inductive pc :=
| PIdle                                              (* between calls *)
| PRead (k : nat)                                    (* line 151: inside [tables.get(&log_n)] *)
| PLock (ks : list nat) (back : option nat)          (* line 163: about to take the mutex *)
| PFill (todo : list nat) (fresh : option (list nat)) (back : option nat)
                                                     (* lines 170, 182: in the loop, mutex held;
                                                        [fresh]: a new private map is being built *)
| PInsert (k : nat) (todo : list nat) (back : option nat) (* line 172: inside [tables.insert] *)
| PReread (k : nat).                                 (* line 158: inside the second lookup *)

(** A thread: where it is in [algebra_derive/src/ntt.rs:149-193], and its calls to come. *)
Record thread := mk_thread { t_pc : pc; t_prog : list tcall }.

(** [w_cell]: sizes present in the shared map, if it exists; [w_lock]: a thread holds the mutex.  [ntt.rs:51-53]. *)
Record world := mk_world { w_cell : option (list nat); w_lock : bool; w_threads : list thread }.

(** [tables.get(&log_n)], [current.contains(..)] on the set of sizes
    ([algebra_derive/src/ntt.rs:151,166-168]). *)
Definition has (k : nat) (m : list nat) : bool := existsb (Nat.eqb k) m.

(** One atomic step of thread [t]: new cell, new lock state, new thread; None if it cannot move.  [ntt.rs:149-193]. *)
Definition tstep (cell : option (list nat)) (lock : bool) (t : thread)
  : option (option (list nat) * bool * thread) :=
  let prog := t_prog t in
  match t_pc t with
  | PIdle =>
      match prog with
      | [] => None
      | TGet k :: prog' =>
          (* line 150: [NTT_TABLE.get()], no lock taken *)
          match cell with
          | Some _ => Some (cell, lock, mk_thread (PRead k) prog')
          | None => Some (cell, lock, mk_thread (PLock [k] (Some k)) prog')
          end
      | TInit ks :: prog' => Some (cell, lock, mk_thread (PLock ks None) prog')
      end
  | PRead k =>
      match cell with
      | None => None
      | Some m => if has k m then Some (cell, lock, mk_thread PIdle prog)
                  else Some (cell, lock, mk_thread (PLock [k] (Some k)) prog)
      end
  | PLock ks back =>
      if lock then None
      else match cell with
           | Some m => Some (cell, true, mk_thread (PFill (filter (fun k => negb (has k m)) (nodup Nat.eq_dec ks)) None back) prog)
           | None => Some (cell, true, mk_thread (PFill (nodup Nat.eq_dec ks) (Some []) back) prog)
           end
  | PFill [] fresh back =>
      (* lines 188-193 and the end of the guard's scope *)
      let cell := match fresh with Some m => Some m | None => cell end in
      Some (cell, false, mk_thread (match back with Some k => PReread k | None => PIdle end) prog)
  | PFill (k :: todo) (Some m) back => Some (cell, lock, mk_thread (PFill todo (Some (k :: m)) back) prog)
  | PFill (k :: todo) None back => Some (cell, lock, mk_thread (PInsert k todo back) prog)
  | PInsert k todo back =>
      match cell with
      | None => None
      | Some m => Some (Some (k :: m), lock, mk_thread (PFill todo None back) prog)
      end
  | PReread k => Some (cell, lock, mk_thread PIdle prog)
  end.

(** Thread [i] makes one step of [algebra_derive/src/ntt.rs:149-193]. *)
Definition wstep (i : nat) (w : world) : option world :=
  let* t := nth_error (w_threads w) i in
  let* ' (cell, lock, t') := tstep (w_cell w) (w_lock w) t in
  let* ts := upd (w_threads w) i t' in
  Some (mk_world cell lock ts).

(** A schedule is the list of the threads that move (the operating system: no source counterpart).
    *)
Fixpoint sched (s : list nat) (w : world) : option world :=
  match s with
  | [] => Some w
  | i :: s' => let* w' := wstep i w in sched s' w'
  end.

(** The threads before any call, with the statics of [algebra_derive/src/ntt.rs:50-53]. *)
Definition start (cell : option (list nat)) (progs : list (list tcall)) : world :=
  mk_world cell false (map (mk_thread PIdle) progs).

(** The thread is inside a lookup in the shared map ([algebra_derive/src/ntt.rs:151,158]). *)
Definition reading (t : thread) : Prop := exists k, t_pc t = PRead k \/ t_pc t = PReread k.
(** The thread is inside an insertion into the shared map ([algebra_derive/src/ntt.rs:172]). *)
Definition mutating (t : thread) : Prop := exists k todo back, t_pc t = PInsert k todo back.
(** Inside the critical section ([algebra_derive/src/ntt.rs:162-193]). *)
Definition locked_pc (t : thread) : Prop :=
  match t_pc t with PFill _ _ _ | PInsert _ _ _ => True | _ => False end.
(** A data race: one thread mutates the map ([algebra_derive/src/ntt.rs:172]) while another one
    accesses it ([:151,158,172]). *)
Definition race (w : world) : Prop :=
  exists i j t u, i <> j /\ nth_error (w_threads w) i = Some t /\ nth_error (w_threads w) j = Some u /\
    mutating t /\ (reading u \/ mutating u).
(** Every size asked for by the call is in [m].  [ntt.rs:162]. *)
Definition calls_in (m : list nat) (c : tcall) : Prop :=
  match c with TGet k => In k m | TInit ks => incl ks m end.
