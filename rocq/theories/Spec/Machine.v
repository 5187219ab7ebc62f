(** Vocabulary for generators with a state: what they answer, the states a computation visits, and the
    generator that reads a stream of bytes. *)
From Coq Require Import ZArith List Bool SpecFloat.
From Verif Require Import Spec.Basic Spec.Aes Spec.Stream Spec.Gauss.
From Verif Require Import Model.Base Model.Gaussian Model.Stream Model.Prg Model.Aes Model.Seeded.
Import ListNotations.
Local Open Scope Z_scope.

(** Words, bytes, floats and residues of the kinds asked for, whenever it answers. *)
Definition rng_ok {St : Type} (R : rng St) : Prop :=
  (forall w x v y, 0 < w -> rn_word R w x = Got (v, y) -> 0 <= v < 2 ^ w) /\
  (forall x l y, rn_bytes R 6 x = Got (l, y) -> bytes 6 l) /\
  (forall g x v y, rn_normal R g x = Got (v, y) -> is_f64 v) /\
  (forall q x v y, 0 < q -> rn_below R q x = Got (v, y) -> 0 <= v < q).

(** One request takes it from [x] to [y]. *)
Definition moves {St : Type} (R : rng St) (x y : St) : Prop :=
  (exists w v, rn_word R w x = Got (v, y)) \/ (exists l, rn_bytes R 6 x = Got (l, y)) \/
  (exists g v, rn_normal R g x = Got (v, y)) \/ (exists q v, rn_below R q x = Got (v, y)).
(** The states [l] in which the requests between [x] and [y] are made. *)
Inductive visits {St : Type} (R : rng St) : St -> list St -> St -> Prop :=
| visits_nil x : visits R x [] x
| visits_cons x y l z : moves R x y -> visits R y l z -> visits R x (x :: l) z.
(** The requests from number [a] on are answered by [G] as by [R] in the states [l]. *)
Definition answered {St : Type} (R : rng St) (a : nat) (l : list St) (G : generator) : Prop := forall i x, nth_error l i = Some x ->
  (forall w v y, rn_word R w x = Got (v, y) -> gn_word G w (a + i) = v) /\
  (forall b y, rn_bytes R 6 x = Got (b, y) -> map (gn_byte G (a + i)) (seq 0 6) = b) /\
  (forall g v y, rn_normal R g x = Got (v, y) -> gn_normal G g (a + i) = v) /\
  (forall q v y, rn_below R q x = Got (v, y) -> gn_below G q (a + i) = v).
(** After some requests, another one panics. *)
Definition refuses {St : Type} (R : rng St) (x : St) : Prop := exists l z, visits R x l z /\
  ((exists w, rn_word R w z = Panicked) \/ rn_bytes R 6 z = Panicked \/
   (exists g, rn_normal R g z = Panicked) \/ (exists q, rn_below R q z = Panicked)).

(** The generator that reads the bytes [s] in words of four, [pos] of which have been read. *)
Definition part (s : Z -> Z) (pos : Z) (n : nat) : list Z := map (fun j => s (4 * pos + Z.of_nat j)) (seq 0 n).
Definition take {V : Type} (pos : Z) (v : V) : drawn (V * Z) := if pos <=? capacity then Got (v, pos) else Panicked.
Fixpoint read_stream {V : Type} (s : Z -> Z) (r : reader V) (pos : Z) : drawn (V * Z) :=
  match r with
  | Return v => Got (v, pos)
  | Forever => Looping
  | Read32 k => if pos + 1 <=? capacity then read_stream s (k (le_value (part s pos 4))) (pos + 1) else Panicked
  | Read64 k => if pos + 2 <=? capacity then read_stream s (k (le_value (part s pos 8))) (pos + 2) else Panicked
  end.
Definition stream_rng (s : Z -> Z) (normal : gaussian -> reader spec_float) (below : Z -> reader Z) : rng Z := mk_rng
  (fun w pos => if w =? 32 then take (pos + 1) (le_value (part s pos 4)) else if w =? 64 then take (pos + 2) (le_value (part s pos 8)) else Panicked)
  (fun n pos => take (pos + (Z.of_nat n + 3) / 4) (part s pos n))
  (fun g => read_stream s (normal g)) (fun q => read_stream s (below q)).

(** What a distribution gives, whatever it reads. *)
Inductive gives {V : Type} (P : V -> Prop) : reader V -> Prop :=
| gives_return v : P v -> gives P (Return v)
| gives_forever : gives P Forever
| gives_read32 k : (forall v, 0 <= v < 2 ^ 32 -> gives P (k v)) -> gives P (Read32 k)
| gives_read64 k : (forall v, 0 <= v < 2 ^ 64 -> gives P (k v)) -> gives P (Read64 k).

(** The generator of a seed after [pos] words of its stream have been used up, by any calls. *)
Definition reached (A : arch) (seed : list Z) (pos : Z) (g : block_rng) : Prop := exists cs, costs cs = pos /\
  (let* g0 := prg_from_seed A seed in let* '(_, g) := prg_run A cs g0 in Some g) = Some g.
(** The outcome of drawing from it is the outcome of drawing from the stream, and it moves along. *)
Definition as_stream {V : Type} (A : arch) (seed : list Z) (o : drawn (V * block_rng)) (o' : drawn (V * Z)) : Prop :=
  match o with
  | Got (v, g) => exists pos, o' = Got (v, pos) /\ reached A seed pos g
  | Panicked => o' = Panicked
  | Looping => o' = Looping
  end.
(** Two streams of bytes with the same words [pos], ..., [pos' - 1]. *)
Definition same_words (s s' : Z -> Z) (pos pos' : Z) : Prop := forall i, 4 * pos <= i < 4 * pos' -> s i = s' i.
