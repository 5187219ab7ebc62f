(** Keys and ciphertexts drawn from the seeded generator, as [bool/examples/bfhe.rs:29-45] and
    [bool/examples/count_ntt.rs:33] do with the [Prg] of [algebra/src/utils/prg.rs]. *)
From Coq Require Import ZArith List Bool SpecFloat.
From Verif Require Import Model.Base Model.Aes Model.Prg Model.Gaussian Model.Stream.
Import ListNotations.
Local Open Scope Z_scope.

(** What a distribution of the external crates [rand] and [rand_distr] may do with the generator that
    [distr.sample(rng)] hands it ([lattice/src/lwe.rs:346-348], [algebra/src/random.rs:204]): call
    [next_u32] and [next_u64], as often as it likes, depending on the answers; give a value, or never. *)
Inductive reader (V : Type) := Return (v : V) | Forever | Read32 (k : Z -> reader V) | Read64 (k : Z -> reader V).
Arguments Return {V}.
Arguments Forever {V}.
Arguments Read32 {V}.
Arguments Read64 {V}.

(** A panic of the generator stops everything (no code of its own: [algebra/src/utils/prg.rs:53-61]). *)
Definition got {V : Type} (o : option V) : drawn V := match o with Some v => Got v | None => Panicked end.
(** A distribution at work on a [Prg] ([algebra/src/utils/prg.rs:53-61]). *)
Fixpoint read_with {V : Type} (A : arch) (r : reader V) (g : block_rng) : drawn (V * block_rng) :=
  match r with
  | Return v => Got (v, g)
  | Forever => Looping
  | Read32 k => match Prg.next_u32 A g with Some (v, g') => read_with A (k v) g' | None => Panicked end
  | Read64 k => match next_u64 A g with Some (v, g') => read_with A (k v) g' | None => Panicked end
  end.
(** [impl RngCore for Prg], [algebra/src/utils/prg.rs:52-72], with the distributions [Normal] and [Uniform]
    as parameters; [rng.gen()] is [next_u32] or [next_u64] by the type of the word. *)
Definition prg_rng (A : arch) (normal : gaussian -> reader spec_float) (below : Z -> reader Z) : rng block_rng := mk_rng
  (fun w g => if w =? 32 then got (Prg.next_u32 A g) else if w =? 64 then got (next_u64 A g) else Panicked)
  (fun n g => got (fill_bytes A (S n) n g))
  (fun g => read_with A (normal g)) (fun q => read_with A (below q)).
