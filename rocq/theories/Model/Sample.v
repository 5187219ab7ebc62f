(** Random samplers. [algebra/src/{random,utils/sample}.rs], [algebra/src/field/mod.rs],
    [lattice/src/utils/sample.rs].  The generator is a stream: [words i] is the i-th [next_u32]. *)
From Coq Require Import ZArith List Bool.
From Verif Require Import Model.Base Model.Field.
Import ListNotations.
Local Open Scope Z_scope.

(** The inner loop of the vector samplers (e.g. [lattice/src/utils/sample.rs:18-21]): [m] elements
    [s[r & mask]], shifting [r] by [w] bits after each. *)
Fixpoint fill (w : Z) (s : list Z) (m : nat) (r : Z) : option (list Z) :=
  match m with
  | O => Some []
  | S m' =>
      let* x := index s (Z.to_nat (Z.land r (2 ^ w - 1))) in
      let* r := ushr 32 r w in
      let* l := fill w s m' r in
      Some (x :: l)
  end.

(** [chunks_exact_mut(per)] with one word per chunk.  [algebra/src/utils/sample.rs:14-20,38-47]. *)
Fixpoint fill_chunks (w : Z) (s : list Z) (per c : nat) (words : nat -> Z) : option (list Z) :=
  match c with
  | O => Some []
  | S c' =>
      let* x := fill w s per (words O) in
      let* l := fill_chunks w s per c' (fun i => words (S i)) in
      Some (x ++ l)
  end.

(** Whole chunks, then the remainder from one more word, drawn even when the remainder is empty
    ([lattice/src/utils/sample.rs:15-28,32-53], [algebra/src/utils/sample.rs:12-27,36-51]). *)
Definition sample_symbols (w : Z) (s : list Z) (per len : nat) (words : nat -> Z) : option (list Z) :=
  let c := Nat.div len per in
  let* l := fill_chunks w s per c words in
  let* t := fill w s (Nat.modulo len per) (words c) in
  Some (l ++ t).

(** [lattice/src/utils/sample.rs:9-29]: [T::as_from(r & 1)] is the bit itself. *)
Definition sample_binary_values (len : nat) (words : nat -> Z) : option (list Z) := sample_symbols 1 [0; 1] 32 len words.
(** [lattice/src/utils/sample.rs:32-53]. *)
Definition sample_ternary_values (q : Z) (len : nat) (words : nat -> Z) : option (list Z) :=
  let* m := usub q 1 in sample_symbols 2 [0; 0; 1; m] 16 len words.
(** [algebra/src/utils/sample.rs:7-28]. *)
Definition sample_binary_field_vec (F : field) (len : nat) (words : nat -> Z) : option (list Z) := sample_symbols 1 [0; 1] 32 len words.
(** [algebra/src/utils/sample.rs:31-52]; [F::neg_one()] is modulus - 1. *)
Definition sample_ternary_field_vec (F : field) (len : nat) (words : nat -> Z) : option (list Z) :=
  let* m := usub (fp F) 1 in sample_symbols 2 [0; 0; 1; m] 16 len words.

(** [BinarySampler], [FieldBinarySampler]: [lattice/src/utils/sample.rs:161-169],
    [algebra/src/random.rs:90-95]. *)
Definition binary_sample (r : Z) : option Z := index [0; 1] (Z.to_nat (Z.land r 1)).
(** [TernarySampler], [FieldTernarySampler]: [lattice/src/utils/sample.rs:177-199],
    [algebra/src/random.rs:105-110]. *)
Definition ternary_sample (q r : Z) : option Z :=
  let* m := usub q 1 in index [0; 0; 1; m] (Z.to_nat (Z.land r 3)).

(** std [u8::count_ones].  [algebra/src/utils/sample.rs:66-67]. *)
Definition count_ones (x : Z) : Z := fold_right (fun i a => b2z (Z.testbit x i) + a) 0 [0; 1; 2; 3; 4; 5; 6; 7].

(** The closure of [algebra/src/utils/sample.rs:55-76] on the six bytes of one [fill_bytes];
    [modulus - (b - a)] is checked. *)
Definition cbd_value (F : field) (x0 x1 x2 x3 x4 x5 : Z) : option Z :=
  let x2 := Z.land x2 31 in
  let x5 := Z.land x5 31 in
  let a := count_ones x0 + count_ones x1 + count_ones x2 in
  let b := count_ones x3 + count_ones x4 + count_ones x5 in
  if b <=? a then f_new F (a - b) else let* v := usub (fp F) (b - a) in f_new F v.
(** [algebra/src/utils/sample.rs:55-76]: [bytes i] is the i-th byte drawn. *)
Fixpoint sample_cbd_field_vec (F : field) (len : nat) (bytes : nat -> Z) : option (list Z) :=
  match len with
  | O => Some []
  | S len' =>
      let* x := cbd_value F (bytes 0%nat) (bytes 1%nat) (bytes 2%nat) (bytes 3%nat) (bytes 4%nat) (bytes 5%nat) in
      let* l := sample_cbd_field_vec F len' (fun i => bytes (6 + i)%nat) in
      Some (x :: l)
  end.

(** The word type behind [UniformBase::Sample] ([random.rs:38-41]): 32 bits, 64 for a [u64] field. *)
Definition sample_width (F : field) : Z := if fw F <=? 32 then 32 else fw F.
(** [range.wrapping_neg() % range] ([random.rs:59], [field/mod.rs:88]). *)
Definition thresh (F : field) : option Z := urem (wsub (sample_width F) 0 (fp F)) (fp F).
(** One pass of the loop of [random.rs:73-81], [field/mod.rs:90-95]: [None] is a rejected word; the
    result, when accepted, goes through [F::new]. *)
Definition uniform_try (F : field) (th r : Z) : option (option Z) :=
  let '(lo, hi) := widening_mul (sample_width F) r (fp F) in
  if th <=? lo then let* v := f_new F (ucast (fw F) hi) in Some (Some v) else Some None.
(** The loop itself over the words drawn; [None] when they run out (the real stream never does).
    [algebra/src/random.rs:74-79], [algebra/src/field/mod.rs:90-95]. *)
Fixpoint uniform_loop (F : field) (th : Z) (rs : list Z) : option Z :=
  match rs with
  | [] => None
  | r :: rs' => let* o := uniform_try F th r in match o with Some v => Some v | None => uniform_loop F th rs' end
  end.
(** [FieldUniformSampler::sample] and [Field::random].
    [algebra/src/random.rs:73-81], [algebra/src/field/mod.rs:86-98]. *)
Definition uniform_sample (F : field) (rs : list Z) : option Z := let* th := thresh F in uniform_loop F th rs.
