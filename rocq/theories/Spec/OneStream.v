(** Vocabulary for one generator: what its answers are, and where the draws of a computation lie in them. *)
From Coq Require Import ZArith QArith Qabs List Bool SpecFloat.
From Verif Require Import Spec.Basic Spec.Poly Spec.Gauss Spec.Sampled.
From Verif Require Import Model.Base Model.Field Model.Sample Model.Gaussian Model.Params Model.Sampled Model.Stream.
Import ListNotations.
Local Open Scope Z_scope.

(** Words, bytes, floats and residues of the kinds asked for. *)
Definition gen_ok (G : generator) : Prop :=
  (forall w i, 0 < w -> 0 <= gn_word G w i < 2 ^ w) /\ (forall i t, 0 <= gn_byte G i t < 256) /\
  (forall g i, is_f64 (gn_normal G g i)) /\ (forall q i, 0 < q -> 0 <= gn_below G q i < q).
(** Two generators that answer the requests [a], ..., [b - 1] alike. *)
Definition agree (a b : nat) (G H : generator) : Prop := forall i, (a <= i < b)%nat ->
  (forall w, gn_word G w i = gn_word H w i) /\ (forall t, gn_byte G i t = gn_byte H i t) /\
  (forall g, gn_normal G g i = gn_normal H g i) /\ (forall q, gn_below G q i = gn_below H q i).

(** The items of a list occupy consecutive stretches of requests, from [a] up to [c]; [at_ a b x]: the item
    [x] is drawn by the requests [a], ..., [b - 1]. *)
Inductive laid {A : Type} (at_ : nat -> nat -> A -> Prop) : nat -> nat -> list A -> Prop :=
| laid_nil a : laid at_ a a []
| laid_cons a b c x l : at_ a b x -> laid at_ b c l -> laid at_ a c (x :: l).
(** Likewise for a pair. *)
Definition pair_at {A C : Type} (P : nat -> nat -> A -> Prop) (Q : nat -> nat -> C -> Prop) (a c : nat) (x : A * C) : Prop :=
  exists b, P a b (fst x) /\ Q b c (snd x).

Definition requests (a b : nat) : list nat := seq a (b - a).

(** One uniform residue: the first word of the stretch that is not rejected is its last. *)
Definition uniform_at (G : generator) (F : field) (a b : nat) (v : Z) : Prop :=
  (a < b)%nat /\ uniform_sample F (map (gn_word G (sample_width F)) (requests a b)) = Some v /\
  forall c, (a <= c < b)%nat -> uniform_sample F (map (gn_word G (sample_width F)) (requests a c)) = None.
(** An error polynomial of [n] coefficients: six bytes per coefficient, or all normal draws of the stretch. *)
Definition errors_at (G : generator) (n : nat) (g : gaussian) (a b : nat) (x : source) : Prop :=
  if gs_cbd g then b = (a + n)%nat /\ forall i t, (i < n)%nat -> (t < 6)%nat -> src_bytes x (6 * i + t)%nat = gn_byte G (a + i)%nat t
  else (a <= b)%nat /\ src_normals x = map (gn_normal G g) (requests a b).
(** A ring sample: its mask, then its error. *)
Definition ring_at (G : generator) (F : field) (n : nat) (g : gaussian) (a c : nat) (x : source) : Prop :=
  exists b, laid (uniform_at G F) a b (src_mask x) /\ errors_at G n g b c x.
(** An LWE sample: [n] residues, then its error. *)
Definition lwe_at (G : generator) (q : Z) (n : nat) (g : gaussian) (a c : nat) (x : source) : Prop :=
  src_mask x = map (gn_below G q) (requests a (a + n)) /\
  (a + n < c)%nat /\ src_normals x = map (gn_normal G g) (requests (a + n) c).

(** The sampler of mean 0 and a deviation. *)
Definition with_dev {A : Type} (dev : spec_float) (at_ : gaussian -> nat -> nat -> A -> Prop) (a b : nat) (x : A) : Prop :=
  exists g, gauss_new (S754_zero false) dev = Some g /\ at_ g a b x.

(** The draws of a key pack: the words of the LWE key, 32 binary or 16 ternary digits each and one more
    word, then those of the ring key, or its errors. *)
Definition words_at (G : generator) (a b : nat) (w : nat -> Z) : Prop := forall i, (a + i < b)%nat -> w i = gn_word G 32 (a + i)%nat.
Definition pack_at (G : generator) (P : parameters) (dv : deviations) (a c : nat) (words rwords : nat -> Z) (gx : source) : Prop :=
  let n := Z.to_nat (pp_n P) in let N := Z.to_nat (pp_N P) in
  let b := (a + S (Nat.div n (match pp_key P with LBinary => 32 | LTernary => 16 end)))%nat in
  words_at G a b words /\
  match pp_steps P, pp_ring_key P with
  | BrMs, _ => c = b
  | _, RBinary => c = (b + S (Nat.div N 32))%nat /\ words_at G b c rwords
  | _, RTernary => c = (b + S (Nat.div N 16))%nat /\ words_at G b c rwords
  | _, RGaussian => with_dev (dv_ring dv) (errors_at G N) b c gx
  end.

(** The draws of an evaluation key: the rotation key, per entry of the LWE secret one or two RGSW samples of
    two gadgets each, then the switching key. *)
Definition key_at (G : generator) (F : field) (P : parameters) (dv : deviations) (a c : nat) (X : key_sources) : Prop :=
  let n := Z.to_nat (pp_n P) in
  let row := with_dev (dv_ring dv) (ring_at G F (Z.to_nat (pp_N P))) in
  let rgsw := pair_at (laid row) (laid row) in
  exists b,
  match pp_key P with
  | LBinary => laid rgsw a b (ks_bin X)
  | LTernary => laid (pair_at rgsw rgsw) a b (ks_ter X)
  end /\
  match pp_steps P with
  | BrMsKs => laid (laid (laid (with_dev (dv_ks dv) (lwe_at G (pp_q P) n)))) b c (ks_lwe X)
  | BrKsMs => laid (laid (with_dev (dv_ks dv) (ring_at G F (2 ^ Nat.log2_up n)))) b c (ks_ring X)
  | BrMs => c = b
  end.

(** Within any [fuel] requests the generator gives a word that the uniform sampler keeps and, for each
    deviation, a normal draw within five deviations. *)
Definition lively (G : generator) (F : field) (dv : deviations) (fuel : nat) : Prop := forall i,
  (exists t, (i <= t < i + fuel)%nat /\ exists v, uniform_sample F [gn_word G (sample_width F) t] = Some v) /\
  forall dev g, In dev [dv_lwe dv; dv_ring dv; dv_ks dv] -> gauss_new (S754_zero false) dev = Some g ->
    exists t, (i <= t < i + fuel)%nat /\ ffinite (gn_normal G g t) /\ (Qabs (fval (gn_normal G g t)) < 5 * fval dev)%Q.
