(** Vocabulary for randomness sources and deviations. *)
From Coq Require Import ZArith QArith Qabs List Bool SpecFloat.
From Verif Require Import Spec.Basic Spec.Poly Spec.Gauss Spec.KeyGen Model.Base Model.Field Model.Poly Model.Params Model.Sampled.
Import ListNotations.
Local Open Scope Z_scope.

(** A standard deviation that is a sensible float, six times which rounds to at most [E]; 21 is the
    range of the centred binomial sampler that stands in for deviation 3.2. *)
Definition dev_bound (dev : spec_float) (E : Z) : Prop :=
  is_f64 dev /\ (1 # 2 ^ 100 <= fval dev <= inject_Z (2 ^ 100))%Q /\
  (6 * fval dev * (1 + (1 # 2 ^ 53)) <= inject_Z E + (1 # 2))%Q /\ (dev = f64_3_2 -> 21 <= E).

(** A source of bytes and floats, and of a mask of [n] residues modulo [m]. *)
Definition errors_ok (x : source) : Prop := (forall i, 0 <= src_bytes x i < 256) /\ Forall is_f64 (src_normals x).
Definition source_ok (m : Z) (n : nat) (x : source) : Prop :=
  (length (src_mask x) = n /\ canonical m (src_mask x)) /\ errors_ok x.
(** At least [c] of its normal draws lie within five deviations. *)
Definition plenty (dev : spec_float) (c : nat) (x : source) : Prop :=
  exists l, NoDup l /\ length l = c /\
    forall i, In i l -> (i < length (src_normals x))%nat /\
      let v := nth i (src_normals x) S754_nan in ffinite v /\ (Qabs (fval v) < 5 * fval dev)%Q.

(** The sources of the samples of an evaluation key: as many as the parameters ask for, those of the
    rotation key satisfying [Q1], those of the switching key [Q2]. *)
Definition key_sources_are (F : field) (k : nat) (j : Z) (P : parameters) (Q1 Q2 : source -> Prop) (X : key_sources) : Prop :=
  let n := Z.to_nat (pp_n P) in let l := bs_len (pp_basis P) in
  let rows xs := length xs = l /\ Forall Q1 xs in
  match pp_key P with
  | LBinary => length (ks_bin X) = n /\ Forall (fun x => rows (fst x) /\ rows (snd x)) (ks_bin X)
  | LTernary => length (ks_ter X) = n /\
      Forall (fun x => (rows (fst (fst x)) /\ rows (snd (fst x))) /\ (rows (fst (snd x)) /\ rows (snd (snd x)))) (ks_ter X)
  end /\
  match pp_steps P with
  | BrMsKs => length (ks_lwe X) = Z.to_nat ((j + pp_ks_bits P - 1) / pp_ks_bits P) /\
      Forall (fun level => length level = (2 ^ k)%nat /\ Forall (fun row => Z.of_nat (length row) = 2 ^ pp_ks_bits P - 1 /\ Forall Q2 row) level) (ks_lwe X)
  | BrKsMs => exists b, basis_new F (pp_ks_bits P) = Some b /\
      length (ks_ring X) = (2 ^ (k - Nat.log2_up n))%nat /\ Forall (fun xs => length xs = bs_len b /\ Forall Q2 xs) (ks_ring X)
  | BrMs => True
  end.

(** Modulus, mask length and number of noise values of one sample of the switching key. *)
Definition switch_modulus (p j : Z) (P : parameters) : Z := match pp_steps P with BrMsKs => 2 ^ j | _ => p end.
Definition switch_length (P : parameters) : nat :=
  match pp_steps P with BrKsMs => (2 ^ Nat.log2_up (Z.to_nat (pp_n P)))%nat | _ => Z.to_nat (pp_n P) end.
Definition switch_count (P : parameters) : nat := match pp_steps P with BrMsKs => 1%nat | _ => switch_length P end.

(** Parameters and deviations for which gates work: [good_params], noise bounds [E], [Ek] and [Ee] for
    the rotation key, the switching key and encryption below their moduli, and a level [D] that covers
    gate outputs and fresh ciphertexts and fits the budget. *)
Definition sampled_setting (BF p : Z) (k : nat) (F : field) (tbl : tables) (B j bits : Z) (P : parameters) (dv : deviations) (E Ek Ee D : Z) : Prop :=
  let N := Z.of_nat (2 ^ k) in let q := 2 ^ j in
  good_params BF p k F tbl B j bits P /\
  (dev_bound (dv_ring dv) E /\ E < p) /\
  (pp_steps P <> BrMs -> dev_bound (dv_ks dv) Ek /\ Ek < switch_modulus p j P) /\ 0 <= Ek /\
  (dev_bound (dv_lwe dv) Ee /\ Ee < q) /\
  key_noise F p k j bits P E Ek N (pp_n P) <= D /\ 2 * p * Ee <= D /\
  12 * N * D + 2 * key_first_switch N q (pp_n P) * p < q * N * p.

(** Sources for a pair of keys: two streams of words, a source of errors for a Gaussian ring secret, and
    one source per sample of the evaluation key. [Q] says what is asked of a source from which errors of
    a given deviation and number are drawn. *)
Definition pair_sources (F : field) (p : Z) (k : nat) (j : Z) (P : parameters) (dv : deviations) (Q : spec_float -> nat -> source -> Prop)
    (words rwords : nat -> Z) (gx : source) (X : key_sources) : Prop :=
  words32 words /\ words32 rwords /\
  (pp_steps P = BrKsMs -> pp_ring_key P = RGaussian -> errors_ok gx /\ Q (dv_ring dv) (2 ^ k)%nat gx) /\
  key_sources_are F k j P (fun x => source_ok p (2 ^ k) x /\ Q (dv_ring dv) (2 ^ k)%nat x)
    (fun x => source_ok (switch_modulus p j P) (switch_length P) x /\ Q (dv_ks dv) (switch_count P) x) X.
Definition anything (_ : spec_float) (_ : nat) (_ : source) : Prop := True.
