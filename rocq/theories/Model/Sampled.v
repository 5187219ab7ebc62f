(** Key generation and encryption with the noise drawn by the Gaussian samplers of the parameters.

    The generator is one stream in the code.  Here every sample has a source of its own: the uniform mask
    it draws, the bytes and the normal draws its error sampler sees.  What a call does is a function of
    these, in whatever order the stream hands them out.  [Model/Stream] draws them all from one generator. *)
From Coq Require Import ZArith List Bool SpecFloat.
From Verif Require Import Model.Base Model.Plaintext Model.Field Model.NTT Model.Poly Model.Lwe Model.Rlwe Model.Gadget Model.BlindRotation Model.KeySwitch Model.Params Model.Boolean Model.Sample Model.SecretKey Model.Gaussian.
Import ListNotations.
Local Open Scope Z_scope.

(** What the calls [csrng.sample(..)], [fill_bytes] and [sample_iter] of one sample see,
    [lattice/src/lwe.rs:345-351], [lattice/src/rlwe.rs:577-595], [algebra/src/random.rs]. *)
Record source := mk_source { src_mask : list Z; src_bytes : nat -> Z; src_normals : list spec_float }.

(** Sequencing: a panic or an endless loop ends the computation (the semantics of [;] in the functions
    cited below; they have no code of their own). *)
Definition dbind {A C : Type} (x : drawn A) (f : A -> drawn C) : drawn C :=
  match x with Got a => f a | Looping => Looping | Panicked => Panicked end.
(** A panic of the deterministic part of [bool/src/bfhe/evaluate.rs:48-68],
    [fhe_core/src/secret_key.rs:69-177] (no code of its own). *)
Definition dlift {A : Type} (x : option A) : drawn A := match x with Some a => Got a | None => Panicked end.
(** The iterators of [fhe_core/src/key_switch/{lwe,rlwe}.rs], [fhe_core/src/blind_rotation/*.rs]
    over samples (no code of its own). *)
Fixpoint dmap {A C : Type} (f : A -> drawn C) (l : list A) : drawn (list C) :=
  match l with
  | [] => Got []
  | x :: l' => dbind (f x) (fun y => dbind (dmap f l') (fun ys => Got (y :: ys)))
  end.

(** The three standard deviations of [ConstParameters], [fhe_core/src/parameter.rs:93,102,115]. *)
Record deviations := mk_deviations { dv_lwe : spec_float; dv_ring : spec_float; dv_ks : spec_float }.
(** [lwe_noise_distribution], [ring_noise_distribution], [key_switching_noise_distribution_for_ring],
    [key_switching_noise_distribution_for_lwe], [fhe_core/src/parameter.rs:261-294]: [new(.., 0.0, ..).unwrap()]. *)
Definition noise_distribution (dev : spec_float) : drawn gaussian := dlift (gauss_new (S754_zero false) dev).

(** The draws of [RLWE::generate_random_zero_sample] and its relatives, [lattice/src/rlwe.rs:577-595,
    1034-1075]: a uniform mask and an error polynomial. *)
Definition ring_draws (F : field) (n : nat) (g : gaussian) (x : source) : drawn (list Z * list Z) :=
  dbind (random_with_gaussian F n g (src_bytes x) (src_normals x)) (fun e => Got (src_mask x, e)).
(** The draws of [LWE::generate_random_zero_sample], [lattice/src/lwe.rs:345-351]. *)
Definition lwe_draws (B q : Z) (g : gaussian) (x : source) : drawn (list Z * Z) :=
  dbind (gauss_sample_word B q g (src_normals x)) (fun e => Got (src_mask x, fst e)).

(** Sources for the samples of an evaluation key, laid out as in [key_draws].
    [fhe_core/src/blind_rotation/mod.rs:59-85], [fhe_core/src/key_switch/lwe.rs:30-116], [fhe_core/src/key_switch/rlwe.rs:24-118]. *)
Record key_sources := mk_key_sources {
  ks_bin : list (list source * list source); ks_ter : list ((list source * list source) * (list source * list source));
  ks_lwe : list (list (list source)); ks_ring : list (list source) }.
(** One RGSW sample, [lattice/src/rgsw.rs:147-194,344-392]. *)
Definition rgsw_draws (F : field) (n : nat) (g : gaussian) (x : list source * list source) : drawn rgsw_rnd :=
  dbind (dmap (ring_draws F n g) (fst x)) (fun r0 => dbind (dmap (ring_draws F n g) (snd x)) (fun r1 => Got (r0, r1))).

(** The draws of [BlindRotationKey::generate], [fhe_core/src/blind_rotation/mod.rs:59-85]. *)
Definition br_draws (F : field) (P : parameters) (dev : spec_float) (X : key_sources) : drawn (list rgsw_rnd * list (rgsw_rnd * rgsw_rnd)) :=
  let n := Z.to_nat (pp_N P) in
  dbind (noise_distribution dev) (fun g =>
  match pp_key P with
  | LBinary => dbind (dmap (rgsw_draws F n g) (ks_bin X)) (fun r => Got (r, []))
  | LTernary =>
      dbind (dmap (fun x => dbind (rgsw_draws F n g (fst x)) (fun r0 => dbind (rgsw_draws F n g (snd x)) (fun r1 => Got (r0, r1)))) (ks_ter X))
        (fun r => Got ([], r))
  end).
(** The draws of the two switching keys, [fhe_core/src/key_switch/lwe.rs:43,80-86],
    [fhe_core/src/key_switch/rlwe.rs:39-74]: ring samples have the LWE dimension rounded up to a power of
    two. *)
Definition switch_key_draws (B : Z) (F : field) (P : parameters) (dev : spec_float) (X : key_sources)
    : drawn (list (list (list (list Z * Z))) * list (list (list Z * list Z))) :=
  match pp_steps P with
  | BrMsKs => dbind (noise_distribution dev) (fun g => dbind (dmap (dmap (dmap (lwe_draws B (pp_q P) g))) (ks_lwe X)) (fun r => Got (r, [])))
  | BrKsMs => dbind (noise_distribution dev) (fun g =>
      dbind (dmap (dmap (ring_draws F (Nat.pow 2 (Nat.log2_up (Z.to_nat (pp_n P)))) g)) (ks_ring X)) (fun r => Got ([], r)))
  | BrMs => Got ([], [])
  end.
(** All of [EvaluationKey::new], [bool/src/bfhe/evaluate.rs:48-68]. *)
Definition sampled_draws (B : Z) (F : field) (P : parameters) (dv : deviations) (X : key_sources) : drawn key_draws :=
  dbind (br_draws F P (dv_ring dv) X) (fun br =>
  dbind (switch_key_draws B F P (dv_ks dv) X) (fun sw =>
  Got (mk_key_draws (fst br) (snd br) (fst sw) (snd sw)))).
(** The same, followed by the construction of the key from the draws, [bool/src/bfhe/evaluate.rs:48-68]. *)
Definition sampled_eval_key (B : Z) (F : field) (tbl : tables) (kp : key_pack) (dv : deviations) (X : key_sources) : drawn eval_key :=
  dbind (sampled_draws B F (kp_par kp) dv X) (fun R => dlift (eval_key_new B F tbl kp R)).
(** [SecretKeyPack::new], [fhe_core/src/secret_key.rs:69-122]; a Gaussian ring secret is drawn from [x]. *)
Definition sampled_key_pack (F : field) (tbl : tables) (P : parameters) (dv : deviations) (words rwords : nat -> Z) (x : source) : drawn key_pack :=
  match pp_steps P, pp_ring_key P with
  | BrKsMs, RGaussian =>
      dbind (noise_distribution (dv_ring dv)) (fun g =>
      dbind (random_with_gaussian F (Z.to_nat (pp_N P)) g (src_bytes x) (src_normals x)) (fun gauss =>
      dlift (key_pack_new F tbl P words rwords gauss)))
  | _, _ => dlift (key_pack_new F tbl P words rwords [])
  end.
(** [SecretKeyPack::encrypt], [fhe_core/src/secret_key.rs:150-177]. *)
Definition sampled_encrypt (B : Z) (kp : key_pack) (dv : deviations) (m : Z) (x : source) : drawn lwe :=
  dbind (noise_distribution (dv_lwe dv)) (fun g =>
  dbind (lwe_draws B (pp_q (kp_par kp)) g x) (fun ae => dlift (kp_encrypt B kp (fst ae) (snd ae) m))).
