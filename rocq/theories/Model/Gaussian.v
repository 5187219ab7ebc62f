(** The Gaussian samplers. [algebra/src/random.rs:112-217], [lattice/src/utils/sample.rs:55-153],
    [algebra/src/polynomial/native_polynomial.rs:232-245].

    [f64] is the standard library's executable binary64, as in [Model/ModSwitch].  The draws of
    [rand_distr::Normal] are an input: a list of arbitrary floats. *)
From Coq Require Import ZArith List Bool SpecFloat.
From Verif Require Import Model.Base Model.Field Model.Sample.
Import ListNotations.
Local Open Scope Z_scope.

(** [x - y], [x * y], [x.abs()], [x < y], [x <= y] on [f64] ([random.rs:129-132,156,207]). *)
Definition f64_sub (x y : spec_float) : spec_float := SFsub 53 1024 x y.
(** std [f64] [*] ([random.rs:129], [sample.rs:76]). *)
Definition f64_times (x y : spec_float) : spec_float := SFmul 53 1024 x y.
(** The literal [6.0] ([random.rs:129], [sample.rs:76]). *)
Definition f64_six : spec_float := S754_finite false 6755399441055744 (-50).
(** [f64::is_finite]; [Normal::new] of rand_distr 0.4 fails exactly for a standard deviation that is not.
    [algebra/src/random.rs:133,159]. *)
Definition f64_is_finite (x : spec_float) : bool :=
  match x with S754_finite _ _ _ | S754_zero _ => true | _ => false end.
(** [x.to_bits() == 0.0f64.to_bits()] and [x.to_bits() == 3.2f64.to_bits()] ([random.rs:137-138]). *)
Definition bits_zero (x : spec_float) : bool := match x with S754_zero false => true | _ => false end.
(** [x.to_bits() == 3.2f64.to_bits()] ([random.rs:138]). *)
Definition bits_3_2 (x : spec_float) : bool :=
  match x with S754_finite false m e => (Zpos m =? 7205759403792794) && (e =? -51) | _ => false end.

(** [FieldDiscreteGaussianSampler], [random.rs:114-118]; [DiscreteGaussian], [sample.rs:57-61], has no
    [cbd_enable] and carries its modulus, here an argument of the functions below. *)
Record gaussian := mk_gaussian { gs_mean : spec_float; gs_dev : spec_float; gs_max : spec_float; gs_cbd : bool }.

(** [Normal::new] and the record, [random.rs:133-141], [sample.rs:80-87]; [None] is [Err]. *)
Definition gauss_build (mean dev max : spec_float) : option gaussian :=
  if f64_is_finite dev then Some (mk_gaussian mean dev max (bits_zero mean && bits_3_2 dev)) else None.
(** [random.rs:128-142], [sample.rs:71-88]. *)
Definition gauss_new (mean dev : spec_float) : option gaussian :=
  let max := f64_times dev f64_six in
  if SFltb dev (S754_zero false) then None else gauss_build mean dev max.
(** [random.rs:151-168], [sample.rs:97-114]. *)
Definition gauss_new_with_max (mean dev max : spec_float) : option gaussian :=
  if SFleb max dev || SFltb dev (S754_zero false) then None else gauss_build mean dev max.

(** What a call of the loops of [random.rs:202-216], [sample.rs:139-152] has done after the draws at
    hand. *)
Inductive drawn (A : Type) := Looping | Panicked | Got (a : A).
Arguments Looping {A}. Arguments Panicked {A}. Arguments Got {A} a.

(** The test of [random.rs:207], [sample.rs:143]. *)
Definition accepts (g : gaussian) (v : spec_float) : bool := SFltb (SFabs (f64_sub v (gs_mean g))) (gs_max g).
(** [value.round()] as an exact integer: halves away from zero; the float is that integer exactly
    ([random.rs:208], [sample.rs:144]). Infinities and NaN never get here. *)
Definition f64_round (x : spec_float) : Z :=
  match x with
  | S754_finite s m e =>
      let r := if 0 <=? e then Zpos m * 2 ^ e else (Zpos m + 2 ^ (- e - 1)) / 2 ^ (- e) in
      if s then - r else r
  | _ => 0
  end.
(** The saturating cast of a non-negative float to a [B]-bit word.  [algebra/src/random.rs:210,212]. *)
Definition saturate (B r : Z) : Z := Z.min (2 ^ B - 1) r.

(** [DiscreteGaussian::sample], [sample.rs:139-152]: the subtraction is checked. *)
Definition gauss_word (B q : Z) (v : spec_float) : option Z :=
  let r := f64_round v in
  if r <? 0 then usub q (saturate B (- r)) else Some (saturate B r).
(** [FieldDiscreteGaussianSampler::sample], [random.rs:202-216]. *)
Definition gauss_field (F : field) (v : spec_float) : option Z :=
  let r := f64_round v in
  if r <? 0 then let* x := usub (fp F) (saturate (fw F) (- r)) in f_new F x
  else f_new F (saturate (fw F) r).

(** The [loop] of both samplers around the conversion [conv].
    [algebra/src/random.rs:205-215], [lattice/src/utils/sample.rs:141-151]. *)
Fixpoint gauss_loop (conv : spec_float -> option Z) (g : gaussian) (draws : list spec_float) : drawn (Z * list spec_float) :=
  match draws with
  | [] => Looping
  | v :: rest =>
      if accepts g v then match conv v with Some x => Got (x, rest) | None => Panicked end
      else gauss_loop conv g rest
  end.
(** [DiscreteGaussian::sample], [sample.rs:139-152]. *)
Definition gauss_sample_word (B q : Z) := gauss_loop (gauss_word B q).
(** [FieldDiscreteGaussianSampler::sample], [random.rs:202-216]. *)
Definition gauss_sample_field (F : field) := gauss_loop (gauss_field F).

(** [gaussian.sample_iter(rng).take(n).collect()], [native_polynomial.rs:243]. *)
Fixpoint gauss_take (conv : spec_float -> option Z) (g : gaussian) (n : nat) (draws : list spec_float) : drawn (list Z) :=
  match n with
  | O => Got []
  | S n' =>
      match gauss_loop conv g draws with
      | Got (x, rest) => match gauss_take conv g n' rest with Got l => Got (x :: l) | Looping => Looping | Panicked => Panicked end
      | Looping => Looping
      | Panicked => Panicked
      end
  end.
(** [Polynomial::random_with_gaussian], [native_polynomial.rs:232-245]: [bytes] are the random bytes of
    the binomial sampler, used instead when [cbd_enable]. *)
Definition random_with_gaussian (F : field) (n : nat) (g : gaussian) (bytes : nat -> Z) (draws : list spec_float) : drawn (list Z) :=
  if gs_cbd g then match sample_cbd_field_vec F n bytes with Some l => Got l | None => Panicked end
  else gauss_take (gauss_field F) g n draws.
