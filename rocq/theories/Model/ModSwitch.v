(** Modulus switching. [fhe_core/src/modulus_switch.rs].

    [f64] is IEEE-754 binary64 as given by the standard library's [SpecFloat] (executable, 53-bit
    precision, exponent bound 1024, round to nearest even), which is what [as f64], [*] and [/] are
    in Rust. *)
From Coq Require Import ZArith List Bool SpecFloat.
From Verif Require Import Model.Base Model.Field Model.Poly Model.Lwe.
Import ListNotations.
Local Open Scope Z_scope.

(** [v as f64] for an unsigned integer ([algebra/src/primitive/cast.rs], used at
    [modulus_switch.rs:13-14,26]). *)
Definition f64_of (v : Z) : spec_float := binary_normalize 53 1024 v 0 false.
(** [x * y] and [x / y] on [f64] ([modulus_switch.rs:26]). *)
Definition f64_mul (x y : spec_float) : spec_float := SFmul 53 1024 x y.
(** std [f64] [/] ([modulus_switch.rs:26]). *)
Definition f64_div (x y : spec_float) : spec_float := SFdiv 53 1024 x y.
(** [x.round() as C] ([modulus_switch.rs:25-27]): [round] rounds half-way cases away from zero; the
    cast of a float to an unsigned [B]-bit integer saturates and sends NaN to 0. *)
Definition f64_round_to (B : Z) (x : spec_float) : Z :=
  match x with
  | S754_zero _ | S754_nan => 0
  | S754_infinity s => if s then 0 else 2 ^ B - 1
  | S754_finite s m e =>
    if s then 0
    else Z.min (2 ^ B - 1) (if 0 <=? e then Zpos m * 2 ^ e else (Zpos m + 2 ^ (- e - 1)) / 2 ^ (- e))
  end.

(** The closures [reduce] and [switch] ([modulus_switch.rs:16-28,48-60,83-89]). *)
Definition ms_reduce (after v : Z) : option Z := if v <? after then Some v else usub v after.
(** The closure [switch] ([modulus_switch.rs:24-28,56-60,91-95]). *)
Definition ms_switch (B before after v : Z) : option Z :=
  ms_reduce after (f64_round_to B (f64_div (f64_mul (f64_of v) (f64_of after)) (f64_of before))).

(** [modulus_switch.rs:9-34].  [before] is [F::MODULUS_VALUE]; [B] is the width of [C]. *)
Definition lwe_modulus_switch (B before after : Z) (c : lwe) : option lwe :=
  let* a := mapM (ms_switch B before after) (la c) in
  let* b := ms_switch B before after (lb c) in
  Some (mk_lwe a b).

(** [modulus_switch.rs:40-69]: [zip] of the destination's [a] with the source's: the shorter length
    wins and a longer destination keeps its tail. *)
Definition lwe_modulus_switch_inplace (B before after : Z) (c dst : lwe) : option lwe :=
  let* a := zipA (fun _ v => ms_switch B before after v) (la dst) (la c) in
  let* b := ms_switch B before after (lb c) in
  Some (mk_lwe a b).

(** [modulus_switch.rs:75-99]. *)
Definition lwe_modulus_switch_assign (B before after : Z) (c : lwe) : option lwe :=
  let* a := mapM (ms_switch B before after) (la c) in
  let* b := ms_switch B before after (lb c) in
  Some (mk_lwe a b).
