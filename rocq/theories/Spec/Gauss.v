(** Floating-point values and rounding to the nearest integer, in exact rationals. *)
From Coq Require Import ZArith QArith Qabs SpecFloat.
Local Open Scope Z_scope.

(** The rational number a finite float stands for. *)
Definition fval (x : spec_float) : Q :=
  match x with
  | S754_finite s m e =>
      let n := if s then Zneg m else Zpos m in
      if 0 <=? e then inject_Z (n * 2 ^ e) else n # Z.to_pos (2 ^ (- e))
  | _ => 0%Q
  end.
(** Neither infinite nor NaN. *)
Definition ffinite (x : spec_float) : Prop :=
  match x with S754_finite _ _ _ | S754_zero _ => True | _ => False end.
(** A binary64 number in normal form (all that a machine can hold). *)
Definition is_f64 (x : spec_float) : Prop := valid_binary 53 1024 x = true.

(** [r] is a nearest integer to [q]; between two, the one away from zero. *)
Definition rounds_to (q : Q) (r : Z) : Prop :=
  (Qabs (q - inject_Z r) <= 1 # 2)%Q /\
  ((Qabs (q - inject_Z r) == 1 # 2)%Q -> (Qabs q <= Qabs (inject_Z r))%Q).

(** The float written 3.2. *)
Definition f64_3_2 : spec_float := S754_finite false 7205759403792794 (-51).
