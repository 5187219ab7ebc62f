(** Polynomial decomposition into the caller's buffers.
    [algebra/src/polynomial/native_polynomial.rs:313-348]. *)
From Coq Require Import ZArith List Bool.
From Verif Require Import Model.Base Model.Field.
Import ListNotations.
Local Open Scope Z_scope.

(** [decompose_lsb_bits_at], [decomposable_field.rs:60-63], over [zip]: surplus entries on either
    side stay.  Result: (self, destination). *)
Fixpoint lsb_zip (F : field) (mask bits : Z) (self dest : list Z) : option (list Z * list Z) :=
  match self, dest with
  | v :: self', _ :: dest' =>
      let* t := ushr (fw F) v bits in
      let* ' (s, d) := lsb_zip F mask bits self' dest' in
      Some (t :: s, Z.land v mask :: d)
  | _, _ => Some (self, dest)
  end.
(** [native_polynomial.rs:340-348]. *)
Definition p_lsb_inplace (F : field) (b : basis) (self dest : list Z) : option (list Z * list Z) :=
  let* _ := assert (length dest =? length self)%nat in
  lsb_zip F (bs_mask b) (bs_bits b) self dest.
(** The loop of [native_polynomial.rs:324-332]. *)
Fixpoint decompose_rows (F : field) (b : basis) (self : list Z) (dest : list (list Z)) : option (list Z * list (list Z)) :=
  match dest with
  | [] => Some (self, [])
  | d :: dest' =>
      let* _ := assert (length d =? length self)%nat in
      let* ' (s, d') := lsb_zip F (bs_mask b) (bs_bits b) self d in
      let* ' (s', ds) := decompose_rows F b s dest' in
      Some (s', d' :: ds)
  end.
(** [native_polynomial.rs:318-333]. *)
Definition p_decompose_inplace (F : field) (b : basis) (self : list Z) (dest : list (list Z)) : option (list Z * list (list Z)) :=
  let* _ := assert (length dest =? bs_len b)%nat in
  decompose_rows F b self dest.
