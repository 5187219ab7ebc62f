(** Blind rotation. [fhe_core/src/blind_rotation/{mod,binary,ternary}.rs]. *)
From Coq Require Import ZArith List Bool Arith.
From Verif Require Import Model.Base Model.Field Model.NTT Model.Concrete Model.Poly Model.Lwe Model.Rlwe Model.Gadget.
Import ListNotations.
Local Open Scope Z_scope.

(** std [slice::rotate_right]: panics when [r] exceeds the length.  [binary.rs:30-41], [ternary.rs:47,51]. *)
Definition rotate_right (l : list Z) (r : nat) : option (list Z) :=
  if (r <=? length l)%nat then Some (skipn (length l - r) l ++ firstn (length l - r) l) else None.

(** [binary.rs:30-41], [ternary.rs:43-54]: multiplication of the look-up table by X^{-b}.  [b] cast to
    [usize] keeps its value; [rlwe_dimension << 1] does not wrap because a vector is shorter than 2^63. *)
Definition lut_rotate (F : field) (lut : list Z) (b : Z) : option (list Z) :=
  if b =? 0 then Some lut
  else
    let n := length lut in
    let* neg_b := usub (2 * Z.of_nat n) b in
    let neg_b := Z.to_nat neg_b in
    if (neg_b <=? n)%nat then
      let* l := rotate_right lut neg_b in
      let* x := mapM (f_neg F) (firstn neg_b l) in Some (x ++ skipn neg_b l)
    else
      let r := (neg_b - n)%nat in
      let* l := rotate_right lut r in
      let* y := mapM (f_neg F) (skipn r l) in Some (firstn r l ++ y).

(** The fold of [binary.rs:45-68] over [key.iter().zip(lwe.a())].  [ext] is the [external_product]
    space, carried from one iteration to the next; the transform-form space is overwritten with zeros
    before each use ([gadget/rlwe.rs:405]), so only its length is kept. *)
Fixpoint binary_loop (F : field) (tbl : tables) (n : nat) (key : list rgsw) (a : list Z) (ext acc : rlwe) : option rlwe :=
  match key, a with
  | s_i :: key', a_i :: a' =>
      if a_i =? 0 then binary_loop F tbl n key' a' ext acc
      else
        let* ext := mul_monic_monomial_sub_one F acc n (Z.to_nat a_i) ext in
        let* ext := rlwe_mul_assign_ntt_rgsw F tbl ext s_i n n (rlwe_zero n) in
        let* acc := rlwe_add_assign F acc ext in
        binary_loop F tbl n key' a' ext acc
  | _, _ => Some acc
  end.

(** [binary.rs:19-69]. *)
Definition binary_blind_rotate (F : field) (tbl : tables) (key : list rgsw) (lut : list Z) (c : lwe) : option rlwe :=
  let n := length lut in
  let* lut := lut_rotate F lut (lb c) in
  let* acc := rlwe_new (repeat 0 n) lut in
  binary_loop F tbl n key (la c) (rlwe_zero n) acc.

(** [NTTRGSW::zero] ([rgsw.rs:248-253], [gadget/rlwe.rs:277-284]). *)
Definition nrgsw_zero (n : nat) (b : basis) : rgsw :=
  let g := mk_gadget (repeat (rlwe_zero n) (bs_len b)) b in mk_rgsw g g.

(** The fold of [ternary.rs:58-94].  [ek] is the [evaluation_key] space. *)
Fixpoint ternary_loop (F : field) (tbl : tables) (T : any_table) (n : nat) (key : list (rgsw * rgsw)) (a : list Z)
    (ext : rlwe) (ek : rgsw) (acc : rlwe) : option rlwe :=
  match key, a with
  | (s0, s1) :: key', a_i :: a' =>
      if a_i =? 0 then ternary_loop F tbl T n key' a' ext ek acc
      else
        let* neg_a := usub (2 * Z.of_nat n) a_i in
        let* d := t_transform_coeff_neg_one_monomial F T neg_a n in
        let* ek := nrgsw_add_mul_inplace F s0 s1 d ek in
        let* ext := mul_monic_monomial_sub_one F acc n (Z.to_nat a_i) ext in
        let* ext := rlwe_mul_assign_ntt_rgsw F tbl ext ek n n (rlwe_zero n) in
        let* acc := rlwe_add_assign F acc ext in
        ternary_loop F tbl T n key' a' ext ek acc
  | _, _ => Some acc
  end.

(** [ternary.rs:24-95]. *)
Definition ternary_blind_rotate (F : field) (tbl : tables) (key : list (rgsw * rgsw)) (lut : list Z) (c : lwe) (b : basis) : option rlwe :=
  let n := length lut in
  let* T := tbl (len_log n) in
  let* lut := lut_rotate F lut (lb c) in
  let* acc := rlwe_new (repeat 0 n) lut in
  ternary_loop F tbl T n key (la c) (rlwe_zero n) (nrgsw_zero n b) acc.

(** [mod.rs:23-28]. *)
Inductive br_key := BrBinary (key : list rgsw) | BrTernary (key : list (rgsw * rgsw)).

(** [mod.rs:43-56]. *)
Definition blind_rotate (F : field) (tbl : tables) (key : br_key) (lut : list Z) (c : lwe) (b : basis) : option rlwe :=
  match key with
  | BrBinary key => binary_blind_rotate F tbl key lut c
  | BrTernary key => ternary_blind_rotate F tbl key lut c b
  end.

(** The randomness of one RGSW sample: the (uniform, noise) pairs of its two gadget halves, as drawn
    at [lattice/src/rgsw.rs:343-392]. *)
Definition rgsw_rnd : Type := list (list Z * list Z) * list (list Z * list Z).

(** [binary.rs:72-104]; one entry of [rnd] per key entry. *)
Definition binary_generate (F : field) (tbl : tables) (lwe_sk sk : list Z) (b : basis) (rnd : list rgsw_rnd) : option (list rgsw) :=
  mapM2 (fun s r =>
    if s =? 0 then nrgsw_zero_sample F tbl sk b (fst r) (snd r)
    else nrgsw_one_sample F tbl sk b (fst r) (snd r)) lwe_sk rnd.

(** [ternary.rs:98-161]. *)
Definition ternary_generate (F : field) (tbl : tables) (lwe_sk sk : list Z) (b : basis) (rnd : list (rgsw_rnd * rgsw_rnd))
    : option (list (rgsw * rgsw)) :=
  mapM2 (fun s r =>
    let '((r0, r0'), (r1, r1')) := r in
    if s =? 1 then
      let* x := nrgsw_one_sample F tbl sk b r0 r0' in
      let* y := nrgsw_zero_sample F tbl sk b r1 r1' in Some (x, y)
    else if s =? 0 then
      let* x := nrgsw_zero_sample F tbl sk b r0 r0' in
      let* y := nrgsw_zero_sample F tbl sk b r1 r1' in Some (x, y)
    else
      let* x := nrgsw_zero_sample F tbl sk b r0 r0' in
      let* y := nrgsw_one_sample F tbl sk b r1 r1' in Some (x, y)) lwe_sk rnd.
