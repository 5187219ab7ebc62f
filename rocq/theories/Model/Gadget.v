(** Gadget RLWE and RGSW ciphertexts, gadget and external products.
    [lattice/src/gadget/rlwe.rs], [lattice/src/rlwe.rs:890-1031], [lattice/src/rgsw.rs]. *)
From Coq Require Import ZArith List Bool Arith.
From Verif Require Import Model.Base Model.Field Model.NTT Model.Concrete Model.Poly Model.Rlwe.
Import ListNotations.
Local Open Scope Z_scope.

(** [gadget/rlwe.rs:24-29,233-238]. *)
Record gadget := mk_gadget { gd : list rlwe; gb : basis }.

(** [gadget/rlwe.rs:31-55,260-273] ([new], [from_ref]). *)
Definition gadget_new (d : list rlwe) (b : basis) : option gadget :=
  let* _ := assert (length d =? bs_len b)%nat in Some (mk_gadget d b).
(** [gadget/rlwe.rs:240-248] ([NTTGadgetRLWE::from(GadgetRLWE)]). *)
Definition gadget_to_ntt (F : field) (tbl : tables) (G : gadget) : option gadget :=
  let* d := mapM (rlwe_to_ntt F tbl) (gd G) in Some (mk_gadget d (gb G)).

(** The loop over the rows shared by every gadget product
    ([gadget/rlwe.rs:119-124,143-149,353-357,381-386,411-416], [rlwe.rs:925-930,953-957,976-980,999-1004,1026-1030]): split one digit off the polynomial
    into the decomposition space (of length [dlen]), transform it, and run the closure [step]. *)
Fixpoint gadget_loop (F : field) (T : any_table) (step : rlwe -> rlwe -> list Z -> option rlwe)
    (b : basis) (dlen : nat) (rows : list rlwe) (f : list Z) (acc : rlwe) : option rlwe :=
  match rows with
  | [] => Some acc
  | g :: rows' =>
      let* _ := assert (dlen =? length f)%nat in
      let* ' (d, f) := poly_decompose_lsb F (bs_mask b) (bs_bits b) f in
      let* d := t_transform_slice F T d in
      let* acc := step acc g d in
      gadget_loop F T step b dlen rows' f acc
  end.

(** [gadget/rlwe.rs:107-109] (and every other product): [coeff_count] is a power of two with a table. *)
Definition lookup (tbl : tables) (f : list Z) : option any_table :=
  let* _ := len_pow2 (length f) in tbl (len_log (length f)).

(** The closure of [gadget/rlwe.rs:119-124,143-149]: the product goes through [temp]. *)
Definition mul_then_add (F : field) (tbl : tables) (n : nat) (acc g : rlwe) (d : list Z) : option rlwe :=
  let* t := rlwe_mul_ntt_poly F tbl g d (rlwe_zero n) in rlwe_add_assign F acc t.

(** [gadget/rlwe.rs:106-126] ([GadgetRLWE::mul_polynomial]). *)
Definition g_mul_polynomial (F : field) (tbl : tables) (G : gadget) (f : list Z) : option rlwe :=
  let* T := lookup tbl f in
  let n := length f in
  let* r := gadget_loop F T (mul_then_add F tbl n) (gb G) n (gd G) f (rlwe_zero n) in
  rlwe_from_ntt F tbl r.
(** [gadget/rlwe.rs:130-151]. *)
Definition g_mul_polynomial_add_rlwe (F : field) (tbl : tables) (G : gadget) (f : list Z) (x : rlwe) : option rlwe :=
  let* T := lookup tbl f in
  let n := length f in
  let* x := rlwe_to_ntt F tbl x in
  let* r := gadget_loop F T (mul_then_add F tbl n) (gb G) n (gd G) f x in
  rlwe_from_ntt F tbl r.

(** [gadget/rlwe.rs:341-360] ([NTTGadgetRLWE::mul_polynomial]). *)
Definition ng_mul_polynomial (F : field) (tbl : tables) (G : gadget) (f : list Z) : option rlwe :=
  let* T := lookup tbl f in
  gadget_loop F T (nrlwe_add_mul F) (gb G) (length f) (gd G) f (rlwe_zero (length f)).
(** [gadget/rlwe.rs:364-387] ([step] := exact closure) and 394-417 ([step] := fast closure).
    [dlen], [plen]: lengths of the decomposition and polynomial spaces; [dst] is zeroed. *)
Definition ng_mul_polynomial_inplace_with (step : field -> rlwe -> rlwe -> list Z -> option rlwe)
    (F : field) (tbl : tables) (G : gadget) (f : list Z) (dlen plen : nat) (dst : rlwe) : option rlwe :=
  let* T := lookup tbl f in
  let* _ := assert (plen =? length f)%nat in
  gadget_loop F T (step F) (gb G) dlen (gd G) f
    (mk_rlwe (repeat 0 (length (ra dst))) (repeat 0 (length (rb dst)))).
(** [gadget/rlwe.rs:364-387]. *)
Definition ng_mul_polynomial_inplace := ng_mul_polynomial_inplace_with nrlwe_add_mul.
(** [gadget/rlwe.rs:394-417]. *)
Definition ng_mul_polynomial_inplace_fast := ng_mul_polynomial_inplace_with nrlwe_add_mul_fast.

(** [rlwe.rs:910-931] (exact closure) and 938-958 (fast closure). *)
Definition nrlwe_add_gadget_mul_with (step : field -> rlwe -> rlwe -> list Z -> option rlwe)
    (F : field) (tbl : tables) (x : rlwe) (G : gadget) (f : list Z) (dlen plen : nat) : option rlwe :=
  let* _ := assert (length f =? plen)%nat in
  let* T := lookup tbl f in
  gadget_loop F T (step F) (gb G) dlen (gd G) f x.
(** [rlwe.rs:910-931]. *)
Definition nrlwe_add_gadget_mul_assign := nrlwe_add_gadget_mul_with nrlwe_add_mul.
(** [rlwe.rs:938-958]. *)
Definition nrlwe_add_gadget_mul_assign_fast := nrlwe_add_gadget_mul_with nrlwe_add_mul_fast.
(** [rlwe.rs:890-906]. *)
Definition nrlwe_add_gadget_mul (F : field) (tbl : tables) (x : rlwe) (G : gadget) (f : list Z) : option rlwe :=
  nrlwe_add_gadget_mul_assign F tbl x G f (length f) (length f).
(** [rlwe.rs:965-981]: consumes [f]; no polynomial space. *)
Definition nrlwe_add_gadget_mul_inplace_fast (F : field) (tbl : tables) (x : rlwe) (G : gadget) (f : list Z) (dlen : nat) : option rlwe :=
  let* T := lookup tbl f in
  gadget_loop F T (nrlwe_add_mul_fast F) (gb G) dlen (gd G) f x.
(** [rlwe.rs:985-1005] (exact closure) and 1012-1031 (fast closure): the negated polynomial is
    decomposed. *)
Definition nrlwe_sub_gadget_mul_with (step : field -> rlwe -> rlwe -> list Z -> option rlwe)
    (F : field) (tbl : tables) (x : rlwe) (G : gadget) (f : list Z) (dlen : nat) : option rlwe :=
  let* T := lookup tbl f in
  let* f := p_neg F f in
  gadget_loop F T (step F) (gb G) dlen (gd G) f x.
(** [rlwe.rs:985-1005]. *)
Definition nrlwe_sub_gadget_mul := nrlwe_sub_gadget_mul_with nrlwe_add_mul.
(** [rlwe.rs:1012-1031]. *)
Definition nrlwe_sub_gadget_mul_fast := nrlwe_sub_gadget_mul_with nrlwe_add_mul_fast.

(** [gadget/rlwe.rs:420-433]: [self + rhs * v] row by row, over the shortest of the three. *)
Fixpoint ng_add_mul_inplace (F : field) (l r : list rlwe) (v : list Z) (dst : list rlwe) : option (list rlwe) :=
  match dst, l, r with
  | d :: dst', x :: l', y :: r' =>
      let* z := nrlwe_add_mul_inplace F x y v d in
      let* t := ng_add_mul_inplace F l' r' v dst' in Some (z :: t)
  | _, _, _ => Some dst
  end.
(** [gadget/rlwe.rs:420-433]. *)
Definition gadget_add_mul_inplace (F : field) (x y : gadget) (v : list Z) (dst : gadget) : option gadget :=
  let* d := ng_add_mul_inplace F (gd x) (gd y) v (gd dst) in Some (mk_gadget d (gb dst)).

(** [gadget/rlwe.rs:85-102,320-337] ([add_inplace], [sub_inplace]). *)
Fixpoint rows_inplace (f : rlwe -> rlwe -> rlwe -> option rlwe) (l r dst : list rlwe) : option (list rlwe) :=
  match l, r, dst with
  | x :: l', y :: r', d :: dst' =>
      let* z := f x y d in let* t := rows_inplace f l' r' dst' in Some (z :: t)
  | _, _, _ => Some dst
  end.
(** [gadget/rlwe.rs:85-102,320-337]. *)
Definition gadget_op_inplace (f : rlwe -> rlwe -> rlwe -> option rlwe) (x y dst : gadget) : option gadget :=
  let* _ := assert (bs_basis (gb x) =? bs_basis (gb y)) in
  let* d := rows_inplace f (gd x) (gd y) (gd dst) in Some (mk_gadget d (gb dst)).

(** * Samples; [rnd] lists the (uniform, noise) pairs drawn, one per row. *)

(** [gadget/rlwe.rs:156-169] and 438-451 ([decompose_len] rows). *)
Definition zero_rows (sample : list Z -> list Z -> option rlwe) (b : basis) (rnd : list (list Z * list Z)) : option gadget :=
  let* d := mapM (fun ae => sample (fst ae) (snd ae)) (firstn (bs_len b) rnd) in Some (mk_gadget d b).
(** [gadget/rlwe.rs:156-169]. *)
Definition g_zero_sample (F : field) (tbl : tables) (sk : list Z) := zero_rows (rlwe_zero_sample F tbl sk).
(** [gadget/rlwe.rs:438-451]. *)
Definition ng_zero_sample (F : field) (tbl : tables) (sk : list Z) := zero_rows (nrlwe_zero_sample F tbl sk).

(** [gadget/rlwe.rs:185-190,209-214]: [len] iterations, the power is multiplied by the basis after
    every row (a checked multiplication of words). *)
Fixpoint power_rows (F : field) (row : Z -> list Z -> list Z -> option rlwe) (bv power : Z)
    (rnd : list (list Z * list Z)) : option (list rlwe) :=
  match rnd with
  | [] => Some []
  | (a, e) :: rnd' =>
      let* r := row power a e in
      let* power := umul (fw F) power bv in
      let* t := power_rows F row bv power rnd' in
      Some (r :: t)
  end.
(** [gadget/rlwe.rs:467-480,499-508]: the last row is peeled off, so the last power is not
    multiplied again. *)
Fixpoint power_rows_peeled (F : field) (row : Z -> list Z -> list Z -> option rlwe) (bv power : Z)
    (rnd : list (list Z * list Z)) : option (list rlwe) :=
  match rnd with
  | [] => None
  | [(a, e)] => let* r := row power a e in Some [r]
  | (a, e) :: rnd' =>
      let* r := row power a e in
      let* power := umul (fw F) power bv in
      let* t := power_rows_peeled F row bv power rnd' in
      Some (r :: t)
  end.

(** [gadget/rlwe.rs:172-193]. *)
Definition g_one_sample (F : field) (tbl : tables) (sk : list Z) (b : basis) (rnd : list (list Z * list Z)) : option gadget :=
  let* d := power_rows F (fun power a e =>
      let* r := rlwe_zero_sample F tbl sk a e in
      let* b0 := add_at_0 F (rb r) power in Some (mk_rlwe (ra r) b0)) (bs_basis b) 1 (firstn (bs_len b) rnd) in
  Some (mk_gadget d b).
(** [gadget/rlwe.rs:196-217]. *)
Definition g_neg_secret_sample (F : field) (tbl : tables) (sk : list Z) (b : basis) (rnd : list (list Z * list Z)) : option gadget :=
  let* d := power_rows F (fun power a e =>
      let* r := rlwe_zero_sample F tbl sk a e in
      let* a0 := add_at_0 F (ra r) power in Some (mk_rlwe a0 (rb r))) (bs_basis b) 1 (firstn (bs_len b) rnd) in
  Some (mk_gadget d b).
(** [gadget/rlwe.rs:454-483]. *)
Definition ng_one_sample (F : field) (tbl : tables) (sk : list Z) (b : basis) (rnd : list (list Z * list Z)) : option gadget :=
  let* d := power_rows_peeled F (fun power a e => nrlwe_value_sample F tbl sk a e power)
      (bs_basis b) 1 (firstn (bs_len b) rnd) in
  Some (mk_gadget d b).
(** [gadget/rlwe.rs:486-511]: the power is added to every transformed entry. *)
Definition ng_neg_secret_sample (F : field) (tbl : tables) (sk : list Z) (b : basis) (rnd : list (list Z * list Z)) : option gadget :=
  let* d := power_rows_peeled F (fun power a e =>
      let* r := nrlwe_zero_sample F tbl sk a e in
      let* a := mapM (fun v => f_add F v power) (ra r) in Some (mk_rlwe a (rb r))) (bs_basis b) 1 (firstn (bs_len b) rnd) in
  Some (mk_gadget d b).

(** * RGSW *)

(** [rgsw.rs:22-28,212-218]. *)
Record rgsw := mk_rgsw { c_neg : gadget; c_m : gadget }.

(** [rgsw.rs:220-228]. *)
Definition rgsw_to_ntt (F : field) (tbl : tables) (R : rgsw) : option rgsw :=
  let* x := gadget_to_ntt F tbl (c_neg R) in let* y := gadget_to_ntt F tbl (c_m R) in Some (mk_rgsw x y).

(** [rlwe.rs:492-496] with [add_gadget_rlwe_mul_polynomial] (321-327). *)
Definition rlwe_mul_rgsw (F : field) (tbl : tables) (x : rlwe) (R : rgsw) : option rlwe :=
  let* t := g_mul_polynomial F tbl (c_neg R) (ra x) in
  g_mul_polynomial_add_rlwe F tbl (c_m R) (rb x) t.
(** [rlwe.rs:504-510]. *)
Definition rlwe_mul_ntt_rgsw (F : field) (tbl : tables) (x : rlwe) (R : rgsw) : option rlwe :=
  let* t := ng_mul_polynomial F tbl (c_neg R) (ra x) in
  let* t := nrlwe_add_gadget_mul F tbl t (c_m R) (rb x) in
  rlwe_from_ntt F tbl t.
(** [rlwe.rs:549-574] ([mul_ntt_rgsw_inplace]). *)
Definition rlwe_mul_ntt_rgsw_inplace (F : field) (tbl : tables) (x : rlwe) (R : rgsw)
    (dlen plen : nat) (median dst : rlwe) : option rlwe :=
  let* t := ng_mul_polynomial_inplace_fast F tbl (c_neg R) (ra x) dlen plen median in
  let* t := nrlwe_add_gadget_mul_assign_fast F tbl t (c_m R) (rb x) dlen plen in
  inverse_transform_inplace F tbl t dst.
(** [rlwe.rs:518-541] ([mul_assign_ntt_rgsw]: the destination is [self]). *)
Definition rlwe_mul_assign_ntt_rgsw (F : field) (tbl : tables) (x : rlwe) (R : rgsw)
    (dlen plen : nat) (median : rlwe) : option rlwe :=
  rlwe_mul_ntt_rgsw_inplace F tbl x R dlen plen median x.

(** [rgsw.rs:126-144] ([mul_small_ntt_rgsw]). *)
Definition rgsw_mul_small_ntt (F : field) (tbl : tables) (R S : rgsw) : option rgsw :=
  let b := gb (c_neg R) in
  let* c0 := mapM (fun x => rlwe_mul_ntt_rgsw F tbl x S) (gd (c_neg R)) in
  let* g0 := gadget_new c0 b in
  let* c1 := mapM (fun x => rlwe_mul_ntt_rgsw F tbl x S) (gd (c_m R)) in
  let* g1 := gadget_new c1 b in
  Some (mk_rgsw g0 g1).
(** [rgsw.rs:116-119]. *)
Definition rgsw_mul_small (F : field) (tbl : tables) (R S : rgsw) : option rgsw :=
  let* S := rgsw_to_ntt F tbl S in rgsw_mul_small_ntt F tbl R S.

(** [rgsw.rs:311-318]. *)
Definition nrgsw_mul_assign (F : field) (R : rgsw) (v : list Z) : option rgsw :=
  let* d1 := mapM (fun x => nrlwe_mul_assign F x v) (gd (c_m R)) in
  let* d0 := mapM (fun x => nrlwe_mul_assign F x v) (gd (c_neg R)) in
  Some (mk_rgsw (mk_gadget d0 (gb (c_neg R))) (mk_gadget d1 (gb (c_m R)))).
(** [rgsw.rs:321-338]. *)
Definition nrgsw_add_mul_inplace (F : field) (R S : rgsw) (v : list Z) (dst : rgsw) : option rgsw :=
  let* g0 := gadget_add_mul_inplace F (c_neg R) (c_neg S) v (c_neg dst) in
  let* g1 := gadget_add_mul_inplace F (c_m R) (c_m S) v (c_m dst) in
  Some (mk_rgsw g0 g1).

(** [rgsw.rs:149-172,343-366]: the two gadgets draw their own randomness. *)
Definition rgsw_zero_sample (F : field) (tbl : tables) (sk : list Z) (b : basis) (r0 r1 : list (list Z * list Z)) : option rgsw :=
  let* x := g_zero_sample F tbl sk b r0 in let* y := g_zero_sample F tbl sk b r1 in Some (mk_rgsw x y).
(** [rgsw.rs:343-366]. *)
Definition nrgsw_zero_sample (F : field) (tbl : tables) (sk : list Z) (b : basis) (r0 r1 : list (list Z * list Z)) : option rgsw :=
  let* x := ng_zero_sample F tbl sk b r0 in let* y := ng_zero_sample F tbl sk b r1 in Some (mk_rgsw x y).
(** [rgsw.rs:175-193,369-392]. *)
Definition rgsw_one_sample (F : field) (tbl : tables) (sk : list Z) (b : basis) (r0 r1 : list (list Z * list Z)) : option rgsw :=
  let* x := g_neg_secret_sample F tbl sk b r0 in let* y := g_one_sample F tbl sk b r1 in Some (mk_rgsw x y).
(** [rgsw.rs:369-392]. *)
Definition nrgsw_one_sample (F : field) (tbl : tables) (sk : list Z) (b : basis) (r0 r1 : list (list Z * list Z)) : option rgsw :=
  let* x := ng_neg_secret_sample F tbl sk b r0 in let* y := ng_one_sample F tbl sk b r1 in Some (mk_rgsw x y).

(** [rgsw.rs:95-108,295-308] ([op] := [gadget_op_inplace] of addition or subtraction). *)
Definition rgsw_op_inplace (f : rlwe -> rlwe -> rlwe -> option rlwe) (R S dst : rgsw) : option rgsw :=
  let* g1 := gadget_op_inplace f (c_m R) (c_m S) (c_m dst) in
  let* g0 := gadget_op_inplace f (c_neg R) (c_neg S) (c_neg dst) in
  Some (mk_rgsw g0 g1).
