(** The transforms a gate and the generation of keys perform, as the counters of the [count_ntt]
    feature see them ([algebra/src/transformation/ntt_table.rs:302-308,334-340]).

    Every definition repeats the one of the same name without [_c] (in [Poly.v], [Rlwe.v], [Gadget.v],
    [BlindRotation.v], [KeySwitch.v], [Boolean.v], [SecretKey.v]) and also returns, in order, the calls
    that increment a counter.  [Proofs/TallyProofs.v] shows that forgetting these calls gives back the
    original definition.  Calls made before a panic are not kept. *)
From Coq Require Import ZArith List Bool Arith.
From Verif Require Import Model.Base Model.PowOf2 Model.Field Model.NTT Model.Concrete Model.Poly Model.Lwe Model.Rlwe Model.Gadget Model.BlindRotation Model.KeySwitch Model.ModSwitch Model.Params Model.Boolean Model.SecretKey Model.Count.
Import ListNotations.
Local Open Scope Z_scope.

(** A computation with the counted calls it makes (no source counterpart; the counters are
    [ntt_table.rs:157-159]). *)
Definition counted (A : Type) : Type := option (list dir * A).
(** Sequencing (no source counterpart; the counters are [ntt_table.rs:157-159]). *)
Definition cbind {A C : Type} (x : counted A) (f : A -> counted C) : counted C :=
  match x with
  | Some (t, a) => match f a with Some (t', c) => Some (t ++ t', c) | None => None end
  | None => None
  end.
(** Code that does not transform (no source counterpart). *)
Definition quiet {A : Type} (x : option A) : counted A := match x with Some a => Some ([], a) | None => None end.
(** Forgetting the calls (no source counterpart). *)
Definition erase {A : Type} (x : counted A) : option A := match x with Some (_, a) => Some a | None => None end.

Notation "'let!' x := e 'in' f" := (cbind e (fun x => f))
  (at level 200, x name, e at level 100, f at level 200, right associativity).
Notation "'let!' ' p := e 'in' f" := (cbind e (fun x => match x with p => f end))
  (at level 200, p pattern, e at level 100, f at level 200, right associativity).

(** Iteration (std [Iterator::map]).  E.g. [lattice/src/rlwe.rs:332]. *)
Fixpoint mapC {A C : Type} (f : A -> counted C) (l : list A) : counted (list C) :=
  match l with [] => quiet (Some []) | x :: r => let! y := f x in let! t := mapC f r in quiet (Some (y :: t)) end.
(** Iteration over two sequences (std [Iterator::zip]).  E.g. [algebra/src/polynomial/native_polynomial.rs:457]. *)
Fixpoint mapC2 {A A' C : Type} (f : A -> A' -> counted C) (l : list A) (l' : list A') : counted (list C) :=
  match l, l' with
  | x :: r, x' :: r' => let! y := f x x' in let! t := mapC2 f r r' in quiet (Some (y :: t))
  | _, _ => quiet (Some [])
  end.

(** [ntt_table.rs:300-308]; the table of the external crate does not count
    ([concrete.rs:44-48,125-129]). *)
Definition t_transform_slice_c (F : field) (t : any_table) (v : list Z) : counted (list Z) :=
  let* r := t_transform_slice F t v in
  match t with OwnTable _ => Some ([Fwd], r) | ExtTable _ => Some ([], r) end.
(** [ntt_table.rs:332-340]; the table of the external crate does not count
    ([concrete.rs:50-55,131-136]). *)
Definition t_inverse_transform_slice_c (F : field) (t : any_table) (v : list Z) : counted (list Z) :=
  let* r := t_inverse_transform_slice F t v in
  match t with OwnTable _ => Some ([Inv], r) | ExtTable _ => Some ([], r) end.

(** [ntt_polynomial.rs:38-47]. *)
Definition into_ntt_c (F : field) (tbl : tables) (a : list Z) : counted (list Z) :=
  let! _ := quiet (len_pow2 (length a)) in
  let! T := quiet (tbl (len_log (length a))) in
  t_transform_slice_c F T a.
(** [native_polynomial.rs:44-53]. *)
Definition into_native_c (F : field) (tbl : tables) (v : list Z) : counted (list Z) :=
  let! _ := quiet (len_pow2 (length v)) in
  let! T := quiet (tbl (len_log (length v))) in
  t_inverse_transform_slice_c F T v.
(** [native_polynomial.rs:519-580]. *)
Definition p_mul_assign_c (F : field) (tbl : tables) (a b : list Z) : counted (list Z) :=
  let! _ := quiet (same_len a b) in
  let! _ := quiet (len_pow2 (length a)) in
  let! T := quiet (tbl (len_log (length a))) in
  let! rhs := t_transform_slice_c F T b in
  let! lhs := t_transform_slice_c F T a in
  let! lhs := quiet (ntt_mul_assign_fast F lhs rhs) in
  t_inverse_transform_slice_c F T lhs.

(** [lattice/src/rlwe.rs:75-83]. *)
Definition rlwe_from_ntt_c (F : field) (tbl : tables) (x : rlwe) : counted rlwe :=
  let! a := into_native_c F tbl (ra x) in let! b := into_native_c F tbl (rb x) in quiet (Some (mk_rlwe a b)).
(** [rlwe.rs:674-686]. *)
Definition inverse_transform_inplace_c (F : field) (tbl : tables) (x dst : rlwe) : counted rlwe :=
  let! _ := quiet (len_pow2 (length (ra dst))) in
  let! T := quiet (tbl (len_log (length (ra dst)))) in
  let! _ := quiet (same_len (ra dst) (ra x)) in
  let! _ := quiet (same_len (rb dst) (rb x)) in
  let! a := t_inverse_transform_slice_c F T (ra x) in
  let! b := t_inverse_transform_slice_c F T (rb x) in
  quiet (Some (mk_rlwe a b)).

(** [gadget/rlwe.rs:411-416], [rlwe.rs:953-957,1026-1030]. *)
Fixpoint gadget_loop_c (F : field) (T : any_table) (step : rlwe -> rlwe -> list Z -> option rlwe)
    (b : basis) (dlen : nat) (rows : list rlwe) (f : list Z) (acc : rlwe) : counted rlwe :=
  match rows with
  | [] => quiet (Some acc)
  | g :: rows' =>
      let! _ := quiet (assert (dlen =? length f)%nat) in
      let! ' (d, f) := quiet (poly_decompose_lsb F (bs_mask b) (bs_bits b) f) in
      let! d := t_transform_slice_c F T d in
      let! acc := quiet (step acc g d) in
      gadget_loop_c F T step b dlen rows' f acc
  end.
(** [gadget/rlwe.rs:394-417]. *)
Definition ng_mul_polynomial_inplace_fast_c (F : field) (tbl : tables) (G : gadget) (f : list Z) (dlen plen : nat) (dst : rlwe) : counted rlwe :=
  let! T := quiet (lookup tbl f) in
  let! _ := quiet (assert (plen =? length f)%nat) in
  gadget_loop_c F T (nrlwe_add_mul_fast F) (gb G) dlen (gd G) f
    (mk_rlwe (repeat 0 (length (ra dst))) (repeat 0 (length (rb dst)))).
(** [rlwe.rs:938-958]. *)
Definition nrlwe_add_gadget_mul_assign_fast_c (F : field) (tbl : tables) (x : rlwe) (G : gadget) (f : list Z) (dlen plen : nat) : counted rlwe :=
  let! _ := quiet (assert (length f =? plen)%nat) in
  let! T := quiet (lookup tbl f) in
  gadget_loop_c F T (nrlwe_add_mul_fast F) (gb G) dlen (gd G) f x.
(** [rlwe.rs:1012-1031]. *)
Definition nrlwe_sub_gadget_mul_fast_c (F : field) (tbl : tables) (x : rlwe) (G : gadget) (f : list Z) (dlen : nat) : counted rlwe :=
  let! T := quiet (lookup tbl f) in
  let! f := quiet (p_neg F f) in
  gadget_loop_c F T (nrlwe_add_mul_fast F) (gb G) dlen (gd G) f x.
(** [rlwe.rs:518-541]. *)
Definition rlwe_mul_assign_ntt_rgsw_c (F : field) (tbl : tables) (x : rlwe) (R : rgsw) (dlen plen : nat) (median : rlwe) : counted rlwe :=
  let! t := ng_mul_polynomial_inplace_fast_c F tbl (c_neg R) (ra x) dlen plen median in
  let! t := nrlwe_add_gadget_mul_assign_fast_c F tbl t (c_m R) (rb x) dlen plen in
  inverse_transform_inplace_c F tbl t x.

(** [fhe_core/src/blind_rotation/binary.rs:45-68]. *)
Fixpoint binary_loop_c (F : field) (tbl : tables) (n : nat) (key : list rgsw) (a : list Z) (ext acc : rlwe) : counted rlwe :=
  match key, a with
  | s_i :: key', a_i :: a' =>
      if a_i =? 0 then binary_loop_c F tbl n key' a' ext acc
      else
        let! ext := quiet (mul_monic_monomial_sub_one F acc n (Z.to_nat a_i) ext) in
        let! ext := rlwe_mul_assign_ntt_rgsw_c F tbl ext s_i n n (rlwe_zero n) in
        let! acc := quiet (rlwe_add_assign F acc ext) in
        binary_loop_c F tbl n key' a' ext acc
  | _, _ => quiet (Some acc)
  end.
(** [binary.rs:19-69]. *)
Definition binary_blind_rotate_c (F : field) (tbl : tables) (key : list rgsw) (lut : list Z) (c : lwe) : counted rlwe :=
  let n := length lut in
  let! lut := quiet (lut_rotate F lut (lb c)) in
  let! acc := quiet (rlwe_new (repeat 0 n) lut) in
  binary_loop_c F tbl n key (la c) (rlwe_zero n) acc.
(** [ternary.rs:58-94]; [transform_coeff_neg_one_monomial] does not count. *)
Fixpoint ternary_loop_c (F : field) (tbl : tables) (T : any_table) (n : nat) (key : list (rgsw * rgsw)) (a : list Z)
    (ext : rlwe) (ek : rgsw) (acc : rlwe) : counted rlwe :=
  match key, a with
  | (s0, s1) :: key', a_i :: a' =>
      if a_i =? 0 then ternary_loop_c F tbl T n key' a' ext ek acc
      else
        let! neg_a := quiet (usub (2 * Z.of_nat n) a_i) in
        let! d := quiet (t_transform_coeff_neg_one_monomial F T neg_a n) in
        let! ek := quiet (nrgsw_add_mul_inplace F s0 s1 d ek) in
        let! ext := quiet (mul_monic_monomial_sub_one F acc n (Z.to_nat a_i) ext) in
        let! ext := rlwe_mul_assign_ntt_rgsw_c F tbl ext ek n n (rlwe_zero n) in
        let! acc := quiet (rlwe_add_assign F acc ext) in
        ternary_loop_c F tbl T n key' a' ext ek acc
  | _, _ => quiet (Some acc)
  end.
(** [ternary.rs:24-95]. *)
Definition ternary_blind_rotate_c (F : field) (tbl : tables) (key : list (rgsw * rgsw)) (lut : list Z) (c : lwe) (b : basis) : counted rlwe :=
  let n := length lut in
  let! T := quiet (tbl (len_log n)) in
  let! lut := quiet (lut_rotate F lut (lb c)) in
  let! acc := quiet (rlwe_new (repeat 0 n) lut) in
  ternary_loop_c F tbl T n key (la c) (rlwe_zero n) (nrgsw_zero n b) acc.
(** [blind_rotation/mod.rs:43-56]. *)
Definition blind_rotate_c (F : field) (tbl : tables) (key : br_key) (lut : list Z) (c : lwe) (b : basis) : counted rlwe :=
  match key with
  | BrBinary key => binary_blind_rotate_c F tbl key lut c
  | BrTernary key => ternary_blind_rotate_c F tbl key lut c b
  end.

(** [fhe_core/src/key_switch/rlwe.rs:181-189]. *)
Fixpoint rks_loop_c (F : field) (tbl : tables) (ext : nat) (key : list gadget) (cs : list (list Z)) (init : rlwe) : counted rlwe :=
  match key, cs with
  | g :: key', c :: cs' =>
      let! init := nrlwe_sub_gadget_mul_fast_c F tbl init g c ext in
      rks_loop_c F tbl ext key' cs' init
  | _, _ => quiet (Some init)
  end.
(** [key_switch/rlwe.rs:172-192]. *)
Definition rks_inner_c (F : field) (tbl : tables) (K : rlwe_ks_key) (ext : nat) (init : rlwe) (cs : list (list Z)) : counted lwe :=
  let! y := rks_loop_c F tbl ext (rk_key K) cs init in
  let! x := rlwe_from_ntt_c F tbl y in
  quiet (extract_partial_lwe_locally F x (rk_dim K)).
(** [key_switch/rlwe.rs:121-143]. *)
Definition rks_key_switch_rlwe_c (F : field) (tbl : tables) (K : rlwe_ks_key) (ct : rlwe) : counted lwe :=
  let ext := next_pow2 (rk_dim K) in
  let! b0 := quiet (index (rb ct) 0) in
  let init := mk_rlwe (repeat 0 ext) (repeat b0 ext) in
  let! cs := quiet (if (length (ra ct) =? ext)%nat then Some (chunks ext (ra ct))
              else let* a := neg_head_rev_tail F (ra ct) in mapM (neg_head_rev_tail F) (chunks ext a)) in
  rks_inner_c F tbl K ext init cs.

(** [bool/src/bfhe/evaluate.rs:71-122]. *)
Definition bootstrap_c (B : Z) (F : field) (tbl : tables) (E : eval_key) (c : lwe) (lut : list Z) : counted lwe :=
  let P := ek_par E in
  let! twice := quiet (ushl 64 (pp_N P) 1) in
  let! _ := quiet (assert (twice <? 2 ^ B)) in
  let! c := quiet (lwe_modulus_switch_assign B (pp_q P) twice c) in
  let! acc := blind_rotate_c F tbl (ek_br E) lut c (pp_basis P) in
  let! b0 := quiet (index (rb acc) 0) in
  let! e := quiet (ushr (fw F) (fp F) 3) in
  let! e := quiet (f_new F e) in
  let! b0 := quiet (f_add F b0 e) in
  let acc := mk_rlwe (ra acc) (b0 :: tl (rb acc)) in
  match pp_steps P with
  | BrMsKs =>
      let! l := quiet (extract_lwe_locally F acc) in
      let! l := quiet (lwe_modulus_switch B (fp F) (pp_q P) l) in
      match ek_ks E with KsLwe K => quiet (lks_key_switch B K l) | _ => None end
  | BrKsMs =>
      match ek_ks E with
      | KsRlwe K =>
          let! l := rks_key_switch_rlwe_c F tbl K acc in
          quiet (lwe_modulus_switch_inplace B (fp F) (pp_q P) l c)
      | _ => None
      end
  | BrMs =>
      let! l := quiet (extract_lwe_locally F acc) in
      quiet (lwe_modulus_switch_inplace B (fp F) (pp_q P) l c)
  end.

(** [rlwe.rs:1034-1049]. *)
Definition nrlwe_zero_sample_c (F : field) (tbl : tables) (sk a e : list Z) : counted rlwe :=
  let! v := into_ntt_c F tbl e in
  let! b := quiet (ntt_add_mul_assign F v a sk) in
  quiet (Some (mk_rlwe a b)).
(** [rlwe.rs:1052-1071]. *)
Definition nrlwe_value_sample_c (F : field) (tbl : tables) (sk a e : list Z) (value : Z) : counted rlwe :=
  let! e := quiet (add_at_0 F e value) in
  let! v := into_ntt_c F tbl e in
  let! b := quiet (ntt_add_mul_assign F v a sk) in
  quiet (Some (mk_rlwe a b)).
(** [gadget/rlwe.rs:438-451]. *)
Definition ng_zero_sample_c (F : field) (tbl : tables) (sk : list Z) (b : basis) (rnd : list (list Z * list Z)) : counted gadget :=
  let! d := mapC (fun ae => nrlwe_zero_sample_c F tbl sk (fst ae) (snd ae)) (firstn (bs_len b) rnd) in quiet (Some (mk_gadget d b)).
(** [gadget/rlwe.rs:467-480,499-508]. *)
Fixpoint power_rows_peeled_c (F : field) (row : Z -> list Z -> list Z -> counted rlwe) (bv power : Z)
    (rnd : list (list Z * list Z)) : counted (list rlwe) :=
  match rnd with
  | [] => None
  | [(a, e)] => let! r := row power a e in quiet (Some [r])
  | (a, e) :: rnd' =>
      let! r := row power a e in
      let! power := quiet (umul (fw F) power bv) in
      let! t := power_rows_peeled_c F row bv power rnd' in
      quiet (Some (r :: t))
  end.
(** [gadget/rlwe.rs:454-483]. *)
Definition ng_one_sample_c (F : field) (tbl : tables) (sk : list Z) (b : basis) (rnd : list (list Z * list Z)) : counted gadget :=
  let! d := power_rows_peeled_c F (fun power a e => nrlwe_value_sample_c F tbl sk a e power)
      (bs_basis b) 1 (firstn (bs_len b) rnd) in
  quiet (Some (mk_gadget d b)).
(** [gadget/rlwe.rs:486-511]. *)
Definition ng_neg_secret_sample_c (F : field) (tbl : tables) (sk : list Z) (b : basis) (rnd : list (list Z * list Z)) : counted gadget :=
  let! d := power_rows_peeled_c F (fun power a e =>
      let! r := nrlwe_zero_sample_c F tbl sk a e in
      let! a := quiet (mapM (fun v => f_add F v power) (ra r)) in quiet (Some (mk_rlwe a (rb r)))) (bs_basis b) 1 (firstn (bs_len b) rnd) in
  quiet (Some (mk_gadget d b)).
(** [rgsw.rs:343-366]. *)
Definition nrgsw_zero_sample_c (F : field) (tbl : tables) (sk : list Z) (b : basis) (r0 r1 : list (list Z * list Z)) : counted rgsw :=
  let! x := ng_zero_sample_c F tbl sk b r0 in let! y := ng_zero_sample_c F tbl sk b r1 in quiet (Some (mk_rgsw x y)).
(** [rgsw.rs:369-392]. *)
Definition nrgsw_one_sample_c (F : field) (tbl : tables) (sk : list Z) (b : basis) (r0 r1 : list (list Z * list Z)) : counted rgsw :=
  let! x := ng_neg_secret_sample_c F tbl sk b r0 in let! y := ng_one_sample_c F tbl sk b r1 in quiet (Some (mk_rgsw x y)).

(** [binary.rs:72-104]. *)
Definition binary_generate_c (F : field) (tbl : tables) (lwe_sk sk : list Z) (b : basis) (rnd : list rgsw_rnd) : counted (list rgsw) :=
  mapC2 (fun s r =>
    if s =? 0 then nrgsw_zero_sample_c F tbl sk b (fst r) (snd r)
    else nrgsw_one_sample_c F tbl sk b (fst r) (snd r)) lwe_sk rnd.
(** [ternary.rs:98-161]. *)
Definition ternary_generate_c (F : field) (tbl : tables) (lwe_sk sk : list Z) (b : basis) (rnd : list (rgsw_rnd * rgsw_rnd))
    : counted (list (rgsw * rgsw)) :=
  mapC2 (fun s r =>
    let '((r0, r0'), (r1, r1')) := r in
    if s =? 1 then
      let! x := nrgsw_one_sample_c F tbl sk b r0 r0' in
      let! y := nrgsw_zero_sample_c F tbl sk b r1 r1' in quiet (Some (x, y))
    else if s =? 0 then
      let! x := nrgsw_zero_sample_c F tbl sk b r0 r0' in
      let! y := nrgsw_zero_sample_c F tbl sk b r1 r1' in quiet (Some (x, y))
    else
      let! x := nrgsw_zero_sample_c F tbl sk b r0 r0' in
      let! y := nrgsw_one_sample_c F tbl sk b r1 r1' in quiet (Some (x, y))) lwe_sk rnd.
(** [blind_rotation/mod.rs:59-85]. *)
Definition br_key_generate_c (F : field) (tbl : tables) (kp : key_pack) (R : key_draws) : counted br_key :=
  let P := kp_par kp in
  match pp_key P with
  | LBinary => let! k := binary_generate_c F tbl (kp_lwe kp) (kp_ntt kp) (pp_basis P) (kd_bin R) in quiet (Some (BrBinary k))
  | LTernary => let! k := ternary_generate_c F tbl (kp_lwe kp) (kp_ntt kp) (pp_basis P) (kd_ter R) in quiet (Some (BrTernary k))
  end.
(** [key_switch/rlwe.rs:73-85,97-110]. *)
Fixpoint rks_rows_c (F : field) (tbl : tables) (lwe_sk : list Z) (bv : Z) (z : list Z) (rnd : list (list Z * list Z)) : counted (list rlwe) :=
  match rnd with
  | [] => quiet (Some [])
  | (a, e) :: rnd' =>
      let! r := nrlwe_zero_sample_c F tbl lwe_sk a e in
      let! rb' := quiet (p_add_assign F (rb r) z) in
      let! z := quiet (match rnd' with [] => Some z | _ => p_mul_scalar F z bv end) in
      let! rest := rks_rows_c F tbl lwe_sk bv z rnd' in
      quiet (Some (mk_rlwe (ra r) rb' :: rest))
  end.
(** [key_switch/rlwe.rs:24-118]. *)
Definition rks_generate_c (F : field) (tbl : tables) (bits : Z) (sk ring_sk ntt_ring_sk : list Z)
    (rnd : list (list (list Z * list Z))) : counted rlwe_ks_key :=
  let n := length sk in
  let ext := next_pow2 n in
  let N := length ring_sk in
  let! _ := quiet (assert (ext <=? N)%nat) in
  let! b := quiet (basis_new F bits) in
  let! s := quiet (mapM (to_field F) sk) in
  let! lwe_sk := into_ntt_c F tbl (s ++ repeat 0 (ext - n)) in
  let! bv := quiet (f_new F (bs_basis b)) in
  let one := fun z r =>
    let! _ := quiet (assert (length r =? bs_len b)%nat) in
    let! rows := rks_rows_c F tbl lwe_sk bv z r in quiet (Some (mk_gadget rows b)) in
  let! key := (if (ext =? N)%nat then
      let! r := quiet (index rnd 0) in let! g := one ntt_ring_sk r in quiet (Some [g])
    else
      let cs := chunks ext ring_sk in
      let! _ := quiet (assert (length cs =? length rnd)%nat) in
      mapC2 (fun z r => let! z := into_ntt_c F tbl z in one z r) cs rnd) in
  quiet (Some (mk_rlwe_ks_key n key)).
(** [secret_key.rs:69-122]. *)
Definition key_pack_new_c (F : field) (tbl : tables) (P : parameters) (words rwords : nat -> Z) (gauss : list Z) : counted key_pack :=
  let! z := quiet (create_lwe_secret_key P words) in
  let! s := quiet (create_ring_secret_key F P z rwords gauss) in
  let! S := into_ntt_c F tbl s in
  quiet (Some (mk_key_pack z s S P)).
(** [bool/src/bfhe/evaluate.rs:48-68]. *)
Definition eval_key_new_c (B : Z) (F : field) (tbl : tables) (kp : key_pack) (R : key_draws) : counted eval_key :=
  let P := kp_par kp in
  let! br := br_key_generate_c F tbl kp R in
  let! ks := match pp_steps P with
    | BrMsKs => let! K := quiet (lks_generate B (pp_q P) (pp_ks_bits P) (kp_lwe kp) (kp_ring kp) (kd_lwe R)) in quiet (Some (KsLwe K))
    | BrKsMs => let! K := rks_generate_c F tbl (pp_ks_bits P) (kp_lwe kp) (kp_ring kp) (kp_ntt kp) (kd_ring R) in quiet (Some (KsRlwe K))
    | BrMs => quiet (Some KsNone)
    end in
  quiet (Some (mk_eval_key br ks P)).

(** The part shared by the gates ([evaluate.rs:177-305]): the linear combination [x], the look-up table,
    the bootstrapping. *)
Definition gate_c (B : Z) (F : field) (tbl : tables) (E : eval_key) (x : option lwe) (init : field -> Z -> Z -> option (list Z)) : counted lwe :=
  let P := ek_par E in
  let! x := quiet x in
  let! st := quiet (lut_step (pp_N P) (pp_q P)) in
  let! lut := quiet (init F (pp_N P) st) in
  bootstrap_c B F tbl E x lut.
(** [evaluate.rs:177-186]. *)
Definition g_nand_c (B : Z) (F : field) (tbl : tables) (E : eval_key) (c0 c1 : lwe) : counted lwe :=
  gate_c B F tbl E (let* O := lwe_ops B (ek_par E) in lwe_add O c0 c1) init_nand_lut.
(** [evaluate.rs:195-205]. *)
Definition g_and_c (B : Z) (F : field) (tbl : tables) (E : eval_key) (c0 c1 : lwe) : counted lwe :=
  gate_c B F tbl E (let* O := lwe_ops B (ek_par E) in lwe_add O c0 c1) init_and_majority_lut.
(** [evaluate.rs:214-223]. *)
Definition g_or_c (B : Z) (F : field) (tbl : tables) (E : eval_key) (c0 c1 : lwe) : counted lwe :=
  gate_c B F tbl E (let* O := lwe_ops B (ek_par E) in lwe_add O c0 c1) init_or_lut.
(** [evaluate.rs:232-241]. *)
Definition g_nor_c (B : Z) (F : field) (tbl : tables) (E : eval_key) (c0 c1 : lwe) : counted lwe :=
  gate_c B F tbl E (let* O := lwe_ops B (ek_par E) in lwe_add O c0 c1) init_nor_lut.
(** [evaluate.rs:250-260]. *)
Definition g_xor_c (B : Z) (F : field) (tbl : tables) (E : eval_key) (c0 c1 : lwe) : counted lwe :=
  gate_c B F tbl E (let* O := lwe_ops B (ek_par E) in let* x := lwe_sub O c0 c1 in lwe_scalar_mul O x 2) init_xor_lut.
(** [evaluate.rs:269-279]. *)
Definition g_xnor_c (B : Z) (F : field) (tbl : tables) (E : eval_key) (c0 c1 : lwe) : counted lwe :=
  gate_c B F tbl E (let* O := lwe_ops B (ek_par E) in let* x := lwe_sub O c0 c1 in lwe_scalar_mul O x 2) init_xnor_lut.
(** [evaluate.rs:290-305]. *)
Definition g_majority_c (B : Z) (F : field) (tbl : tables) (E : eval_key) (c0 c1 c2 : lwe) : counted lwe :=
  gate_c B F tbl E (let* O := lwe_ops B (ek_par E) in let* x := lwe_add O c0 c1 in lwe_add_inplace O x c2) init_and_majority_lut.
(** [evaluate.rs:316-335]; the two halves of [rayon::join] one after the other. *)
Definition g_mux_c (B : Z) (F : field) (tbl : tables) (E : eval_key) (c0 c1 c2 : lwe) : counted lwe :=
  let! O := quiet (lwe_ops B (ek_par E)) in
  let! nc0 := quiet (g_not B E c0) in
  let! t0 := g_and_c B F tbl E c0 c1 in
  let! t1 := g_and_c B F tbl E nc0 c2 in
  gate_c B F tbl E (lwe_add_inplace O t0 t1) init_or_lut.
