(** The optimised build, part 3: blind rotation, key switching, gates, keys.
    See Model/OptArith for the differences from the checked build. *)
From Coq Require Import ZArith List Bool Arith.
From Verif Require Import Model.Base Model.Reduce Model.Gcd Model.Barrett Model.PowOf2 Model.Shoup Model.Field Model.Prime Model.BabyBear Model.Goldilocks Model.NTT Model.Concrete Model.Poly Model.DecomposeAt Model.Plaintext Model.Lwe Model.Rlwe Model.Gadget Model.BlindRotation Model.KeySwitch Model.ModSwitch Model.Params Model.Boolean Model.Sample Model.SecretKey Model.OptArith Model.OptRing.
Import ListNotations.
Local Open Scope Z_scope.

(** * Model/BlindRotation *)
(** [binary.rs:30-41], [ternary.rs:43-54]: multiplication of the look-up table by X^{-b}.  [b] cast to
    [usize] keeps its value; [rlwe_dimension << 1] does not wrap because a vector is shorter than 2^63. *)
Definition lut_rotate_o (F : field) (lut : list Z) (b : Z) : option (list Z) :=
  if b =? 0 then Some lut
  else
    let n := length lut in
    let* neg_b := usub_o 64 (2 * Z.of_nat n) b in
    let neg_b := Z.to_nat neg_b in
    if (neg_b <=? n)%nat then
      let* l := rotate_right lut neg_b in
      let* x := mapM (f_neg_o F) (firstn neg_b l) in Some (x ++ skipn neg_b l)
    else
      let r := (neg_b - n)%nat in
      let* l := rotate_right lut r in
      let* y := mapM (f_neg_o F) (skipn r l) in Some (firstn r l ++ y).
(** The fold of [binary.rs:45-68] over [key.iter().zip(lwe.a())].  [ext] is the [external_product]
    space, carried from one iteration to the next; the transform-form space is overwritten with zeros
    before each use ([gadget/rlwe.rs:405]), so only its length is kept. *)
Fixpoint binary_loop_o (F : field) (tbl : tables) (n : nat) (key : list rgsw) (a : list Z) (ext acc : rlwe) : option rlwe :=
  match key, a with
  | s_i :: key', a_i :: a' =>
      if a_i =? 0 then binary_loop_o F tbl n key' a' ext acc
      else
        let* ext := mul_monic_monomial_sub_one_o F acc n (Z.to_nat a_i) ext in
        let* ext := rlwe_mul_assign_ntt_rgsw_o F tbl ext s_i n n (rlwe_zero n) in
        let* acc := rlwe_add_assign_o F acc ext in
        binary_loop_o F tbl n key' a' ext acc
  | _, _ => Some acc
  end.
(** [binary.rs:19-69]. *)
Definition binary_blind_rotate_o (F : field) (tbl : tables) (key : list rgsw) (lut : list Z) (c : lwe) : option rlwe :=
  let n := length lut in
  let* lut := lut_rotate_o F lut (lb c) in
  let* acc := rlwe_new (repeat 0 n) lut in
  binary_loop_o F tbl n key (la c) (rlwe_zero n) acc.
(** The fold of [ternary.rs:58-94].  [ek] is the [evaluation_key] space. *)
Fixpoint ternary_loop_o (F : field) (tbl : tables) (T : any_table) (n : nat) (key : list (rgsw * rgsw)) (a : list Z)
    (ext : rlwe) (ek : rgsw) (acc : rlwe) : option rlwe :=
  match key, a with
  | (s0, s1) :: key', a_i :: a' =>
      if a_i =? 0 then ternary_loop_o F tbl T n key' a' ext ek acc
      else
        let* neg_a := usub_o 64 (2 * Z.of_nat n) a_i in
        let* d := t_transform_coeff_neg_one_monomial_o F T neg_a n in
        let* ek := nrgsw_add_mul_inplace_o F s0 s1 d ek in
        let* ext := mul_monic_monomial_sub_one_o F acc n (Z.to_nat a_i) ext in
        let* ext := rlwe_mul_assign_ntt_rgsw_o F tbl ext ek n n (rlwe_zero n) in
        let* acc := rlwe_add_assign_o F acc ext in
        ternary_loop_o F tbl T n key' a' ext ek acc
  | _, _ => Some acc
  end.
(** [ternary.rs:24-95]. *)
Definition ternary_blind_rotate_o (F : field) (tbl : tables) (key : list (rgsw * rgsw)) (lut : list Z) (c : lwe) (b : basis) : option rlwe :=
  let n := length lut in
  let* T := tbl (len_log n) in
  let* lut := lut_rotate_o F lut (lb c) in
  let* acc := rlwe_new (repeat 0 n) lut in
  ternary_loop_o F tbl T n key (la c) (rlwe_zero n) (nrgsw_zero n b) acc.
(** [mod.rs:43-56]. *)
Definition blind_rotate_o (F : field) (tbl : tables) (key : br_key) (lut : list Z) (c : lwe) (b : basis) : option rlwe :=
  match key with
  | BrBinary key => binary_blind_rotate_o F tbl key lut c
  | BrTernary key => ternary_blind_rotate_o F tbl key lut c b
  end.
(** [binary.rs:72-104]; one entry of [rnd] per key entry. *)
Definition binary_generate_o (F : field) (tbl : tables) (lwe_sk sk : list Z) (b : basis) (rnd : list rgsw_rnd) : option (list rgsw) :=
  mapM2 (fun s r =>
    if s =? 0 then nrgsw_zero_sample_o F tbl sk b (fst r) (snd r)
    else nrgsw_one_sample_o F tbl sk b (fst r) (snd r)) lwe_sk rnd.
(** [ternary.rs:98-161]. *)
Definition ternary_generate_o (F : field) (tbl : tables) (lwe_sk sk : list Z) (b : basis) (rnd : list (rgsw_rnd * rgsw_rnd))
    : option (list (rgsw * rgsw)) :=
  mapM2 (fun s r =>
    let '((r0, r0'), (r1, r1')) := r in
    if s =? 1 then
      let* x := nrgsw_one_sample_o F tbl sk b r0 r0' in
      let* y := nrgsw_zero_sample_o F tbl sk b r1 r1' in Some (x, y)
    else if s =? 0 then
      let* x := nrgsw_zero_sample_o F tbl sk b r0 r0' in
      let* y := nrgsw_zero_sample_o F tbl sk b r1 r1' in Some (x, y)
    else
      let* x := nrgsw_zero_sample_o F tbl sk b r0 r0' in
      let* y := nrgsw_one_sample_o F tbl sk b r1 r1' in Some (x, y)) lwe_sk rnd.

(** * Model/KeySwitch *)
(** [decompose_basis.rs:22-41], for words of [B] bits. *)
Definition wbasis_new_o (B bits q : Z) : option wbasis :=
  let mb := B - leading_zeros B q in
  let* mb := (if is_pow2 q then usub_o 32 mb 1 else Some mb) in
  let* _ := assert (negb ((mb <? bits) || (bits =? B))) in
  let* _ := udiv mb bits in
  let* basis := ushl_o B 1 bits in
  let* mask := usub_o B basis 1 in
  Some (mk_wbasis basis (Z.to_nat ((mb + bits - 1) / bits)) mask bits).
(** [decompose_basis.rs:75-88]: the destination and what the data become. *)
Definition decompose_lsb_o (B : Z) (wb : wbasis) (data : list Z) : option (list Z * list Z) :=
  let* rest := mapM (fun x => ushr_o B x (wb_bits wb)) data in
  Some (map (fun x => Z.land x (wb_mask wb)) data, rest).
(** [lwe.rs:128-133]: one pass over the digits of one level. *)
Fixpoint lks_row_o (O : mops) (ds : list Z) (inner : list (list lwe)) (acc : lwe) : option lwe :=
  match ds, inner with
  | d :: ds', s :: inner' =>
      if d =? 0 then lks_row_o O ds' inner' acc
      else
        let* i := usub_o 64 d 1 in
        let* ct := index s (Z.to_nat i) in
        let* acc := lwe_add_inplace_o O acc ct in
        lks_row_o O ds' inner' acc
  | _, _ => Some acc
  end.
(** [lwe.rs:125-134]. *)
Fixpoint lks_loop_o (B : Z) (O : mops) (wb : wbasis) (key : list (list (list lwe))) (a : list Z) (acc : lwe) : option lwe :=
  match key with
  | [] => Some acc
  | inner :: key' =>
      let* '(ds, a) := decompose_lsb_o B wb a in
      let* acc := lks_row_o O ds inner acc in
      lks_loop_o B O wb key' a acc
  end.
(** [lwe.rs:119-139]. *)
Definition lks_key_switch_o (B : Z) (K : lwe_ks_key) (ct : lwe) : option lwe :=
  let O := p2_mops B (lk_mask K) in
  let* acc := lks_loop_o B O (lk_basis K) (lk_key K) (la ct) (mk_lwe (repeat 0 (lk_dim K)) 0) in
  let* acc := lwe_neg O acc in
  Some (mk_lwe (la acc) (p2_add B (lk_mask K) (lb acc) (lb ct))).
(** [lwe.rs:77-96]: the [while v < basis] loop; [rnd] holds the (uniform, noise) draws of the
    iterations [v], [v+1], ..., and the loop ends with it. *)
Fixpoint lks_entries_o (B mask : Z) (sk : list Z) (z v : Z) (rnd : list (list Z * Z)) : option (list lwe) :=
  match rnd with
  | [] => Some []
  | (a, e) :: rnd' =>
      let* c := lwe_zero_sample_o B mask sk a e in
      let c := mk_lwe (la c) (p2_add B mask (lb c) (p2_mul B mask v z)) in
      let* v := uadd_o B v 1 in
      let* r := lks_entries_o B mask sk z v rnd' in
      Some (c :: r)
  end.
(** [lwe.rs:74-98]: [basis_usize - 2] is a checked subtraction, the loop runs [basis - 1] times. *)
Definition lks_inner_o (B mask basis : Z) (sk zs : list Z) (rnd : list (list (list Z * Z))) : option (list (list lwe)) :=
  let* _ := assert (length zs =? length rnd)%nat in
  mapM2 (fun z r =>
    let* _ := usub_o 64 basis 2 in
    let* _ := assert (Z.of_nat (length r) =? basis - 1) in
    lks_entries_o B mask sk z 1 r) zs rnd.
(** [lwe.rs:72-108]; the ring secret is multiplied by the basis between levels. *)
Fixpoint lks_levels_o (B mask basis : Z) (sk zs : list Z) (rnd : list (list (list (list Z * Z)))) : option (list (list (list lwe))) :=
  match rnd with
  | [] => Some []
  | r :: rnd' =>
      let* inner := lks_inner_o B mask basis sk zs r in
      let zs := match rnd' with [] => zs | _ => map (fun z => p2_mul B mask z basis) zs end in
      let* rest := lks_levels_o B mask basis sk zs rnd' in
      Some (inner :: rest)
  end.
(** [lwe.rs:30-116].  [sk] is the LWE secret, [ring_sk] the ring secret; their lengths stand for the dimensions
    that the code takes from the parameters. *)
Definition lks_generate_o (B q bits : Z) (sk ring_sk : list Z) (rnd : list (list (list (list Z * Z)))) : option lwe_ks_key :=
  let* mask := p2_new q in
  let* wb := wbasis_new_o B bits q in
  let* neg_one := usub_o B q 1 in
  let* _ := assert (length rnd =? wb_len wb)%nat in
  let* key := lks_levels_o B mask (wb_basis wb) sk (map (to_word neg_one) ring_sk) rnd in
  Some (mk_lwe_ks_key (length sk) mask wb key).
(** [rlwe.rs:130-131,134-137]: [chunk[0] = -chunk[0]; chunk[1..].reverse()]. *)
Definition neg_head_rev_tail_o (F : field) (l : list Z) : option (list Z) :=
  match l with [] => None | x :: r => let* y := f_neg_o F x in Some (y :: rev r) end.
(** [rlwe.rs:157-160,162-163]: [chunk[1..].reverse(); chunk[1..] negated]. *)
Definition rev_neg_tail_o (F : field) (l : list Z) : option (list Z) :=
  match l with [] => None | x :: r => let* t := mapM (f_neg_o F) (rev r) in Some (x :: t) end.
(** The loop of [rlwe.rs:181-189]. *)
Fixpoint rks_loop_o (F : field) (tbl : tables) (ext : nat) (key : list gadget) (cs : list (list Z)) (init : rlwe) : option rlwe :=
  match key, cs with
  | g :: key', c :: cs' =>
      let* init := nrlwe_sub_gadget_mul_fast_o F tbl init g c ext in
      rks_loop_o F tbl ext key' cs' init
  | _, _ => Some init
  end.
(** [rlwe.rs:172-192]. *)
Definition rks_inner_o (F : field) (tbl : tables) (K : rlwe_ks_key) (ext : nat) (init : rlwe) (cs : list (list Z)) : option lwe :=
  let* y := rks_loop_o F tbl ext (rk_key K) cs init in
  let* x := rlwe_from_ntt_o F tbl y in
  extract_partial_lwe_locally_o F x (rk_dim K).
(** [rlwe.rs:121-143].  The chunks are rewritten one by one and then iterated over, here both at
    once. *)
Definition rks_key_switch_rlwe_o (F : field) (tbl : tables) (K : rlwe_ks_key) (ct : rlwe) : option lwe :=
  let ext := next_pow2 (rk_dim K) in
  let* b0 := index (rb ct) 0 in
  let init := mk_rlwe (repeat 0 ext) (repeat b0 ext) in
  let* cs := (if (length (ra ct) =? ext)%nat then Some (chunks ext (ra ct))
              else let* a := neg_head_rev_tail_o F (ra ct) in mapM (neg_head_rev_tail_o F) (chunks ext a)) in
  rks_inner_o F tbl K ext init cs.
(** [rlwe.rs:146-170]. *)
Definition rks_key_switch_lwe_o (F : field) (tbl : tables) (K : rlwe_ks_key) (ct : lwe) : option lwe :=
  let ext := next_pow2 (rk_dim K) in
  let init := mk_rlwe (repeat 0 ext) (repeat (lb ct) ext) in
  let* cs := (if (length (la ct) =? ext)%nat then let* a := rev_neg_tail_o F (la ct) in Some (chunks ext a)
              else mapM (rev_neg_tail_o F) (chunks ext (la ct))) in
  rks_inner_o F tbl K ext init cs.
(** [rlwe.rs:44-52]: an LWE secret word becomes a field element. *)
Definition to_field_o (F : field) (v : Z) : option Z :=
  if v =? 0 then Some 0 else if v =? 1 then Some 1 else usub_o (fw F) (fp F) 1.
(** [rlwe.rs:73-85,97-110]: the rows of one gadget; the secret is multiplied by the basis between
    rows. *)
Fixpoint rks_rows_o (F : field) (tbl : tables) (lwe_sk : list Z) (bv : Z) (z : list Z) (rnd : list (list Z * list Z)) : option (list rlwe) :=
  match rnd with
  | [] => Some []
  | (a, e) :: rnd' =>
      let* r := nrlwe_zero_sample_o F tbl lwe_sk a e in
      let* rb' := p_add_assign_o F (rb r) z in
      let* z := (match rnd' with [] => Some z | _ => p_mul_scalar_o F z bv end) in
      let* rest := rks_rows_o F tbl lwe_sk bv z rnd' in
      Some (mk_rlwe (ra r) rb' :: rest)
  end.
(** [rlwe.rs:24-118].  [sk]: LWE secret; [ring_sk], [ntt_ring_sk]: ring secret and its transform;
    one list of (uniform, noise) draws per gadget.  The lengths of the secrets stand for the dimensions that
    the code takes from the parameters. *)
Definition rks_generate_o (F : field) (tbl : tables) (bits : Z) (sk ring_sk ntt_ring_sk : list Z)
    (rnd : list (list (list Z * list Z))) : option rlwe_ks_key :=
  let n := length sk in
  let ext := next_pow2 n in
  let N := length ring_sk in
  let* _ := assert (ext <=? N)%nat in
  let* b := basis_new_o F bits in
  let* s := mapM (to_field_o F) sk in
  let* lwe_sk := into_ntt_o F tbl (s ++ repeat 0 (ext - n)) in
  let* bv := f_new F (bs_basis b) in
  let one := fun z r =>
    let* _ := assert (length r =? bs_len b)%nat in
    let* rows := rks_rows_o F tbl lwe_sk bv z r in Some (mk_gadget rows b) in
  let* key := (if (ext =? N)%nat then
      let* r := index rnd 0 in let* g := one ntt_ring_sk r in Some [g]
    else
      let cs := chunks ext ring_sk in
      let* _ := assert (length cs =? length rnd)%nat in
      mapM2 (fun z r => let* z := into_ntt_o F tbl z in one z r) cs rnd) in
  Some (mk_rlwe_ks_key n key).

(** * Model/ModSwitch *)

(** * Model/Params *)
(** [Parameters::new], [parameter.rs:120-179]: [None] is a panic, [Some None] an [Err].  [F] is the
    field the type parameter [Q] stands for; its modulus is not compared with [ring_modulus].
    [usize] is 64 bits wide. *)
Definition params_new_o (F : field) (c : const_params) : option (option parameters) :=
  if negb (is_pow2 (cp_N c)) then Some None
  else
    let* twice := ushl_o 64 (cp_N c) 1 in
    let* _ := assert (negb (twice =? 0)) in
    let* m := usub_o (fw F) (cp_Q c) 1 in
    let* factor := udiv m twice in
    let* back := umul_o 64 factor twice in
    if negb (back =? m) then Some None
    else
      let* _ := assert (cp_t c <=? cp_q c) in
      let* _ := assert (is_pow2 (cp_t c) && is_pow2 (cp_q c)) in
      let* b := basis_new_o F (cp_bits c) in
      Some (Some (mk_parameters (cp_n c) (cp_t c) (cp_q c) (cp_key c) (cp_N c) (cp_Q c) (cp_ring_key c) b
        (cp_ks_bits c) (cp_steps c))).

(** * Model/Boolean *)
(** [EvaluationKey::lut_step], [evaluate.rs:29-45]; the last branch is [unimplemented!]. *)
Definition lut_step_o (N q : Z) : option Z :=
  let* twice := ushl_o 64 N 1 in
  let* r := urem twice q in
  if r =? 0 then udiv twice q
  else
    let* r := urem q twice in
    if r =? 0 then Some 1 else None.
(** [evaluate.rs:379-403]. *)
Definition init_nand_and_majority_lut_o (N step v01 v23 : Z) : option (list Z) :=
  let* mid := uadd_o 64 (N / 2) (N / 4) in two_part_lut N mid step v01 v23.
(** [q_div_8] and [neg_q_div_8] of every [init_*_lut] (e.g. [evaluate.rs:346-348]). *)
Definition eighths_o (F : field) : option (Z * Z) :=
  let* v := ushr_o (fw F) (fp F) 3 in
  let* e := f_new F v in
  let* w := usub_o (fw F) (fp F) e in
  let* ne := f_new F w in Some (e, ne).
(** [evaluate.rs:339-356]. *)
Definition init_nand_lut_o (F : field) (N step : Z) : option (list Z) :=
  let* '(e, ne) := eighths_o F in init_nand_and_majority_lut_o N step e ne.
(** [evaluate.rs:359-376]. *)
Definition init_and_majority_lut_o (F : field) (N step : Z) : option (list Z) :=
  let* '(e, ne) := eighths_o F in init_nand_and_majority_lut_o N step ne e.
(** [evaluate.rs:406-423]. *)
Definition init_or_lut_o (F : field) (N step : Z) : option (list Z) :=
  let* '(e, ne) := eighths_o F in init_or_nor_lut N step e ne.
(** [evaluate.rs:426-443]. *)
Definition init_nor_lut_o (F : field) (N step : Z) : option (list Z) :=
  let* '(e, ne) := eighths_o F in init_or_nor_lut N step ne e.
(** [evaluate.rs:446-463]. *)
Definition init_xor_lut_o (F : field) (N step : Z) : option (list Z) :=
  let* '(e, ne) := eighths_o F in init_xor_xnor_lut N step e ne.
(** [evaluate.rs:466-483]. *)
Definition init_xnor_lut_o (F : field) (N step : Z) : option (list Z) :=
  let* '(e, ne) := eighths_o F in init_xor_xnor_lut N step ne e.
(** [EvaluationKey::bootstrap], [evaluate.rs:71-122].  [B] is the width of the ciphertext word [C];
    [C::try_from(..).unwrap()] panics when 2N does not fit. *)
Definition bootstrap_o (B : Z) (F : field) (tbl : tables) (E : eval_key) (c : lwe) (lut : list Z) : option lwe :=
  let P := ek_par E in
  let* twice := ushl_o 64 (pp_N P) 1 in
  let* _ := assert (twice <? 2 ^ B) in
  let* c := lwe_modulus_switch_assign B (pp_q P) twice c in
  let* acc := blind_rotate_o F tbl (ek_br E) lut c (pp_basis P) in
  let* b0 := index (rb acc) 0 in
  let* e := ushr_o (fw F) (fp F) 3 in
  let* e := f_new F e in
  let* b0 := f_add_o F b0 e in
  let acc := mk_rlwe (ra acc) (b0 :: tl (rb acc)) in
  match pp_steps P with
  | BrMsKs =>
      let* l := extract_lwe_locally_o F acc in
      let* l := lwe_modulus_switch B (fp F) (pp_q P) l in
      match ek_ks E with KsLwe K => lks_key_switch_o B K l | _ => None end
  | BrKsMs =>
      match ek_ks E with
      | KsRlwe K =>
          let* l := rks_key_switch_rlwe_o F tbl K acc in
          lwe_modulus_switch_inplace B (fp F) (pp_q P) l c
      | _ => None
      end
  | BrMs =>
      let* l := extract_lwe_locally_o F acc in
      lwe_modulus_switch_inplace B (fp F) (pp_q P) l c
  end.
(** [evaluate.rs:160-168]. *)
Definition g_not_o (B : Z) (E : eval_key) (c : lwe) : option lwe :=
  let* mask := p2_new (pp_q (ek_par E)) in
  let* n := lwe_neg (p2_mops B mask) c in
  let* v := ushr_o B (pp_q (ek_par E)) 2 in
  Some (mk_lwe (la n) (p2_add B mask (lb n) v)).
(** [evaluate.rs:177-186]. *)
Definition g_nand_o (B : Z) (F : field) (tbl : tables) (E : eval_key) (c0 c1 : lwe) : option lwe :=
  let P := ek_par E in
  let* O := lwe_ops B P in
  let* x := lwe_add_o O c0 c1 in
  let* st := lut_step_o (pp_N P) (pp_q P) in
  let* lut := init_nand_lut_o F (pp_N P) st in
  bootstrap_o B F tbl E x lut.
(** [evaluate.rs:195-205]. *)
Definition g_and_o (B : Z) (F : field) (tbl : tables) (E : eval_key) (c0 c1 : lwe) : option lwe :=
  let P := ek_par E in
  let* O := lwe_ops B P in
  let* x := lwe_add_o O c0 c1 in
  let* st := lut_step_o (pp_N P) (pp_q P) in
  let* lut := init_and_majority_lut_o F (pp_N P) st in
  bootstrap_o B F tbl E x lut.
(** [evaluate.rs:214-223]. *)
Definition g_or_o (B : Z) (F : field) (tbl : tables) (E : eval_key) (c0 c1 : lwe) : option lwe :=
  let P := ek_par E in
  let* O := lwe_ops B P in
  let* x := lwe_add_o O c0 c1 in
  let* st := lut_step_o (pp_N P) (pp_q P) in
  let* lut := init_or_lut_o F (pp_N P) st in
  bootstrap_o B F tbl E x lut.
(** [evaluate.rs:232-241]. *)
Definition g_nor_o (B : Z) (F : field) (tbl : tables) (E : eval_key) (c0 c1 : lwe) : option lwe :=
  let P := ek_par E in
  let* O := lwe_ops B P in
  let* x := lwe_add_o O c0 c1 in
  let* st := lut_step_o (pp_N P) (pp_q P) in
  let* lut := init_nor_lut_o F (pp_N P) st in
  bootstrap_o B F tbl E x lut.
(** [evaluate.rs:250-260]. *)
Definition g_xor_o (B : Z) (F : field) (tbl : tables) (E : eval_key) (c0 c1 : lwe) : option lwe :=
  let P := ek_par E in
  let* O := lwe_ops B P in
  let* x := lwe_sub_o O c0 c1 in
  let* x := lwe_scalar_mul O x 2 in
  let* st := lut_step_o (pp_N P) (pp_q P) in
  let* lut := init_xor_lut_o F (pp_N P) st in
  bootstrap_o B F tbl E x lut.
(** [evaluate.rs:269-279]. *)
Definition g_xnor_o (B : Z) (F : field) (tbl : tables) (E : eval_key) (c0 c1 : lwe) : option lwe :=
  let P := ek_par E in
  let* O := lwe_ops B P in
  let* x := lwe_sub_o O c0 c1 in
  let* x := lwe_scalar_mul O x 2 in
  let* st := lut_step_o (pp_N P) (pp_q P) in
  let* lut := init_xnor_lut_o F (pp_N P) st in
  bootstrap_o B F tbl E x lut.
(** [evaluate.rs:290-305]. *)
Definition g_majority_o (B : Z) (F : field) (tbl : tables) (E : eval_key) (c0 c1 c2 : lwe) : option lwe :=
  let P := ek_par E in
  let* O := lwe_ops B P in
  let* x := lwe_add_o O c0 c1 in
  let* x := lwe_add_inplace_o O x c2 in
  let* st := lut_step_o (pp_N P) (pp_q P) in
  let* lut := init_and_majority_lut_o F (pp_N P) st in
  bootstrap_o B F tbl E x lut.
(** [evaluate.rs:316-335]; [rayon::join] runs two computations without shared mutable state (the
    table cache apart, see [Cache.v]), here one after the other. *)
Definition g_mux_o (B : Z) (F : field) (tbl : tables) (E : eval_key) (c0 c1 c2 : lwe) : option lwe :=
  let P := ek_par E in
  let* O := lwe_ops B P in
  let* nc0 := g_not_o B E c0 in
  let* t0 := g_and_o B F tbl E c0 c1 in
  let* t1 := g_and_o B F tbl E nc0 c2 in
  let* x := lwe_add_inplace_o O t0 t1 in
  let* st := lut_step_o (pp_N P) (pp_q P) in
  let* lut := init_or_lut_o F (pp_N P) st in
  bootstrap_o B F tbl E x lut.

(** * Model/Sample *)
(** [algebra/src/utils/sample.rs:31-52]; [F::neg_one()] is modulus - 1.  The subtraction [q - 1] cannot wrap, moduli being positive. *)
Definition sample_ternary_field_vec_o (F : field) (len : nat) (words : nat -> Z) : option (list Z) :=
  let* m := usub_o (fw F) (fp F) 1 in sample_symbols 2 [0; 0; 1; m] 16 len words.
(** The closure of [algebra/src/utils/sample.rs:55-76] on the six bytes of one [fill_bytes];
    [modulus - (b - a)] is checked. *)
Definition cbd_value_o (F : field) (x0 x1 x2 x3 x4 x5 : Z) : option Z :=
  let x2 := Z.land x2 31 in
  let x5 := Z.land x5 31 in
  let a := count_ones x0 + count_ones x1 + count_ones x2 in
  let b := count_ones x3 + count_ones x4 + count_ones x5 in
  if b <=? a then f_new F (a - b) else let* v := usub_o (fw F) (fp F) (b - a) in f_new F v.
(** [algebra/src/utils/sample.rs:55-76]: [bytes i] is the i-th byte drawn. *)
Fixpoint sample_cbd_field_vec_o (F : field) (len : nat) (bytes : nat -> Z) : option (list Z) :=
  match len with
  | O => Some []
  | S len' =>
      let* x := cbd_value_o F (bytes 0%nat) (bytes 1%nat) (bytes 2%nat) (bytes 3%nat) (bytes 4%nat) (bytes 5%nat) in
      let* l := sample_cbd_field_vec_o F len' (fun i => bytes (6 + i)%nat) in
      Some (x :: l)
  end.

(** * Model/SecretKey *)
(** The closure [convert], [secret_key.rs:100-108]. *)
Definition convert_o (F : field) (v : Z) : option Z :=
  if v =? 0 then Some 0 else if v =? 1 then Some 1 else usub_o (fw F) (fp F) 1.
(** The [match] of [secret_key.rs:69-122].  [gauss] stands for the result of [random_with_gaussian]
    (its sampler is not part of this definition). *)
Definition create_ring_secret_key_o (F : field) (P : parameters) (lwe_sk : list Z) (words : nat -> Z) (gauss : list Z) : option (list Z) :=
  let N := Z.to_nat (pp_N P) in
  match pp_steps P with
  | BrMsKs =>
      match pp_ring_key P with
      | RBinary => sample_binary_field_vec F N words
      | RTernary => sample_ternary_field_vec_o F N words
      | RGaussian => None
      end
  | BrKsMs =>
      match pp_ring_key P with
      | RBinary => sample_binary_field_vec F N words
      | RTernary => sample_ternary_field_vec_o F N words
      | RGaussian => Some gauss
      end
  | BrMs =>
      let* _ := assert (match pp_ring_key P with RGaussian => false | _ => true end) in
      let* _ := assert (pp_n P =? pp_N P) in
      mapM (convert_o F) lwe_sk
  end.
(** [SecretKeyPack::new], [secret_key.rs:69-122]: two word streams, one for each key. *)
Definition key_pack_new_o (F : field) (tbl : tables) (P : parameters) (words rwords : nat -> Z) (gauss : list Z) : option key_pack :=
  let* z := create_lwe_secret_key P words in
  let* s := create_ring_secret_key_o F P z rwords gauss in
  let* S := into_ntt_o F tbl s in
  Some (mk_key_pack z s S P).
(** [BlindRotationKey::generate], [fhe_core/src/blind_rotation/mod.rs:59-85]. *)
Definition br_key_generate_o (F : field) (tbl : tables) (kp : key_pack) (R : key_draws) : option br_key :=
  let P := kp_par kp in
  match pp_key P with
  | LBinary => let* k := binary_generate_o F tbl (kp_lwe kp) (kp_ntt kp) (pp_basis P) (kd_bin R) in Some (BrBinary k)
  | LTernary => let* k := ternary_generate_o F tbl (kp_lwe kp) (kp_ntt kp) (pp_basis P) (kd_ter R) in Some (BrTernary k)
  end.
(** [EvaluationKey::new], [evaluate.rs:48-68]; [B] is the width of the ciphertext word [C]. *)
Definition eval_key_new_o (B : Z) (F : field) (tbl : tables) (kp : key_pack) (R : key_draws) : option eval_key :=
  let P := kp_par kp in
  let* br := br_key_generate_o F tbl kp R in
  let* ks := match pp_steps P with
    | BrMsKs => let* K := lks_generate_o B (pp_q P) (pp_ks_bits P) (kp_lwe kp) (kp_ring kp) (kd_lwe R) in Some (KsLwe K)
    | BrKsMs => let* K := rks_generate_o F tbl (pp_ks_bits P) (kp_lwe kp) (kp_ring kp) (kp_ntt kp) (kd_ring R) in Some (KsRlwe K)
    | BrMs => Some KsNone
    end in
  Some (mk_eval_key br ks P).
(** [SecretKeyPack::encrypt] and [decrypt], [secret_key.rs:150-192], with the pack's parameters; the
    [Encryptor] and [Decryptor] of [bool/src/{encrypt,decrypt}.rs] only call them, [KeyGen] of
    [bool/src/key_gen.rs] only calls [SecretKeyPack::new]. *)
Definition kp_encrypt_o (B : Z) (kp : key_pack) (a : list Z) (e m : Z) : option lwe :=
  encrypt_o B (pp_t (kp_par kp)) (pp_q (kp_par kp)) (kp_lwe kp) a e m.
(** [SecretKeyPack::decrypt], [secret_key.rs:180-192]. *)
Definition kp_decrypt_o (M : Plaintext.msg_type) (B : Z) (kp : key_pack) (c : lwe) : option Z :=
  decrypt_o M B (pp_t (kp_par kp)) (pp_q (kp_par kp)) (kp_lwe kp) c.
