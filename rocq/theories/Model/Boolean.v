(** Boolean gates. [bool/src/bfhe/evaluate.rs]. *)
From Coq Require Import ZArith List Bool.
From Verif Require Import Model.Base Model.PowOf2 Model.Field Model.NTT Model.Poly Model.Lwe Model.Rlwe Model.Gadget Model.BlindRotation Model.KeySwitch Model.ModSwitch Model.Params.
Import ListNotations.
Local Open Scope Z_scope.

(** [EvaluationKey::lut_step], [evaluate.rs:29-45]; the last branch is [unimplemented!]. *)
Definition lut_step (N q : Z) : option Z :=
  let* twice := ushl 64 N 1 in
  let* r := urem twice q in
  if r =? 0 then udiv twice q
  else
    let* r := urem q twice in
    if r =? 0 then Some 1 else None.

(** std [iter_mut().step_by(step).for_each(|a| *a = v)]: [c] elements are left to skip.
    [evaluate.rs:392-400,499-507,526-534]. *)
Fixpoint step_fill (step c : nat) (v : Z) (l : list Z) : list Z :=
  match l with
  | [] => []
  | x :: l' => match c with O => v :: step_fill step (step - 1) v l' | S c' => x :: step_fill step c' v l' end
  end.
(** The two loops shared by [evaluate.rs:388-402,495-509,522-536]: [lo] into [v[..mid]], [hi] into
    [v[mid..]]; [step_by(0)] panics. *)
Definition two_part_lut (N mid step : Z) (lo hi : Z) : option (list Z) :=
  let* _ := assert (negb (step =? 0)) in
  let v := repeat 0 (Z.to_nat N) in
  let* _ := assert (mid <=? N) in
  Some (step_fill (Z.to_nat step) 0 lo (firstn (Z.to_nat mid) v) ++ step_fill (Z.to_nat step) 0 hi (skipn (Z.to_nat mid) v)).

(** [evaluate.rs:379-403]. *)
Definition init_nand_and_majority_lut (N step v01 v23 : Z) : option (list Z) :=
  let* mid := uadd 64 (N / 2) (N / 4) in two_part_lut N mid step v01 v23.
(** [evaluate.rs:486-510]. *)
Definition init_or_nor_lut (N step v12 v30 : Z) : option (list Z) := two_part_lut N (N / 4) step v30 v12.
(** [evaluate.rs:513-537]. *)
Definition init_xor_xnor_lut (N step v2 v0 : Z) : option (list Z) := two_part_lut N (N / 2) step v0 v2.

(** [q_div_8] and [neg_q_div_8] of every [init_*_lut] (e.g. [evaluate.rs:346-348]). *)
Definition eighths (F : field) : option (Z * Z) :=
  let* v := ushr (fw F) (fp F) 3 in
  let* e := f_new F v in
  let* w := usub (fp F) e in
  let* ne := f_new F w in Some (e, ne).

(** [evaluate.rs:339-356]. *)
Definition init_nand_lut (F : field) (N step : Z) : option (list Z) :=
  let* '(e, ne) := eighths F in init_nand_and_majority_lut N step e ne.
(** [evaluate.rs:359-376]. *)
Definition init_and_majority_lut (F : field) (N step : Z) : option (list Z) :=
  let* '(e, ne) := eighths F in init_nand_and_majority_lut N step ne e.
(** [evaluate.rs:406-423]. *)
Definition init_or_lut (F : field) (N step : Z) : option (list Z) :=
  let* '(e, ne) := eighths F in init_or_nor_lut N step e ne.
(** [evaluate.rs:426-443]. *)
Definition init_nor_lut (F : field) (N step : Z) : option (list Z) :=
  let* '(e, ne) := eighths F in init_or_nor_lut N step ne e.
(** [evaluate.rs:446-463]. *)
Definition init_xor_lut (F : field) (N step : Z) : option (list Z) :=
  let* '(e, ne) := eighths F in init_xor_xnor_lut N step e ne.
(** [evaluate.rs:466-483]. *)
Definition init_xnor_lut (F : field) (N step : Z) : option (list Z) :=
  let* '(e, ne) := eighths F in init_xor_xnor_lut N step ne e.

(** [KeySwitchingKeyEnum], [fhe_core/src/key_switch/mod.rs:13-20]. *)
Inductive ks_key := KsRlwe (K : rlwe_ks_key) | KsLwe (K : lwe_ks_key) | KsNone.
(** [EvaluationKey], [evaluate.rs:9-18]. *)
Record eval_key := mk_eval_key { ek_br : br_key; ek_ks : ks_key; ek_par : parameters }.

(** [EvaluationKey::bootstrap], [evaluate.rs:71-122].  [B] is the width of the ciphertext word [C];
    [C::try_from(..).unwrap()] panics when 2N does not fit. *)
Definition bootstrap (B : Z) (F : field) (tbl : tables) (E : eval_key) (c : lwe) (lut : list Z) : option lwe :=
  let P := ek_par E in
  let* twice := ushl 64 (pp_N P) 1 in
  let* _ := assert (twice <? 2 ^ B) in
  let* c := lwe_modulus_switch_assign B (pp_q P) twice c in
  let* acc := blind_rotate F tbl (ek_br E) lut c (pp_basis P) in
  let* b0 := index (rb acc) 0 in
  let* e := ushr (fw F) (fp F) 3 in
  let* e := f_new F e in
  let* b0 := f_add F b0 e in
  let acc := mk_rlwe (ra acc) (b0 :: tl (rb acc)) in
  match pp_steps P with
  | BrMsKs =>
      let* l := extract_lwe_locally F acc in
      let* l := lwe_modulus_switch B (fp F) (pp_q P) l in
      match ek_ks E with KsLwe K => lks_key_switch B K l | _ => None end
  | BrKsMs =>
      match ek_ks E with
      | KsRlwe K =>
          let* l := rks_key_switch_rlwe F tbl K acc in
          lwe_modulus_switch_inplace B (fp F) (pp_q P) l c
      | _ => None
      end
  | BrMs =>
      let* l := extract_lwe_locally F acc in
      lwe_modulus_switch_inplace B (fp F) (pp_q P) l c
  end.

(** [lwe_cipher_modulus()] as the operations on ciphertexts ([parameter.rs:194-197]). *)
Definition lwe_ops (B : Z) (P : parameters) : option mops :=
  let* mask := p2_new (pp_q P) in Some (p2_mops B mask).

(** [evaluate.rs:160-168]. *)
Definition g_not (B : Z) (E : eval_key) (c : lwe) : option lwe :=
  let* mask := p2_new (pp_q (ek_par E)) in
  let* n := lwe_neg (p2_mops B mask) c in
  let* v := ushr B (pp_q (ek_par E)) 2 in
  Some (mk_lwe (la n) (p2_add B mask (lb n) v)).

(** [evaluate.rs:177-186]. *)
Definition g_nand (B : Z) (F : field) (tbl : tables) (E : eval_key) (c0 c1 : lwe) : option lwe :=
  let P := ek_par E in
  let* O := lwe_ops B P in
  let* x := lwe_add O c0 c1 in
  let* st := lut_step (pp_N P) (pp_q P) in
  let* lut := init_nand_lut F (pp_N P) st in
  bootstrap B F tbl E x lut.
(** [evaluate.rs:195-205]. *)
Definition g_and (B : Z) (F : field) (tbl : tables) (E : eval_key) (c0 c1 : lwe) : option lwe :=
  let P := ek_par E in
  let* O := lwe_ops B P in
  let* x := lwe_add O c0 c1 in
  let* st := lut_step (pp_N P) (pp_q P) in
  let* lut := init_and_majority_lut F (pp_N P) st in
  bootstrap B F tbl E x lut.
(** [evaluate.rs:214-223]. *)
Definition g_or (B : Z) (F : field) (tbl : tables) (E : eval_key) (c0 c1 : lwe) : option lwe :=
  let P := ek_par E in
  let* O := lwe_ops B P in
  let* x := lwe_add O c0 c1 in
  let* st := lut_step (pp_N P) (pp_q P) in
  let* lut := init_or_lut F (pp_N P) st in
  bootstrap B F tbl E x lut.
(** [evaluate.rs:232-241]. *)
Definition g_nor (B : Z) (F : field) (tbl : tables) (E : eval_key) (c0 c1 : lwe) : option lwe :=
  let P := ek_par E in
  let* O := lwe_ops B P in
  let* x := lwe_add O c0 c1 in
  let* st := lut_step (pp_N P) (pp_q P) in
  let* lut := init_nor_lut F (pp_N P) st in
  bootstrap B F tbl E x lut.
(** [evaluate.rs:250-260]. *)
Definition g_xor (B : Z) (F : field) (tbl : tables) (E : eval_key) (c0 c1 : lwe) : option lwe :=
  let P := ek_par E in
  let* O := lwe_ops B P in
  let* x := lwe_sub O c0 c1 in
  let* x := lwe_scalar_mul O x 2 in
  let* st := lut_step (pp_N P) (pp_q P) in
  let* lut := init_xor_lut F (pp_N P) st in
  bootstrap B F tbl E x lut.
(** [evaluate.rs:269-279]. *)
Definition g_xnor (B : Z) (F : field) (tbl : tables) (E : eval_key) (c0 c1 : lwe) : option lwe :=
  let P := ek_par E in
  let* O := lwe_ops B P in
  let* x := lwe_sub O c0 c1 in
  let* x := lwe_scalar_mul O x 2 in
  let* st := lut_step (pp_N P) (pp_q P) in
  let* lut := init_xnor_lut F (pp_N P) st in
  bootstrap B F tbl E x lut.
(** [evaluate.rs:290-305]. *)
Definition g_majority (B : Z) (F : field) (tbl : tables) (E : eval_key) (c0 c1 c2 : lwe) : option lwe :=
  let P := ek_par E in
  let* O := lwe_ops B P in
  let* x := lwe_add O c0 c1 in
  let* x := lwe_add_inplace O x c2 in
  let* st := lut_step (pp_N P) (pp_q P) in
  let* lut := init_and_majority_lut F (pp_N P) st in
  bootstrap B F tbl E x lut.
(** [evaluate.rs:316-335]; [rayon::join] runs two computations without shared mutable state (the
    table cache apart, see [Cache.v]), here one after the other. *)
Definition g_mux (B : Z) (F : field) (tbl : tables) (E : eval_key) (c0 c1 c2 : lwe) : option lwe :=
  let P := ek_par E in
  let* O := lwe_ops B P in
  let* nc0 := g_not B E c0 in
  let* t0 := g_and B F tbl E c0 c1 in
  let* t1 := g_and B F tbl E nc0 c2 in
  let* x := lwe_add_inplace O t0 t1 in
  let* st := lut_step (pp_N P) (pp_q P) in
  let* lut := init_or_lut F (pp_N P) st in
  bootstrap B F tbl E x lut.
