(** The randomised tests of polynomials and ciphertexts, as functions of what they draw:
    [algebra/tests/polynomial_test.rs] and [lattice/tests/lattice_test.rs].  [None] is a failed assertion or
    any other panic.

    The field, the number 2^k of coefficients, the moduli and the basis are parameters where the tests fix
    them (p = 132120577, k = 5, 1024, 3 bits).  The tests of fixed polynomials are left out: they draw nothing. *)
From Coq Require Import ZArith List Bool Arith SpecFloat.
From Verif Require Import Model.Base Model.PowOf2 Model.Field Model.NTT Model.Concrete Model.Poly Model.Lwe Model.Rlwe Model.Gadget Model.ModSwitch Model.UnitTests.
Import ListNotations.
Local Open Scope Z_scope.

(** [assert_eq!] on polynomials, in either form, and on vectors.
    E.g. [polynomial_test.rs:33-34], [lattice_test.rs:138-149]. *)
Definition assert_poly (x y : list Z) : option unit := assert (if list_eq_dec Z.eq_dec x y then true else false).
(** [assert_eq!] on RLWE ciphertexts ([lattice_test.rs:138-149]). *)
Definition assert_rlwe (x y : rlwe) : option unit := let* _ := assert_poly (ra x) (ra y) in assert_poly (rb x) (rb y).
(** [assert_eq!] on LWE ciphertexts ([lattice_test.rs:52-53]). *)
Definition assert_lwe (x y : lwe) : option unit := let* _ := assert_poly (la x) (la y) in assert_eq (lb x) (lb y).

(** * Polynomials *)

(** [test_transform], [polynomial_test.rs:26-35]. *)
Definition rt_transform (F : field) (tbl : tables) (a : list Z) : option unit :=
  let* b := into_ntt F tbl a in
  let* c := into_native F tbl b in
  let* d := into_ntt F tbl c in
  let* _ := assert_poly a c in
  assert_poly b d.

(** [test_transform_monomial], [polynomial_test.rs:38-61]. *)
Definition rt_transform_monomial (F : field) (T : any_table) (n degree : nat) (coeff : Z) : option unit :=
  let* a := upd (repeat 0 n) degree coeff in
  let* a := t_transform_slice F T a in
  let* b := t_transform_monomial F T coeff (Z.of_nat degree) n in
  let* _ := assert_poly a b in
  let* a := upd (repeat 0 n) degree (f_neg_one F) in
  let* a := t_transform_slice F T a in
  let* b := t_transform_monomial F T (f_neg_one F) (Z.of_nat degree) n in
  assert_poly a b.

(** [test_monomial_property], [polynomial_test.rs:64-87]: [d1] below n and [d2] from n to 2n - 1 are drawn. *)
Definition rt_monomial_property (F : field) (T : any_table) (n d1 d2 : nat) : option unit :=
  let* a := t_transform_monomial F T 1 (Z.of_nat d1) n in
  let* b := t_transform_monomial F T (f_neg_one F) (Z.of_nat (d1 + n)) n in
  let* _ := assert_poly a b in
  let* a := t_transform_monomial F T (f_neg_one F) (Z.of_nat d1) n in
  let* b := t_transform_monomial F T 1 (Z.of_nat (d1 + n)) n in
  let* _ := assert_poly a b in
  let* a := t_transform_monomial F T (f_neg_one F) (Z.of_nat (n * 2 - d2)) n in
  let* b := t_transform_monomial F T 1 (Z.of_nat (n * 2 - (d2 - n))) n in
  assert_poly a b.

(** [result[i] += poly1[j] * poly2[l]] for the indices [js] ([polynomial_test.rs:139-143]). *)
Definition mul_add_at (F : field) (p1 p2 : list Z) (total : nat) (js : list nat) (acc : Z) : option Z :=
  foldM (fun acc j =>
    let* x := index p1 j in
    let* y := index p2 (total - j) in
    let* z := f_mul F x y in f_add F acc z) acc js.
(** [result[k] -= poly1[j] * poly2[l]] for the indices [js] ([polynomial_test.rs:146-151]). *)
Definition mul_sub_at (F : field) (p1 p2 : list Z) (total : nat) (js : list nat) (acc : Z) : option Z :=
  foldM (fun acc j =>
    let* x := index p1 j in
    let* y := index p2 (total - j) in
    let* z := f_mul F x y in f_sub_assign F acc z) acc js.
(** [simple_mul], [polynomial_test.rs:131-154].  The two outer loops visit each position once; here they run
    position by position.  The second one stops before the last. *)
Definition simple_mul (F : field) (p1 p2 : list Z) : option (list Z) :=
  let* _ := same_len p1 p2 in
  let n := length p1 in
  mapM (fun i =>
    let* x := mul_add_at F p1 p2 i (seq 0 (S i)) 0 in
    if (S i <? n)%nat then mul_sub_at F p1 p2 (n + i) (seq (i + 1) (n - (i + 1))) x else Some x) (seq 0 n).
(** [test_native_poly_mul], [polynomial_test.rs:109-129]; the forms with a clone run the same code. *)
Definition rt_poly_mul (F : field) (tbl : tables) (a b : list Z) : option unit :=
  let* mul_result := simple_mul F a b in
  let* x := p_mul_assign F tbl a b in
  let* _ := assert_poly x mul_result in
  let* v := into_ntt F tbl b in
  let* x := p_mul_assign_ntt F tbl a v in
  let* _ := assert_poly x mul_result in
  let* r := into_ntt F tbl mul_result in
  let* y := n_mul_assign_poly F tbl v a in
  assert_poly y r.

(** The constant [Fp32::new(B.pow(i) as Inner)] ([polynomial_test.rs:167,188], [lattice_test.rs:255]): [B] is a
    [usize]. *)
Definition base_pow (F : field) (base : Z) (i : nat) : option Z :=
  let* x := upow 64 base i in f_new F (ucast (fw F) x).
(** [test_poly_decompose], [polynomial_test.rs:157-171]. *)
Definition rt_decompose (F : field) (bits : Z) (poly : list Z) : option unit :=
  let* b := basis_new F bits in
  let* ds := poly_decompose F b poly in
  let* compose := foldM (fun acc d =>
      let* c := base_pow F (2 ^ bits) (fst d) in
      let* d := p_mul_scalar F (snd d) c in
      p_add_assign F acc d) (repeat 0 (length poly)) (combine (seq 0 (length ds)) ds) in
  assert_poly compose poly.
(** [test_poly_decompose_mul], [polynomial_test.rs:174-192]. *)
Definition rt_decompose_mul (F : field) (tbl : tables) (bits : Z) (poly1 poly2 : list Z) : option unit :=
  let* mul_result := p_mul_assign F tbl poly1 poly2 in
  let* b := basis_new F bits in
  let* ds := poly_decompose F b poly1 in
  let* compose := foldM (fun acc d =>
      let* c := base_pow F (2 ^ bits) (fst d) in
      let* s := p_mul_scalar F poly2 c in
      let* d := p_mul_assign F tbl (snd d) s in
      p_add_assign F acc d) (repeat 0 (length poly1)) (combine (seq 0 (length ds)) ds) in
  assert_poly compose mul_result.
(** [test_poly_eval], [polynomial_test.rs:219-238]. *)
Definition rt_eval (F : field) (poly : list Z) : option unit :=
  let* x := p_evaluate F poly (f_neg_one F) in
  let* y := foldM (fun acc ia => if Z.land (Z.of_nat (fst ia)) 1 =? 0 then f_add F acc (snd ia) else f_sub F acc (snd ia))
              0 (combine (seq 0 (length poly)) poly) in
  let* _ := assert_eq x y in
  let* x := p_evaluate F poly 0 in
  let* y := index poly 0 in
  let* _ := assert_eq x y in
  let* x := p_evaluate F poly 1 in
  let* y := foldM (f_add F) 0 poly in
  assert_eq x y.

(** * Ciphertexts *)

(** [test_lwe], [lattice_test.rs:31-54]. *)
Definition rt_lwe (B r : Z) (a1 a2 : list Z) (b1 b2 : Z) : option unit :=
  let* mask := p2_new r in
  let a3 := map (fun uv => p2_add B mask (fst uv) (snd uv)) (combine a1 a2) in
  let b3 := p2_add B mask b1 b2 in
  let* x := lwe_add_inplace (p2_mops B mask) (mk_lwe a1 b1) (mk_lwe a2 b2) in
  let* _ := assert_lwe x (mk_lwe a3 b3) in
  let* y := lwe_sub_inplace (p2_mops B mask) (mk_lwe a3 b3) (mk_lwe a2 b2) in
  assert_lwe y (mk_lwe a1 b1).

(** [x.round()] of a product divided ([lattice_test.rs:64-71,154-161]). *)
Definition round_scaled (B v num den : Z) : Z := f64_round_to B (f64_div (f64_mul (f64_of v) (f64_of num)) (f64_of den)).
(** [decode], [lattice_test.rs:69-71,159-161]. *)
Definition rt_decode (B t p c : Z) : option Z := urem (round_scaled B c t p) t.
(** The integer operations [+], [+=], [-], [-=] of plain words, checked ([lwe.rs:65-159] with [T] a primitive). *)
Definition plain_mops (B : Z) : mops := mk_mops (uadd B) usub usub (fun x => if x =? 0 then Some 0 else None) (umul B).
(** The fold of [lattice_test.rs:85-90,103-107,112-114]. *)
Definition rt_dot (B mask : Z) (a s : list Z) : Z :=
  fold_left (fun acc xy => p2_add B mask (p2_mul B mask (fst xy) (snd xy)) acc) (combine a s) 0.
(** [test_lwe_he], [lattice_test.rs:57-119]: the messages, the key, the two masks and the two errors. *)
Definition rt_lwe_he (B r t v0 v1 : Z) (s a1 : list Z) (e1 : Z) (a2 : list Z) (e2 : Z) : option unit :=
  let* mask := p2_new r in
  let enc v a e := p2_add B mask (p2_add B mask (rt_dot B mask a s) (round_scaled B v r t)) e in
  let* ret := lwe_add_inplace (plain_mops B) (mk_lwe a1 (enc v0 a1 e1)) (mk_lwe a2 (enc v1 a2 e2)) in
  let* decrypted := rt_decode B t r (p2_sub B mask (lb ret) (rt_dot B mask (la ret) s)) in
  let* v := uadd B v0 v1 in
  let* w := urem v t in
  assert_eq decrypted w.

(** [test_rlwe], [lattice_test.rs:122-150]. *)
Definition rt_rlwe (F : field) (tbl : tables) (r a1 a2 b1 b2 : list Z) : option unit :=
  let* a3 := p_mul_assign F tbl a1 r in
  let* b3 := p_mul_assign F tbl b1 r in
  let* rlwe1 := rlwe_new a1 b1 in
  let* rlwe2 := rlwe_new a2 b2 in
  let* rlwe3 := rlwe_new a3 b3 in
  let* x := rlwe_add_assign F rlwe1 rlwe2 in
  let* x := rlwe_sub_assign F x rlwe1 in
  let* _ := assert_rlwe x rlwe2 in
  let* v := into_ntt F tbl r in
  let* d := rlwe_mul_ntt_poly F tbl rlwe1 v (rlwe_zero (length r)) in
  let* x := inverse_transform_inplace F tbl d rlwe2 in
  assert_rlwe x rlwe3.

(** [encode], [lattice_test.rs:153-156]. *)
Definition rt_encode (F : field) (t m : Z) : option Z := f_new F (round_scaled (fw F) m (fp F) t).
(** An encryption built by hand, [lattice_test.rs:185-197]. *)
Definition rt_encrypt (F : field) (tbl : tables) (s m a e : list Z) : option rlwe :=
  let* x := p_mul_assign F tbl a s in
  let* x := p_add_assign F x m in
  let* b := p_add_assign F x e in
  rlwe_new a b.
(** [x.b() - x.a() * s] ([lattice_test.rs:203,268,275,350,426,433]). *)
Definition rt_phase (F : field) (tbl : tables) (s : list Z) (x : rlwe) : option (list Z) :=
  let* y := p_mul_assign F tbl (ra x) s in p_sub_rev F (rb x) y.
(** [test_rlwe_he], [lattice_test.rs:168-209]. *)
Definition rt_rlwe_he (F : field) (tbl : tables) (t : Z) (v0 v1 s a0 e0 a1 e1 : list Z) : option unit :=
  let* v_add := mapM2 (fun a b => let* x := uadd (fw F) a b in urem x t) v0 v1 in
  let* m0 := mapM (rt_encode F t) v0 in
  let* m1 := mapM (rt_encode F t) v1 in
  let* rlwe0 := rt_encrypt F tbl s m0 a0 e0 in
  let* rlwe1 := rt_encrypt F tbl s m1 a1 e1 in
  let* sum := rlwe_add_assign F rlwe0 rlwe1 in
  let* ph := rt_phase F tbl s sum in
  let* decrypted := mapM (rt_decode (fw F) t (fp F)) ph in
  assert_poly decrypted v_add.

(** [extract_lwe_test], [lattice_test.rs:212-234]. *)
Definition rt_extract (F : field) (tbl : tables) (s a : list Z) : option unit :=
  let* b := p_mul_assign F tbl a s in
  let* x := rlwe_new a b in
  let* z := extract_lwe F x in
  let* inner := foldM (fun acc xy => let* m := f_mul F (fst xy) (snd xy) in f_add F acc m) 0 (combine (la z) s) in
  assert_eq inner (lb z).

(** The rows [b^i m] under [s], [lattice_test.rs:249-259,318-326,374-382,403-411]. *)
Definition rt_rows (F : field) (tbl : tables) (s m : list Z) (base : Z) (rnd : list (list Z * list Z)) : option (list rlwe) :=
  mapM (fun ir =>
    let* c := base_pow F base (fst ir) in
    let* cm := p_mul_scalar F m c in
    rt_encrypt F tbl s cm (fst (snd ir)) (snd (snd ir))) (combine (seq 0 (length rnd)) rnd).
(** The rows of zero with [b^i m] added to the mask, [lattice_test.rs:328-336,384-392,413-421]. *)
Definition rt_mask_rows (F : field) (tbl : tables) (s m : list Z) (base : Z) (rnd : list (list Z * list Z)) : option (list rlwe) :=
  mapM (fun ir =>
    let* x := p_mul_assign F tbl (fst (snd ir)) s in
    let* b := p_add_assign F x (snd (snd ir)) in
    let* c := base_pow F base (fst ir) in
    let* cm := p_mul_scalar F m c in
    let* a := p_add_assign F (fst (snd ir)) cm in
    rlwe_new a b) (combine (seq 0 (length rnd)) rnd).
(** The RGSW ciphertext built by hand, [lattice_test.rs:317-342,373-398,402-427]. *)
Definition rt_rgsw (F : field) (tbl : tables) (s m : list Z) (b : basis) (rnd rnd' : list (list Z * list Z)) : option rgsw :=
  let* cm := rt_rows F tbl s m (bs_basis b) rnd in
  let* cn := rt_mask_rows F tbl s m (bs_basis b) rnd' in
  let* gn := gadget_new cn b in
  let* gm := gadget_new cm b in
  Some (mk_rgsw gn gm).
(** [min_to_zero], [lattice_test.rs:164-166]. *)
Definition min_to_zero (F : field) (v : Z) : option Z := let* w := usub (fp F) v in Some (Z.min v w).
(** [sqrt] of the sum of squares, [lattice_test.rs:288-296]. *)
Definition std_dev (l : list Z) : spec_float :=
  SFsqrt 53 1024 (fold_left (fun acc v => SFadd 53 1024 acc (f64_mul (f64_of v) (f64_of v))) l (S754_zero false)).
(** [test_gadget_rlwe], [lattice_test.rs:237-299]; [rnd] has as many pairs as the basis has digits. *)
Definition rt_gadget (F : field) (tbl : tables) (t bits : Z) (m poly s : list Z) (rnd : list (list Z * list Z)) : option unit :=
  let* pm := p_mul_assign F tbl poly m in
  let* b := basis_new F bits in
  let* rows := rt_rows F tbl s m (2 ^ bits) (firstn (bs_len b) rnd) in
  let* np := into_ntt F tbl poly in
  let* row0 := index rows 0 in
  let* d := rlwe_mul_ntt_poly F tbl row0 np (rlwe_zero (length poly)) in
  let* bad := rlwe_from_ntt F tbl d in
  let* bad_mul := rt_phase F tbl s bad in
  let* G := gadget_new rows b in
  let* good := g_mul_polynomial F tbl G poly in
  let* good_mul := rt_phase F tbl s good in
  let* diff := p_sub F pm good_mul in
  let* diff := mapM (min_to_zero F) diff in
  let* bad_diff := p_sub F pm bad_mul in
  let* bad_diff := mapM (min_to_zero F) bad_diff in
  let* _ := assert (SFltb (std_dev diff) (std_dev bad_diff)) in
  let* x := mapM (rt_decode (fw F) t (fp F)) good_mul in
  let* y := mapM (rt_decode (fw F) t (fp F)) pm in
  assert_poly x y.
(** [test_rgsw_mul_rlwe], [lattice_test.rs:302-356]. *)
Definition rt_rgsw_rlwe (F : field) (tbl : tables) (t bits : Z) (m0 m1 s : list Z) (rnd rnd' : list (list Z * list Z)) (a e : list Z) : option unit :=
  let* mm := p_mul_assign F tbl m0 m1 in
  let* b := basis_new F bits in
  let* R := rt_rgsw F tbl s m1 b (firstn (bs_len b) rnd) (firstn (bs_len b) rnd') in
  let* x := rt_encrypt F tbl s m0 a e in
  let* y := rlwe_mul_rgsw F tbl x R in
  let* ph := rt_phase F tbl s y in
  let* u := mapM (rt_decode (fw F) t (fp F)) mm in
  let* v := mapM (rt_decode (fw F) t (fp F)) ph in
  assert_poly u v.
(** [test_rgsw_mul_rgsw], [lattice_test.rs:359-442]. *)
Definition rt_rgsw_rgsw (F : field) (tbl : tables) (t bits : Z) (m0 m1 s : list Z) (rnd1 rnd1' rnd0 rnd0' : list (list Z * list Z)) : option unit :=
  let* mm := p_mul_assign F tbl m0 m1 in
  let* b := basis_new F bits in
  let* R1 := rt_rgsw F tbl s m1 b (firstn (bs_len b) rnd1) (firstn (bs_len b) rnd1') in
  let* R0 := rt_rgsw F tbl s m0 b (firstn (bs_len b) rnd0) (firstn (bs_len b) rnd0') in
  let* R := rgsw_mul_small F tbl R0 R1 in
  let* x := index (gd (c_m R)) 0 in
  let* ph := rt_phase F tbl s x in
  let* u := mapM (rt_decode (fw F) t (fp F)) mm in
  let* v := mapM (rt_decode (fw F) t (fp F)) ph in
  let* _ := assert_poly u v in
  let* x := index (gd (c_neg R)) 0 in
  let* ph := rt_phase F tbl s x in
  let* c := f_new F (fp F - 1) in
  let* ns := p_mul_scalar F s c in
  let* nm := p_mul_assign F tbl mm ns in
  let* u := mapM (rt_decode (fw F) t (fp F)) nm in
  let* v := mapM (rt_decode (fw F) t (fp F)) ph in
  assert_poly u v.
