(** The example programs, as whole programs with their assertions: [bool/examples/bfhe.rs],
    [bool/examples/count_ntt.rs], [bool/examples/encode.rs] and [algebra/examples/field.rs].

    Printing and timing are left out.  The bits and elements drawn from [rand::thread_rng()] are
    parameters. *)
From Coq Require Import ZArith List Bool SpecFloat.
From Verif Require Import Model.Base Model.PowOf2 Model.Plaintext Model.Field Model.NTT Model.Poly Model.Lwe Model.Params Model.Boolean Model.ModSwitch Model.SecretKey Model.Gaussian Model.Sampled Model.Stream.
Import ListNotations.
Local Open Scope Z_scope.

(** The functions on plain bits of [fhe_core/src/utils.rs:5-7]. *)
Definition u_not (a : bool) : bool := negb a.
(** [utils.rs:11-13]. *)
Definition u_and (a b : bool) : bool := a && b.
(** [utils.rs:17-19]. *)
Definition u_nand (a b : bool) : bool := u_not (u_and a b).
(** [utils.rs:23-25]. *)
Definition u_or (a b : bool) : bool := a || b.
(** [utils.rs:29-31]. *)
Definition u_nor (a b : bool) : bool := u_not (u_or a b).
(** [utils.rs:35-37]. *)
Definition u_xor (a b : bool) : bool := xorb a b.
(** [utils.rs:41-43]. *)
Definition u_xnor (a b : bool) : bool := u_not (u_xor a b).
(** [utils.rs:47-49]. *)
Definition u_majority (a b c : bool) : bool := u_and a b || u_and b c || u_and a c.

(** [SecretKeyPack::decrypt_with_noise], [fhe_core/src/secret_key.rs:196-215], which
    [Decryptor::decrypt_with_noise] ([bool/src/decrypt.rs:25-28]) calls. *)
Definition kp_decrypt_with_noise (M : msg_type) (B : Z) (kp : key_pack) (c : lwe) : option (Z * Z) :=
  decrypt_with_noise M B (pp_t (kp_par kp)) (pp_q (kp_par kp)) (kp_lwe kp) c.

(** [x as C] from [f64] to an unsigned [B]-bit integer: truncates, saturates, sends NaN to 0 (the cast
    of [bool/examples/bfhe.rs:19]). *)
Definition f64_as (B : Z) (x : spec_float) : Z :=
  match x with
  | S754_zero _ | S754_nan => 0
  | S754_infinity s => if s then 0 else 2 ^ B - 1
  | S754_finite s m e =>
    if s then 0 else Z.min (2 ^ B - 1) (if 0 <=? e then Zpos m * 2 ^ e else Zpos m / 2 ^ (- e))
  end.
(** [noise_max], [bfhe.rs:19] and [count_ntt.rs:23]. *)
Definition noise_max (B q : Z) : Z := f64_as B (f64_div (f64_of q) (f64_of 16)).

(** Decrypting a result and the two assertions on it, e.g. [bfhe.rs:52-54] with the closure of
    [bfhe.rs:21-27]; [want] is the bit computed in the clear. *)
Definition check (B : Z) (kp : key_pack) (c : lwe) (want : bool) : option bool :=
  let* '(m, noise) := kp_decrypt_with_noise MBool B kp c in
  let* _ := assert (Bool.eqb (m =? 1) want) in
  let* _ := assert (noise <? noise_max B (pp_q (kp_par kp))) in
  Some (m =? 1).

(** The variables [a, b, c] and [x, y, z] of the loop ([bfhe.rs:41-47]). *)
Definition trio := (((bool * bool) * bool) * ((lwe * lwe) * lwe))%type.

(** One pass of the loop, [bfhe.rs:49-113], with [join_bit_operations] ([bfhe.rs:117-161]): its eight
    tasks write to variables of their own and share only immutable data (and the table caches and
    counters, modelled in [Model/Cache], [Model/Threads] and [Model/Tally]), so they are run one after
    another here; a panic in one of them is a panic of [rayon::scope]. *)
Definition bfhe_round (B : Z) (F : field) (tbl : tables) (K : eval_key) (kp : key_pack) (v : trio) : option trio :=
  let '(((a, b), c), ((x, y), z)) := v in
  let* ct_not := g_not B K x in
  let* _ := check B kp ct_not (u_not a) in
  let* ct_and := g_and B F tbl K x y in
  let* ct_nand := g_nand B F tbl K x y in
  let* ct_or := g_or B F tbl K x y in
  let* ct_nor := g_nor B F tbl K x y in
  let* ct_xor := g_xor B F tbl K x y in
  let* ct_xnor := g_xnor B F tbl K x y in
  let* ct_majority := g_majority B F tbl K x y z in
  let* ct_mux := g_mux B F tbl K x y z in
  let* ma := check B kp ct_majority (u_majority a b c) in
  let* _ := check B kp ct_and (u_and a b) in
  let* _ := check B kp ct_nand (u_nand a b) in
  let* mx := check B kp ct_xor (u_xor a b) in
  let* _ := check B kp ct_xnor (u_xnor a b) in
  let* _ := check B kp ct_or (u_or a b) in
  let* _ := check B kp ct_nor (u_nor a b) in
  let* m := check B kp ct_mux (if a then b else c) in
  Some (((m, ma), mx), ((ct_mux, ct_majority), ct_xor)).

Section Mains.
Context {St St' : Type}.

(** The keys of [bfhe.rs:29-38] ([KeyGen::generate_secret_key], [bool/src/key_gen.rs:13-18];
    [Evaluator::new]). *)
Definition example_keys (B : Z) (F : field) (tbl : tables) (P : parameters) (dv : deviations) (fuel : nat) : rand_on St (key_pack * eval_key) :=
  let% kp := key_pack_new_g F tbl P dv fuel in
  let% K := eval_key_new_g B F tbl dv fuel kp in
  rret (kp, K).
(** The ciphertexts of [bfhe.rs:45-47] ([Encryptor::encrypt], [bool/src/encrypt.rs:21-27]). *)
Definition example_inputs (B : Z) (dv : deviations) (fuel : nat) (kp : key_pack) (a b c : bool) : rand_on St ((lwe * lwe) * lwe) :=
  let% x := kp_encrypt_g B dv fuel kp (b2z a) in
  let% y := kp_encrypt_g B dv fuel kp (b2z b) in
  let% z := kp_encrypt_g B dv fuel kp (b2z c) in
  rret ((x, y), z).
End Mains.

(** [main], [bfhe.rs:12-114]: keys from one generator, ciphertexts from a second one, [n] passes of the
    loop (the code has 9).  The bits it ends with. *)
Definition bfhe_main {St St' : Type} (n : nat) (B : Z) (F : field) (tbl : tables) (P : parameters) (dv : deviations) (fuel : nat)
    (a b c : bool) (R : rng St) (s : St) (R' : rng St') (s' : St') : drawn ((bool * bool) * bool) :=
  dbind (example_keys B F tbl P dv fuel R s) (fun kpK => let '((kp, K), _) := kpK in
  dbind (example_inputs B dv fuel kp a b c R' s') (fun xyz =>
  dbind (dlift (iterM n (bfhe_round B F tbl K kp) (((a, b), c), fst xyz))) (fun v => Got (fst v)))).

(** [main], [count_ntt.rs:16-84], without the counters ([Model/Count], [Model/Tally]): keys and
    ciphertexts from the same generator, one nand and one mux. *)
Definition count_main {St : Type} (B : Z) (F : field) (tbl : tables) (P : parameters) (dv : deviations) (fuel : nat)
    (a b c : bool) : rand_on St (bool * bool) :=
  let% kpK := example_keys B F tbl P dv fuel in
  let '(kp, K) := kpK in
  let% xyz := example_inputs B dv fuel kp a b c in
  let '((x, y), z) := xyz in
  let% ct := rlift (g_nand B F tbl K x y) in
  let% m := rlift (check B kp ct (u_nand a b)) in
  let% ct := rlift (g_mux B F tbl K x y z) in
  let% m' := rlift (check B kp ct (if a then b else c)) in
  rret (m, m').

(** One message in [encode.rs:19-32]: [i.try_into().unwrap()] and the three assertions. *)
Definition encode_case (M : msg_type) (B t q mask nmax i : Z) : option unit :=
  let* _ := assert (i <=? msg_max M) in
  let* encoded := encode B i t q in
  let* decoded := decode M encoded t q in
  let* _ := assert (decoded =? i) in
  let* d := usub nmax 1 in
  let* decoded := decode M (p2_add B mask encoded d) t q in
  let* _ := assert (decoded =? i) in
  let* decoded := decode M (p2_sub B mask encoded d) t q in
  assert (decoded =? i).
(** [main], [encode.rs:8-34], with the word and message types and the moduli as parameters (there 16
    bits, [u8], 4 and 512). *)
Definition encode_main (M : msg_type) (B t q : Z) : option unit :=
  let* t2 := umul 64 t 2 in
  let* d := udiv q t2 in
  let* mask := p2_new (ucast B q) in
  foldM (fun _ i => encode_case M B t q mask (ucast B d) (Z.of_nat i)) tt (seq 0 (Z.to_nat t)).

(** [loop { .. if !t.is_zero() { break t; } }], [field.rs:66-71], on the elements drawn. *)
Fixpoint first_nonzero (draws : list Z) : drawn Z :=
  match draws with
  | [] => Looping
  | t :: draws' => if t =? 0 then first_nonzero draws' else Got t
  end.
(** [main], [field.rs:32-109]: [a] is the element drawn at 59, [draws] those of the loop, [pa] and [pb]
    the polynomials of 103-104 (there of 8 coefficients).  [one.is_one()] and [zero.is_zero()] (50-51)
    compare 1 with 1 and 0 with 0; the values named with an underscore only have to be computed; the float is 3.2.  The
    element printed and the last product. *)
Definition field_main (F : field) (tbl : tables) (a : Z) (draws : list Z) (pa pb : list Z) : drawn (Z * list Z) :=
  dbind (dlift (let* nine := f_new F 9 in assert (nine =? 9))) (fun _ =>
  dbind (dlift (gauss_new (S754_zero false) (S754_finite false 7205759403792794 (-51)))) (fun _ =>
  dbind (first_nonzero draws) (fun b =>
  dlift (
    let* _ := f_add F a b in
    let* _ := f_sub F a b in
    let* _ := f_mul F a b in
    let* _ := f_div F a b in
    let* a := f_add F a b in
    let* a := f_sub_assign F a b in
    let* a := f_mul F a b in
    let* a := f_div F a b in
    let* a := f_neg F a in
    let* a := f_inv F a in
    let* a := f_pow F a 5 in
    let* c := p_mul_assign F tbl pa pb in
    Some (a, c))))).
