(** Key generation and encryption from one random generator, in the order of the code.

    [Model/Sampled] gives every sample a source of its own.  Here all samples are drawn from the generator
    [csrng] that the code hands from call to call. *)
From Coq Require Import ZArith List Bool SpecFloat.
From Verif Require Import Model.Base Model.PowOf2 Model.Plaintext Model.Field Model.NTT Model.Poly Model.Lwe Model.Rlwe Model.Gadget Model.BlindRotation Model.KeySwitch Model.Params Model.Boolean Model.Sample Model.SecretKey Model.Gaussian Model.Sampled.
Import ListNotations.
Local Open Scope Z_scope.

(** A generator [R: Rng + CryptoRng] with states [St] ([fhe_core/src/secret_key.rs:69]): what it answers
    in a state, and the state it is in afterwards, to a request for a word of [w] bits ([rng.next_u32()],
    [rng.gen()]), for [n] bytes ([rng.fill_bytes(..)]), for a draw of [rand_distr::Normal] with the
    parameters of a sampler, for a draw of [rand_distr::Uniform] below [q].  The last two may make any
    calls of the generator inside the external crate; they are one request here. *)
Record rng (St : Type) := mk_rng {
  rn_word : Z -> St -> drawn (Z * St); rn_bytes : nat -> St -> drawn (list Z * St);
  rn_normal : gaussian -> St -> drawn (spec_float * St); rn_below : Z -> St -> drawn (Z * St) }.
Arguments mk_rng {St}.
Arguments rn_word {St}.
Arguments rn_bytes {St}.
Arguments rn_normal {St}.
Arguments rn_below {St}.
(** A generator as the sequence of its answers ([fhe_core/src/secret_key.rs:69]): what it answers when its
    [i]-th request is a word of [w] bits, the [j]-th byte of a [fill_bytes], a draw of [Normal], a draw of
    [Uniform]. *)
Record generator := mk_generator {
  gn_word : Z -> nat -> Z; gn_byte : nat -> nat -> Z;
  gn_normal : gaussian -> nat -> spec_float; gn_below : Z -> nat -> Z }.
(** Its state is the number of requests made so far ([fhe_core/src/secret_key.rs:69]). *)
Definition counter (G : generator) : rng nat := mk_rng
  (fun w i => Got (gn_word G w i, S i)) (fun n i => Got (map (gn_byte G i) (seq 0 n), S i))
  (fun g i => Got (gn_normal G g i, S i)) (fun q i => Got (gn_below G q i, S i)).
Coercion counter : generator >-> rng.

(** A computation that draws from the [&mut R] it is given ([fhe_core/src/secret_key.rs:69-177]). *)
Definition rand_on (St A : Type) := rng St -> St -> drawn (A * St).
(** A result without drawing (the semantics of Rust, no code of its own: [fhe_core/src/secret_key.rs:69-177]). *)
Definition rret {St A : Type} (v : A) : rand_on St A := fun _ x => Got (v, x).
(** Sequencing (the semantics of [;], no code of its own: [fhe_core/src/secret_key.rs:69-177]). *)
Definition rbind {St A C : Type} (m : rand_on St A) (f : A -> rand_on St C) : rand_on St C := fun R x =>
  match m R x with Got (v, y) => f v R y | Looping => Looping | Panicked => Panicked end.
(** A deterministic step that may panic (no code of its own: [fhe_core/src/secret_key.rs:69-177]). *)
Definition rlift {St A : Type} (o : option A) : rand_on St A := fun _ x => match o with Some v => Got (v, x) | None => Panicked end.
Notation "'let%' x ':=' a 'in' b" := (rbind a (fun x => b)) (at level 200, x name, a at level 100, b at level 200).

Section Programs.
Context {St : Type}.
Notation rand := (rand_on St).

(** [(0..n).map(|_| ..).collect()], [sample_iter(rng).take(n).collect()]
    ([algebra/src/polynomial/ntt_polynomial.rs:211-221], [lattice/src/lwe.rs:348]). *)
Fixpoint rtimes {A : Type} (n : nat) (m : rand A) : rand (list A) :=
  match n with
  | O => rret []
  | S n' => let% x := m in let% l := rtimes n' m in rret (x :: l)
  end.
(** [iter().map(|z| ..).collect()] with a closure that draws
    ([fhe_core/src/blind_rotation/binary.rs:84-103], [fhe_core/src/key_switch/rlwe.rs:94-113]). *)
Fixpoint rmap {A C : Type} (f : A -> rand C) (l : list A) : rand (list C) :=
  match l with
  | [] => rret []
  | z :: l' => let% x := f z in let% r := rmap f l' in rret (x :: r)
  end.

(** * Samplers; [fuel] bounds the passes of a rejection loop, [Looping] when they do not suffice. *)

(** [rng.next_u32()] ([lattice/src/utils/sample.rs:18,26]). *)
Definition next_u32 : rand Z := fun R => rn_word R 32.
(** The loop over whole chunks ([lattice/src/utils/sample.rs:15-23,39-47], [algebra/src/utils/sample.rs:14-22,38-46]). *)
Fixpoint fill_chunks_g (w : Z) (s : list Z) (per c : nat) : rand (list Z) :=
  match c with
  | O => rret []
  | S c' => let% r := next_u32 in let% x := rlift (fill w s per r) in let% l := fill_chunks_g w s per c' in rret (x ++ l)
  end.
(** [lattice/src/utils/sample.rs:9-29,32-53], [algebra/src/utils/sample.rs:7-28,31-52]: the word for the
    remainder is drawn even when there is none. *)
Definition sample_symbols_g (w : Z) (s : list Z) (per len : nat) : rand (list Z) :=
  let% l := fill_chunks_g w s per (Nat.div len per) in
  let% r := next_u32 in
  let% t := rlift (fill w s (Nat.modulo len per) r) in
  rret (l ++ t).
(** [lattice/src/utils/sample.rs:9-29]. *)
Definition sample_binary_values_g (len : nat) : rand (list Z) := sample_symbols_g 1 [0; 1] 32 len.
(** [lattice/src/utils/sample.rs:32-53]. *)
Definition sample_ternary_values_g (q : Z) (len : nat) : rand (list Z) :=
  let% m := rlift (usub q 1) in sample_symbols_g 2 [0; 0; 1; m] 16 len.
(** [algebra/src/utils/sample.rs:7-28]. *)
Definition sample_binary_field_vec_g (F : field) (len : nat) : rand (list Z) := sample_symbols_g 1 [0; 1] 32 len.
(** [algebra/src/utils/sample.rs:31-52]. *)
Definition sample_ternary_field_vec_g (F : field) (len : nat) : rand (list Z) :=
  let% m := rlift (usub (fp F) 1) in sample_symbols_g 2 [0; 0; 1; m] 16 len.
(** The closure of [algebra/src/utils/sample.rs:60-75] on the array it has filled. *)
Definition cbd_bytes (F : field) (l : list Z) : option Z :=
  match l with [x0; x1; x2; x3; x4; x5] => cbd_value F x0 x1 x2 x3 x4 x5 | _ => None end.
(** [algebra/src/utils/sample.rs:55-76]: one [fill_bytes] of six bytes per coefficient. *)
Definition sample_cbd_field_vec_g (F : field) (len : nat) : rand (list Z) :=
  rtimes len (let% l := (fun R => rn_bytes R 6) in rlift (cbd_bytes F l)).

(** The loop of [FieldUniformSampler::sample], [algebra/src/random.rs:71-83]. *)
Fixpoint uniform_g (F : field) (th : Z) (fuel : nat) : rand Z :=
  match fuel with
  | O => fun _ _ => Looping
  | S fuel' =>
      let% r := (fun R => rn_word R (sample_width F)) in
      let% o := rlift (uniform_try F th r) in
      match o with Some v => rret v | None => uniform_g F th fuel' end
  end.
(** [NTTPolynomial::random], [algebra/src/polynomial/ntt_polynomial.rs:211-221]; [Polynomial::random],
    [native_polynomial.rs:249-259], is the same. *)
Definition random_g (F : field) (fuel n : nat) : rand (list Z) :=
  let% th := rlift (thresh F) in rtimes n (uniform_g F th fuel).

(** The loop of [algebra/src/random.rs:202-216], [lattice/src/utils/sample.rs:139-152]. *)
Fixpoint gauss_loop_g (conv : spec_float -> option Z) (g : gaussian) (fuel : nat) : rand Z :=
  match fuel with
  | O => fun _ _ => Looping
  | S fuel' =>
      let% v := (fun R => rn_normal R g) in
      if accepts g v then rlift (conv v) else gauss_loop_g conv g fuel'
  end.
(** [Polynomial::random_with_gaussian], [algebra/src/polynomial/native_polynomial.rs:232-245]. *)
Definition random_with_gaussian_g (F : field) (fuel n : nat) (g : gaussian) : rand (list Z) :=
  if gs_cbd g then sample_cbd_field_vec_g F n else rtimes n (gauss_loop_g (gauss_field F) g fuel).

(** * Samples *)

(** The two draws of [lattice/src/lwe.rs:345-351], in this order. *)
Definition lwe_draws_g (B q : Z) (g : gaussian) (fuel n : nat) : rand (list Z * Z) :=
  let% a := rtimes n (fun R => rn_below R q) in
  let% e := gauss_loop_g (gauss_word B q) g fuel in
  rret (a, e).
(** [LWE::generate_random_zero_sample], [lattice/src/lwe.rs:327-352]; [q] is the modulus value. *)
Definition lwe_zero_sample_g (B mask q : Z) (g : gaussian) (fuel : nat) (sk : list Z) : rand lwe :=
  let% ae := lwe_draws_g B q g fuel (length sk) in rlift (lwe_zero_sample B mask sk (fst ae) (snd ae)).
(** The two draws of [lattice/src/rlwe.rs:1034-1075], in this order. *)
Definition ring_draws_g (F : field) (g : gaussian) (fuel n : nat) : rand (list Z * list Z) :=
  let% a := random_g F fuel n in
  let% e := random_with_gaussian_g F fuel n g in
  rret (a, e).
(** [NTTRLWE::generate_random_zero_sample], [lattice/src/rlwe.rs:1034-1051]. *)
Definition nrlwe_zero_sample_g (F : field) (tbl : tables) (g : gaussian) (fuel : nat) (sk : list Z) : rand rlwe :=
  let% ae := ring_draws_g F g fuel (length sk) in rlift (nrlwe_zero_sample F tbl sk (fst ae) (snd ae)).
(** [NTTRLWE::generate_random_value_sample], [lattice/src/rlwe.rs:1054-1075]. *)
Definition nrlwe_value_sample_g (F : field) (tbl : tables) (g : gaussian) (fuel : nat) (sk : list Z) (v : Z) : rand rlwe :=
  let% ae := ring_draws_g F g fuel (length sk) in rlift (nrlwe_value_sample F tbl sk (fst ae) (snd ae) v).

(** [NTTGadgetRLWE::generate_random_zero_sample], [lattice/src/gadget/rlwe.rs:438-452]. *)
Definition ng_zero_sample_g (F : field) (tbl : tables) (g : gaussian) (fuel : nat) (sk : list Z) (b : basis) : rand gadget :=
  let% d := rtimes (bs_len b) (nrlwe_zero_sample_g F tbl g fuel sk) in rret (mk_gadget d b).
(** The loops of [lattice/src/gadget/rlwe.rs:464-483,496-511]: [len] rows, the last one outside the loop;
    [len - 1] is checked. *)
Fixpoint power_rows_g (F : field) (row : Z -> rand rlwe) (bv power : Z) (len : nat) : rand (list rlwe) :=
  match len with
  | O => rlift None
  | S O => let% r := row power in rret [r]
  | S len' =>
      let% r := row power in
      let% power := rlift (umul (fw F) power bv) in
      let% t := power_rows_g F row bv power len' in
      rret (r :: t)
  end.
(** [lattice/src/gadget/rlwe.rs:454-483]. *)
Definition ng_one_sample_g (F : field) (tbl : tables) (g : gaussian) (fuel : nat) (sk : list Z) (b : basis) : rand gadget :=
  let% d := power_rows_g F (fun power => nrlwe_value_sample_g F tbl g fuel sk power) (bs_basis b) 1 (bs_len b) in
  rret (mk_gadget d b).
(** [lattice/src/gadget/rlwe.rs:486-511]. *)
Definition ng_neg_secret_sample_g (F : field) (tbl : tables) (g : gaussian) (fuel : nat) (sk : list Z) (b : basis) : rand gadget :=
  let% d := power_rows_g F (fun power =>
      let% r := nrlwe_zero_sample_g F tbl g fuel sk in
      let% a := rlift (mapM (fun v => f_add F v power) (ra r)) in rret (mk_rlwe a (rb r))) (bs_basis b) 1 (bs_len b) in
  rret (mk_gadget d b).
(** [lattice/src/rgsw.rs:343-366]. *)
Definition nrgsw_zero_sample_g (F : field) (tbl : tables) (g : gaussian) (fuel : nat) (sk : list Z) (b : basis) : rand rgsw :=
  let% x := ng_zero_sample_g F tbl g fuel sk b in let% y := ng_zero_sample_g F tbl g fuel sk b in rret (mk_rgsw x y).
(** [lattice/src/rgsw.rs:369-392]. *)
Definition nrgsw_one_sample_g (F : field) (tbl : tables) (g : gaussian) (fuel : nat) (sk : list Z) (b : basis) : rand rgsw :=
  let% x := ng_neg_secret_sample_g F tbl g fuel sk b in let% y := ng_one_sample_g F tbl g fuel sk b in rret (mk_rgsw x y).

(** * Keys *)

(** [fhe_core/src/blind_rotation/binary.rs:72-105]. *)
Definition binary_generate_g (F : field) (tbl : tables) (g : gaussian) (fuel : nat) (lwe_sk sk : list Z) (b : basis) : rand (list rgsw) :=
  rmap (fun s => if s =? 0 then nrgsw_zero_sample_g F tbl g fuel sk b else nrgsw_one_sample_g F tbl g fuel sk b) lwe_sk.
(** [fhe_core/src/blind_rotation/ternary.rs:98-161]. *)
Definition ternary_generate_g (F : field) (tbl : tables) (g : gaussian) (fuel : nat) (lwe_sk sk : list Z) (b : basis) : rand (list (rgsw * rgsw)) :=
  rmap (fun s =>
    if s =? 1 then
      let% x := nrgsw_one_sample_g F tbl g fuel sk b in
      let% y := nrgsw_zero_sample_g F tbl g fuel sk b in rret (x, y)
    else if s =? 0 then
      let% x := nrgsw_zero_sample_g F tbl g fuel sk b in
      let% y := nrgsw_zero_sample_g F tbl g fuel sk b in rret (x, y)
    else
      let% x := nrgsw_zero_sample_g F tbl g fuel sk b in
      let% y := nrgsw_one_sample_g F tbl g fuel sk b in rret (x, y)) lwe_sk.
(** [BlindRotationKey::generate], [fhe_core/src/blind_rotation/mod.rs:59-85]; [dev] is the deviation of
    [ring_noise_distribution]. *)
Definition br_key_generate_g (F : field) (tbl : tables) (dev : spec_float) (fuel : nat) (kp : key_pack) : rand br_key :=
  let P := kp_par kp in
  let% g := rlift (gauss_new (S754_zero false) dev) in
  match pp_key P with
  | LBinary => let% k := binary_generate_g F tbl g fuel (kp_lwe kp) (kp_ntt kp) (pp_basis P) in rret (BrBinary k)
  | LTernary => let% k := ternary_generate_g F tbl g fuel (kp_lwe kp) (kp_ntt kp) (pp_basis P) in rret (BrTernary k)
  end.

(** The [while v < basis] loop, [fhe_core/src/key_switch/lwe.rs:77-96]; [c] bounds its passes. *)
Fixpoint lks_entries_g (B mask q basis : Z) (g : gaussian) (fuel : nat) (sk : list Z) (z v : Z) (c : nat) : rand (list lwe) :=
  match c with
  | O => rret []
  | S c' =>
      if v <? basis then
        let% x := lwe_zero_sample_g B mask q g fuel sk in
        let x := mk_lwe (la x) (p2_add B mask (lb x) (p2_mul B mask v z)) in
        let% v := rlift (uadd B v 1) in
        let% r := lks_entries_g B mask q basis g fuel sk z v c' in
        rret (x :: r)
      else rret []
  end.
(** [fhe_core/src/key_switch/lwe.rs:72-108]: [len] levels left. *)
Fixpoint lks_levels_g (B mask q basis : Z) (g : gaussian) (fuel : nat) (sk zs : list Z) (len : nat) : rand (list (list (list lwe))) :=
  match len with
  | O => rret []
  | S len' =>
      let% inner := rmap (fun z =>
        let% _ := rlift (usub basis 2) in lks_entries_g B mask q basis g fuel sk z 1 (Z.to_nat basis)) zs in
      let zs := match len' with O => zs | _ => map (fun z => p2_mul B mask z basis) zs end in
      let% rest := lks_levels_g B mask q basis g fuel sk zs len' in
      rret (inner :: rest)
  end.
(** [KeySwitchingLWEKey::generate], [fhe_core/src/key_switch/lwe.rs:30-116]; dimensions as in
    [lks_generate]. *)
Definition lks_generate_g (B q bits : Z) (dev : spec_float) (fuel : nat) (sk ring_sk : list Z) : rand lwe_ks_key :=
  let% mask := rlift (p2_new q) in
  let% g := rlift (gauss_new (S754_zero false) dev) in
  let% wb := rlift (wbasis_new B bits q) in
  let% neg_one := rlift (usub q 1) in
  let% key := lks_levels_g B mask q (wb_basis wb) g fuel sk (map (to_word neg_one) ring_sk) (wb_len wb) in
  rret (mk_lwe_ks_key (length sk) mask wb key).

(** [fhe_core/src/key_switch/rlwe.rs:73-85,97-110]: [len] rows left. *)
Fixpoint rks_rows_g (F : field) (tbl : tables) (g : gaussian) (fuel : nat) (lwe_sk : list Z) (bv : Z) (z : list Z) (len : nat) : rand (list rlwe) :=
  match len with
  | O => rret []
  | S len' =>
      let% r := nrlwe_zero_sample_g F tbl g fuel lwe_sk in
      let% rb' := rlift (p_add_assign F (rb r) z) in
      let% z := rlift (match len' with O => Some z | _ => p_mul_scalar F z bv end) in
      let% rest := rks_rows_g F tbl g fuel lwe_sk bv z len' in
      rret (mk_rlwe (ra r) rb' :: rest)
  end.
(** [KeySwitchingRLWEKey::generate], [fhe_core/src/key_switch/rlwe.rs:24-118]; dimensions as in
    [rks_generate]. *)
Definition rks_generate_g (F : field) (tbl : tables) (bits : Z) (dev : spec_float) (fuel : nat) (sk ring_sk ntt_ring_sk : list Z) : rand rlwe_ks_key :=
  let n := length sk in
  let ext := next_pow2 n in
  let N := length ring_sk in
  let% _ := rlift (assert (ext <=? N)%nat) in
  let% g := rlift (gauss_new (S754_zero false) dev) in
  let% b := rlift (basis_new F bits) in
  let% s := rlift (mapM (to_field F) sk) in
  let% lwe_sk := rlift (into_ntt F tbl (s ++ repeat 0 (ext - n))) in
  let% bv := rlift (f_new F (bs_basis b)) in
  let one := fun z => let% rows := rks_rows_g F tbl g fuel lwe_sk bv z (bs_len b) in rret (mk_gadget rows b) in
  let% key := (if (ext =? N)%nat then let% x := one ntt_ring_sk in rret [x]
               else rmap (fun z => let% z := rlift (into_ntt F tbl z) in one z) (chunks ext ring_sk)) in
  rret (mk_rlwe_ks_key n key).

(** [EvaluationKey::new], [bool/src/bfhe/evaluate.rs:48-68]. *)
Definition eval_key_new_g (B : Z) (F : field) (tbl : tables) (dv : deviations) (fuel : nat) (kp : key_pack) : rand eval_key :=
  let P := kp_par kp in
  let% br := br_key_generate_g F tbl (dv_ring dv) fuel kp in
  let% ks := match pp_steps P with
    | BrMsKs => let% K := lks_generate_g B (pp_q P) (pp_ks_bits P) (dv_ks dv) fuel (kp_lwe kp) (kp_ring kp) in rret (KsLwe K)
    | BrKsMs => let% K := rks_generate_g F tbl (pp_ks_bits P) (dv_ks dv) fuel (kp_lwe kp) (kp_ring kp) (kp_ntt kp) in rret (KsRlwe K)
    | BrMs => rret KsNone
    end in
  rret (mk_eval_key br ks P).

(** [create_lwe_secret_key], [fhe_core/src/secret_key.rs:56-66]. *)
Definition create_lwe_secret_key_g (P : parameters) : rand (list Z) :=
  match pp_key P with
  | LBinary => sample_binary_values_g (Z.to_nat (pp_n P))
  | LTernary => sample_ternary_values_g (pp_q P) (Z.to_nat (pp_n P))
  end.
(** The [match] of [fhe_core/src/secret_key.rs:74-112]. *)
Definition create_ring_secret_key_g (F : field) (P : parameters) (dev : spec_float) (fuel : nat) (lwe_sk : list Z) : rand (list Z) :=
  let N := Z.to_nat (pp_N P) in
  match pp_steps P with
  | BrMsKs =>
      match pp_ring_key P with
      | RBinary => sample_binary_field_vec_g F N
      | RTernary => sample_ternary_field_vec_g F N
      | RGaussian => rlift None
      end
  | BrKsMs =>
      match pp_ring_key P with
      | RBinary => sample_binary_field_vec_g F N
      | RTernary => sample_ternary_field_vec_g F N
      | RGaussian => let% g := rlift (gauss_new (S754_zero false) dev) in random_with_gaussian_g F fuel N g
      end
  | BrMs =>
      let% _ := rlift (assert (match pp_ring_key P with RGaussian => false | _ => true end)) in
      let% _ := rlift (assert (pp_n P =? pp_N P)) in
      rlift (mapM (convert F) lwe_sk)
  end.
(** [SecretKeyPack::new], [fhe_core/src/secret_key.rs:69-122]. *)
Definition key_pack_new_g (F : field) (tbl : tables) (P : parameters) (dv : deviations) (fuel : nat) : rand key_pack :=
  let% z := create_lwe_secret_key_g P in
  let% s := create_ring_secret_key_g F P (dv_ring dv) fuel z in
  let% S := rlift (into_ntt F tbl s) in
  rret (mk_key_pack z s S P).

(** [SecretKeyPack::encrypt], [fhe_core/src/secret_key.rs:150-177]. *)
Definition kp_encrypt_g (B : Z) (dv : deviations) (fuel : nat) (kp : key_pack) (m : Z) : rand lwe :=
  let q := pp_q (kp_par kp) in
  let% mask := rlift (p2_new q) in
  let% g := rlift (gauss_new (S754_zero false) (dv_lwe dv)) in
  let% z := lwe_zero_sample_g B mask q g fuel (kp_lwe kp) in
  let% c := rlift (encode B m (pp_t (kp_par kp)) q) in
  rret (mk_lwe (la z) (p2_add B mask (lb z) c)).
End Programs.
