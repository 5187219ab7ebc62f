(** Specification vocabulary for the Boolean layer. *)
From Coq Require Import ZArith List Bool.
From Verif Require Import Spec.Basic Spec.Poly Spec.Lattice Spec.Ring Spec.Blind Spec.Switch.
From Verif Require Import Model.Base Model.Field Model.Poly Model.Lwe Model.Rlwe Model.Gadget Model.BlindRotation Model.KeySwitch Model.Params Model.Boolean.
Import ListNotations.
Local Open Scope Z_scope.

(** Rotating [lut] by a phase t (a multiple of [st], modulo 2n) and adding p/8 gives 2*(p/8) when t
    lies in the half circle [start, start + n) and 0 otherwise. *)
Definition half_circle_table (p : Z) (n : nat) (st start : Z) (lut : list Z) : Prop :=
  length lut = n /\ canonical p lut /\
  forall t, 0 <= t < 2 * Z.of_nat n -> (st | t) ->
    (nth 0 (negacyclic n (xpow n (- t)) lut) 0 + p / 8) mod p =
    if (t - start) mod (2 * Z.of_nat n) <? Z.of_nat n then 2 * (p / 8) else 0.

(** [x] encrypts the bit [m] with noise [e] under the key [z]: phase m*q/4 + e. *)
Definition bit_ct (q : Z) (z : list Z) (m : bool) (e : Z) (x : lwe) : Prop :=
  lwe_wf q (length z) x /\ phase q z x = ((if m then q / 4 else 0) + e) mod q.

(** A blind rotation key of either kind for the LWE secret [z] under the ring secret [s]. *)
Definition rotation_key (F : field) (tbl : tables) (n : nat) (b : basis) (s : list Z) (E : Z) (z : list Z) (key : br_key) : Prop :=
  match key with
  | BrBinary key => binary_key F tbl n b s E z key
  | BrTernary key => ternary_key F tbl n b s E z key
  end.
(** Its noise after a rotation: row noise [E] (two rows are combined in the ternary case). *)
Definition rotation_noise (n : nat) (b : basis) (bits E : Z) (z : list Z) (key : br_key) : Z :=
  Z.of_nat (length z) * (2 * (Z.of_nat (bs_len b) * (Z.of_nat n * ((2 ^ bits - 1) *
    match key with BrBinary _ => E | BrTernary _ => 2 * E end)))).

(** A switching key from the ring secret [s] to [z] as the processing order needs it, adding noise at
    most [W]: modulo q for BrMsKs, modulo p for BrKsMs; BrMs uses the same secret on both sides. *)
Definition switching_key (B : Z) (F : field) (tbl : tables) (P : parameters) (s z : list Z) (W : Z) (K : ks_key) : Prop :=
  match pp_steps P with
  | BrMsKs => exists wb key noise Ek, 0 <= Ek /\ 0 <= pp_ks_bits P /\ wbasis_new B (pp_ks_bits P) (pp_q P) = Some wb /\
      K = KsLwe (mk_lwe_ks_key (length z) (pp_q P - 1) wb key) /\
      lwe_switch_key (pp_q P) z (2 ^ pp_ks_bits P) (wb_len wb) s noise key /\
      (forall l i v, Z.abs (noise l i v) <= Ek) /\ W = Z.of_nat (wb_len wb) * (Z.of_nat (length s) * Ek)
  | BrKsMs => exists b key zs k Ek, 0 <= Ek /\ 0 <= pp_ks_bits P /\ basis_new F (pp_ks_bits P) = Some b /\
      k = Nat.log2_up (length z) /\ (0 < k)%nat /\ serves F tbl k /\
      K = KsRlwe (mk_rlwe_ks_key (length z) key) /\ s = concat zs /\ (0 < length zs)%nat /\
      ring_switch_key F tbl (2 ^ k) b z Ek zs key /\
      W = Z.of_nat (length zs) * (Z.of_nat (bs_len b) * (Z.of_nat (2 ^ k) * ((2 ^ pp_ks_bits P - 1) * Ek)))
  | BrMs => s = z /\ W = 0
  end.

(** Bound on 2*p*(noise of a bootstrapped ciphertext): rotation noise R and switching noise W brought
    to modulus q, and half a unit per unit of |secret| for the final rounding ([f64] included).
    [gate_noise] adds the rounding of p/8. *)
Definition boot_noise (p q : Z) (st : steps) (R W : Z) (s z : list Z) : Z :=
  let d := p + p * q / 2 ^ 49 + 1 in
  match st with
  | BrMsKs => 2 * q * R + d * (1 + norm1 s) + 2 * p * W
  | BrKsMs => 2 * q * (R + W) + d * (1 + norm1 z)
  | BrMs => 2 * q * R + d * (1 + norm1 s)
  end.
Definition gate_noise (p q : Z) (st : steps) (R W : Z) (s z : list Z) : Z := boot_noise p q st R W s z + 4 * q.

(** Twice the error, in units of 1/(2N), of switching from q to 2N: none when q divides 2N. *)
Definition first_switch (N q : Z) (z : list Z) : Z := if (2 * N) mod q =? 0 then 0 else q * (1 + norm1 z).

(** The setting of the gate theorems: a prime field of modulus [p], ring dimension 2^k, ciphertext words
    of [B] bits, LWE modulus q = 2^j within the range where the [f64] switches are exact, keys for the
    secrets [s] (ring) and [z] (LWE) with row noise [E] and switching noise [W]. *)
Definition gate_setting (BF p : Z) (k : nat) (F : field) (tbl : tables) (B j bits : Z) (K : eval_key) (s z : list Z) (E W : Z) : Prop :=
  let P := ek_par K in let N := Z.of_nat (2 ^ k) in let q := 2 ^ j in
  (wwidth BF /\ Znumtheory.prime p /\ p < 2 ^ 64 /\ derive_field BF p = Some F /\ serves F tbl k /\ (2 <= k <= 31)%nat) /\
  (0 < B <= 64 /\ 3 <= j < B /\ j < 49 /\ 2 * N < 2 ^ B /\ (q - 1) * (2 * N) < 2 ^ 52) /\
  (pp_N P = N /\ pp_q P = q /\ 0 <= bits /\ basis_new F bits = Some (pp_basis P)) /\
  (length s = (2 ^ k)%nat /\ 0 <= E /\ rotation_key F tbl (2 ^ k) (pp_basis P) s E z (ek_br K) /\ switching_key B F tbl P s z W (ek_ks K)).
(** The noise bound of every gate output in that setting (on 2*p*|e|). *)
Definition out_noise (p : Z) (k : nat) (j bits : Z) (K : eval_key) (s z : list Z) (E W : Z) : Z :=
  gate_noise p (2 ^ j) (pp_steps (ek_par K)) (rotation_noise (2 ^ k) (pp_basis (ek_par K)) bits E z (ek_br K)) W s z.

(** Circuits over encrypted inputs: their value on bits and their evaluation gate by gate. *)
Inductive circuit :=
| CInput (i : nat) | CNot (a : circuit)
| CNand (a b : circuit) | CAnd (a b : circuit) | COr (a b : circuit) | CNor (a b : circuit) | CXor (a b : circuit) | CXnor (a b : circuit)
| CMajority (a b c : circuit) | CMux (a b c : circuit).
Fixpoint cval (v : nat -> bool) (c : circuit) : bool :=
  match c with
  | CInput i => v i
  | CNot a => negb (cval v a)
  | CNand a b => negb (cval v a && cval v b)
  | CAnd a b => cval v a && cval v b
  | COr a b => cval v a || cval v b
  | CNor a b => negb (cval v a || cval v b)
  | CXor a b => xorb (cval v a) (cval v b)
  | CXnor a b => negb (xorb (cval v a) (cval v b))
  | CMajority a b c => cval v a && cval v b || cval v b && cval v c || cval v c && cval v a
  | CMux a b c => if cval v a then cval v b else cval v c
  end.
Definition lift2 (f : lwe -> lwe -> option lwe) (a b : option lwe) : option lwe := let* x := a in let* y := b in f x y.
Definition lift3 (f : lwe -> lwe -> lwe -> option lwe) (a b c : option lwe) : option lwe := let* x := a in let* y := b in let* z := c in f x y z.
Fixpoint crun (B : Z) (F : field) (tbl : tables) (K : eval_key) (x : nat -> lwe) (c : circuit) : option lwe :=
  let run := crun B F tbl K x in
  match c with
  | CInput i => Some (x i)
  | CNot a => let* y := run a in g_not B K y
  | CNand a b => lift2 (g_nand B F tbl K) (run a) (run b)
  | CAnd a b => lift2 (g_and B F tbl K) (run a) (run b)
  | COr a b => lift2 (g_or B F tbl K) (run a) (run b)
  | CNor a b => lift2 (g_nor B F tbl K) (run a) (run b)
  | CXor a b => lift2 (g_xor B F tbl K) (run a) (run b)
  | CXnor a b => lift2 (g_xnor B F tbl K) (run a) (run b)
  | CMajority a b c => lift3 (g_majority B F tbl K) (run a) (run b) (run c)
  | CMux a b c => lift3 (g_mux B F tbl K) (run a) (run b) (run c)
  end.
