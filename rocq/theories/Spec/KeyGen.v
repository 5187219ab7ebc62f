(** Specification vocabulary for key generation and end-to-end evaluation. *)
From Coq Require Import ZArith List Bool.
From Verif Require Import Spec.Basic Spec.Poly Spec.Lattice Spec.Ring Spec.Blind Spec.Switch Spec.Gates.
From Verif Require Import Model.Base Model.Field Model.Poly Model.Lwe Model.Rlwe Model.Gadget Model.BlindRotation Model.KeySwitch Model.Params Model.Boolean Model.SecretKey.
Import ListNotations.
Local Open Scope Z_scope.

(** Parameters for which key generation and evaluation work: a prime field of modulus [p] whose tables
    serve ring dimension N = 2^k, LWE modulus q = 2^j and plaintext modulus 4, ciphertext words of [B]
    bits, sizes within the range where the [f64] modulus switches are exact, and per processing order:
    a usable switching basis, no Gaussian ring key for BrMsKs and BrMs, n = N for BrMs, and for BrKsMs
    tables for n rounded up to a power of two, at most N. *)
Definition good_params (BF p : Z) (k : nat) (F : field) (tbl : tables) (B j bits : Z) (P : parameters) : Prop :=
  let N := Z.of_nat (2 ^ k) in let q := 2 ^ j in
  (wwidth BF /\ Znumtheory.prime p /\ p < 2 ^ 64 /\ derive_field BF p = Some F /\ serves F tbl k /\ (2 <= k <= 31)%nat) /\
  (0 < B <= 64 /\ 3 <= j < B /\ j < 49 /\ 2 * N < 2 ^ B /\ (q - 1) * (2 * N) < 2 ^ 52) /\
  (pp_N P = N /\ pp_q P = q /\ pp_t P = 4 /\ 0 <= bits /\ basis_new F bits = Some (pp_basis P) /\ 0 <= pp_n P) /\
  match pp_steps P with
  | BrMsKs => pp_ring_key P <> RGaussian /\ 1 <= pp_ks_bits P <= j
  | BrKsMs => 0 <= pp_ks_bits P /\ (exists b, basis_new F (pp_ks_bits P) = Some b) /\
      let k' := Nat.log2_up (Z.to_nat (pp_n P)) in (0 < k' <= k)%nat /\ serves F tbl k'
  | BrMs => pp_ring_key P <> RGaussian /\ pp_n P = pp_N P
  end.

(** Raw words of 32 bits. *)
Definition words32 (w : nat -> Z) : Prop := forall i, 0 <= w i < 2 ^ 32.

(** The draws of evaluation key generation: of the right shape, noise at most [E] in the rotation key and
    [Ek] in the switching key. *)
Definition draws_small (F : field) (k : nat) (j : Z) (P : parameters) (E Ek : Z) (R : key_draws) : Prop :=
  let n := Z.to_nat (pp_n P) in let p := fp F in let l := bs_len (pp_basis P) in
  match pp_key P with
  | LBinary => length (kd_bin R) = n /\
      Forall (fun r => drawn_small p (2 ^ k) E l (fst r) /\ drawn_small p (2 ^ k) E l (snd r)) (kd_bin R)
  | LTernary => length (kd_ter R) = n /\
      Forall (fun r => (drawn_small p (2 ^ k) E l (fst (fst r)) /\ drawn_small p (2 ^ k) E l (snd (fst r))) /\
                       (drawn_small p (2 ^ k) E l (fst (snd r)) /\ drawn_small p (2 ^ k) E l (snd (snd r)))) (kd_ter R)
  end /\
  match pp_steps P with
  | BrMsKs =>
      switch_draws (2 ^ j) n (2 ^ pp_ks_bits P) (Z.to_nat ((j + pp_ks_bits P - 1) / pp_ks_bits P)) (2 ^ k) (kd_lwe R) /\
      Forall (Forall (Forall (fun ae => 0 <= snd ae <= Ek \/ 2 ^ j - Ek <= snd ae < 2 ^ j))) (kd_lwe R)
  | BrKsMs => exists b, basis_new F (pp_ks_bits P) = Some b /\
      let k' := Nat.log2_up n in
      length (kd_ring R) = (2 ^ (k - k'))%nat /\ Forall (drawn_small p (2 ^ k') Ek (bs_len b)) (kd_ring R)
  | BrMs => True
  end.

(** The result of [random_with_gaussian]: N canonical coefficients. *)
Definition ring_draw (p : Z) (k : nat) (g : list Z) : Prop := length g = (2 ^ k)%nat /\ canonical p g.

(** Number of nonzero entries of a key. *)
Definition weight (l : list Z) : Z := Z.of_nat (length (filter (fun x => negb (x =? 0)) l)).

(** Noise added by the switching key, the bound on 2*p*|noise of a gate output| for keys generated under
    [P] whose ring and LWE secrets have [hr] and [hl] nonzero entries, and twice the error of the first
    modulus switch. *)
Definition key_switch_noise (F : field) (k : nat) (j : Z) (P : parameters) (Ek : Z) : Z :=
  match pp_steps P with
  | BrMsKs => ((j + pp_ks_bits P - 1) / pp_ks_bits P) * (Z.of_nat (2 ^ k) * Ek)
  | BrKsMs => match basis_new F (pp_ks_bits P) with
      | Some b => Z.of_nat (2 ^ k) * (Z.of_nat (bs_len b) * ((2 ^ pp_ks_bits P - 1) * Ek))
      | None => 0
      end
  | BrMs => 0
  end.
Definition key_noise (F : field) (p : Z) (k : nat) (j bits : Z) (P : parameters) (E Ek hr hl : Z) : Z :=
  let N := Z.of_nat (2 ^ k) in let q := 2 ^ j in
  let rot := pp_n P * (2 * (Z.of_nat (bs_len (pp_basis P)) * (N * ((2 ^ bits - 1) * match pp_key P with LBinary => E | LTernary => 2 * E end)))) in
  let W := key_switch_noise F k j P Ek in
  let d := p + p * q / 2 ^ 49 + 1 in
  match pp_steps P with
  | BrMsKs => 2 * q * rot + d * (1 + hr) + 2 * p * W
  | BrKsMs => 2 * q * (rot + W) + d * (1 + hl)
  | BrMs => 2 * q * rot + d * (1 + hl)
  end + 4 * q.
Definition key_first_switch (N q hl : Z) : Z := if (2 * N) mod q =? 0 then 0 else q * (1 + hl).

(** What accepted constant parameters need in addition to be [good_params]. *)
Definition usable (BF p : Z) (k : nat) (F : field) (tbl : tables) (B j : Z) (c : const_params) : Prop :=
  let N := Z.of_nat (2 ^ k) in let q := 2 ^ j in
  (wwidth BF /\ Znumtheory.prime p /\ p < 2 ^ 64 /\ derive_field BF p = Some F /\ serves F tbl k /\ (2 <= k <= 31)%nat) /\
  (0 < B <= 64 /\ 3 <= j < B /\ j < 49 /\ 2 * N < 2 ^ B /\ (q - 1) * (2 * N) < 2 ^ 52) /\
  (cp_N c = N /\ cp_q c = q /\ cp_t c = 4 /\ 0 <= cp_bits c /\ 0 <= cp_n c) /\
  match cp_steps c with
  | BrMsKs => cp_ring_key c <> RGaussian /\ 1 <= cp_ks_bits c <= j
  | BrKsMs => 0 <= cp_ks_bits c /\ (exists b, basis_new F (cp_ks_bits c) = Some b) /\
      let k' := Nat.log2_up (Z.to_nat (cp_n c)) in (0 < k' <= k)%nat /\ serves F tbl k'
  | BrMs => cp_ring_key c <> RGaussian /\ cp_n c = cp_N c
  end.
