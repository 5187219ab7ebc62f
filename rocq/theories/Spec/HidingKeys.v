(** Hiding of the secrets that the published keys encrypt, by counting.  A finite list of worlds stands
    for the joint distribution of what is fixed before; uniform choices are enumerated; a probability is a
    count divided by the number of worlds and choices. *)
From Coq Require Import ZArith List Bool Arith.
From Verif Require Import Spec.Basic Spec.Count Spec.Hiding Model.Base Model.Field Model.Poly Model.Params Model.Lwe Model.Rlwe Model.Gadget Model.BlindRotation Model.KeySwitch Model.SecretKey.
Import ListNotations.
Local Open Scope Z_scope.

(** All lists of length [k] with entries from [L]. *)
Fixpoint lists {A : Type} (k : nat) (L : list A) : list (list A) :=
  match k with O => [[]] | S k' => flat_map (fun x => map (cons x) (lists k' L)) L end.
(** Entries with their positions. *)
Definition numbered {A C : Type} (f : nat -> A -> C) (l : list A) : list C :=
  map (fun ix => f (fst ix) (snd ix)) (combine (seq 0 (length l)) l).
(** Entries two by two. *)
Fixpoint pairs {A : Type} (l : list A) : list (A * A) :=
  match l with x :: y :: r => (x, y) :: pairs r | _ => [] end.

(** A world: something published, secret keys, and draws of type [R]. *)
Definition kworld (X R : Type) : Type := (X * key_pack * R)%type.
Definition public {X R} (w : kworld X R) : X := fst (fst w).
Definition secrets {X R} (w : kworld X R) : key_pack := snd (fst w).
Definition chance {X R} (w : kworld X R) : R := snd w.

(** The same pack with another LWE secret, with another ring secret [s] of transform [S]. *)
Definition with_lwe (z : list Z) (kp : key_pack) : key_pack := mk_key_pack z (kp_ring kp) (kp_ntt kp) (kp_par kp).
Definition with_ring (s S : list Z) (kp : key_pack) : key_pack := mk_key_pack (kp_lwe kp) s S (kp_par kp).

(** An encryption of zero under the ring secret of transform [S]: the library's own (C34). *)
Definition zero_enc (F : field) (tbl : tables) (S : list Z) (ae : list Z * list Z) : rlwe :=
  match nrlwe_zero_sample F tbl S (fst ae) (snd ae) with Some x => x | None => mk_rlwe [] [] end.
(** A constant added to every entry of the mask, of the body; a vector added to the body. *)
Definition add_mask (p c : Z) (x : rlwe) : rlwe := mk_rlwe (map (fun v => (v + c) mod p) (ra x)) (rb x).
Definition add_body (p c : Z) (x : rlwe) : rlwe := mk_rlwe (ra x) (map (fun v => (v + c) mod p) (rb x)).
Definition add_vector (p : Z) (t : list Z) (x : rlwe) : rlwe :=
  mk_rlwe (ra x) (map (fun vt => (fst vt + snd vt) mod p) (combine (rb x) t)).

(** * The blind-rotation key *)

(** Noises of the rows of the RGSW ciphertexts, two halves of [l] rows each. *)
Definition noises : Type := list (list (list Z) * list (list Z)).
(** One RGSW ciphertext per entry of a binary LWE key, two per entry of a ternary key. *)
Definition slots (P : parameters) (n : nat) : nat := match pp_key P with LBinary => n | LTernary => 2 * n end.
(** What they encrypt: whether the entry is set; whether it is 1 and whether it is -1. *)
Definition slot_bits (P : parameters) (z : list Z) : list Z :=
  flat_map (fun v => match pp_key P with
    | LBinary => [if v =? 0 then 0 else 1]
    | LTernary => [if v =? 1 then 1 else 0; if (v =? 0) || (v =? 1) then 0 else 1]
    end) z.
Definition as_key (P : parameters) (rs : list rgsw) : br_key :=
  match pp_key P with LBinary => BrBinary rs | LTernary => BrTernary (pairs rs) end.

(** All choices of the rows of [m] RGSW ciphertexts of 2[l] rows: *)
Definition shapes {A : Type} (m l : nat) (L : list A) : list (list (list A * list A)) :=
  lists m (list_prod (lists l L) (lists l L)).
(** of their masks, of masks and bodies. *)
Definition all_masks (N : nat) (p : Z) (m l : nat) : list (list (list (list Z) * list (list Z))) := shapes m l (tuples N p).
Definition all_rows (N : nat) (p : Z) : list rlwe := map (fun ab => mk_rlwe (fst ab) (snd ab)) (list_prod (tuples N p) (tuples N p)).

(** Masks with noises, as the generation draws them. *)
Definition draws_with (A E : noises) : list rgsw_rnd :=
  map (fun ae => (combine (fst (fst ae)) (fst (snd ae)), combine (snd (fst ae)) (snd (snd ae)))) (combine A E).
Definition rotation_draws (rs : list rgsw_rnd) : key_draws := mk_key_draws rs (pairs rs) [] [].
(** Encryptions of zero in the places of the rows. *)
Definition zero_rows_of (F : field) (tbl : tables) (S : list Z) (rs : list rgsw_rnd) : list (list rlwe * list rlwe) :=
  map (fun r => (map (zero_enc F tbl S) (fst r), map (zero_enc F tbl S) (snd r))) rs.

(** What anyone who knows [z] does to rows to make a rotation key of [z] out of them: if the bit is set,
    add the powers of the basis to the masks of the first half and to the bodies of the second half. *)
Definition planted_rgsw (p base : Z) (b : basis) (m : Z) (u : list rlwe * list rlwe) : rgsw :=
  mk_rgsw (mk_gadget (numbered (fun i => add_mask p (m * base ^ Z.of_nat i)) (fst u)) b)
          (mk_gadget (numbered (fun i => add_body p (m * base ^ Z.of_nat i)) (snd u)) b).
Definition planted (p base : Z) (P : parameters) (z : list Z) (U : list (list rlwe * list rlwe)) : br_key :=
  as_key P (map (fun mu => planted_rgsw p base (pp_basis P) (fst mu) (snd mu)) (combine (slot_bits P z) U)).

(** The world has a ring key and noises for LWE keys of [n] entries. *)
Definition rotation_world {X} (F : field) (tbl : tables) (N n : nat) (P : parameters) (w : kworld X noises) : Prop :=
  kp_par (secrets w) = P /\
  length (kp_ring (secrets w)) = N /\ canonical (fp F) (kp_ring (secrets w)) /\ into_ntt F tbl (kp_ring (secrets w)) = Some (kp_ntt (secrets w)) /\
  length (chance w) = slots P n /\
  Forall (fun e => (length (fst e) = bs_len (pp_basis P) /\ Forall (fun v => length v = N /\ canonical (fp F) v) (fst e)) /\
                   (length (snd e) = bs_len (pp_basis P) /\ Forall (fun v => length v = N /\ canonical (fp F) v) (snd e))) (chance w).

(** How many worlds with uniform masks the test accepts when it is shown the rotation key of [z], *)
Definition accepted_rotation {X} (F : field) (tbl : tables) (N n : nat) (P : parameters) (ws : list (kworld X noises)) (z : list Z) (D : X -> br_key -> bool) : Z :=
  count (fun wa => match br_key_generate F tbl (with_lwe z (secrets (fst wa))) (rotation_draws (draws_with (snd wa) (chance (fst wa)))) with
                   | Some K => D (public (fst wa)) K
                   | None => false
                   end) (list_prod ws (all_masks N (fp F) (slots P n) (bs_len (pp_basis P)))).
(** when it is shown encryptions of zero, *)
Definition accepted_zeros {X} (F : field) (tbl : tables) (N n : nat) (P : parameters) (ws : list (kworld X noises)) (D : X -> list (list rlwe * list rlwe) -> bool) : Z :=
  count (fun wa => D (public (fst wa)) (zero_rows_of F tbl (kp_ntt (secrets (fst wa))) (draws_with (snd wa) (chance (fst wa)))))
    (list_prod ws (all_masks N (fp F) (slots P n) (bs_len (pp_basis P)))).
(** when it is shown uniform masks and bodies. *)
Definition accepted_random {X} (F : field) (N n : nat) (P : parameters) (ws : list (kworld X noises)) (D : X -> list (list rlwe * list rlwe) -> bool) : Z :=
  count (fun wu => D (public (fst wu)) (snd wu)) (list_prod ws (shapes (slots P n) (bs_len (pp_basis P)) (all_rows N (fp F)))).
(** The number of choices of the bodies. *)
Definition bodies (F : field) (N n : nat) (P : parameters) : Z := fp F ^ Z.of_nat (slots P n * (2 * bs_len (pp_basis P)) * N).
(** The advantage at telling encryptions of zero from uniform rows, times the number of all choices. *)
Definition zeros_gap {X} (F : field) (tbl : tables) (N n : nat) (P : parameters) (ws : list (kworld X noises)) (D : X -> list (list rlwe * list rlwe) -> bool) : Z :=
  bodies F N n P * accepted_zeros F tbl N n P ws D - accepted_random F N n P ws D.

(** * The LWE switching key *)

(** Coefficients of the ring secret as words modulo [q]. *)
Definition secret_word (q v : Z) : Z := if v =? 0 then 0 else if v =? 1 then 1 else q - 1.
(** To entry [v - 1] of coefficient [w] at level [i]: add v*w*base^i to the body. *)
Definition planted_lwe (q base : Z) (s : list Z) (U : list (list (list lwe))) : list (list (list lwe)) :=
  numbered (fun i row => map (fun vu => numbered (fun t c =>
    mk_lwe (la c) ((lb c + Z.of_nat (t + 1) * (secret_word q (fst vu) * base ^ Z.of_nat i)) mod q)) (snd vu)) (combine s row)) U.
Definition ldraws : Type := list (list (list (list Z * Z))).
(** LWE samples in the places of the entries; the same masks with given bodies. *)
Definition samples_of (q : Z) (z : list Z) (rs : ldraws) : list (list (list lwe)) := map (map (lwe_samples q z)) rs.
Definition bodies_of (rs : ldraws) (bs : list (list (list Z))) : list (list (list lwe)) :=
  map (fun rb => map (fun rb => with_bodies (fst rb) (snd rb)) (combine (fst rb) (snd rb))) (combine rs bs).
(** The world holds draws of the right shape: [l] levels, [N] coefficients, [base - 1] entries. *)
Definition switch_world {X} (q base : Z) (l N : nat) (P : parameters) (w : kworld X ldraws) : Prop :=
  kp_par (secrets w) = P /\ length (chance w) = l /\
  Forall (fun r => length r = N /\ Forall (fun es => Z.of_nat (length es) = base - 1 /\
    Forall (fun ae => length (fst ae) = length (kp_lwe (secrets w)) /\ canonical q (fst ae) /\ 0 <= snd ae < q) es) r) (chance w).
(** Acceptance counts: of the switching key for the ring secret [s], of LWE samples, of uniform bodies. *)
Definition accepted_switch {X} (B q bits : Z) (ws : list (kworld X ldraws)) (s : list Z) (D : X -> lwe_ks_key -> bool) : Z :=
  count (fun w => match lks_generate B q bits (kp_lwe (secrets w)) s (chance w) with Some K => D (public w) K | None => false end) ws.
Definition accepted_samples {X} (q : Z) (ws : list (kworld X ldraws)) (D : X -> nat -> list (list (list lwe)) -> bool) : Z :=
  count (fun w => D (public w) (length (kp_lwe (secrets w))) (samples_of q (kp_lwe (secrets w)) (chance w))) ws.
Definition accepted_bodies {X} (q : Z) (l N e : nat) (ws : list (kworld X ldraws)) (D : X -> nat -> list (list (list lwe)) -> bool) : Z :=
  count (fun wb => D (public (fst wb)) (length (kp_lwe (secrets (fst wb)))) (bodies_of (chance (fst wb)) (snd wb)))
    (list_prod ws (lists l (lists N (lists e (range q))))).
Definition samples_gap {X} (q : Z) (l N e : nat) (ws : list (kworld X ldraws)) (D : X -> nat -> list (list (list lwe)) -> bool) : Z :=
  q ^ Z.of_nat (l * (N * e)) * accepted_samples q ws D - accepted_bodies q l N e ws D.

(** * The ring switching key *)

Definition rdraws : Type := list (list (list Z * list Z)).
(** The LWE secret as a ring element of dimension [n], transformed. *)
Definition lwe_as_ring (F : field) (tbl : tables) (n : nat) (z : list Z) : list Z :=
  match into_ntt F tbl (map (fun v => if v =? 0 then 0 else if v =? 1 then 1 else fp F - 1) z ++ repeat 0 (n - length z)) with
  | Some T => T
  | None => []
  end.
(** The blocks of [n] coefficients of the ring secret, transformed. *)
Definition blocks_of (F : field) (tbl : tables) (n : nat) (s : list Z) : list (list Z) :=
  match mapM (into_ntt F tbl) (chunks n s) with Some Ts => Ts | None => [] end.
(** To row [i] of a block: add base^i times the transform [T] of the block of the ring secret. *)
Definition planted_ring (p base : Z) (b : basis) (Ts : list (list Z)) (U : list (list rlwe)) : list gadget :=
  map (fun tu => mk_gadget (numbered (fun i => add_vector p (map (fun t => t * base ^ Z.of_nat i) (fst tu))) (snd tu)) b) (combine Ts U).
(** Encryptions of zero in the places of the rows; the same masks with given bodies. *)
Definition ring_zeros (F : field) (tbl : tables) (T : list Z) (rs : rdraws) : list (list rlwe) := map (map (zero_enc F tbl T)) rs.
Definition ring_bodies (rs : rdraws) (bs : list (list (list Z))) : list (list rlwe) :=
  map (fun rb => map (fun ab => mk_rlwe (fst (fst ab)) (snd ab)) (combine (fst rb) (snd rb))) (combine rs bs).
(** The world has an LWE key that fills a ring of dimension [n], and draws for [m] blocks of [l] rows. *)
Definition ring_switch_world {X} (F : field) (m l n : nat) (w : kworld X rdraws) : Prop :=
  next_pow2 (length (kp_lwe (secrets w))) = n /\ length (chance w) = m /\
  Forall (fun r => length r = l /\
    Forall (fun ae => (length (fst ae) = n /\ canonical (fp F) (fst ae)) /\ (length (snd ae) = n /\ canonical (fp F) (snd ae))) r) (chance w).
(** A ring secret of [m] blocks of [n] coefficients; when there is one block, generation is also handed its transform. *)
Definition ring_secret (F : field) (tbl : tables) (m n : nat) (s S : list Z) : Prop :=
  length s = (m * n)%nat /\ canonical (fp F) s /\ (m = 1%nat -> into_ntt F tbl s = Some S).
(** Acceptance counts: of the switching key for the ring secret [s] of transform [S], of encryptions of
    zero under the LWE secret, of uniform bodies. *)
Definition accepted_ring_switch {X} (F : field) (tbl : tables) (bits : Z) (ws : list (kworld X rdraws)) (s S : list Z) (D : X -> rlwe_ks_key -> bool) : Z :=
  count (fun w => match rks_generate F tbl bits (kp_lwe (secrets w)) s S (chance w) with Some K => D (public w) K | None => false end) ws.
Definition accepted_ring_zeros {X} (F : field) (tbl : tables) (n : nat) (ws : list (kworld X rdraws)) (D : X -> nat -> list (list rlwe) -> bool) : Z :=
  count (fun w => D (public w) (length (kp_lwe (secrets w))) (ring_zeros F tbl (lwe_as_ring F tbl n (kp_lwe (secrets w))) (chance w))) ws.
Definition accepted_ring_bodies {X} (F : field) (m l n : nat) (ws : list (kworld X rdraws)) (D : X -> nat -> list (list rlwe) -> bool) : Z :=
  count (fun wb => D (public (fst wb)) (length (kp_lwe (secrets (fst wb)))) (ring_bodies (chance (fst wb)) (snd wb)))
    (list_prod ws (lists m (lists l (tuples n (fp F))))).
Definition ring_gap {X} (F : field) (tbl : tables) (m l n : nat) (ws : list (kworld X rdraws)) (D : X -> nat -> list (list rlwe) -> bool) : Z :=
  fp F ^ Z.of_nat (m * (l * n)) * accepted_ring_zeros F tbl n ws D - accepted_ring_bodies F m l n ws D.
