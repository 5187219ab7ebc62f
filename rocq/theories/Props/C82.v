(** C82: the example programs never fail an assertion. *)
From Coq Require Import ZArith Znumtheory List Bool Lia SpecFloat.
From Verif Require Import Spec.Basic Spec.Aes Spec.Stream Spec.Poly Spec.Gauss Spec.Gates Spec.KeyGen Spec.Sampled Spec.OneStream Spec.Machine Spec.Example.
From Verif Require Import Model.Base Model.PowOf2 Model.Plaintext Model.Block Model.Aes Model.Field Model.NTT Model.Concrete Model.Poly Model.Lwe Model.Gadget Model.Params Model.Boolean Model.SecretKey Model.Gaussian Model.Sampled Model.Prg Model.Stream Model.Seeded Model.Example.
From Verif Require Import Proofs.MachineMain Proofs.ExamplesProofs Proofs.ExampleTac Props.C49 Props.C61 Props.C80.
Import ListNotations.
Local Open Scope Z_scope.

(** bfhe.rs with any number of passes, any bits and any generators: it panics only if a generator does;
    if it ends, it ends with the bits computed in the clear.  So no ciphertext ever decrypts to a wrong
    bit or with noise q/16 or more. *)
Theorem C82_bfhe (BF p : Z) (k : nat) (F : field) (tbl : tables) (B j bits : Z) (P : parameters) (dv : deviations) (E Ek Ee D : Z)
    (St St' : Type) (R : rng St) (R' : rng St') (n fuel : nat) (a b c : bool) (s : St) (s' : St') :
  sampled_setting BF p k F tbl B j bits P dv E Ek Ee D -> rng_ok R -> rng_ok R' ->
  (bfhe_main n B F tbl P dv fuel a b c R s R' s' = Panicked -> refuses R s \/ refuses R' s') /\
  forall r, bfhe_main n B F tbl P dv fuel a b c R s R' s' = Got r -> r = Nat.iter n in_the_clear ((a, b), c).
Proof.
  intros HS HR HR'. pose proof (bfhe_ok BF p k F tbl B j bits P dv E Ek Ee D HS n fuel a b c R s R' s' HR HR') as H.
  split; [intros EP; rewrite EP in H; exact H|intros r ER; rewrite ER in H; exact H].
Qed.
Print Assumptions C82_bfhe.

(** With generators that keep answering, it does end, whatever they answer. *)
Theorem C82_completes (BF p : Z) (k : nat) (F : field) (tbl : tables) (B j bits : Z) (P : parameters) (dv : deviations) (E Ek Ee D : Z)
    (G H : generator) (n fuel : nat) (a b c : bool) (i i' : nat) :
  sampled_setting BF p k F tbl B j bits P dv E Ek Ee D -> gen_ok G -> gen_ok H -> lively G F dv fuel -> lively H F dv fuel ->
  bfhe_main n B F tbl P dv fuel a b c G i H i' = Got (Nat.iter n in_the_clear ((a, b), c)).
Proof. intros HS. exact (bfhe_completes BF p k F tbl B j bits P dv E Ek Ee D HS n fuel a b c G H i i'). Qed.
Print Assumptions C82_completes.

(** With the seeded generator, as in the file: only the end of a stream makes it panic. *)
Theorem C82_seeded (BF p : Z) (k : nat) (F : field) (tbl : tables) (B j bits : Z) (P : parameters) (dv : deviations) (E Ek Ee D : Z)
    (A : arch) (seed seed' : list Z) (normal : gaussian -> reader spec_float) (below : Z -> reader Z) (pos pos' : Z) (g g' : block_rng) (n fuel : nat) (a b c : bool) :
  sampled_setting BF p k F tbl B j bits P dv E Ek Ee D ->
  (forall d, gives is_f64 (normal d)) -> (forall q, 0 < q -> gives (fun v => 0 <= v < q) (below q)) ->
  bytes 16 seed -> bytes 16 seed' -> reached A seed pos g -> reached A seed' pos' g' ->
  let R := prg_rng A normal below in let S seed := stream_rng (stream_byte seed) normal below in
  (bfhe_main n B F tbl P dv fuel a b c R g R g' = Panicked -> refuses (S seed) pos \/ refuses (S seed') pos') /\
  forall r, bfhe_main n B F tbl P dv fuel a b c R g R g' = Got r -> r = Nat.iter n in_the_clear ((a, b), c).
Proof.
  intros HS HN HB Hk Hk' HR HR'. cbv zeta. rewrite (bfhe_seeded F tbl B P dv n fuel a b c A seed seed' normal below pos pos' g g' Hk Hk' HR HR').
  apply (C82_bfhe BF p k F tbl B j bits P dv E Ek Ee D); [exact HS| |]; apply seed_stream_ok; assumption.
Qed.
Print Assumptions C82_seeded.

(** The bound the noise is compared with is a sixteenth of the modulus, though computed in [f64]. *)
Theorem C82_bound (B j : Z) : 4 <= j < 64 -> j < B -> noise_max B (2 ^ j) = 2 ^ (j - 4).
Proof. exact (noise_max_ok B j). Qed.
Print Assumptions C82_bound.

(** count_ntt.rs, keys and ciphertexts from one generator. *)
Theorem C82_count (BF p : Z) (k : nat) (F : field) (tbl : tables) (B j bits : Z) (P : parameters) (dv : deviations) (E Ek Ee D : Z)
    (St : Type) (R : rng St) (fuel : nat) (a b c : bool) (s : St) :
  sampled_setting BF p k F tbl B j bits P dv E Ek Ee D -> rng_ok R ->
  (count_main B F tbl P dv fuel a b c R s = Panicked -> refuses R s) /\
  forall r s', count_main B F tbl P dv fuel a b c R s = Got (r, s') -> r = (negb (a && b), if a then b else c).
Proof.
  intros HS HR. pose proof (count_ok BF p k F tbl B j bits P dv E Ek Ee D HS fuel a b c R s HR) as H.
  split; [intros EP; rewrite EP in H; exact H|intros r s' ER; rewrite ER in H; exact H].
Qed.
Print Assumptions C82_count.

(** encode.rs for all powers of two t < q and word and message types that hold them. *)
Theorem C82_encode (M : msg_type) (B i j : Z) : 0 <= i < j -> j <= 63 -> j < B -> 2 ^ i - 1 <= msg_max M ->
  encode_main M B (2 ^ i) (2 ^ j) = Some tt.
Proof. exact (encode_ok M B i j). Qed.
Print Assumptions C82_encode.

(** field.rs over any field and for all elements drawn (a zero is inverted to zero); only zeros keep it
    from ending. *)
Theorem C82_field (B p : Z) (k : nat) (F : field) (tbl : tables) (a : Z) (draws pa pb : list Z) :
  wwidth B -> prime p -> 9 < p -> derive_field B p = Some F -> serves F tbl k -> (1 <= k)%nat ->
  0 <= a < p -> canonical p draws -> length pa = (2 ^ k)%nat -> length pb = (2 ^ k)%nat -> canonical p pa -> canonical p pb ->
  match field_main F tbl a draws pa pb with
  | Got (r, c) => (a = 0 -> r = 0) /\ (a <> 0 -> 0 <= r < p /\ cong p (r * (- a) ^ 5) 1) /\ c = pmod p (negacyclic (2 ^ k) pa pb)
  | Panicked => False
  | Looping => Forall (fun x => x = 0) draws
  end.
Proof. exact (field_ok B p k F tbl a draws pa pb). Qed.
Print Assumptions C82_field.

(** The assertions are worth something by themselves: with any parameters, keys and generators at all,
    a run of bfhe.rs or count_ntt.rs that ends has decrypted the bits computed in the clear. *)
Theorem C82_asserted (St St' : Type) (R : rng St) (R' : rng St') (B : Z) (F : field) (tbl : tables) (P : parameters) (dv : deviations)
    (n fuel : nat) (a b c : bool) (s : St) (s' : St') :
  (forall r, bfhe_main n B F tbl P dv fuel a b c R s R' s' = Got r -> r = Nat.iter n in_the_clear ((a, b), c)) /\
  forall r u, count_main B F tbl P dv fuel a b c R s = Got (r, u) -> r = (negb (a && b), if a then b else c).
Proof. split; [intros r; apply bfhe_sound|intros r u; apply count_sound]. Qed.
Print Assumptions C82_asserted.

(** And with any moduli, encode.rs ends only if every message survives its encoding and the noise
    q/2t - 1 either way. *)
Theorem C82_encode_asserted (M : msg_type) (B t q i : Z) : encode_main M B t q = Some tt -> 0 <= i < t ->
  exists mask x, p2_new (ucast B q) = Some mask /\ encode B i t q = Some x /\ decode M x t q = Some i /\
  let d := ucast B (q / (2 * t)) in 1 <= d /\
  decode M (p2_add B mask x (d - 1)) t q = Some i /\ decode M (p2_sub B mask x (d - 1)) t q = Some i.
Proof. exact (encode_sound M B t q i). Qed.
Print Assumptions C82_encode_asserted.

(** Ten passes from (true, false), true with the generator of [C80_ex], of which every other answer is
    rejected; encode.rs at q = 512, t = 4; the field program with n = 8, where the first drawn element is 0. *)
Example C82_ex :
  (exists F tbl b, sampled_setting 32 132120577 3 F tbl 16 14 7 (C49_par b BrKsMs) C61_dv 38 21 21 44000000000 /\
    rng_ok (counter C80_gen) /\
    bfhe_main 10 16 F tbl (C49_par b BrKsMs) C61_dv 2 true false true C80_gen 3%nat C80_gen 5%nat = Got ((true, true), false)) /\
  encode_main MU8 16 4 512 = Some tt /\ encode_main MU8 16 4 4 = None /\
  exists F T, derive_field 32 132120577 = Some F /\ serves F (fun _ => Some T) 3 /\
    match field_main F (fun _ => Some T) 5 [0; 7] (map (fun i => 132120576 - i) [0; 1; 2; 3; 4; 5; 6; 7]) [1; 0; 0; 0; 0; 0; 0; 2] with
    | Got (r, _) => (r * (-5) ^ 5) mod 132120577 = 1
    | _ => False
    end.
Proof.
  split; [|split; [vm_compute; reflexivity|split; [vm_compute; reflexivity|]]].
  - destruct C80_ex as (F & T1 & T3 & b & H). cbv zeta in H. destruct H as (HS & HG & HL & _).
    exists F, (fun k => match k with 1%nat => Some T1 | _ => Some T3 end), b. split; [exact HS|]. split.
    + exact (counter_ok C80_gen HG).
    + rewrite (C82_completes _ _ _ _ _ _ _ _ _ _ _ _ _ _ C80_gen C80_gen 10 2 true false true 3 5 HS HG HG HL HL). reflexivity.
  - eexists. eexists. split; [vm_compute; reflexivity|]. split; [ex_serves|]. vm_compute. reflexivity.
Qed.
