(** C81: keys and ciphertexts from any generator with a state, and from the seeded one. *)
From Coq Require Import ZArith List Bool Lia SpecFloat.
From Verif Require Import Spec.Basic Spec.Aes Spec.Stream Spec.Poly Spec.Gauss Spec.Gates Spec.KeyGen Spec.Sampled Spec.OneStream Spec.Machine.
From Verif Require Import Model.Base Model.Plaintext Model.Block Model.Aes Model.Field Model.NTT Model.Concrete Model.Poly Model.Lwe Model.Gadget Model.Params Model.Boolean Model.SecretKey Model.Gaussian Model.Sampled Model.Prg Model.Stream Model.Seeded.
From Verif Require Import Proofs.Reify Proofs.MachineProofs Proofs.MachineMain Proofs.ExampleTac Props.C49 Props.C51 Props.C61 Props.C80.
Import ListNotations.
Local Open Scope Z_scope.

(** Whatever its states, a generator acts on key generation and encryption through the answers in the
    states visited only: with [length l] of them in a row, at any place [a] of any sequence of answers, the
    result is the same.  So C80 says which of them make up what. *)
Theorem C81_generator (B : Z) (F : field) (tbl : tables) (P : parameters) (dv : deviations) (kp : key_pack) (m : Z) (fuel : nat) (St : Type) (R : rng St) (x : St) :
  (forall kp' y, key_pack_new_g F tbl P dv fuel R x = Got (kp', y) -> exists l, visits R x l y /\
    forall (G : generator) a, answered R a l G -> key_pack_new_g F tbl P dv fuel G a = Got (kp', (a + length l)%nat)) /\
  (forall K y, eval_key_new_g B F tbl dv fuel kp R x = Got (K, y) -> exists l, visits R x l y /\
    forall (G : generator) a, answered R a l G -> eval_key_new_g B F tbl dv fuel kp G a = Got (K, (a + length l)%nat)) /\
  (forall c y, kp_encrypt_g B dv fuel kp m R x = Got (c, y) -> exists l, visits R x l y /\
    forall (G : generator) a, answered R a l G -> kp_encrypt_g B dv fuel kp m G a = Got (c, (a + length l)%nat)).
Proof.
  split; [|split]; intros v y E.
  - exact (lift_counter _ R x v y (key_pack_tl F tbl P dv fuel) E).
  - exact (lift_counter _ R x v y (eval_key_tl B F tbl dv fuel kp) E).
  - exact (lift_counter _ R x v y (encrypt_tl B dv fuel kp m) E).
Qed.
Print Assumptions C81_generator.

(** Whatever generators keys and ciphertexts are drawn from: a panic is a panic of the generator, and
    ciphertexts obtained go through any circuit to the value of the circuit. *)
Theorem C81_always (BF p : Z) (k : nat) (F : field) (tbl : tables) (B j bits : Z) (P : parameters) (dv : deviations) (E Ek Ee D : Z)
    (St St' : Type) (R : rng St) (R' : rng St') (fuel : nat) (s : St) (s' : St') :
  sampled_setting BF p k F tbl B j bits P dv E Ek Ee D -> rng_ok R -> rng_ok R' ->
  (key_pack_new_g F tbl P dv fuel R s = Panicked -> refuses R s) /\
  forall kp s1, key_pack_new_g F tbl P dv fuel R s = Got (kp, s1) ->
  (eval_key_new_g B F tbl dv fuel kp R' s' = Panicked -> refuses R' s') /\
  forall K s1', eval_key_new_g B F tbl dv fuel kp R' s' = Got (K, s1') ->
  (forall (Su : Type) (Q : rng Su) (u : Su) fuel' m, rng_ok Q -> m = 0 \/ m = 1 -> kp_encrypt_g B dv fuel' kp m Q u = Panicked -> refuses Q u) /\
  forall (v : nat -> bool) x,
    (forall i, exists (Su : Type) (Q : rng Su) (u u1 : Su) fuel', rng_ok Q /\ kp_encrypt_g B dv fuel' kp (if v i then 1 else 0) Q u = Got (x i, u1)) ->
    forall (c : circuit) (M : msg_type), exists r, crun B F tbl K x c = Some r /\ kp_decrypt M B kp r = Some (if cval v c then 1 else 0).
Proof.
  intros HS HR HR'. split.
  { apply (lift_panic _ R s (key_pack_tl F tbl P dv fuel) HR). intros G HG.
    exact (proj1 (C80_always BF p k F tbl B j bits P dv E Ek Ee D G G fuel 0 0 HS HG HG)). }
  intros kp s1 E1. destruct (lift_got _ R s kp s1 (key_pack_tl F tbl P dv fuel) HR E1) as (G & b & HG & EG).
  split.
  { apply (lift_panic _ R' s' (eval_key_tl B F tbl dv fuel kp) HR'). intros H HH.
    destruct (C80_always BF p k F tbl B j bits P dv E Ek Ee D G H fuel 0 0 HS HG HH) as (_ & HA). exact (proj1 (HA kp b EG)). }
  intros K s1' E2. destruct (lift_got _ R' s' K s1' (eval_key_tl B F tbl dv fuel kp) HR' E2) as (H & b' & HH & EH).
  destruct (C80_always BF p k F tbl B j bits P dv E Ek Ee D G H fuel 0 0 HS HG HH) as (_ & HA). destruct (HA kp b EG) as (_ & HB). destruct (HB K b' EH) as (HN & HC).
  split.
  { intros Su Q u fuel' m HQ Hm. apply (lift_panic _ Q u (encrypt_tl B dv fuel' kp m) HQ). intros G' HG'. exact (HN G' fuel' m 0%nat HG' Hm). }
  intros v x HX c M. apply HC. intros i. destruct (HX i) as (Su & Q & u & u1 & fuel' & HQ & EQ).
  destruct (lift_got _ Q u (x i) u1 (encrypt_tl B dv fuel' kp (if v i then 1 else 0)) HQ EQ) as (G' & e & HG' & EG'). exists G', fuel', 0%nat, e. split; assumption.
Qed.
Print Assumptions C81_always.

(** The seeded generator, wherever its history has brought it: key generation and encryption have the
    outcome of reading the key stream of the seed, and leave it where the reading ends. *)
Theorem C81_seeded (A : arch) (seed : list Z) (normal : gaussian -> reader spec_float) (below : Z -> reader Z) (pos : Z) (g : block_rng)
    (B : Z) (F : field) (tbl : tables) (P : parameters) (dv : deviations) (kp : key_pack) (m : Z) (fuel : nat) :
  bytes 16 seed -> reached A seed pos g ->
  let R := prg_rng A normal below in let S := stream_rng (stream_byte seed) normal below in
  as_stream A seed (key_pack_new_g F tbl P dv fuel R g) (key_pack_new_g F tbl P dv fuel S pos) /\
  as_stream A seed (eval_key_new_g B F tbl dv fuel kp R g) (eval_key_new_g B F tbl dv fuel kp S pos) /\
  as_stream A seed (kp_encrypt_g B dv fuel kp m R g) (kp_encrypt_g B dv fuel kp m S pos).
Proof.
  intros Hk H. cbv zeta. split; [|split].
  - exact (seeded_stream _ A seed normal below pos g (key_pack_tl F tbl P dv fuel) Hk H).
  - exact (seeded_stream _ A seed normal below pos g (eval_key_tl B F tbl dv fuel kp) Hk H).
  - exact (seeded_stream _ A seed normal below pos g (encrypt_tl B dv fuel kp m) Hk H).
Qed.
Print Assumptions C81_seeded.

(** So a seed gives the same keys and ciphertexts on both architectures. *)
Theorem C81_portable (A A' : arch) (seed : list Z) (normal : gaussian -> reader spec_float) (below : Z -> reader Z) (pos : Z) (g g' : block_rng)
    (B : Z) (F : field) (tbl : tables) (P : parameters) (dv : deviations) (kp : key_pack) (m : Z) (fuel : nat) :
  bytes 16 seed -> reached A seed pos g -> reached A' seed pos g' ->
  let R := prg_rng A normal below in let R' := prg_rng A' normal below in
  (forall v g1, key_pack_new_g F tbl P dv fuel R g = Got (v, g1) ->
    exists g1' pos1, key_pack_new_g F tbl P dv fuel R' g' = Got (v, g1') /\ reached A seed pos1 g1 /\ reached A' seed pos1 g1') /\
  (forall v g1, eval_key_new_g B F tbl dv fuel kp R g = Got (v, g1) ->
    exists g1' pos1, eval_key_new_g B F tbl dv fuel kp R' g' = Got (v, g1') /\ reached A seed pos1 g1 /\ reached A' seed pos1 g1') /\
  (forall v g1, kp_encrypt_g B dv fuel kp m R g = Got (v, g1) ->
    exists g1' pos1, kp_encrypt_g B dv fuel kp m R' g' = Got (v, g1') /\ reached A seed pos1 g1 /\ reached A' seed pos1 g1').
Proof.
  intros Hk H H'. cbv zeta. split; [|split]; intros v g1 E.
  - exact (seeded_portable _ A A' seed normal below pos g g' v g1 (key_pack_tl F tbl P dv fuel) Hk H H' E).
  - exact (seeded_portable _ A A' seed normal below pos g g' v g1 (eval_key_tl B F tbl dv fuel kp) Hk H H' E).
  - exact (seeded_portable _ A A' seed normal below pos g g' v g1 (encrypt_tl B dv fuel kp m) Hk H H' E).
Qed.
Print Assumptions C81_portable.

(** What is read from a stream is a segment of it: the words before [pos] and from [pos'] on do not
    matter, so the next key or ciphertext depends on later words only. *)
Theorem C81_segments (normal : gaussian -> reader spec_float) (below : Z -> reader Z) (s : Z -> Z) (pos pos' : Z)
    (B : Z) (F : field) (tbl : tables) (P : parameters) (dv : deviations) (kp : key_pack) (m : Z) (fuel : nat) :
  (forall v, key_pack_new_g F tbl P dv fuel (stream_rng s normal below) pos = Got (v, pos') ->
    pos <= pos' /\ forall s', same_words s s' pos pos' -> key_pack_new_g F tbl P dv fuel (stream_rng s' normal below) pos = Got (v, pos')) /\
  (forall v, eval_key_new_g B F tbl dv fuel kp (stream_rng s normal below) pos = Got (v, pos') ->
    pos <= pos' /\ forall s', same_words s s' pos pos' -> eval_key_new_g B F tbl dv fuel kp (stream_rng s' normal below) pos = Got (v, pos')) /\
  (forall v, kp_encrypt_g B dv fuel kp m (stream_rng s normal below) pos = Got (v, pos') ->
    pos <= pos' /\ forall s', same_words s s' pos pos' -> kp_encrypt_g B dv fuel kp m (stream_rng s' normal below) pos = Got (v, pos')).
Proof.
  split; [|split]; intros v E.
  - exact (all_own normal below _ (key_pack_tl F tbl P dv fuel) s pos v pos' E).
  - exact (all_own normal below _ (eval_key_tl B F tbl dv fuel kp) s pos v pos' E).
  - exact (all_own normal below _ (encrypt_tl B dv fuel kp m) s pos v pos' E).
Qed.
Print Assumptions C81_segments.

(** Keys and ciphertexts drawn from seeded generators: only the end of a stream makes them panic, and
    every circuit gives its value. *)
Theorem C81_circuits (BF p : Z) (k : nat) (F : field) (tbl : tables) (B j bits : Z) (P : parameters) (dv : deviations) (E Ek Ee D : Z)
    (A : arch) (seed : list Z) (normal : gaussian -> reader spec_float) (below : Z -> reader Z) (pos : Z) (g : block_rng) (fuel : nat) :
  sampled_setting BF p k F tbl B j bits P dv E Ek Ee D ->
  (forall d, gives is_f64 (normal d)) -> (forall q, 0 < q -> gives (fun v => 0 <= v < q) (below q)) ->
  bytes 16 seed -> reached A seed pos g ->
  let R := prg_rng A normal below in let S seed := stream_rng (stream_byte seed) normal below in
  (key_pack_new_g F tbl P dv fuel R g = Panicked -> refuses (S seed) pos) /\
  forall kp g1, key_pack_new_g F tbl P dv fuel R g = Got (kp, g1) ->
  exists pos1, pos <= pos1 /\ reached A seed pos1 g1 /\
  (eval_key_new_g B F tbl dv fuel kp R g1 = Panicked -> refuses (S seed) pos1) /\
  forall K g2, eval_key_new_g B F tbl dv fuel kp R g1 = Got (K, g2) ->
  exists pos2, pos1 <= pos2 /\ reached A seed pos2 g2 /\
  forall (v : nat -> bool) x,
    (forall i, exists A' seed' at' h h1 fuel', bytes 16 seed' /\ reached A' seed' at' h /\
       kp_encrypt_g B dv fuel' kp (if v i then 1 else 0) (prg_rng A' normal below) h = Got (x i, h1)) ->
    forall (c : circuit) (M : msg_type), exists r, crun B F tbl K x c = Some r /\ kp_decrypt M B kp r = Some (if cval v c then 1 else 0).
Proof.
  intros HS HN HB Hk HR. cbv zeta. pose proof (seed_stream_ok seed normal below Hk HN HB) as OK.
  pose proof (C81_always BF p k F tbl B j bits P dv E Ek Ee D Z Z (stream_rng (stream_byte seed) normal below) (stream_rng (stream_byte seed) normal below) fuel pos) as HA.
  pose proof (seeded_stream _ A seed normal below pos g (key_pack_tl F tbl P dv fuel) Hk HR) as E1. cbv beta in E1.
  split.
  { intros EP. rewrite EP in E1. exact (proj1 (HA pos HS OK OK) E1). }
  intros kp g1 EG. rewrite EG in E1. destruct E1 as (pos1 & E1 & R1). exists pos1.
  split; [exact (proj1 (proj1 (C81_segments normal below _ pos pos1 B F tbl P dv kp 0 fuel) kp E1))|]. split; [exact R1|].
  pose proof (seeded_stream _ A seed normal below pos1 g1 (eval_key_tl B F tbl dv fuel kp) Hk R1) as E2. cbv beta in E2.
  destruct (HA pos1 HS OK OK) as (_ & HA1). destruct (HA1 kp pos1 E1) as (HP & HA2). split.
  { intros EP. rewrite EP in E2. exact (HP E2). }
  intros K g2 EG2. rewrite EG2 in E2. destruct E2 as (pos2 & E2 & R2). exists pos2.
  split; [exact (proj1 (proj1 (proj2 (C81_segments normal below _ pos1 pos2 B F tbl P dv kp 0 fuel)) K E2))|]. split; [exact R2|].
  intros v x HX. apply (proj2 (HA2 K pos2 E2)). intros i. destruct (HX i) as (A' & seed' & at' & h & h1 & fuel' & Hk' & RH & EX).
  pose proof (seeded_stream _ A' seed' normal below at' h (encrypt_tl B dv fuel' kp (if v i then 1 else 0)) Hk' RH) as E3. cbv beta in E3. rewrite EX in E3.
  destruct E3 as (at1 & E3 & _). exists Z, (stream_rng (stream_byte seed') normal below), at', at1, fuel'.
  split; [apply seed_stream_ok; assumption|exact E3].
Qed.
Print Assumptions C81_circuits.

(** The parameters of [C61_ex] and distributions that read two words for one of the floats 1.25 and -2.5
    and one word for a residue: they meet all hypotheses, and from the key of FIPS 197 as the seed a key pack and
    a ciphertext are drawn, by 17 and 4 words. *)
Definition C81_normal (_ : gaussian) : reader spec_float :=
  Read64 (fun v => Return (if Z.odd v then S754_finite true 5629499534213120 (-51) else S754_finite false 5629499534213120 (-52))).
Definition C81_below (q : Z) : reader Z := Read32 (fun v => Return (v mod q)).
Definition C81_tbl (F : field) : tables := fun k => match generate_table F None (fun _ => 5) k with Some (Ok T) => Some T | _ => None end.
Example C81_ex : exists F b,
  let P := C49_par b BrKsMs in let R := prg_rng X86 C81_normal C81_below in
  sampled_setting 32 132120577 3 F (C81_tbl F) 16 14 7 P C61_dv 38 21 21 44000000000 /\
  (forall d, gives is_f64 (C81_normal d)) /\ (forall q, 0 < q -> gives (fun v => 0 <= v < q) (C81_below q)) /\ bytes 16 fips_key /\
  exists g, reached X86 fips_key 0 g /\
  match key_pack_new_g F (C81_tbl F) P C61_dv 1 R g with
  | Got (kp, g1) => bg_index g1 = 17%nat /\ match kp_encrypt_g 16 C61_dv 1 kp 1 R g1 with Got (x, g2) => length (la x) = 2%nat /\ bg_index g2 = 21%nat | _ => False end
  | _ => False
  end.
Proof.
  destruct C61_ex as (F & T1 & T3 & b & H). exists F, b. cbv zeta in *. destruct H as (HS & _).
  pose proof HS as (((W & HP & H64 & HF & _ & Hk) & HB & HG & HK1 & HK2 & HK3 & HK4) & HE).
  pose proof HF as HF'. vm_compute in HF'. injection HF' as EF.
  assert (SV : forall k, (k = 1 \/ k = 3)%nat -> serves F (C81_tbl F) k).
  { intros k Ek. exists None, (fun _ => 5). assert (E : exists T, generate_table F None (fun _ => 5) k = Some (Ok T)).
    { rewrite <- EF. destruct Ek as [-> | ->]; eexists; vm_compute; reflexivity. }
    destruct E as (T & E). exists T. split; [exact I|]. split; [intros _; rewrite <- EF; vm_compute; split; discriminate|].
    split; [exact E|]. unfold C81_tbl. rewrite E. reflexivity. }
  split.
  { split; [|exact HE]. split; [|split; [exact HB|split; [exact HG|]]].
    - do 4 (split; [assumption|]). split; [apply SV; right; reflexivity|exact Hk].
    - split; [exact HK1|]. split; [exact HK2|]. split; [exact HK3|]. apply SV. left. reflexivity. }
  split.
  { intros d. constructor. intros v Hv. constructor. destruct (Z.odd v); reflexivity. }
  split.
  { intros q Hq. constructor. intros v _. constructor. apply Z.mod_pos_bound. exact Hq. }
  split; [exact (proj1 C51_ex)|].
  assert (EB : basis_new F 7 = Some b) by (destruct HG as (_ & _ & _ & _ & EB & _); exact EB).
  rewrite <- EF in EB |- *. vm_compute in EB. injection EB as <-.
  destruct (prg_from_seed X86 fips_key) as [g|] eqn:Eg; [|vm_compute in Eg; discriminate Eg]. exists g.
  split; [exists []; split; [reflexivity|]; rewrite Eg; reflexivity|].
  vm_compute in Eg. injection Eg as <-. vm_compute. repeat split; reflexivity.
Qed.
