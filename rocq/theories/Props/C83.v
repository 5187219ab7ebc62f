(** C83: what is drawn from a random seed is as random as the cipher. *)
From Coq Require Import ZArith QArith Qabs List Bool Lia SpecFloat.
From Verif Require Import Spec.Basic Spec.Aes Spec.Stream Spec.Count Spec.HidingKeys Spec.Gates Spec.KeyGen Spec.Sampled Spec.Machine Spec.Cipher.
From Verif Require Import Model.Base Model.Field Model.NTT Model.Concrete Model.Poly Model.Lwe Model.Gadget Model.Aes Model.Prg Model.Params Model.Boolean Model.SecretKey Model.Gaussian Model.Sampled Model.Stream Model.Seeded.
From Verif Require Import Proofs.CipherProofs Proofs.ExampleTac Props.C49 Props.C51 Props.C61 Props.C81.
Import ListNotations.
Local Open Scope Z_scope.

(** The first [n] blocks of the key stream of a random seed and [n] uniform blocks: a test accepts them
    with chances that differ by at most its advantage against the cipher plus n (n - 1) / 2^129. *)
Theorem C83_blocks (n : nat) (D : list (list Z) -> bool) : Z.of_nat n <= 2 ^ 128 ->
  (Qabs (prob (fun seed => D (cipher_blocks seed n)) blocks - prob D (lists n blocks)) <= advantage n D + birthday n)%Q.
Proof. exact (cipher_uniform n D). Qed.
Print Assumptions C83_blocks.

(** A history of calls of the generator of a random seed that needs at most [n] blocks, on either
    architecture: the same for every test of all its answers.  The test of the cipher is to compute the
    answers from the blocks and run the given one. *)
Theorem C83_history (A : arch) (n : nat) (cs : list prg_call) (D : list (list Z) -> bool) :
  costs cs <= 4 * Z.of_nat n -> costs cs <= capacity -> Z.of_nat n <= 2 ^ 128 ->
  (Qabs (prob (fun seed => passes D (let* g := prg_from_seed A seed in let* '(out, _) := prg_run A cs g in Some out)) blocks
         - prob (fun l => D (answers_in (byte_of l) 0 cs)) (lists n blocks))
   <= advantage n (fun l => D (answers_in (byte_of l) 0 cs)) + birthday n)%Q.
Proof.
  intros H1 H2 H3. rewrite (prob_ext _ (fun seed => D (answers_in (byte_of (cipher_blocks seed n)) 0 cs))).
  - exact (cipher_uniform n (fun l => D (answers_in (byte_of l) 0 cs)) H3).
  - intros seed Hs. apply in_blocks in Hs. rewrite (history_blocks A seed cs n Hs H1 H2). reflexivity.
Qed.
Print Assumptions C83_history.

(** Keys, evaluation key and ciphertexts from a random seed against the same from uniform blocks, for
    every test of all of them, secrets included: the advantages of two tests of the cipher (run the
    session on the blocks; see whether it gets along with them), twice the birthday bound, and the chance
    that [n] uniform blocks do not suffice. *)
Theorem C83_session (B : Z) (F : field) (tbl : tables) (P : parameters) (dv : deviations) (fuel : nat) (ms : list Z)
    (A : arch) (normal : gaussian -> reader spec_float) (below : Z -> reader Z) (n : nat) (D : (key_pack * eval_key) * list lwe -> bool) :
  Z.of_nat n <= 2 ^ 128 ->
  let on_blocks l := finishes (session B F tbl P dv fuel ms) normal below n l in
  (Qabs (prob (fun seed => passes D (seeded (session B F tbl P dv fuel ms) A normal below seed)) blocks - prob (fun l => passes D (on_blocks l)) (lists n blocks))
   <= advantage n (fun l => passes D (on_blocks l)) + advantage n (fun l => fails (on_blocks l)) + 2 * birthday n + prob (fun l => fails (on_blocks l)) (lists n blocks))%Q.
Proof. exact (program_chance (fun St => @session St B F tbl P dv fuel ms) A normal below n (session_tl B F tbl P dv fuel ms) D). Qed.
Print Assumptions C83_session.

(** The setting of [C81_ex]: the FIPS key is among the seeds; a session gets along with 230 blocks; with a
    million blocks the birthday term is below 2^-89. *)
Example C83_ex : In fips_key blocks /\ Z.of_nat (length blocks) = 2 ^ 128 /\ (birthday (1000 * 1000) < 1 / inject_Z (2 ^ 89))%Q /\
  (let cs := [NextU64; FillBytes 5; RandomBool] in costs cs = 5 /\ answers_in (byte_of [map Z.of_nat (seq 0 16); map Z.of_nat (seq 200 16)]) 0 cs = [[0; 1; 2; 3; 4; 5; 6; 7]; [8; 9; 10; 11; 12]; [1]]) /\
  exists F b, derive_field 32 132120577 = Some F /\ basis_new F 7 = Some b /\
    match finishes (session 16 F (C81_tbl F) (C49_par b BrKsMs) C61_dv 1 [1; 0]) C81_normal C81_below 230 (repeat (repeat 17 16) 230) with
    | Some (_, cs) => length cs = 2%nat
    | None => False
    end.
Proof.
  split; [apply in_blocks; exact (proj1 C51_ex)|]. split; [exact blocks_length|]. split.
  { unfold birthday. rewrite Nat2Z.inj_mul. vm_compute. reflexivity. }
  split; [split; [reflexivity|vm_compute; reflexivity]|].
  eexists. eexists. split; [vm_compute; reflexivity|]. split; [vm_compute; reflexivity|]. vm_compute. reflexivity.
Qed.
