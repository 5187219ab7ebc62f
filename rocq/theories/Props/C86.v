(** C86: straight-line programs of linear operations on LWE ciphertexts compute on the messages. *)
From Coq Require Import ZArith List Lia.
From Verif Require Import Spec.Basic Spec.Lattice Spec.LinProg Model.Base Model.Plaintext Model.Lwe Proofs.LinProgProofs.
Import ListNotations.
Local Open Scope Z_scope.

(** Any program, modulus kind and key: a program that names existing registers runs without panic, leaves well-formed
    ciphertexts, and the phases of all registers are those of the same program run on integers. *)
Theorem C86_phases (q : Z) (O : mops) (s : list Z) (p : list linop) (cts : list lwe) (us vs : list Z) :
  modulus_ops q O -> Forall2 (fun x u => lwe_wf q (length s) x /\ phase q s x = u mod q) cts us -> run_int p us = Some vs ->
  exists out, run_lwe q O p cts = Some out /\ Forall2 (fun x v => lwe_wf q (length s) x /\ phase q s x = v mod q) out vs.
Proof. apply run_phases. Qed.
Print Assumptions C86_phases.

(** On fresh encryptions, with messages [m] and errors [e]: register [r] decrypts to what the program computes on the
    messages, modulo [t], exactly when what it computes on the errors is within the budget; the reported noise is the latter. *)
Theorem C86_decrypts (B i j : Z) (M : msg_type) (s : list Z) (ins : list (list Z * Z * Z)) (p : list linop) (cts : list lwe) (vs ns : list Z) :
  0 <= i < j -> j < B <= 64 -> 2 ^ i - 1 <= msg_max M ->
  Forall (fun '(a, m, e) => length a = length s /\ canonical (2 ^ j) a /\ 0 <= m < 2 ^ i) ins ->
  Forall2 (fresh B (2 ^ i) (2 ^ j) s) cts ins ->
  run_int p (map (fun x => snd (fst x)) ins) = Some vs -> run_int p (map snd ins) = Some ns ->
  exists out, run_lwe (2 ^ j) (p2_mops B (2 ^ j - 1)) p cts = Some out /\ length vs = length out /\ length ns = length out /\
    forall r x v n, nth_error out r = Some x -> nth_error vs r = Some v -> nth_error ns r = Some n ->
      phase (2 ^ j) s x = (v * 2 ^ (j - i) + n) mod 2 ^ j /\
      (- 2 ^ j <= 2 * 2 ^ i * n < 2 ^ j ->
        decrypt M B (2 ^ i) (2 ^ j) s x = Some (v mod 2 ^ i) /\ decrypt_with_noise M B (2 ^ i) (2 ^ j) s x = Some (v mod 2 ^ i, Z.abs n)) /\
      (- 2 ^ j <= 2 * n < 2 ^ j -> ~ (- 2 ^ j <= 2 * 2 ^ i * n < 2 ^ j) -> decrypt M B (2 ^ i) (2 ^ j) s x <> Some (v mod 2 ^ i)).
Proof. intros Hij HB. apply linear_program; assumption. Qed.
Print Assumptions C86_decrypts.

(** Without knowing the errors: with all of them at most [E] in absolute value, every register whose weight [w] satisfies
    [2 t w E < q] decrypts correctly. *)
Theorem C86_weights (B i j E : Z) (M : msg_type) (s : list Z) (ins : list (list Z * Z * Z)) (p : list linop) (cts : list lwe) (vs ws : list Z) :
  0 <= i < j -> j < B <= 64 -> 2 ^ i - 1 <= msg_max M ->
  Forall (fun '(a, m, e) => length a = length s /\ canonical (2 ^ j) a /\ 0 <= m < 2 ^ i /\ Z.abs e <= E) ins ->
  Forall2 (fresh B (2 ^ i) (2 ^ j) s) cts ins ->
  run_int p (map (fun x => snd (fst x)) ins) = Some vs -> run_weight p (map (fun _ => 1) ins) = Some ws ->
  exists out, run_lwe (2 ^ j) (p2_mops B (2 ^ j - 1)) p cts = Some out /\ length vs = length out /\ length ws = length out /\
    forall r x v w, nth_error out r = Some x -> nth_error vs r = Some v -> nth_error ws r = Some w ->
      2 * 2 ^ i * (w * E) < 2 ^ j -> decrypt M B (2 ^ i) (2 ^ j) s x = Some (v mod 2 ^ i).
Proof. intros Hij HB. apply linear_program_bound; assumption. Qed.
Print Assumptions C86_weights.

(** Three encryptions modulo 1024 with eight messages; register 2 ends out of budget, the others within. *)
Definition C86_ins : list (list Z * Z * Z) := [([1000; 7], 5, -3); ([512; 99], 7, 4); ([0; 1], 2, 9)].
Definition C86_prog : list linop := [LAdd 0 1; LSubFrom 3 2; LScale 1 (-3); LNeg 0; LAddTo 4 1; LAddScaled 2 0 (-30); LSub 3 0].
Example C86_ex :
  exists cts out, Forall2 (fresh 16 8 1024 [1; 1023]) cts C86_ins /\
  run_int C86_prog [5; 7; 2] = Some [5; -21; -148; 10; -26; 5] /\ run_int C86_prog [-3; 4; 9] = Some [-3; -12; 99; -8; -9; -5] /\
  run_weight C86_prog [1; 1; 1] = Some [1; 3; 31; 3; 4; 4] /\
  run_lwe 1024 (p2_mops 16 1023) C86_prog cts = Some out /\
  mapM (decrypt MU8 16 8 1024 [1; 1023]) out = Some [5; 3; 5; 2; 6; 5] /\ -148 mod 8 = 4.
Proof.
  eexists [_; _; _]. eexists. split; [repeat constructor; vm_compute; reflexivity|]. repeat split; vm_compute; reflexivity.
Qed.
