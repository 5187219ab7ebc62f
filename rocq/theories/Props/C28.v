(** C28: LWE decryption inverts encryption within the noise budget. *)
From Coq Require Import ZArith List Lia.
From Verif Require Import Spec.Basic Spec.Lattice Model.Base Model.Plaintext Model.Lwe Proofs.Arith Proofs.LweProofs.
Import ListNotations.
Local Open Scope Z_scope.

(** Any key [s], mask [a], noise [e] (handed over as a residue, as the sampler does) within the
    budget, and any message type able to hold [m]; [t = 2^i < q = 2^j], [q] a [B]-bit word. *)
Theorem C28_roundtrip (B i j : Z) (M : msg_type) (s a : list Z) (e m : Z) :
  0 <= i < j -> j < B <= 64 -> length a = length s -> canonical (2 ^ j) a ->
  0 <= m < 2 ^ i -> m <= msg_max M -> - 2 ^ j <= 2 * 2 ^ i * e < 2 ^ j ->
  exists ct, encrypt B (2 ^ i) (2 ^ j) s a (e mod 2 ^ j) m = Some ct /\
    lwe_wf (2 ^ j) (length s) ct /\ la ct = a /\
    phase (2 ^ j) s ct = (m * 2 ^ (j - i) + e) mod 2 ^ j /\
    decrypt M B (2 ^ i) (2 ^ j) s ct = Some m /\
    decrypt_with_noise M B (2 ^ i) (2 ^ j) s ct = Some (m, Z.abs e).
Proof. apply encrypt_roundtrip. Qed.
Print Assumptions C28_roundtrip.

(** Outside the budget (with the noise centred) the message is not recovered. *)
Theorem C28_budget_tight (B i j : Z) (M : msg_type) (s a : list Z) (e m : Z) :
  0 <= i < j -> j < B <= 64 -> length a = length s ->
  0 <= m < 2 ^ i -> - 2 ^ j <= 2 * e < 2 ^ j -> ~ (- 2 ^ j <= 2 * 2 ^ i * e < 2 ^ j) ->
  exists ct, encrypt B (2 ^ i) (2 ^ j) s a (e mod 2 ^ j) m = Some ct /\
    decrypt M B (2 ^ i) (2 ^ j) s ct <> Some m.
Proof. apply encrypt_tight. Qed.
Print Assumptions C28_budget_tight.

(** On any ciphertext, [decrypt] rounds the phase to the nearest multiple of [q/t], and
    [decrypt_with_noise] adds the distance between the phase and that multiple. *)
Theorem C28_any_ciphertext (B i j : Z) (s : list Z) (ct : lwe) :
  0 <= i < j -> j < B <= 64 -> length (la ct) = length s ->
  exists m d, decrypt MU64 B (2 ^ i) (2 ^ j) s ct = Some m /\ 0 <= m < 2 ^ i /\
    decrypt_with_noise MU64 B (2 ^ i) (2 ^ j) s ct = Some (m, Z.abs d) /\
    cong (2 ^ j) (phase (2 ^ j) s ct) (m * 2 ^ (j - i) + d) /\
    - 2 ^ j <= 2 * 2 ^ i * d < 2 ^ j.
Proof. apply decrypt_any. Qed.
Print Assumptions C28_any_ciphertext.

(** Out-of-range messages are rejected. *)
Theorem C28_rejects (B i j : Z) (s a : list Z) (e m : Z) :
  0 <= i < j -> j < B <= 64 -> 2 ^ i <= m -> encrypt B (2 ^ i) (2 ^ j) s a e m = None.
Proof. intros. apply encrypt_panics; assumption. Qed.
Print Assumptions C28_rejects.

Example C28_ex :
  encrypt 16 4 1024 [1; 0; 1023; 1] [1000; 7; 512; 99] (-128 mod 1024) 3 = Some (mk_lwe [1000; 7; 512; 99] 203) /\
  decrypt MU8 16 4 1024 [1; 0; 1023; 1] (mk_lwe [1000; 7; 512; 99] 203) = Some 3 /\
  decrypt_with_noise MU8 16 4 1024 [1; 0; 1023; 1] (mk_lwe [1000; 7; 512; 99] 203) = Some (3, 128).
Proof. vm_compute. auto. Qed.
