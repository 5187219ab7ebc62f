(** C51: the cipher is AES-128 on both supported architectures. *)
From Coq Require Import ZArith List Bool Arith.
From Verif Require Import Spec.Aes Model.Base Model.Block Model.Aes Proofs.AesProofs Proofs.AesEncrypt.
Import ListNotations.
Local Open Scope Z_scope.

(** For every key the key schedule is that of FIPS-197, computed without panic with the x86 instructions
    as well as with the Arm ones. *)
Theorem C51_key_schedule (A : arch) (key : list Z) : bytes 16 key ->
  aes_new A key = Some (map (round_key key) (seq 0 11)).
Proof. exact (aes_new_ok A key). Qed.
Print Assumptions C51_key_schedule.

(** For every key and block the ciphertext is the AES-128 encryption of the block. *)
Theorem C51_encrypt (A : arch) (key blk : list Z) : bytes 16 key -> bytes 16 blk ->
  (let* ks := aes_new A key in encrypt_block A ks blk) = Some (aes128 key blk).
Proof. intros Hk Hb. rewrite aes_new_ok by exact Hk. cbn [bind]. now apply encrypt_block_ok. Qed.
Print Assumptions C51_encrypt.

(** The test vector of FIPS-197, appendix B. *)
Definition fips_key : list Z := [43; 126; 21; 22; 40; 174; 210; 166; 171; 247; 21; 136; 9; 207; 79; 60].
Definition fips_pt : list Z := [50; 67; 246; 168; 136; 90; 48; 141; 49; 49; 152; 162; 224; 55; 7; 52].
Definition fips_ct : list Z := [57; 37; 132; 29; 2; 220; 9; 251; 220; 17; 133; 151; 25; 106; 11; 50].
Example C51_ex : bytes 16 fips_key /\ bytes 16 fips_pt /\ aes128 fips_key fips_pt = fips_ct.
Proof.
  split; [|split; [|vm_compute; reflexivity]]; (split; [reflexivity|]);
    repeat (apply Forall_cons; [split; [discriminate|reflexivity]|]); apply Forall_nil.
Qed.
