(** C53: for each key, encryption is a permutation of the blocks. *)
From Coq Require Import ZArith List Bool Arith.
From Verif Require Import Spec.Aes Model.Base Model.Block Model.Aes Proofs.AesProofs Proofs.AesEncrypt Props.C51.
Import ListNotations.
Local Open Scope Z_scope.

(** The inverse cipher of FIPS-197 recovers the block. *)
Theorem C53_decrypt (A : arch) (key blk : list Z) : bytes 16 key -> bytes 16 blk ->
  exists c, (let* ks := aes_new A key in encrypt_block A ks blk) = Some c /\ bytes 16 c /\ inv_aes128 key c = blk.
Proof.
  intros Hk Hb. exists (aes128 key blk). split; [now apply C51_encrypt|]. split; [now apply aes128_bytes|now apply aes_decrypt].
Qed.
Print Assumptions C53_decrypt.

(** Every block is the ciphertext of exactly one block. *)
Theorem C53_permutation (A : arch) (key c : list Z) : bytes 16 key -> bytes 16 c ->
  exists! blk, bytes 16 blk /\ (let* ks := aes_new A key in encrypt_block A ks blk) = Some c.
Proof.
  intros Hk Hc. exists (inv_aes128 key c). pose proof (inv_aes128_bytes key c Hk Hc) as Hb. split.
  - split; [exact Hb|]. rewrite C51_encrypt, aes_encrypt_inv by assumption. reflexivity.
  - intros b [Hb' E]. rewrite C51_encrypt in E by assumption. injection E as <-. now apply aes_decrypt.
Qed.
Print Assumptions C53_permutation.

Example C53_ex : bytes 16 fips_ct /\ inv_aes128 fips_key fips_ct = fips_pt.
Proof.
  split; [|destruct C51_ex as (Hk & Hb & E); rewrite <- E; exact (aes_decrypt fips_key fips_pt Hk Hb)]. split; [reflexivity|].
  repeat (apply Forall_cons; [split; [discriminate|reflexivity]|]); apply Forall_nil.
Qed.
