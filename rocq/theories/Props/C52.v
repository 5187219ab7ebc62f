(** C52: encrypting many blocks is encrypting each of them. *)
From Coq Require Import ZArith List Bool Arith.
From Verif Require Import Spec.Aes Model.Base Model.Block Model.Aes Proofs.AesProofs Proofs.AesEncrypt Props.C51.
Import ListNotations.
Local Open Scope Z_scope.

(** A fixed-size batch of any size. *)
Theorem C52_many (A : arch) (key : list Z) (blks : list (list Z)) : bytes 16 key -> Forall (bytes 16) blks ->
  (let* ks := aes_new A key in encrypt_many_blocks A ks blks) = Some (map (aes128 key) blks).
Proof. intros Hk Hb. rewrite aes_new_ok by exact Hk. cbn [bind]. now apply many_ok. Qed.
Print Assumptions C52_many.

(** A slice of any length, encrypted in place by groups of eight and a remainder: no block is skipped,
    encrypted twice or moved, and nothing panics. *)
Theorem C52_slice (A : arch) (key : list Z) (blks : list (list Z)) : bytes 16 key -> Forall (bytes 16) blks ->
  (let* ks := aes_new A key in encrypt_block_slice A ks blks) = Some (map (aes128 key) blks).
Proof. intros Hk Hb. rewrite aes_new_ok by exact Hk. cbn [bind]. now apply slice_aes. Qed.
Print Assumptions C52_slice.

(** Nineteen blocks: two groups and a remainder of three. *)
Lemma map_repeat_eq (f : list Z -> list Z) (x y : list Z) (m : nat) : f x = y -> map f (repeat x m) = repeat y m.
Proof. intros E. induction m as [|m IH]; cbn [repeat map]; [reflexivity|]. rewrite E, IH. reflexivity. Qed.
Example C52_ex :
  (let* ks := aes_new Arm fips_key in encrypt_block_slice Arm ks (repeat fips_pt 19)) = Some (repeat fips_ct 19).
Proof.
  assert (Hb : Forall (bytes 16) (repeat fips_pt 19)).
  { apply Forall_forall. intros x Hx. apply repeat_spec in Hx. subst x. exact (proj1 (proj2 C51_ex)). }
  exact (eq_trans (C52_slice Arm fips_key (repeat fips_pt 19) (proj1 C51_ex) Hb)
    (f_equal Some (map_repeat_eq (aes128 fips_key) fips_pt fips_ct 19 (proj2 (proj2 C51_ex))))).
Qed.
