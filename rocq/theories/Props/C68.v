(** C68: operands of different sizes.  The full claim, that combining them is always refused, does not hold: the
    operations below without a check work on the common part. *)
From Coq Require Import ZArith List Bool Arith Lia.
From Verif Require Import Spec.Basic Spec.Poly Spec.Ring Spec.Boot.
From Verif Require Import Model.Base Model.Plaintext Model.PowOf2 Model.Field Model.NTT Model.Concrete Model.Poly Model.Lwe Model.Rlwe Model.ModSwitch Model.Params Model.Boolean Model.SecretKey.
From Verif Require Import Proofs.FieldProofs Proofs.PolyProofs Proofs.SizeProofs Proofs.ExampleTac Props.C29 Props.C63.
Import ListNotations.
Local Open Scope Z_scope.

(** Polynomials in either form (sums and differences: C46). *)
Theorem C68_polynomials_partial (F : field) (tbl : tables) (a b : list Z) : length a <> length b ->
  p_mul_assign_ntt F tbl a b = None /\ n_mul_assign F a b = None /\ n_mul_assign_poly F tbl a b = None /\ rlwe_new a b = None.
Proof.
  intros H. unfold p_mul_assign_ntt, n_mul_assign, n_mul_assign_poly, rlwe_new. rewrite same_len_none by exact H. auto.
Qed.
Print Assumptions C68_polynomials_partial.

(** Ring ciphertexts: either half of another length. *)
Theorem C68_ring_partial (F : field) (x y : rlwe) (v : list Z) :
  (length (ra x) <> length (ra y) \/ length (rb x) <> length (rb y) ->
    rlwe_add_ref F x y = None /\ rlwe_add_assign F x y = None /\ rlwe_sub_ref F x y = None /\ rlwe_sub_assign F x y = None) /\
  (length (ra x) <> length v \/ length (rb x) <> length v -> nrlwe_mul_assign F x v = None).
Proof.
  split; intros H.
  - unfold rlwe_add_ref, rlwe_add_assign, rlwe_sub_ref, rlwe_sub_assign, on_both, p_add, p_add_assign, p_sub, p_sub_assign.
    destruct H as [H|H]; rewrite (same_len_none _ _ H); cbn [bind]; rewrite ?bind_none; auto.
  - unfold nrlwe_mul_assign, n_mul_assign. destruct H as [H|H]; rewrite (same_len_none _ _ H); cbn [bind]; rewrite ?bind_none; auto.
Qed.
Print Assumptions C68_ring_partial.

(** Destinations of another length: conversion out of transform form, product with a polynomial in transform
    form, product with X^r - 1. *)
Theorem C68_destinations_partial (F : field) (tbl : tables) (x dst : rlwe) (v : list Z) (n r : nat) :
  length (ra dst) <> length (ra x) \/ length (rb dst) <> length (rb x) ->
  inverse_transform_inplace F tbl x dst = None /\ rlwe_mul_ntt_poly F tbl x v dst = None /\ mul_monic_monomial_sub_one F x n r dst = None.
Proof.
  intros H. split; [|split].
  - unfold inverse_transform_inplace. destruct (len_pow2 _); [|reflexivity]. cbn [bind]. destruct (tbl _); [|reflexivity]. cbn [bind].
    destruct H as [H|H]; rewrite (same_len_none _ _ H); [reflexivity|]. destruct (same_len _ _); reflexivity.
  - unfold rlwe_mul_ntt_poly. destruct (len_pow2 _); [|reflexivity]. cbn [bind]. destruct (tbl _); [|reflexivity]. cbn [bind].
    destruct H as [H|H]; rewrite (same_len_none _ _ H); [reflexivity|]. destruct (same_len _ _); reflexivity.
  - assert (RN : forall f g d y r m, length d <> length y -> (let* z := rotate f g d y r m in p_sub_assign F z y) = None).
    { intros f g d y r' m Hd. destruct (rotate f g d y r' m) as [z|] eqn:E; [|reflexivity]. cbn [bind]. unfold p_sub_assign.
      rewrite same_len_none; [reflexivity|]. rewrite (rotate_length _ _ _ _ _ _ _ E). exact Hd. }
    unfold mul_monic_monomial_sub_one, rotate_sub_low, rotate_sub_high. destruct (r <=? n)%nat; [|destruct (assert _); [cbn [bind]|reflexivity]];
      (destruct H as [H|H]; rewrite (RN _ _ _ _ _ _ H); [reflexivity|apply bind_none]).
Qed.
Print Assumptions C68_destinations_partial.

(** Decryption under a key of another dimension. *)
Theorem C68_decryption_partial (M : msg_type) (B t q : Z) (s : list Z) (c : lwe) : length (la c) <> length s ->
  decrypt M B t q s c = None /\ decrypt_with_noise M B t q s c = None.
Proof.
  intros H. assert (E : forall mask, p2_dot B mask (la c) s = None).
  { intros mask. unfold p2_dot, assert. destruct (Nat.eqb_spec (length (la c)) (length s)); [contradiction|reflexivity]. }
  unfold decrypt, decrypt_with_noise. destruct (p2_new q); [|auto]. cbn [bind]. rewrite E. auto.
Qed.
Print Assumptions C68_decryption_partial.

(** Gates on ciphertexts of different dimensions. *)
Theorem C68_gates_partial (B : Z) (F : field) (tbl : tables) (K : eval_key) (c0 c1 c2 : lwe) :
  (length (la c0) <> length (la c1) ->
    g_nand B F tbl K c0 c1 = None /\ g_and B F tbl K c0 c1 = None /\ g_or B F tbl K c0 c1 = None /\ g_nor B F tbl K c0 c1 = None /\
    g_xor B F tbl K c0 c1 = None /\ g_xnor B F tbl K c0 c1 = None) /\
  (length (la c0) <> length (la c1) \/ length (la c0) <> length (la c2) -> g_majority B F tbl K c0 c1 c2 = None /\ g_mux B F tbl K c0 c1 c2 = None).
Proof. exact (gates_refuse B F tbl K c0 c1 c2). Qed.
Print Assumptions C68_gates_partial.

(** Without a check: the common part is computed, the rest of the destination keeps its values. *)
Theorem C68_common_part (B p : Z) (F : field) (a b c d : list Z) : wwidth B -> 0 <= p -> derive_field B p = Some F ->
  canonical p a -> canonical p b -> canonical p c ->
  (let m := Nat.min (length d) (Nat.min (length a) (length b)) in
    p_add_inplace F a b d = Some (pmod p (padd (firstn m a) (firstn m b)) ++ skipn m d) /\
    p_sub_inplace F a b d = Some (pmod p (psub (firstn m a) (firstn m b)) ++ skipn m d) /\
    n_mul_inplace F a b d = Some (pmod p (pmul (firstn m a) (firstn m b)) ++ skipn m d)) /\
  (let m := Nat.min (length a) (Nat.min (length b) (length c)) in
    ntt_add_mul_assign F a b c = Some (pmod p (padd (firstn m a) (pmul (firstn m b) (firstn m c))) ++ skipn m a)) /\
  (let m := Nat.min (length d) (Nat.min (length a) (Nat.min (length b) (length c))) in
    ntt_add_mul_inplace F a b c d = Some (pmod p (padd (firstn m a) (pmul (firstn m b) (firstn m c))) ++ skipn m d)).
Proof. exact (common_part B p F a b c d). Qed.
Print Assumptions C68_common_part.

(** Switching the modulus into a ciphertext of another dimension, and adding a multiple of one: the common part
    again. *)
Theorem C68_common_lwe (B before after : Z) (O : mops) (c d : lwe) (k : Z) :
  (let m := Nat.min (length (la d)) (length (la c)) in
    forall y, lwe_modulus_switch B before after (mk_lwe (firstn m (la c)) (lb c)) = Some y ->
      lwe_modulus_switch_inplace B before after c d = Some (mk_lwe (la y ++ skipn m (la d)) (lb y))) /\
  (let m := Nat.min (length (la d)) (length (la c)) in
    forall y, lwe_add_scaled O (mk_lwe (firstn m (la d)) (lb d)) (mk_lwe (firstn m (la c)) (lb c)) k = Some y ->
      lwe_add_scaled O d c k = Some (mk_lwe (la y ++ skipn m (la d)) (lb y))).
Proof. exact (common_lwe B before after O c d k). Qed.
Print Assumptions C68_common_lwe.

(** The full claim is false: sums with three different lengths, and a gate on ciphertexts whose dimension is not
    the key's (6 instead of 5).  The gate takes them; the output has a leftover of the input (77 doubled and
    rescaled from 1024 to 16) as its sixth entry, and the key cannot decrypt it. *)
Theorem C68_refuted : exists F T b kp K c y, let tbl := fun _ => Some T in let P := C63_par b in
  derive_field 32 132120577 = Some F /\ key_pack_new F tbl P C63_words C63_words [1; 0; 5; 0; 0; 7; 2; 0] = Some kp /\
  p_add_inplace F [1; 2] [3] [9; 8; 7] = Some [4; 8; 7] /\
  eval_key_new 16 F tbl kp (as_draws (fp F) C63_x) = Some K /\ length (la c) = 6%nat /\ length (kp_lwe kp) = 5%nat /\
  g_nand 16 F tbl K c c = Some y /\ y = mk_lwe [493; 851; 197; 995; 7; 2] 666 /\ kp_decrypt MBool 16 kp y = None /\
  kp_decrypt MBool 16 kp (mk_lwe (firstn 5 (la y)) (lb y)) = Some 0.
Proof.
  destruct (derive_field 32 132120577) as [F|] eqn:HF; [|vm_compute in HF; discriminate].
  vm_compute in HF. injection HF as EF.
  assert (HT : exists T, generate_table F None (fun _ => 5) 3 = Some (Ok T)) by (subst F; eexists; vm_compute; reflexivity). destruct HT as (T & ET).
  destruct (basis_new F 7) as [b|] eqn:Hb; [|rewrite <- EF in Hb; vm_compute in Hb; discriminate].
  rewrite <- EF in Hb. vm_compute in Hb. injection Hb as Eb.
  rewrite <- EF in ET. vm_compute in ET. injection ET as ET.
  exists F, T, b. eexists. eexists. exists (mk_lwe [100; 3; 900; 5; 512; 77] 352). eexists. cbv zeta. rewrite <- EF, <- Eb, <- ET.
  split; [reflexivity|]. split; [vm_compute; reflexivity|]. split; [vm_compute; reflexivity|]. split; [vm_compute; reflexivity|]. split; [reflexivity|]. split; [vm_compute; reflexivity|].
  split; [vm_compute; reflexivity|]. split; [reflexivity|]. split; [vm_compute; reflexivity|vm_compute; reflexivity].
Qed.
Print Assumptions C68_refuted.

Example C68_ex : exists F T x y, let tbl := fun _ : nat => Some T in
  derive_field 16 97 = Some F /\ generate_table F None (fun _ => 5) 2 = Some (Ok T) /\
  x = mk_rlwe [1; 2; 3; 4] [5; 6; 7; 8] /\ y = mk_rlwe [0; 0; 0; 0; 0] [0; 0; 0; 0] /\
  rlwe_add_ref F x x = Some (mk_rlwe [2; 4; 6; 8] [10; 12; 14; 16]) /\ rlwe_add_ref F x y = None /\
  (exists z, inverse_transform_inplace F tbl x x = Some z) /\ inverse_transform_inplace F tbl x y = None /\
  (exists z, mul_monic_monomial_sub_one F x 4 1 x = Some z) /\ mul_monic_monomial_sub_one F x 4 1 y = None /\
  n_mul_inplace F [2; 3; 4] [5; 60] [9; 9; 9; 9] = Some [10; 83; 9; 9].
Proof.
  destruct (derive_field 16 97) as [F|] eqn:HF; [|vm_compute in HF; discriminate]. vm_compute in HF. injection HF as <-.
  eexists. eexists. eexists. eexists. cbv zeta. split; [reflexivity|]. split; [vm_compute; reflexivity|]. split; [reflexivity|]. split; [reflexivity|].
  split; [vm_compute; reflexivity|]. split; [vm_compute; reflexivity|]. split; [eexists; vm_compute; reflexivity|]. split; [vm_compute; reflexivity|].
  split; [eexists; vm_compute; reflexivity|]. split; [vm_compute; reflexivity|vm_compute; reflexivity].
Qed.
