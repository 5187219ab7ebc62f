(** C38: key switching with a ring key. *)
From Coq Require Import ZArith Znumtheory List Arith Lia.
From Verif Require Import Spec.Basic Spec.Poly Spec.Lattice Spec.Ring Spec.Blind Spec.Switch Model.Base Model.Field Model.NTT Model.Concrete Model.Poly Model.Lwe Model.Rlwe Model.Gadget Model.KeySwitch.
From Verif Require Import Proofs.NumTheory Proofs.FieldProofs Proofs.PolyMain Proofs.NTTProofs Proofs.PolyProofs Proofs.RingSwitchProofs Proofs.RingSwitchKeyProofs Proofs.ExampleTac.
Import ListNotations.
Local Open Scope Z_scope.

(** The LWE secret [s] has 2^(k-1) < n <= 2^k entries, the ring secret is any positive number of
    blocks of 2^k coefficients (one block included).  The ring ciphertext's constant coefficient
    survives up to the digit-weighted key noise. *)
Theorem C38_from_rlwe (B p : Z) (k : nat) (F : field) (tbl : tables) (bits : Z) (b : basis) (s : list Z) (E : Z) (zs : list (list Z)) (key : list gadget) (ct : rlwe) :
  wwidth B -> prime p -> derive_field B p = Some F -> serves F tbl k -> (0 < k)%nat -> 0 <= bits -> basis_new F bits = Some b ->
  k = Nat.log2_up (length s) -> 0 <= E -> ring_switch_key F tbl (2 ^ k) b s E zs key -> (0 < length zs)%nat ->
  rlwe_wf p (length (concat zs)) ct ->
  exists y e, rks_key_switch_rlwe F tbl (mk_rlwe_ks_key (length s) key) ct = Some y /\ lwe_wf p (length s) y /\
    Z.abs e <= Z.of_nat (length zs) * (Z.of_nat (bs_len b) * (Z.of_nat (2 ^ k) * ((2 ^ bits - 1) * E))) /\
    phase p s y = (nth 0 (rphase (length (concat zs)) (concat zs) ct) 0 + e) mod p.
Proof.
  intros HB Hp HF Hs Hk H0 Hb Ek HE HK Hz Hx. destruct (field_ctx B p k F tbl HB Hp HF Hs) as (Hok & <- & w & C).
  assert (Ls : (length s <= 2 ^ k)%nat) by (subst k; apply Nat.log2_up_le_pow2; [destruct s; [cbn in Hk; lia|cbn; lia]|lia]).
  apply (rks_rlwe_correct F Hok Hp tbl k w C Hk b bits Hb H0 s Ls); try assumption. subst k. reflexivity.
Qed.
Print Assumptions C38_from_rlwe.

(** The same for an LWE ciphertext under the coefficients of the ring secret. *)
Theorem C38_from_lwe (B p : Z) (k : nat) (F : field) (tbl : tables) (bits : Z) (b : basis) (s : list Z) (E : Z) (zs : list (list Z)) (key : list gadget) (ct : lwe) :
  wwidth B -> prime p -> derive_field B p = Some F -> serves F tbl k -> (0 < k)%nat -> 0 <= bits -> basis_new F bits = Some b ->
  k = Nat.log2_up (length s) -> 0 <= E -> ring_switch_key F tbl (2 ^ k) b s E zs key -> (0 < length zs)%nat ->
  lwe_wf p (length (concat zs)) ct ->
  exists y e, rks_key_switch_lwe F tbl (mk_rlwe_ks_key (length s) key) ct = Some y /\ lwe_wf p (length s) y /\
    Z.abs e <= Z.of_nat (length zs) * (Z.of_nat (bs_len b) * (Z.of_nat (2 ^ k) * ((2 ^ bits - 1) * E))) /\
    phase p s y = (phase p (concat zs) ct + e) mod p.
Proof.
  intros HB Hp HF Hs Hk H0 Hb Ek HE HK Hz Hx. destruct (field_ctx B p k F tbl HB Hp HF Hs) as (Hok & <- & w & C).
  assert (Ls : (length s <= 2 ^ k)%nat) by (subst k; apply Nat.log2_up_le_pow2; [destruct s; [cbn in Hk; lia|cbn; lia]|lia]).
  apply (rks_lwe_correct F Hok Hp tbl k w C Hk b bits Hb H0 s Ls); try assumption. subst k. reflexivity.
Qed.
Print Assumptions C38_from_lwe.

(** Generation: the LWE secret is ternary and stored modulo q; the ring secret is any polynomial
    with canonical coefficients; the noise draws are at most [E]. *)
Theorem C38_generate (B p : Z) (k : nat) (F : field) (tbl : tables) (bits : Z) (b : basis) (q : Z) (s : list Z) (E : Z) (zs : list (list Z)) (nring : list Z) (rnd : list (list (list Z * list Z))) :
  wwidth B -> prime p -> derive_field B p = Some F -> serves F tbl k -> (0 < k)%nat -> 0 <= bits -> basis_new F bits = Some b ->
  k = Nat.log2_up (length s) -> 2 < q -> Forall (fun x => x = 0 \/ x = 1 \/ x = -1) s ->
  Forall (fun z => length z = (2 ^ k)%nat) zs -> (0 < length zs)%nat -> canonical p (concat zs) ->
  (length zs = 1%nat -> into_ntt F tbl (concat zs) = Some nring) ->
  length rnd = length zs -> Forall (drawn_small p (2 ^ k) E (bs_len b)) rnd ->
  exists key, rks_generate F tbl bits (map (fun x => x mod q) s) (concat zs) nring rnd = Some (mk_rlwe_ks_key (length s) key) /\
    ring_switch_key F tbl (2 ^ k) b s E zs key.
Proof.
  intros HB Hp HF Hs Hk H0 Hb Ek Hq Ht Hz Hz0 Cz HN Lr Hr. destruct (field_ctx B p k F tbl HB Hp HF Hs) as (Hok & <- & w & C).
  assert (Ls : (length s <= 2 ^ k)%nat) by (subst k; apply Nat.log2_up_le_pow2; [destruct s; [cbn in Hk; lia|cbn; lia]|lia]).
  apply (rks_generate_correct F Hok Hp tbl k w C Hk b bits Hb H0 E q s zs nring rnd); try assumption. subst k. reflexivity.
Qed.
Print Assumptions C38_generate.

(** Modulus 97, LWE secret (1, -1, 1) (extended to 4), ring secret of two blocks (N = 8), base 2^3. *)
Definition C38_r : list (list Z * list Z) := [([5; 6; 7; 8], [0; 0; 0; 0]); ([90; 1; 1; 1], [0; 1; 0; 0]); ([0; 0; 3; 96], [0; 0; 96; 0])].
Definition C38_zs : list (list Z) := [[1; 96; 0; 1]; [0; 1; 96; 96]].
Definition C38_ct : rlwe := mk_rlwe [12; 4; 80; 5; 61; 7; 3; 96] [50; 2; 9; 4; 1; 3; 4; 9].
Example C38_ex : exists F T b key y, prime 97 /\ derive_field 16 97 = Some F /\ serves F (fun _ => Some T) 2 /\
  basis_new F 3 = Some b /\ 2%nat = Nat.log2_up (length [1; -1; 1]) /\ canonical 97 (concat C38_zs) /\ drawn_small 97 4 1 (bs_len b) C38_r /\
  rks_generate F (fun _ => Some T) 3 (map (fun x => x mod 16) [1; -1; 1]) (concat C38_zs) [] [C38_r; C38_r] = Some (mk_rlwe_ks_key 3 key) /\
  rlwe_wf 97 8 C38_ct /\ rks_key_switch_rlwe F (fun _ => Some T) (mk_rlwe_ks_key 3 key) C38_ct = Some y /\ lwe_wf 97 3 y.
Proof.
  eexists. eexists. eexists. eexists. eexists. split; [apply small_prime; vm_compute; reflexivity|].
  split; [vm_compute; reflexivity|]. split; [ex_serves|]. split; [vm_compute; reflexivity|]. split; [reflexivity|]. split; [ex_canon|].
  split; [unfold C38_r; ex_drawn|]. split; [vm_compute; reflexivity|]. split; [unfold C38_ct; ex_wf|]. split; [vm_compute; reflexivity|]. ex_wf.
Qed.
