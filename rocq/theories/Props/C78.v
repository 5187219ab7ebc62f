(** C78: the published keys hide the secrets they encrypt as well as encryptions of zero look uniform. *)
From Coq Require Import ZArith Znumtheory List Bool Arith Lia.
From Verif Require Import Spec.Basic Spec.Poly Spec.Ring Spec.Count Spec.Hiding Spec.HidingKeys Model.Base Model.Field Model.NTT Model.Concrete Model.Poly Model.Params Model.Lwe Model.Rlwe Model.Gadget
  Model.BlindRotation Model.KeySwitch Model.SecretKey Proofs.Arith Proofs.NumTheory Proofs.ExampleTac Proofs.RandomProofs Proofs.KeyHidingProofs.
Import ListNotations.
Local Open Scope Z_scope.

(** The blind-rotation key.  Any worlds (published data [X], a ring secret, noises), uniform masks, any test
    [D] of the published data and of the key, any two LWE secrets of [n] entries.  The numbers of choices for
    which [D] accepts the keys of the two secrets differ by exactly the difference of two advantages at
    telling encryptions of zero under the ring secret from uniform rows: those of the tests that plant the
    secret in the rows they are given, which takes no knowledge of the ring secret, and then run [D]. *)
Theorem C78_rotation (X : Type) (BF p : Z) (k n : nat) (F : field) (tbl : tables) (bits : Z) (P : parameters) (ws : list (kworld X noises))
    (z z' : list Z) (D : X -> br_key -> bool) :
  wwidth BF -> prime p -> derive_field BF p = Some F -> serves F tbl k -> (0 < k)%nat -> 0 <= bits -> basis_new F bits = Some (pp_basis P) ->
  Forall (rotation_world F tbl (2 ^ k) n P) ws -> length z = n -> length z' = n ->
  bodies F (2 ^ k) n P * (accepted_rotation F tbl (2 ^ k) n P ws z D - accepted_rotation F tbl (2 ^ k) n P ws z' D) =
  zeros_gap F tbl (2 ^ k) n P ws (fun x U => D x (planted (fp F) (2 ^ bits) P z U)) -
  zeros_gap F tbl (2 ^ k) n P ws (fun x U => D x (planted (fp F) (2 ^ bits) P z' U)).
Proof. intros HB Hp HF HS Hk H0 Hb Hw L L'. exact (rotation_hiding X BF p k n F tbl bits P ws HB Hp HF HS Hk H0 Hb Hw z z' D L L'). Qed.
Print Assumptions C78_rotation.

(** If no test of a class that is closed under planting tells encryptions of zero from uniform rows by more
    than [eps], none tells the rotation keys of two secrets apart by more than twice [eps]. *)
Theorem C78_rotation_bound (X : Type) (BF p : Z) (k n : nat) (F : field) (tbl : tables) (bits : Z) (P : parameters) (ws : list (kworld X noises))
    (z z' : list Z) (D : X -> br_key -> bool) (eps : Z) (C : (X -> list (list rlwe * list rlwe) -> bool) -> Prop) :
  wwidth BF -> prime p -> derive_field BF p = Some F -> serves F tbl k -> (0 < k)%nat -> 0 <= bits -> basis_new F bits = Some (pp_basis P) ->
  Forall (rotation_world F tbl (2 ^ k) n P) ws -> length z = n -> length z' = n ->
  (forall D', C D' -> Z.abs (zeros_gap F tbl (2 ^ k) n P ws D') <= eps) ->
  C (fun x U => D x (planted (fp F) (2 ^ bits) P z U)) -> C (fun x U => D x (planted (fp F) (2 ^ bits) P z' U)) ->
  bodies F (2 ^ k) n P * Z.abs (accepted_rotation F tbl (2 ^ k) n P ws z D - accepted_rotation F tbl (2 ^ k) n P ws z' D) <= 2 * eps.
Proof.
  intros HB Hp HF HS Hk H0 Hb Hw L L' H C1 C2. pose proof (C78_rotation X BF p k n F tbl bits P ws z z' D HB Hp HF HS Hk H0 Hb Hw L L') as E.
  assert (0 <= bodies F (2 ^ k) n P).
  { unfold bodies. apply Z.pow_nonneg. pose proof (fp_positive BF p k F tbl HB Hp HF HS Hk). lia. }
  rewrite <- (Z.abs_eq (bodies F (2 ^ k) n P)) at 1 by assumption. rewrite <- Z.abs_mul, E. pose proof (H _ C1). pose proof (H _ C2). lia.
Qed.
Print Assumptions C78_rotation_bound.

(** Generation does not panic, and the key is that of encryptions of zero with the secret planted. *)
Theorem C78_rotation_key (X : Type) (BF p : Z) (k n : nat) (F : field) (tbl : tables) (bits : Z) (P : parameters) (w : kworld X noises) (A : noises) (z : list Z) :
  wwidth BF -> prime p -> derive_field BF p = Some F -> serves F tbl k -> (0 < k)%nat -> 0 <= bits -> basis_new F bits = Some (pp_basis P) ->
  rotation_world F tbl (2 ^ k) n P w -> In A (all_masks (2 ^ k) (fp F) (slots P n) (bs_len (pp_basis P))) -> length z = n ->
  br_key_generate F tbl (with_lwe z (secrets w)) (rotation_draws (draws_with A (chance w))) =
  Some (planted (fp F) (2 ^ bits) P z (zero_rows_of F tbl (kp_ntt (secrets w)) (draws_with A (chance w)))).
Proof. intros HB Hp HF HS Hk H0 Hb Hw HA L. exact (rotation_value X BF p k n F tbl bits P HB Hp HF HS Hk H0 Hb w A z Hw HA L). Qed.
Print Assumptions C78_rotation_key.

(** With uniform rows the secret is hidden perfectly; and a test that does not look at the rows has no
    advantage, so the advantages are scaled as they should be. *)
Theorem C78_rotation_pad (X : Type) (BF p : Z) (k n : nat) (F : field) (tbl : tables) (bits : Z) (P : parameters) (ws : list (kworld X noises))
    (z z' : list Z) (D : X -> br_key -> bool) (f : X -> bool) :
  wwidth BF -> prime p -> derive_field BF p = Some F -> serves F tbl k -> (0 < k)%nat -> Forall (rotation_world F tbl (2 ^ k) n P) ws -> length z = n -> length z' = n ->
  accepted_random F (2 ^ k) n P ws (fun x U => D x (planted (fp F) (2 ^ bits) P z U)) =
  accepted_random F (2 ^ k) n P ws (fun x U => D x (planted (fp F) (2 ^ bits) P z' U)) /\
  zeros_gap F tbl (2 ^ k) n P ws (fun x _ => f x) = 0.
Proof.
  intros HB Hp HF HS Hk Hw L L'. split; [exact (rotation_random X BF p k n F tbl bits P ws HB Hp HF HS Hk Hw z z' D L L')|exact (zeros_gap_blind X BF p k n F tbl P ws HB Hp HF HS Hk f)].
Qed.
Print Assumptions C78_rotation_pad.

(** The LWE switching key, for a power-of-two modulus: any worlds (published data, an LWE secret, masks and
    noises), any two ring secrets of [N] coefficients.  The tests of LWE samples that appear add multiples of
    the coefficients to the bodies and put the result in the form of a key. *)
Theorem C78_switch (X : Type) (B bits j : Z) (l N : nat) (P : parameters) (ws : list (kworld X ldraws)) (s s' : list Z) (D : X -> lwe_ks_key -> bool) :
  1 <= bits <= j -> j < B -> l = Z.to_nat ((j + bits - 1) / bits) -> Forall (switch_world (2 ^ j) (2 ^ bits) l N P) ws -> length s = N -> length s' = N ->
  let e := Z.to_nat (2 ^ bits - 1) in
  let made := fun t (x : X) d U => D x (mk_lwe_ks_key d (2 ^ j - 1) (mk_wbasis (2 ^ bits) l (2 ^ bits - 1) bits) (planted_lwe (2 ^ j) (2 ^ bits) t U)) in
  (2 ^ j) ^ Z.of_nat (l * (N * e)) * (accepted_switch B (2 ^ j) bits ws s D - accepted_switch B (2 ^ j) bits ws s' D) =
  samples_gap (2 ^ j) l N e ws (made s) - samples_gap (2 ^ j) l N e ws (made s') /\
  accepted_bodies (2 ^ j) l N e ws (made s) = accepted_bodies (2 ^ j) l N e ws (made s') /\
  (forall f, samples_gap (2 ^ j) l N e ws (fun x _ _ => f x) = 0).
Proof.
  intros Hb Hj Hl Hw L L'. cbv zeta. split; [exact (switch_hiding X B bits j l N P ws Hb Hj Hl Hw s s' D L L')|]. split; [|intros f; exact (samples_gap_blind X bits j l N ws Hb Hl f)].
  rewrite (accepted_bodies_eq X bits j l N P ws Hb Hl Hw s D L). symmetry. exact (accepted_bodies_eq X bits j l N P ws Hb Hl Hw s' D L').
Qed.
Print Assumptions C78_switch.

(** Generation does not panic, and the key is that of LWE samples with the secret planted. *)
Theorem C78_switch_key (X : Type) (B bits j : Z) (l N : nat) (P : parameters) (w : kworld X ldraws) (s : list Z) :
  1 <= bits <= j -> j < B -> l = Z.to_nat ((j + bits - 1) / bits) -> switch_world (2 ^ j) (2 ^ bits) l N P w -> length s = N ->
  lks_generate B (2 ^ j) bits (kp_lwe (secrets w)) s (chance w) =
  Some (mk_lwe_ks_key (length (kp_lwe (secrets w))) (2 ^ j - 1) (mk_wbasis (2 ^ bits) l (2 ^ bits - 1) bits)
    (planted_lwe (2 ^ j) (2 ^ bits) s (samples_of (2 ^ j) (kp_lwe (secrets w)) (chance w)))).
Proof. intros Hb Hj Hl Hw L. exact (switch_value X B bits j l N P Hb Hj Hl s w L Hw). Qed.
Print Assumptions C78_switch_key.

(** The ring switching key: any worlds (published data, an LWE secret, masks and noises), any two ring
    secrets of [m] blocks.  The tests of encryptions of zero under the LWE secret add multiples of the
    transformed blocks to the bodies. *)
Theorem C78_ring_switch (X : Type) (BF p : Z) (k m : nat) (F : field) (tbl : tables) (bits : Z) (b : basis) (ws : list (kworld X rdraws))
    (s S s' S' : list Z) (D : X -> rlwe_ks_key -> bool) :
  wwidth BF -> prime p -> derive_field BF p = Some F -> serves F tbl k -> (0 < k)%nat -> 0 <= bits -> basis_new F bits = Some b -> (0 < m)%nat ->
  Forall (ring_switch_world F m (bs_len b) (2 ^ k)) ws -> ring_secret F tbl m (2 ^ k) s S -> ring_secret F tbl m (2 ^ k) s' S' ->
  let made := fun t (x : X) d U => D x (mk_rlwe_ks_key d (planted_ring (fp F) (2 ^ bits) b (blocks_of F tbl (2 ^ k) t) U)) in
  fp F ^ Z.of_nat (m * (bs_len b * 2 ^ k)) * (accepted_ring_switch F tbl bits ws s S D - accepted_ring_switch F tbl bits ws s' S' D) =
  ring_gap F tbl m (bs_len b) (2 ^ k) ws (made s) - ring_gap F tbl m (bs_len b) (2 ^ k) ws (made s') /\
  accepted_ring_bodies F m (bs_len b) (2 ^ k) ws (made s) = accepted_ring_bodies F m (bs_len b) (2 ^ k) ws (made s') /\
  (forall f, ring_gap F tbl m (bs_len b) (2 ^ k) ws (fun x _ _ => f x) = 0).
Proof.
  intros HB Hp HF HS Hk H0 Hb Hm Hw Hs Hs'. cbv zeta.
  split; [exact (ring_switch_hiding X BF p k m F tbl bits b ws HB Hp HF HS Hk H0 Hb Hm Hw s S s' S' D Hs Hs')|].
  split; [|intros f; exact (ring_gap_blind X BF p k m F tbl b ws HB Hp HF HS Hk Hm f)].
  rewrite (accepted_ring_bodies_eq X BF p k m F tbl bits b ws HB Hp HF HS Hk Hw s S D Hs). symmetry.
  exact (accepted_ring_bodies_eq X BF p k m F tbl bits b ws HB Hp HF HS Hk Hw s' S' D Hs').
Qed.
Print Assumptions C78_ring_switch.

(** Generation does not panic, and the key is that of encryptions of zero with the secret planted. *)
Theorem C78_ring_switch_key (X : Type) (BF p : Z) (k m : nat) (F : field) (tbl : tables) (bits : Z) (b : basis) (w : kworld X rdraws) (s S : list Z) :
  wwidth BF -> prime p -> derive_field BF p = Some F -> serves F tbl k -> (0 < k)%nat -> 0 <= bits -> basis_new F bits = Some b -> (0 < m)%nat ->
  ring_switch_world F m (bs_len b) (2 ^ k) w -> ring_secret F tbl m (2 ^ k) s S ->
  rks_generate F tbl bits (kp_lwe (secrets w)) s S (chance w) =
  Some (mk_rlwe_ks_key (length (kp_lwe (secrets w))) (planted_ring (fp F) (2 ^ bits) b (blocks_of F tbl (2 ^ k) s)
    (ring_zeros F tbl (lwe_as_ring F tbl (2 ^ k) (kp_lwe (secrets w))) (chance w)))).
Proof. intros HB Hp HF HS Hk H0 Hb Hm Hw Hs. exact (ring_switch_value X BF p k m F tbl bits b HB Hp HF HS Hk H0 Hb Hm s S w Hs Hw). Qed.
Print Assumptions C78_ring_switch_key.

(** Rings of dimension 2 over the integers modulo 5, one level; LWE keys of one and of two entries; all the
    noises [x] below.  The test of the rotation key is shown the ring secret and decrypts, the tests of the
    switching keys look at one entry.  (Toy keys are easily attacked: most of the counts differ.) *)
Definition C78_par (b : basis) : parameters := mk_parameters 1 2 4 LBinary 2 5 RBinary b 2 BrMsKs.
Definition C78_pack (S : list Z) (b : basis) : key_pack := mk_key_pack [1; 0] [1; 4] S (C78_par b).
Definition C78_rot (S : list Z) (b : basis) : list (kworld (list Z) noises) := map (fun x => (S, C78_pack S b, [([[x; 0]], [[0; x]])])) [0; 1; 4].
Definition C78_Drot (S : list Z) (K : br_key) : bool :=
  match K with BrBinary [g] => match gd (c_m g) with [r] => (hd 0 (rb r) - hd 0 (ra r) * hd 0 S) mod 5 <? 3 | _ => false end | _ => false end.
Definition C78_lwe (S : list Z) (b : basis) : list (kworld Z ldraws) := map (fun x => (x, C78_pack S b, [[[([1; x], x); ([2; 0], 0); ([3; 3], 3)]]])) [0; 1; 3].
Definition C78_Dlwe (x : Z) (K : lwe_ks_key) : bool := match lk_key K with [[[c; d; e]]] => (lb c + lb d + lb e - x) mod 4 <? 2 | _ => false end.
Definition C78_ring (S : list Z) (b : basis) : list (kworld Z rdraws) := map (fun x => (x, C78_pack S b, [[([x; 2], [0; x])]])) [0; 1; 4].
Definition C78_Dring (x : Z) (K : rlwe_ks_key) : bool := match rk_key K with [g] => match gd g with [r] => (hd 0 (rb r) + x) mod 5 <? 2 | _ => false end | _ => false end.
Example C78_ex : exists F T b S S', let tbl := (fun _ => Some T) in
  wwidth 8 /\ prime 5 /\ derive_field 8 5 = Some F /\ serves F tbl 1 /\ basis_new F 3 = Some (pp_basis (C78_par b)) /\ bs_len b = 1%nat /\
  into_ntt F tbl [1; 4] = Some S /\ into_ntt F tbl [0; 1] = Some S' /\
  Forall (rotation_world F tbl (2 ^ 1) 1 (C78_par b)) (C78_rot S b) /\
  accepted_rotation F tbl (2 ^ 1) 1 (C78_par b) (C78_rot S b) [1] C78_Drot = 625 /\ accepted_rotation F tbl (2 ^ 1) 1 (C78_par b) (C78_rot S b) [0] C78_Drot = 1250 /\
  Forall (switch_world (2 ^ 2) (2 ^ 2) 1 1 (C78_par b)) (C78_lwe S b) /\ accepted_switch 8 (2 ^ 2) 2 (C78_lwe S b) [1] C78_Dlwe = 0 /\ accepted_switch 8 (2 ^ 2) 2 (C78_lwe S b) [0] C78_Dlwe = 3 /\
  Forall (ring_switch_world F 1 (bs_len b) (2 ^ 1)) (C78_ring S b) /\ ring_secret F tbl 1 (2 ^ 1) [1; 4] S /\ ring_secret F tbl 1 (2 ^ 1) [0; 1] S' /\
  accepted_ring_switch F tbl 3 (C78_ring S b) [1; 4] S C78_Dring = 1 /\ accepted_ring_switch F tbl 3 (C78_ring S b) [0; 1] S' C78_Dring = 1.
Proof.
  do 5 eexists. cbv zeta. split; [exists 4; lia|]. split; [apply small_prime; vm_compute; reflexivity|]. split; [vm_compute; reflexivity|].
  split; [exists None, (fun _ => 2); eexists; split; [exact I|]; split; [intros; vm_compute; split; discriminate|]; split; [vm_compute; reflexivity|reflexivity]|].
  split; [cbn [C78_par pp_basis]; vm_compute; reflexivity|]. split; [reflexivity|].
  split; [vm_compute; reflexivity|]. split; [vm_compute; reflexivity|].
  split.
  { unfold C78_rot. cbn [map]. repeat (apply Forall_cons; [split; [reflexivity|]; split; [reflexivity|]; split; [ex_canon|]; split; [vm_compute; reflexivity|]; split; [reflexivity|];
      apply Forall_cons; [split; (split; [reflexivity|]; apply Forall_cons; [split; [reflexivity|ex_canon]|apply Forall_nil])|apply Forall_nil]|]). apply Forall_nil. }
  split; [vm_compute; reflexivity|]. split; [vm_compute; reflexivity|].
  split.
  { unfold C78_lwe. cbn [map]. repeat (apply Forall_cons; [split; [reflexivity|]; split; [reflexivity|]; apply Forall_cons; [split; [reflexivity|];
      apply Forall_cons; [split; [reflexivity|]; repeat (apply Forall_cons; [split; [reflexivity|]; split; [ex_canon|cbn [snd]; lia]|]); apply Forall_nil|apply Forall_nil]|apply Forall_nil]|]). apply Forall_nil. }
  split; [vm_compute; reflexivity|]. split; [vm_compute; reflexivity|].
  split.
  { unfold C78_ring. cbn [map]. repeat (apply Forall_cons; [split; [reflexivity|]; split; [reflexivity|]; apply Forall_cons; [split; [reflexivity|];
      apply Forall_cons; [split; (split; [reflexivity|ex_canon])|apply Forall_nil]|apply Forall_nil]|]). apply Forall_nil. }
  split; [split; [reflexivity|]; split; [ex_canon|]; intros _; vm_compute; reflexivity|].
  split; [split; [reflexivity|]; split; [ex_canon|]; intros _; vm_compute; reflexivity|].
  split; [vm_compute; reflexivity|vm_compute; reflexivity].
Qed.
