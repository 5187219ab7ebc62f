(** C37: key switching with an LWE key. *)
From Coq Require Import ZArith List Arith Lia.
From Verif Require Import Spec.Basic Spec.Lattice Spec.Switch Model.Base Model.Lwe Model.KeySwitch.
From Verif Require Import Proofs.Arith Proofs.PolyMath Proofs.LweSwitchProofs Proofs.ExampleTac.
Import ListNotations.
Local Open Scope Z_scope.

(** Modulus 2^j, digits of [bits] bits: the new phase is the old phase minus exactly the noises of
    the entries selected by the digits of the mask. *)
Theorem C37_key_switch (B bits j : Z) (s z : list Z) (noise : nat -> nat -> Z -> Z) (wb : wbasis) (key : list (list (list lwe))) (ct : lwe) :
  0 <= bits -> 0 <= j < B -> wbasis_new B bits (2 ^ j) = Some wb ->
  lwe_switch_key (2 ^ j) s (2 ^ bits) (wb_len wb) z noise key -> lwe_wf (2 ^ j) (length z) ct ->
  exists y, lks_key_switch B (mk_lwe_ks_key (length s) (2 ^ j - 1) wb key) ct = Some y /\ lwe_wf (2 ^ j) (length s) y /\
    phase (2 ^ j) s y = (phase (2 ^ j) z ct - selected_noise (2 ^ bits) (wb_len wb) (la ct) noise) mod 2 ^ j.
Proof.
  intros Hb Hj E HK Hc. rewrite wbasis_new_pow2 in E by lia.
  destruct (Z.leb_spec 1 bits); cbn [andb] in E; [|discriminate]. destruct (Z.leb_spec bits j); [|discriminate]. injection E as <-. cbn [wb_len] in *.
  apply lks_key_switch_correct; try assumption; try lia. apply wbasis_cover; lia.
Qed.
Print Assumptions C37_key_switch.

(** With all entry noises at most [E] the phase moves by at most len * N * E. *)
Theorem C37_bound (B bits j : Z) (s z : list Z) (noise : nat -> nat -> Z -> Z) (E : Z) (wb : wbasis) (key : list (list (list lwe))) (ct : lwe) :
  0 <= bits -> 0 <= j < B -> wbasis_new B bits (2 ^ j) = Some wb ->
  lwe_switch_key (2 ^ j) s (2 ^ bits) (wb_len wb) z noise key -> lwe_wf (2 ^ j) (length z) ct ->
  0 <= E -> (forall l i v, Z.abs (noise l i v) <= E) ->
  exists y e, lks_key_switch B (mk_lwe_ks_key (length s) (2 ^ j - 1) wb key) ct = Some y /\ lwe_wf (2 ^ j) (length s) y /\
    phase (2 ^ j) s y = (phase (2 ^ j) z ct + e) mod 2 ^ j /\
    Z.abs e <= Z.of_nat (wb_len wb) * (Z.of_nat (length z) * E).
Proof.
  intros Hb Hj HW HK Hc HE Hn. destruct (C37_key_switch B bits j s z noise wb key ct Hb Hj HW HK Hc) as (y & E1 & W & P).
  exists y, (- selected_noise (2 ^ bits) (wb_len wb) (la ct) noise). split; [exact E1|]. split; [exact W|]. split; [exact P|].
  rewrite Z.abs_opp. unfold selected_noise. apply PolyMath.zsum_abs. intros l _. destruct Hc as (L & _). rewrite <- L. apply PolyMath.zsum_abs.
  intros i _. cbv zeta. destruct (digit _ _ _ =? 0); [exact HE|apply Hn].
Qed.
Print Assumptions C37_bound.

(** Generation from a ternary (or binary) ring secret stored modulo p gives such a key, whose noises
    are the drawn ones; the basis is refused exactly when [bits] is 0 or exceeds [j]. *)
Theorem C37_generate (B bits j p : Z) (s z : list Z) (rnd : list (list (list (list Z * Z)))) :
  1 <= bits <= j -> j < B -> 2 < p -> Forall (fun x => x = 0 \/ x = 1 \/ x = -1) z ->
  switch_draws (2 ^ j) (length s) (2 ^ bits) (Z.to_nat ((j + bits - 1) / bits)) (length z) rnd ->
  exists wb key, wbasis_new B bits (2 ^ j) = Some wb /\
    lks_generate B (2 ^ j) bits s (map (fun x => x mod p) z) rnd = Some (mk_lwe_ks_key (length s) (2 ^ j - 1) wb key) /\
    forall noise, (forall l i v, cong (2 ^ j) (noise l i v) (drawn_noise rnd l i v)) ->
      lwe_switch_key (2 ^ j) s (2 ^ bits) (wb_len wb) z noise key.
Proof.
  intros Hb Hj Hp Hz Hr. rewrite wbasis_new_pow2 by lia. destruct (Z.leb_spec 1 bits); [|lia]. destruct (Z.leb_spec bits j); [|lia]. cbn [andb].
  destruct (lks_generate_correct B bits j Hb Hj s p _ z rnd Hp eq_refl Hz Hr) as (key & E & H1). eexists. exists key. split; [reflexivity|]. split; [exact E|exact H1].
Qed.
Print Assumptions C37_generate.
Theorem C37_basis_refused (B bits j : Z) (s z : list Z) (rnd : list (list (list (list Z * Z)))) :
  0 <= bits -> 1 <= j < B -> (bits = 0 \/ j < bits) -> lks_generate B (2 ^ j) bits s z rnd = None.
Proof.
  intros Hb Hj H. unfold lks_generate. rewrite (wbasis_new_pow2 B bits j) by lia.
  destruct (Z.leb_spec 1 bits), (Z.leb_spec bits j); cbn [andb]; try lia; destruct (PowOf2.p2_new (2 ^ j)); reflexivity.
Qed.
Print Assumptions C37_basis_refused.

(** Modulus 16, base 4 (two levels), ring secret (1, -1, 0) stored modulo 97, LWE secret (1, 15). *)
Definition C37_rnd : list (list (list (list Z * Z))) :=
  [ [ [([3; 5], 1); ([0; 9], 15); ([15; 2], 0)]; [([1; 1], 0); ([7; 8], 1); ([4; 4], 1)]; [([2; 0], 15); ([0; 0], 0); ([6; 11], 1)] ];
    [ [([8; 3], 1); ([1; 9], 1); ([5; 2], 0)]; [([0; 1], 15); ([12; 8], 1); ([4; 3], 1)]; [([2; 13], 0); ([1; 0], 0); ([6; 10], 15)] ] ].
Definition C37_noise (l i : nat) (v : Z) : Z := let e := drawn_noise C37_rnd l i v in if e =? 15 then -1 else e.
Example C37_ex : exists wb key y,
  switch_draws 16 2 4 2 3 C37_rnd /\ wbasis_new 16 2 (2 ^ 4) = Some wb /\ wb_len wb = 2%nat /\
  (forall l i v, cong 16 (C37_noise l i v) (drawn_noise C37_rnd l i v)) /\
  lks_generate 16 16 2 [1; 15] (map (fun x => x mod 97) [1; -1; 0]) C37_rnd = Some (mk_lwe_ks_key 2 15 wb key) /\
  lwe_wf 16 3 (mk_lwe [6; 13; 2] 12) /\ phase 16 [1; -1; 0] (mk_lwe [6; 13; 2] 12) = 3 /\
  lks_key_switch 16 (mk_lwe_ks_key 2 15 wb key) (mk_lwe [6; 13; 2] 12) = Some y /\
  phase 16 [1; 15] y = 2 /\ selected_noise 4 2 [6; 13; 2] C37_noise = 1.
Proof.
  eexists. eexists. eexists. split.
  { split; [reflexivity|]. repeat constructor; try reflexivity; vm_compute; try congruence; intros H; discriminate H. }
  split; [vm_compute; reflexivity|]. split; [reflexivity|]. split.
  { intros l i v. unfold C37_noise. cbv zeta. destruct (Z.eqb_spec (drawn_noise C37_rnd l i v) 15) as [->|]; [exists (-1); reflexivity|exists 0; ring]. }
  split; [vm_compute; reflexivity|]. split; [ex_wf|]. split; [vm_compute; reflexivity|]. split; [vm_compute; reflexivity|].
  split; [vm_compute; reflexivity|vm_compute; reflexivity].
Qed.
