(** C39: modulus switching. *)
From Coq Require Import ZArith List Bool Lia SpecFloat.
From Verif Require Import Spec.Basic Spec.Lattice Spec.Switch Model.Base Model.Lwe Model.ModSwitch.
From Verif Require Import Proofs.ModSwitchProofs Proofs.ExampleTac.
Import ListNotations.
Local Open Scope Z_scope.

(** Every value for which v * after < 2^52: the double-precision computation returns the nearest
    integer to v * after / before, halves upwards, modulo [after]. *)
Theorem C39_value (B before after v : Z) :
  0 < B <= 64 -> 0 < before < 2 ^ 64 -> 0 < after < 2 ^ B -> 0 <= v < before -> v * after < 2 ^ 52 ->
  ms_switch B before after v = Some (round_div (v * after) before mod after).
Proof. exact (ms_switch_exact B before after v). Qed.
Print Assumptions C39_value.

(** Whole ciphertexts, all three entry points (the in-place one into a destination of the same
    length): canonical result of the same length, every component rounded, phase error at most
    (1 + |s|_1) / 2 in the new scale, for every integer key [s]. *)
Theorem C39_ciphertext (B before after : Z) (n : nat) (x dst : lwe) (s : list Z) :
  0 < B <= 64 -> 0 < before < 2 ^ 64 -> 0 < after < 2 ^ B -> (before - 1) * after < 2 ^ 52 -> lwe_wf before n x -> length (la dst) = n ->
  exists y, lwe_modulus_switch B before after x = Some y /\
    lwe_modulus_switch_inplace B before after x dst = Some y /\
    lwe_modulus_switch_assign B before after x = Some y /\
    la y = map (fun v => round_div (v * after) before mod after) (la x) /\ lb y = round_div (lb x * after) before mod after /\
    lwe_wf after n y /\ rescaled before after s before x y.
Proof.
  intros HB Hb Ha Hx (L & C & R) Ld. pose (f := fun v => round_div (v * after) before).
  assert (G : forall v, 0 <= v < before -> good B before after before f v) by (intros v Hv; apply good_exact; assumption).
  assert (Gb : good B before after before f (lb x)) by (apply G; exact R).
  assert (Ga : forall v, In v (la x) -> good B before after before f v) by (intros v Hv; apply G; exact (proj1 (Forall_forall _ _) C v Hv)).
  exists (sw after f x). split; [exact (sw_run B before after before f x Gb Ga)|].
  split; [exact (sw_run_inplace B before after before f x dst Gb Ga (eq_trans Ld (eq_sym L)))|].
  split; [exact (sw_run B before after before f x Gb Ga)|]. split; [reflexivity|]. split; [reflexivity|].
  split; [apply sw_wf; [lia|exact L]|]. apply (sw_rescaled B); [lia|lia|lia|exact Gb|exact Ga].
Qed.
Print Assumptions C39_ciphertext.

(** Outside the exact range (64-bit moduli, target below 2^49): still canonical, with at most
    2^-49 * after more error per component. *)
Theorem C39_any_modulus (B before after : Z) (n : nat) (x dst : lwe) (s : list Z) :
  0 < B <= 64 -> 0 < before < 2 ^ 64 -> 0 < after < 2 ^ B -> after < 2 ^ 49 -> lwe_wf before n x -> length (la dst) = n ->
  exists y, lwe_modulus_switch B before after x = Some y /\
    lwe_modulus_switch_inplace B before after x dst = Some y /\
    lwe_modulus_switch_assign B before after x = Some y /\
    lwe_wf after n y /\ rescaled before after s (before + before * after / 2 ^ 49 + 1) x y.
Proof.
  intros HB Hb Ha H49 (L & C & R) Ld. pose (f := ms_raw B before after). pose (d := ms_slack before after).
  assert (G : forall v, 0 <= v < before -> good B before after d f v) by (intros v Hv; apply good_general; assumption).
  assert (Gb : good B before after d f (lb x)) by (apply G; exact R).
  assert (Ga : forall v, In v (la x) -> good B before after d f v) by (intros v Hv; apply G; exact (proj1 (Forall_forall _ _) C v Hv)).
  assert (D0 : 0 <= d) by (unfold d, ms_slack; assert (0 <= before * after / 2 ^ 49) by (apply Z.div_pos; [apply Z.mul_nonneg_nonneg|]; lia); lia).
  exists (sw after f x). split; [exact (sw_run B before after d f x Gb Ga)|].
  split; [exact (sw_run_inplace B before after d f x dst Gb Ga (eq_trans Ld (eq_sym L)))|].
  split; [exact (sw_run B before after d f x Gb Ga)|].
  split; [apply sw_wf; [lia|exact L]|]. apply (sw_rescaled B); [lia|lia|exact D0|exact Gb|exact Ga].
Qed.
Print Assumptions C39_any_modulus.

(** The range condition of [C39_value] is needed: a 61-bit modulus where the double-precision result
    is one more than the nearest integer. *)
Theorem C39_beyond_range : exists before after v, 0 < before < 2 ^ 64 /\ 0 < after < 2 ^ 64 /\ 0 <= v < before /\
  ms_switch 64 before after v = Some (round_div (v * after) before mod after + 1).
Proof. exists 2305843009213693951, 16384, 21180991997476863. vm_compute. repeat split; try reflexivity; discriminate. Qed.
Print Assumptions C39_beyond_range.

(** The default modulus 132120577 to 1024: 64511 is just below half way between 0 and 1, 64512 above;
    the top value wraps to 0. *)
Example C39_ex : ms_switch 16 132120577 1024 64511 = Some 0 /\ ms_switch 16 132120577 1024 64513 = Some 1 /\
  ms_switch 16 132120577 1024 132120576 = Some 0 /\ ms_switch 16 12 8 3 = Some 2 /\ ms_switch 16 16 8 3 = Some 2 /\
  lwe_wf 97 3 (mk_lwe [50; 96; 3] 24) /\ (97 - 1) * 16 < 2 ^ 52 /\
  lwe_modulus_switch 16 97 16 (mk_lwe [50; 96; 3] 24) = Some (mk_lwe [8; 0; 0] 4).
Proof. do 5 (split; [vm_compute; reflexivity|]). split; [ex_wf|]. split; [vm_compute; reflexivity|]. vm_compute; reflexivity. Qed.
