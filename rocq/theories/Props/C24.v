(** C24: the minimal primitive root does not depend on randomness. *)
From Coq Require Import ZArith Znumtheory List Arith Lia.
From Verif Require Import Spec.Basic Spec.Poly Model.Base Model.Field Model.NTT.
From Verif Require Import Proofs.NumTheory Proofs.FieldProofs Proofs.NTTTableProofs Proofs.PolyMain.
Import ListNotations.
Local Open Scope Z_scope.

(** Whatever is drawn, the search ends without panicking; if it succeeds it returns the smallest
    primitive root of the requested order; it fails only when the order does not divide p - 1 or
    when all hundred draws are squares. *)
Theorem C24_minimal_root (B p : Z) (k : nat) (F : field) (draws : nat -> Z) :
  wwidth B -> prime p -> derive_field B p = Some F -> (forall i, 2 <= draws i <= p - 1) ->
  exists r, try_minimal_primitive_root F draws (2 * 2 ^ Z.of_nat k) = Some r /\
    match r with
    | Ok w => (2 * 2 ^ Z.of_nat k | p - 1) /\ 0 <= w < p /\ primitive_root p (2 * 2 ^ Z.of_nat k) w /\
        forall z, 0 <= z < p -> primitive_root p (2 * 2 ^ Z.of_nat k) z -> w <= z
    | Err => ~ (2 * 2 ^ Z.of_nat k | p - 1) \/
        forall i, (i < 100)%nat -> ~ cong p (draws i ^ ((p - 1) / 2)) (-1)
    end.
Proof.
  intros HB Hp HF Hd. pose proof (prime_ge_2 p Hp).
  destruct (derive_field_ok B p F HB ltac:(lia) HF) as (Hok & _ & <-).
  destruct (try_minimal_spec F Hok Hp draws k Hd) as (r & E & S). rewrite pow2_nat in E. exists r. split; [exact E|].
  rewrite pow2_nat in S. destruct r as [w|]; [|exact S]. destruct S as (Hdiv & Hw & Cw & Hmin).
  rewrite <- pow2_nat in *. pose proof (divide_gt2 F Hok k Hdiv) as H2.
  split; [exact Hdiv|]. split; [exact Hw|]. split; [apply primitive_root_iff; assumption|].
  intros z Hz Hr. apply Hmin; [exact Hz|]. apply primitive_root_iff; assumption.
Qed.
Print Assumptions C24_minimal_root.

(** Two processes, drawing differently, build the same table. *)
Theorem C24_same_table (B p : Z) (k : nat) (F : field) (draws draws' : nat -> Z) (T T' : ntt_table) :
  wwidth B -> prime p -> derive_field B p = Some F ->
  (forall i, 2 <= draws i <= p - 1) -> (forall i, 2 <= draws' i <= p - 1) ->
  generate_ntt_table F draws k = Some (Ok T) -> generate_ntt_table F draws' k = Some (Ok T') -> T = T'.
Proof.
  intros HB Hp HF. pose proof (prime_ge_2 p Hp).
  destruct (derive_field_ok B p F HB ltac:(lia) HF) as (Hok & _ & <-).
  apply (generate_det F Hok Hp).
Qed.
Print Assumptions C24_same_table.

(** One non-square among the first hundred draws is enough. *)
Theorem C24_table_exists (B p : Z) (k i : nat) (F : field) (draws : nat -> Z) :
  wwidth B -> prime p -> derive_field B p = Some F -> (forall i, 2 <= draws i <= p - 1) ->
  (k < 63)%nat -> (2 * 2 ^ Z.of_nat k | p - 1) ->
  (i < 100)%nat -> cong p (draws i ^ ((p - 1) / 2)) (-1) ->
  exists T, generate_ntt_table F draws k = Some (Ok T).
Proof.
  intros HB Hp HF Hd Hk Hdiv Hi Hq. pose proof (prime_ge_2 p Hp).
  destruct (derive_field_ok B p F HB ltac:(lia) HF) as (Hok & <- & <-). rewrite <- pow2_nat in Hdiv.
  pose proof (divide_gt2 F Hok k Hdiv) as H2. pose proof (NTTProofs.B_facts F Hok).
  pose proof (Z.divide_pos_le (2 * Z.of_nat (2 ^ k)) (fp F - 1) ltac:(lia) Hdiv).
  destruct (generate_spec F Hok Hp draws k Hd Hk ltac:(lia)) as ([T|] & E & S); [exists T; exact E|].
  exfalso. destruct S as [S|S]; [exact (S Hdiv)|exact (S i Hi Hq)].
Qed.
Print Assumptions C24_table_exists.

Example C24_ex : exists F T, prime 12289 /\ derive_field 16 12289 = Some F /\
  try_minimal_primitive_root F (fun _ => 11) 16 = Some (Ok 722) /\
  try_minimal_primitive_root F (fun i => if (i =? 0)%nat then 4 else 1331) 16 = Some (Ok 722) /\
  generate_ntt_table F (fun _ => 11) 3 = Some (Ok T) /\
  generate_ntt_table F (fun i => if (i =? 0)%nat then 4 else 1331) 3 = Some (Ok T).
Proof.
  eexists. eexists. split; [apply small_prime; vm_compute; reflexivity|].
  split; [vm_compute; reflexivity|]. split; [vm_compute; reflexivity|]. split; [vm_compute; reflexivity|].
  split; [vm_compute; reflexivity|vm_compute; reflexivity].
Qed.
