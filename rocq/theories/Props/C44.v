(** C44 — distributions of the binary, ternary and centred binomial samplers, by counting over all raw
    words (bytes) drawn.  [tuples n R] is the list of all vectors of [n] numbers below [R]. *)
From Coq Require Import ZArith List Bool Arith Lia.
From Verif Require Import Spec.Basic Spec.Count Model.Base Model.Field Model.Sample.
From Verif Require Import Proofs.FieldProofs Proofs.RandomProofs Proofs.ExampleTac.
Import ListNotations.
Local Open Scope Z_scope.

(** Binary vectors: whatever the words, a vector of the requested length of zeros and ones. *)
Theorem C44_binary_outputs F len words :
  (forall i, 0 <= words i < 2 ^ 32) ->
  exists v, sample_binary_values len words = Some v /\ sample_binary_field_vec F len words = Some v /\
            length v = len /\ Forall (fun x => x = 0 \/ x = 1) v.
Proof.
  intros H. assert (H' : forall i, 0 <= words i) by (intros i; apply H).
  exists (samplev 1 [0; 1] 32 len words). unfold sample_binary_values, sample_binary_field_vec.
  rewrite (symbols_eq 1 [0; 1]) by (try lia; try reflexivity; exact H'). split; [reflexivity|]. split; [reflexivity|].
  split; [apply samplev_length; lia|]. eapply Forall_impl; [|apply (samplev_in 1 [0; 1]); try lia; try reflexivity; exact H'].
  cbn. intros x [<-|[<-|[]]]; auto.
Qed.
Print Assumptions C44_binary_outputs.

(** Every bit string is returned by exactly 2^(32n - L) of the 2^(32n) word sequences, n = L/32+1. *)
Theorem C44_binary len v :
  length v = len -> Forall (fun x => x = 0 \/ x = 1) v ->
  let n := S (len / 32) in
  count (fun ws => returns (sample_binary_values len (stream ws)) v) (tuples n (2 ^ 32)) = 2 ^ (32 * Z.of_nat n - Z.of_nat len).
Proof.
  intros Hl Hv n. unfold sample_binary_values, n.
  rewrite (symbols_count 1 [0; 1] ltac:(lia) eq_refl 32 ltac:(lia) ltac:(lia) (2 ^ 32) eq_refl len v Hl).
  replace (weight_of (wt [0; 1]) v) with 1; [rewrite !Z.mul_1_l; reflexivity|].
  clear Hl. induction Hv as [|x v Hx Hv IH]; [reflexivity|]. cbn [weight_of fold_right]. fold (weight_of (wt [0; 1]) v). rewrite <- IH.
  destruct Hx as [->| ->]; reflexivity.
Qed.
Print Assumptions C44_binary.

(** Ternary vectors for any modulus q >= 2 (for a field, its modulus). *)
Theorem C44_ternary_outputs q len words :
  2 <= q -> (forall i, 0 <= words i < 2 ^ 32) ->
  exists v, sample_ternary_values q len words = Some v /\
            (forall F, fp F = q -> sample_ternary_field_vec F len words = Some v) /\
            length v = len /\ Forall (fun x => (x = 0 \/ x = 1 \/ x = q - 1) /\ 0 <= x < q) v.
Proof.
  intros Hq H. assert (H' : forall i, 0 <= words i) by (intros i; apply H).
  exists (samplev 2 [0; 0; 1; q - 1] 16 len words). unfold sample_ternary_values, sample_ternary_field_vec, usub.
  destruct (Z.leb_spec 1 q); [|lia]. cbn [bind].
  rewrite (symbols_eq 2 [0; 0; 1; q - 1]) by (try lia; try reflexivity; exact H'). split; [reflexivity|]. split.
  { intros F ->. destruct (Z.leb_spec 1 q); [|lia]. cbn [bind].
    rewrite (symbols_eq 2 [0; 0; 1; q - 1]) by (try lia; try reflexivity; exact H'). reflexivity. }
  split; [apply samplev_length; lia|]. eapply Forall_impl; [|apply (samplev_in 2 [0; 0; 1; q - 1]); try lia; try reflexivity; exact H'].
  cbn. intros x [<-|[<-|[<-|[<-|[]]]]]; lia.
Qed.
Print Assumptions C44_ternary_outputs.

(** Independent entries with weights 2 : 1 : 1 for 0, 1 and q-1: a vector is returned by exactly
    2^(number of its zeros) * 2^(32n - 2L) of the 2^(32n) word sequences, n = L/16+1. *)
Theorem C44_ternary q len v :
  2 < q -> length v = len -> Forall (fun x => x = 0 \/ x = 1 \/ x = q - 1) v ->
  let n := S (len / 16) in
  count (fun ws => returns (sample_ternary_values q len (stream ws)) v) (tuples n (2 ^ 32)) =
  2 ^ count (fun x => x =? 0) v * 2 ^ (32 * Z.of_nat n - 2 * Z.of_nat len).
Proof.
  intros Hq Hl Hv n. unfold sample_ternary_values, usub, n. destruct (Z.leb_spec 1 q); [|lia]. cbn [bind].
  rewrite (symbols_count 2 [0; 0; 1; q - 1] ltac:(lia) eq_refl 16 ltac:(lia) ltac:(lia) (2 ^ 32) eq_refl len v Hl).
  f_equal. clear Hl. induction Hv as [|x v Hx Hv IH]; [reflexivity|].
  cbn [weight_of fold_right]. fold (weight_of (wt [0; 0; 1; q - 1]) v). rewrite IH, count_cons. clear IH.
  pose proof (count_nonneg (fun x => x =? 0) v). unfold wt. rewrite !count_cons, count_nil.
  destruct Hx as [->|[->| ->]].
  - destruct (Z.eqb_spec (q - 1) 0); [lia|]. cbn [Z.eqb]. rewrite Z.pow_add_r by lia. change (2 ^ 1) with 2. ring.
  - destruct (Z.eqb_spec (q - 1) 1); [lia|]. cbn [Z.eqb Pos.eqb]. rewrite !Z.add_0_l. ring.
  - destruct (Z.eqb_spec (q - 1) 0), (Z.eqb_spec 0 (q - 1)), (Z.eqb_spec 1 (q - 1)); try lia. rewrite Z.eqb_refl, !Z.add_0_l. ring.
Qed.
Print Assumptions C44_ternary.

(** The single-value samplers. *)
Theorem C44_single x q :
  2 < q ->
  (x = 0 \/ x = 1 -> count (fun r => match binary_sample r with Some y => y =? x | None => false end) (range (2 ^ 32)) = 2 ^ 31) /\
  (x = 0 -> count (fun r => match ternary_sample q r with Some y => y =? x | None => false end) (range (2 ^ 32)) = 2 ^ 31) /\
  (x = 1 \/ x = q - 1 -> count (fun r => match ternary_sample q r with Some y => y =? x | None => false end) (range (2 ^ 32)) = 2 ^ 30).
Proof.
  intros Hq.
  assert (B : count (fun r => match binary_sample r with Some y => y =? x | None => false end) (range (2 ^ 32)) = wt [0; 1] x * 2 ^ 31).
  { rewrite (single_count 1 [0; 1] ltac:(lia) eq_refl x (2 ^ 32) eq_refl binary_sample); [reflexivity|].
    intros r Hr. reflexivity. }
  assert (T : count (fun r => match ternary_sample q r with Some y => y =? x | None => false end) (range (2 ^ 32)) = wt [0; 0; 1; q - 1] x * 2 ^ 30).
  { rewrite (single_count 2 [0; 0; 1; q - 1] ltac:(lia) eq_refl x (2 ^ 32) eq_refl (ternary_sample q)); [reflexivity|].
    intros r Hr. unfold ternary_sample, usub. destruct (Z.leb_spec 1 q); [reflexivity|lia]. }
  rewrite B, T. unfold wt. rewrite !count_cons, !count_nil. clear B T. repeat split.
  - intros [->| ->]; reflexivity.
  - intros ->. destruct (Z.eqb_spec (q - 1) 0); [lia|]. reflexivity.
  - intros [->| ->].
    + destruct (Z.eqb_spec (q - 1) 1); [lia|]. reflexivity.
    + destruct (Z.eqb_spec 0 (q - 1)), (Z.eqb_spec 1 (q - 1)); try lia. rewrite Z.eqb_refl. reflexivity.
Qed.
Print Assumptions C44_single.

(** Centred binomial vectors over any field with modulus at least 21: no panic, canonical entries. *)
Theorem C44_cbd_outputs B p F len bytes :
  wwidth B -> 0 <= p -> derive_field B p = Some F -> 21 <= p ->
  (forall i, 0 <= bytes i < 256) ->
  exists v, sample_cbd_field_vec F len bytes = Some v /\ length v = len /\ Forall (fun x => 0 <= x < p) v.
Proof.
  intros HB Hp HF H21 H. destruct (derive_field_ok B p F HB Hp HF) as (Hok & <- & <-).
  apply (cbd_vec_ok F Hok H21). exact H.
Qed.
Print Assumptions C44_cbd_outputs.

(** Exact binomial weights: the vector with entries [ds] (each in -21..21, written modulo p) is returned by
    exactly the product of the 64 * binomial(42, 21+d) of the 256^(6L) byte strings. *)
Theorem C44_cbd B p F ds :
  wwidth B -> 0 <= p -> derive_field B p = Some F -> 42 < p ->
  Forall (fun d => -21 <= d <= 21) ds ->
  count (fun bs => returns (sample_cbd_field_vec F (length ds) (stream bs)) (map (fun d => d mod p) ds)) (tuples (6 * length ds) 256)
  = weight_of (fun d => 64 * binomial 42 (21 + d)) ds.
Proof.
  intros HB Hp HF H42 H. destruct (derive_field_ok B p F HB Hp HF) as (Hok & <- & <-).
  apply (cbd_count F Hok ltac:(lia)); assumption.
Qed.
Print Assumptions C44_cbd.

(** [binomial] is the binomial coefficient: Pascal's rule, and one in row zero. *)
Theorem C44_binomial n k :
  binomial (S n) k = binomial n k + binomial n (k - 1) /\ binomial 0 k = (if k =? 0 then 1 else 0).
Proof. split; [apply binomial_step|apply binomial_0]. Qed.
Print Assumptions C44_binomial.

(** For a field with a modulus below 21 the subtraction can underflow: bytes 0,0,0,255,255,31 panic. *)
Theorem C44_small_modulus_panics : exists F, derive_field 8 17 = Some F /\
  sample_cbd_field_vec F 1 (stream [0; 0; 0; 255; 255; 31]) = None.
Proof. eexists. split; [vm_compute; reflexivity|vm_compute; reflexivity]. Qed.
Print Assumptions C44_small_modulus_panics.

Example C44_ex :
  sample_binary_values 33 (stream [5; 1]) = Some (1 :: 0 :: 1 :: repeat 0 29 ++ [1]) /\
  sample_ternary_values 1024 17 (stream [11; 2]) = Some (1023 :: 1 :: repeat 0 14 ++ [1]) /\
  (exists F, derive_field 32 132120577 = Some F /\
    sample_cbd_field_vec F 2 (stream [255; 0; 224; 0; 1; 0; 0; 0; 0; 1; 0; 31]) = Some [7; 132120571]) /\
  binomial 42 21 = 538257874440.
Proof. split; [vm_compute; reflexivity|]. split; [vm_compute; reflexivity|]. split; [eexists; split; [vm_compute; reflexivity|vm_compute; reflexivity]|vm_compute; reflexivity]. Qed.
