(** C57: field elements compare, print and serialise as their residue. *)
From Coq Require Import ZArith List Bool Lia.
From Verif Require Import Spec.Basic Spec.Decimal Model.Base Model.Field Model.FieldText.
From Verif Require Import Proofs.Arith Proofs.FieldProofs Proofs.FieldTextProofs.
Import ListNotations.
Local Open Scope Z_scope.

(** Elements made from any two words are equal exactly when the words are congruent; the order is the
    order of residues, and the constant tests recognise 0, 1 and -1. *)
Theorem C57_compare B p F v w x y : wwidth B -> 0 <= p -> derive_field B p = Some F ->
  0 <= v < 2 ^ B -> 0 <= w < 2 ^ B -> f_new F v = Some x -> f_new F w = Some y ->
  (f_eqb x y = true <-> v mod p = w mod p) /\ f_cmp x y = Z.compare (v mod p) (w mod p) /\
  (f_cmp x y = Eq <-> f_eqb x y = true) /\
  (f_is_zero x = true <-> v mod p = 0) /\ (f_is_one x = true <-> v mod p = 1 mod p) /\ (f_is_neg_one F x = true <-> v mod p = (-1) mod p) /\
  (f_eqb x f_zero = f_is_zero x) /\ (f_eqb x f_one = f_is_one x) /\ (f_eqb x (f_neg_one F) = f_is_neg_one F x).
Proof.
  intros HB Hp HF Hv Hw. destruct (derive_field_ok B p F HB Hp HF) as (Hok & <- & <-). pose proof (fp_range F Hok) as PR.
  rewrite !f_new_correct by assumption. intros [= <-] [= <-].
  rewrite (Z.mod_small 1) by lia. replace ((-1) mod fp F) with (fp F - 1) by (apply Z.mod_unique with (-1); lia).
  unfold f_eqb, f_cmp, f_is_zero, f_is_one, f_is_neg_one, f_zero, f_one, f_neg_one. rewrite !Z.eqb_eq, Z.compare_eq_iff.
  repeat split; auto.
Qed.
Print Assumptions C57_compare.

(** Reading back a serialised element gives that element; any integer token of the word type gives
    the canonical element of its class, and any other integer is an error, never a panic. *)
Theorem C57_serde B p F token x : wwidth B -> 0 <= p -> derive_field B p = Some F ->
  (0 <= x < p -> f_deserialize F (f_serialize x) = Some (Some x)) /\
  (0 <= token < 2 ^ B -> f_deserialize F token = Some (Some (token mod p)) /\ 0 <= token mod p < p) /\
  (~ 0 <= token < 2 ^ B -> f_deserialize F token = Some None).
Proof.
  intros HB Hp HF. destruct (derive_field_ok B p F HB Hp HF) as (Hok & EB & EP). pose proof (fp_range F Hok) as PR. subst p. subst B.
  assert (G : forall t, 0 <= t < 2 ^ fw F -> f_deserialize F t = Some (Some (t mod fp F))).
  { intros t Ht. unfold f_deserialize. destruct (Z.leb_spec 0 t); [|lia]. destruct (Z.ltb_spec t (2 ^ fw F)); [|lia]. cbn [andb].
    rewrite f_new_correct by assumption. reflexivity. }
  split; [|split].
  - intros Hx. unfold f_serialize. rewrite G by lia. now rewrite Z.mod_small.
  - intros Ht. split; [now apply G|apply Z.mod_pos_bound; lia].
  - intros Ht. unfold f_deserialize. destruct (Z.leb_spec 0 token), (Z.ltb_spec token (2 ^ fw F)); cbn [andb]; try reflexivity. exfalso. apply Ht. split; assumption.
Qed.
Print Assumptions C57_serde.

(** [Display] is the decimal numeral of the residue, so different elements print differently. *)
Theorem C57_display B p F x : wwidth B -> 0 <= p -> derive_field B p = Some F -> 0 <= x < p ->
  Forall is_digit (f_display F x) /\ no_leading_zero (f_display F x) /\ read_decimal (f_display F x) = x.
Proof.
  intros HB Hp HF Hx. destruct (derive_field_ok B p F HB Hp HF) as (Hok & EB & EP). pose proof (fp_range F Hok) as PR.
  destruct HB as (h & Hh & HBh). unfold f_display.
  destruct (dec_ok (Z.to_nat (fw F)) x) as (H1 & H2 & H3 & _); [rewrite Z2Nat.id by lia; lia|lia|]. auto.
Qed.
Print Assumptions C57_display.

Example C57_ex : exists F, derive_field 32 132120577 = Some F /\ f_display F 132120576 = [49; 51; 50; 49; 50; 48; 53; 55; 54] /\
  f_display F 0 = [48] /\ f_deserialize F 132120578 = Some (Some 1) /\ f_deserialize F 4294967296 = Some None /\
  f_new F 132120576 = Some 132120576 /\ f_is_neg_one F 132120576 = true.
Proof. eexists. split; [vm_compute; reflexivity|]. vm_compute. auto 10. Qed.
