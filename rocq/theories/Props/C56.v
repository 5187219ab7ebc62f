(** C56: the word primitives chain to exact multi-word arithmetic. *)
From Coq Require Import ZArith List Lia.
From Verif Require Import Spec.Limbs Model.Base Proofs.LimbProofs.
Import ListNotations.
Local Open Scope Z_scope.

(** Adding two n-word numbers with an incoming carry: the words and the final flag are the exact sum. *)
Theorem C56_add B a b c : 0 <= B -> length a = length b -> Forall (word B) a -> Forall (word B) b ->
  exists s o, chain (carrying_add B) a b c = (s, o) /\ length s = length a /\ Forall (word B) s /\
    value B s + 2 ^ (B * Z.of_nat (length a)) * b2z o = value B a + value B b + b2z c.
Proof. intros HB. exact (chain_add_ok B HB a b c). Qed.
Print Assumptions C56_add.

Theorem C56_sub B a b c : 0 <= B -> length a = length b -> Forall (word B) a -> Forall (word B) b ->
  exists s o, chain (borrowing_sub B) a b c = (s, o) /\ length s = length a /\ Forall (word B) s /\
    value B s - 2 ^ (B * Z.of_nat (length a)) * b2z o = value B a - value B b - b2z c.
Proof. intros HB. exact (chain_sub_ok B HB a b c). Qed.
Print Assumptions C56_sub.

(** An n-word number times a word plus a word. *)
Theorem C56_mul B a w c : 0 <= B -> word B w -> word B c -> Forall (word B) a ->
  exists s o, chain_word (carrying_mul B) a w c = (s, o) /\ length s = length a /\ Forall (word B) s /\ word B o /\
    value B s + 2 ^ (B * Z.of_nat (length a)) * o = value B a * w + c.
Proof. intros HB. exact (chain_mul_ok B HB a w c). Qed.
Print Assumptions C56_mul.

(** The one-word products: both halves are words, recompose to the exact result, the [_hw] variants
    return the upper one, and the double-width intermediate result cannot overflow. *)
Theorem C56_wide B a b c : 0 <= B -> word B a -> word B b -> word B c ->
  0 <= a * b + c < 2 ^ (2 * B) /\
  (exists lo hi, carrying_mul B a b c = (lo, hi) /\ carrying_mul_hw B a b c = hi /\ word B lo /\ word B hi /\ lo + 2 ^ B * hi = a * b + c) /\
  (exists lo hi, widening_mul B a b = (lo, hi) /\ widening_mul_hw B a b = hi /\ word B lo /\ word B hi /\ lo + 2 ^ B * hi = a * b).
Proof.
  intros HB Ha Hb Hc. split; [now apply wide_fits|]. split; [now apply carrying_mul_ok|].
  assert (H0 : word B 0) by (split; [lia|apply Z.pow_pos_nonneg; lia]).
  destruct (carrying_mul_ok B a b 0 HB Ha Hb H0) as (lo & hi & E & E' & H). exists lo, hi.
  unfold carrying_mul, carrying_mul_hw in *. rewrite Z.add_0_r in *. split; [exact E|]. split; [exact E'|exact H].
Qed.
Print Assumptions C56_wide.

Example C56_ex : Forall (word 8) [255; 255; 3] /\ Forall (word 8) [1; 0; 254] /\
  chain (carrying_add 8) [255; 255; 3] [1; 0; 254] true = ([1; 0; 2], true) /\
  chain (borrowing_sub 8) [0; 0; 3] [1; 0; 3] false = ([255; 255; 255], true) /\
  chain_word (carrying_mul 8) [255; 255; 255] 255 255 = ([0; 0; 0], 255) /\ value 8 [1; 0; 2] = 131073.
Proof. repeat split; try (repeat constructor; cbn; lia). Qed.
