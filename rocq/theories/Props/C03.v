(** C03: Barrett reduction of one- and two-word values is exact. *)
From Coq Require Import ZArith.
From Verif Require Import Spec.Basic Model.Base Model.Barrett Proofs.Arith Proofs.BarrettProofs.
Local Open Scope Z_scope.

Theorem C03_reduce_one_word (B v : Z) (m : barrett) (x : Z) :
  wwidth B -> 0 <= v -> barrett_new B v = Some m -> 0 <= x < 2 ^ B ->
  reduce1 B m x = Some (x mod v) /\
  0 <= lazy_reduce1 B m x < 2 * v /\ cong v (lazy_reduce1 B m x) x.
Proof.
  intros HB Hv Hm Hx. apply barrett_new_inv in Hm; [|assumption|assumption].
  destruct Hm as (_ & <- & Hok). split.
  - apply reduce1_correct; assumption.
  - apply lazy_reduce1_correct; assumption.
Qed.
Print Assumptions C03_reduce_one_word.

Theorem C03_reduce_two_words (B v : Z) (m : barrett) (lo hi : Z) :
  wwidth B -> 0 <= v -> barrett_new B v = Some m -> 0 <= lo < 2 ^ B -> 0 <= hi < 2 ^ B ->
  reduce2 B m (lo, hi) = Some ((lo + hi * 2 ^ B) mod v) /\
  exists y, lazy_reduce2 B m (lo, hi) = Some y /\ 0 <= y < 2 * v /\
            cong v y (lo + hi * 2 ^ B).
Proof.
  intros HB Hv Hm Hl Hh. apply barrett_new_inv in Hm; [|assumption|assumption].
  destruct Hm as (_ & <- & Hok). split.
  - apply reduce2_correct; assumption.
  - apply lazy_reduce2_correct; assumption.
Qed.
Print Assumptions C03_reduce_two_words.

Example C03_ex : exists m, barrett_new 32 1000000513 = Some m /\
  reduce1 32 m 4294967295 = Some 294965243 /\ reduce2 32 m (4294967295, 4294967295) = Some 534696685.
Proof. eexists. split; [vm_compute; reflexivity|]. vm_compute. auto. Qed.
