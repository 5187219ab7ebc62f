(** C11: dot_product_reduce with a Barrett modulus equals the dot product.
    False of the code in general: an incomplete last chunk of 16 is ignored.  Proved for lengths
    that are multiples of 16, together with the exact value the code returns for every length. *)
From Coq Require Import ZArith List Lia.
From Verif Require Import Spec.Basic Model.Base Model.Barrett Proofs.Arith Proofs.BarrettProofs.
Import ListNotations.
Local Open Scope Z_scope.

(** Missing from the full statement: lengths that are not multiples of 16. *)
Theorem C11_dot_product_partial (B v : Z) (m : barrett) (x y : list Z) :
  wwidth B -> 0 <= v -> barrett_new B v = Some m ->
  length x = length y -> (length x mod 16 = 0)%nat -> canonical v x -> canonical v y ->
  bdot B m x y = Some (dotz x y mod v).
Proof.
  intros HB Hv Hm L H16 Hx Hy. apply barrett_new_inv in Hm; [|assumption|assumption].
  destruct Hm as (_ & <- & Hok). apply bdot_correct; assumption.
Qed.
Print Assumptions C11_dot_product_partial.

(** For every length: the code returns the dot product of the longest prefix whose length is a
    multiple of 16. *)
Theorem C11_dot_product_prefix (B v : Z) (m : barrett) (x y : list Z) :
  wwidth B -> 0 <= v -> barrett_new B v = Some m ->
  length x = length y -> canonical v x -> canonical v y ->
  let k := (16 * (length x / 16))%nat in
  bdot B m x y = Some (dotz (firstn k x) (firstn k y) mod v).
Proof.
  intros HB Hv Hm L Hx Hy. apply barrett_new_inv in Hm; [|assumption|assumption].
  destruct Hm as (_ & <- & Hok). apply bdot_general; assumption.
Qed.
Print Assumptions C11_dot_product_prefix.

Example C11_ex : exists m, barrett_new 32 12289 = Some m /\
  bdot 32 m (repeat 12288 32) (map Z.of_nat (seq 0 32)) = Some ((- 496) mod 12289).
Proof. eexists. split; [vm_compute; reflexivity|]. vm_compute. reflexivity. Qed.

Theorem C11_dot_product_refuted : exists (m : barrett) (x y : list Z),
  barrett_new 32 12289 = Some m /\ length x = length y /\ canonical 12289 x /\ canonical 12289 y /\
  bdot 32 m x y <> Some (dotz x y mod 12289).
Proof.
  eexists. exists [3], [5]. split; [vm_compute; reflexivity|]. split; [reflexivity|].
  split; [repeat constructor; lia|]. split; [repeat constructor; lia|].
  vm_compute. discriminate.
Qed.
Print Assumptions C11_dot_product_refuted.
