(** Gadget ciphertexts over different bases in an optimised build. *)
From Coq Require Import ZArith List Arith Lia.
From Verif Require Import Model.Base Model.Field Model.Rlwe Model.Gadget Model.OptArith Model.OptRing.
Import ListNotations.

Section Rows.
Variables (ok : rlwe -> rlwe -> rlwe -> Prop) (good : rlwe -> rlwe -> rlwe -> Prop) (f : rlwe -> rlwe -> rlwe -> option rlwe).
Hypothesis Hf : forall x y d, ok x y d -> exists z, f x y d = Some z /\ good x y z.
Let o := mk_rlwe [] [].

Lemma rows_any l r dst :
  (forall x y d, In x l -> In y r -> In d dst -> ok x y d) ->
  let m := Nat.min (Nat.min (length l) (length r)) (length dst) in
  exists t, rows_inplace f l r dst = Some t /\ length t = length dst /\
    (forall i, (i < m)%nat -> good (nth i l o) (nth i r o) (nth i t o)) /\ (forall i, (m <= i)%nat -> nth i t o = nth i dst o).
Proof.
  cbv zeta. revert r dst. induction l as [|x l IH]; intros r dst H.
  { exists dst. cbn. split; [reflexivity|]. split; [reflexivity|]. split; [intros; lia|reflexivity]. }
  destruct r as [|y r]; [exists dst; cbn; split; [reflexivity|]; split; [reflexivity|]; split; [intros; lia|reflexivity]|].
  destruct dst as [|d dst]; [exists []; cbn; split; [reflexivity|]; split; [reflexivity|]; split; [intros; lia|reflexivity]|].
  destruct (Hf x y d) as (z & Ez & Gz); [apply H; left; reflexivity|].
  destruct (IH r dst) as (t & Et & Lt & G & K); [intros; apply H; right; assumption|].
  exists (z :: t). cbn [rows_inplace length]. rewrite Ez. cbn [bind]. rewrite Et. cbn [bind Nat.min].
  split; [reflexivity|]. split; [rewrite Lt; reflexivity|].
  split; intros [|i] Hi; cbn [nth].
  - exact Gz.
  - apply G. lia.
  - lia.
  - apply K. lia.
Qed.

Lemma gadget_op_any G H D :
  (forall x y d, In x (gd G) -> In y (gd H) -> In d (gd D) -> ok x y d) ->
  exists D', gadget_op_inplace_o f G H D = Some D' /\ gb D' = gb D /\ length (gd D') = length (gd D) /\
    (forall i, (i < Nat.min (Nat.min (length (gd G)) (length (gd H))) (length (gd D)))%nat ->
      good (nth i (gd G) o) (nth i (gd H) o) (nth i (gd D') o)) /\
    (forall i, (Nat.min (Nat.min (length (gd G)) (length (gd H))) (length (gd D)) <= i)%nat -> nth i (gd D') o = nth i (gd D) o).
Proof.
  intros HH. destruct (rows_any _ _ _ HH) as (t & Et & L & A & K). exists (mk_gadget t (gb D)).
  unfold gadget_op_inplace_o, debug_assert_o. cbn [bind]. rewrite Et. cbn [bind gd gb]. auto.
Qed.
End Rows.

Lemma rows_good {P Q R : rlwe -> Prop} l r dst : Forall P l -> Forall Q r -> Forall R dst ->
  forall x y d, In x l -> In y r -> In d dst -> P x /\ Q y /\ R d.
Proof. rewrite !Forall_forall. intros A C D x y d Hx Hy Hd. auto. Qed.
