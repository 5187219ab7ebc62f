(** Printing. *)
From Coq Require Import ZArith List Bool Lia.
From Verif Require Import Spec.Decimal Model.Base Model.Field Model.FieldText.
Import ListNotations.
Local Open Scope Z_scope.

Lemma read_app s t n : fold_left (fun n c => 10 * n + (c - 48)) (s ++ t) n = fold_left (fun n c => 10 * n + (c - 48)) t (fold_left (fun n c => 10 * n + (c - 48)) s n).
Proof. apply fold_left_app. Qed.
Lemma dec_app fuel : forall x acc, dec_digits fuel x acc = dec_digits fuel x [] ++ acc.
Proof.
  induction fuel as [|f IH]; intros x acc; [reflexivity|]. cbn [dec_digits]. destruct (x / 10 =? 0); [reflexivity|].
  rewrite IH, (IH _ [_]), <- app_assoc. reflexivity.
Qed.
Lemma dec_ok fuel : forall x, 0 <= x < 2 ^ Z.of_nat fuel -> (0 < fuel)%nat ->
  Forall is_digit (dec_digits fuel x []) /\ read_decimal (dec_digits fuel x []) = x /\ no_leading_zero (dec_digits fuel x []) /\
  (0 < x -> exists c s, dec_digits fuel x [] = c :: s /\ c <> 48).
Proof.
  induction fuel as [|f IH]; intros x Hx Hf; [lia|]. cbn [dec_digits].
  pose proof (Z.mod_pos_bound x 10 ltac:(lia)) as M. pose proof (Z.div_mod x 10 ltac:(lia)) as D.
  destruct (Z.eqb_spec (x / 10) 0) as [E|E].
  - assert (x mod 10 = x) by lia. split; [constructor; [unfold is_digit; lia|constructor]|].
    split; [unfold read_decimal; cbn [fold_left]; lia|]. split.
    + destruct (Z.eq_dec x 0) as [->|N]; [left; reflexivity|right]. eexists. eexists. split; [reflexivity|lia].
    + intros H0. eexists. eexists. split; [reflexivity|lia].
  - assert (Hq : 0 < x / 10) by (pose proof (Z.div_pos x 10); lia).
    rewrite Nat2Z.inj_succ, Z.pow_succ_r in Hx by lia.
    assert (Hf' : (0 < f)%nat) by (destruct f; [cbn in Hx; nia|lia]).
    destruct (IH (x / 10) ltac:(nia) Hf') as (F1 & R1 & _ & L1). rewrite dec_app.
    destruct (L1 Hq) as (c & s & Ec & Nc).
    split; [apply Forall_app; split; [exact F1|constructor; [unfold is_digit; lia|constructor]]|].
    split; [unfold read_decimal in *; rewrite read_app, R1; cbn [fold_left]; lia|]. rewrite Ec. cbn [app].
    split; [right|intros _]; exists c, (s ++ [48 + x mod 10]); (split; [reflexivity|exact Nc]).
Qed.
