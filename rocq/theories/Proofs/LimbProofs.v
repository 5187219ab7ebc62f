(** Multi-word chains. *)
From Coq Require Import ZArith List Bool Lia.
From Verif Require Import Spec.Limbs Model.Base.
Import ListNotations.
Local Open Scope Z_scope.

Lemma wrap_lt M x : 0 < M -> 0 <= x < M -> x mod M = x. Proof. intros. now apply Z.mod_small. Qed.
Lemma wrap_ge M x : 0 < M -> M <= x < 2 * M -> x mod M = x - M.
Proof. intros H1 H2. symmetry. apply Z.mod_unique with 1; lia. Qed.
Lemma wrap_neg M x : 0 < M -> - M <= x < 0 -> x mod M = x + M.
Proof. intros H1 H2. symmetry. apply Z.mod_unique with (-1); lia. Qed.

Lemma carrying_add_ok B a b c : 0 <= B -> word B a -> word B b ->
  exists s o, carrying_add B a b c = (s, o) /\ word B s /\ s + 2 ^ B * b2z o = a + b + b2z c.
Proof.
  intros HB Ha Hb. unfold carrying_add, overflowing_add, wadd. assert (M : 0 < 2 ^ B) by (apply Z.pow_pos_nonneg; lia).
  unfold word in *. set (m := 2 ^ B) in *. clearbody m. eexists. eexists. split; [reflexivity|].
  assert (Hc : 0 <= b2z c <= 1) by (destruct c; cbn; lia).
  destruct (Z.leb_spec m (a + b)) as [H|H].
  - rewrite (wrap_ge m (a + b)) by lia. destruct (Z.leb_spec m (a + b - m + b2z c)) as [H2|H2]; cbn [orb b2z]; [lia|].
    rewrite wrap_lt by lia. lia.
  - rewrite (wrap_lt m (a + b)) by lia. destruct (Z.leb_spec m (a + b + b2z c)) as [H2|H2]; cbn [orb b2z].
    + rewrite wrap_ge by lia. lia.
    + rewrite wrap_lt by lia. lia.
Qed.
Lemma borrowing_sub_ok B a b c : 0 <= B -> word B a -> word B b ->
  exists s o, borrowing_sub B a b c = (s, o) /\ word B s /\ s - 2 ^ B * b2z o = a - b - b2z c.
Proof.
  intros HB Ha Hb. unfold borrowing_sub, overflowing_sub, wsub. assert (M : 0 < 2 ^ B) by (apply Z.pow_pos_nonneg; lia).
  unfold word in *. set (m := 2 ^ B) in *. clearbody m. eexists. eexists. split; [reflexivity|].
  assert (Hc : 0 <= b2z c <= 1) by (destruct c; cbn; lia).
  destruct (Z.ltb_spec a b) as [H|H].
  - rewrite (wrap_neg m (a - b)) by lia. destruct (Z.ltb_spec (a - b + m) (b2z c)) as [H2|H2]; cbn [orb b2z]; [lia|].
    rewrite wrap_lt by lia. lia.
  - rewrite (wrap_lt m (a - b)) by lia. destruct (Z.ltb_spec (a - b) (b2z c)) as [H2|H2]; cbn [orb b2z].
    + rewrite wrap_neg by lia. lia.
    + rewrite wrap_lt by lia. lia.
Qed.
Lemma carrying_mul_ok B a b c : 0 <= B -> word B a -> word B b -> word B c ->
  exists lo hi, carrying_mul B a b c = (lo, hi) /\ carrying_mul_hw B a b c = hi /\ word B lo /\ word B hi /\ lo + 2 ^ B * hi = a * b + c.
Proof.
  intros HB Ha Hb Hc. unfold carrying_mul, carrying_mul_hw. assert (M : 0 < 2 ^ B) by (apply Z.pow_pos_nonneg; lia).
  unfold word in *. set (m := 2 ^ B) in *. clearbody m. eexists. eexists. split; [reflexivity|]. split; [reflexivity|].
  split; [apply Z.mod_pos_bound; lia|]. split; [|pose proof (Z.div_mod (a * b + c) m); lia].
  split; [apply Z.div_pos; nia|]. apply Z.div_lt_upper_bound; nia.
Qed.
Lemma wide_fits B a b c : 0 <= B -> word B a -> word B b -> word B c -> 0 <= a * b + c < 2 ^ (2 * B).
Proof.
  intros HB Ha Hb Hc. unfold word in *. replace (2 * B) with (B + B) by lia. rewrite Z.pow_add_r by lia. set (m := 2 ^ B) in *. nia.
Qed.

Lemma chain_add_ok B : 0 <= B -> forall a b c, length a = length b -> Forall (word B) a -> Forall (word B) b ->
  exists s o, chain (carrying_add B) a b c = (s, o) /\ length s = length a /\ Forall (word B) s /\
    value B s + 2 ^ (B * Z.of_nat (length a)) * b2z o = value B a + value B b + b2z c.
Proof.
  intros HB. induction a as [|x a IH]; intros [|y b] c L Ha Hb; try discriminate L.
  - exists [], c. cbn [chain length value]. rewrite Z.mul_0_r, Z.mul_1_l. repeat split. constructor.
  - inversion Ha as [|? ? Hx Ha']; inversion Hb as [|? ? Hy Hb']; subst. cbn [chain].
    destruct (carrying_add_ok B x y c HB Hx Hy) as (z & o & -> & Wz & Ez).
    destruct (IH b o ltac:(cbn in L; lia) Ha' Hb') as (s & o' & -> & Ls & Ws & Es). exists (z :: s), o'. split; [reflexivity|].
    split; [cbn [length]; now rewrite Ls|]. split; [now constructor|]. cbn [value length].
    replace (B * Z.of_nat (S (length a))) with (B + B * Z.of_nat (length a)) by lia. rewrite Z.pow_add_r by lia. nia.
Qed.
Lemma chain_sub_ok B : 0 <= B -> forall a b c, length a = length b -> Forall (word B) a -> Forall (word B) b ->
  exists s o, chain (borrowing_sub B) a b c = (s, o) /\ length s = length a /\ Forall (word B) s /\
    value B s - 2 ^ (B * Z.of_nat (length a)) * b2z o = value B a - value B b - b2z c.
Proof.
  intros HB. induction a as [|x a IH]; intros [|y b] c L Ha Hb; try discriminate L.
  - exists [], c. cbn [chain length value]. rewrite Z.mul_0_r, Z.mul_1_l. repeat split. constructor.
  - inversion Ha as [|? ? Hx Ha']; inversion Hb as [|? ? Hy Hb']; subst. cbn [chain].
    destruct (borrowing_sub_ok B x y c HB Hx Hy) as (z & o & -> & Wz & Ez).
    destruct (IH b o ltac:(cbn in L; lia) Ha' Hb') as (s & o' & -> & Ls & Ws & Es). exists (z :: s), o'. split; [reflexivity|].
    split; [cbn [length]; now rewrite Ls|]. split; [now constructor|]. cbn [value length].
    replace (B * Z.of_nat (S (length a))) with (B + B * Z.of_nat (length a)) by lia. rewrite Z.pow_add_r by lia. nia.
Qed.
Lemma chain_mul_ok B : 0 <= B -> forall a w c, word B w -> word B c -> Forall (word B) a ->
  exists s o, chain_word (carrying_mul B) a w c = (s, o) /\ length s = length a /\ Forall (word B) s /\ word B o /\
    value B s + 2 ^ (B * Z.of_nat (length a)) * o = value B a * w + c.
Proof.
  intros HB. induction a as [|x a IH]; intros w c Hw Hc Ha.
  - exists [], c. cbn [chain_word length value]. rewrite Z.mul_0_r, Z.mul_1_l. repeat split; try constructor; apply Hc.
  - inversion Ha as [|? ? Hx Ha']; subst. cbn [chain_word].
    destruct (carrying_mul_ok B x w c HB Hx Hw Hc) as (z & o & -> & _ & Wz & Wo & Ez).
    destruct (IH w o Hw Wo Ha') as (s & o' & -> & Ls & Ws & Wo' & Es). exists (z :: s), o'. split; [reflexivity|].
    split; [cbn [length]; now rewrite Ls|]. split; [now constructor|]. split; [exact Wo'|]. cbn [value length].
    replace (B * Z.of_nat (S (length a))) with (B + B * Z.of_nat (length a)) by lia. rewrite Z.pow_add_r by lia. nia.
Qed.
