(** Decomposition into the caller's buffers. *)
From Coq Require Import ZArith List Bool Lia.
From Verif Require Import Spec.Basic Model.Base Model.Field Model.DecomposeAt Proofs.Arith Proofs.FieldProofs.
Import ListNotations.
Local Open Scope Z_scope.

Section S.
Variable F : field.
Hypothesis Hok : fok F.
Lemma lsb_zip_ok bits : 0 <= bits < fw F -> forall self dest, length dest = length self ->
  lsb_zip F (2 ^ bits - 1) bits self dest = Some (map (fun v => v / 2 ^ bits) self, map (fun v => v mod 2 ^ bits) self).
Proof.
  intros Hb. induction self as [|v self IH]; intros [|d dest] L; try discriminate L; [reflexivity|]. cbn [lsb_zip map].
  rewrite ushr_some by lia. cbn [bind]. rewrite IH by (cbn in L; lia). cbn [bind]. rewrite land_mask by lia. reflexivity.
Qed.
Fixpoint rest (bits : Z) (n : nat) (v : Z) : Z := match n with O => v | S n' => rest bits n' (v / 2 ^ bits) end.
Lemma rest_zero bits n : 0 <= bits -> forall v, 0 <= v < 2 ^ (bits * Z.of_nat n) -> rest bits n v = 0.
Proof.
  intros Hb. pose proof (Z.pow_pos_nonneg 2 bits ltac:(lia) Hb) as P. induction n as [|n IH]; intros v Hv; cbn [rest].
  - cbn [Z.of_nat] in Hv. rewrite Z.mul_0_r in Hv. change (2 ^ 0) with 1 in Hv. lia.
  - rewrite Nat2Z.inj_succ in Hv. replace (bits * Z.succ (Z.of_nat n)) with (bits + bits * Z.of_nat n) in Hv by lia.
    rewrite Z.pow_add_r in Hv by nia. apply IH. split; [apply Z.div_pos; lia|]. apply Z.div_lt_upper_bound; lia.
Qed.
Lemma rows_ok bits b : bs_bits b = bits -> bs_mask b = 2 ^ bits - 1 -> 0 <= bits < fw F -> forall dest self, Forall (fun d => length d = length self) dest ->
  decompose_rows F b self dest = Some (map (rest bits (length dest)) self, pdigs bits (length dest) self).
Proof.
  intros E1 E2 Hb. induction dest as [|d dest IH]; intros self H; cbn [decompose_rows length pdigs].
  - cbn [rest]. now rewrite map_id.
  - inversion H as [|? ? Hd H']; subst. unfold assert. rewrite Hd, Nat.eqb_refl. cbn [bind]. rewrite E2, lsb_zip_ok by assumption. cbn [bind].
    rewrite IH by (eapply Forall_impl; [|exact H']; intros x Hx; rewrite map_length; exact Hx). cbn [bind]. rewrite map_map. reflexivity.
Qed.
Lemma digs_total bits n v : 0 <= bits -> 0 <= v -> digits_value (2 ^ bits) (digs bits n v) + 2 ^ (bits * Z.of_nat n) * rest bits n v = v.
Proof.
  intros Hb. pose proof (Z.pow_pos_nonneg 2 bits ltac:(lia) Hb) as P. revert v. induction n as [|n IH]; intros v Hv.
  - cbn [digs digits_value rest Z.of_nat]. rewrite Z.mul_0_r. change (2 ^ 0) with 1. lia.
  - cbn [digs digits_value rest]. specialize (IH (v / 2 ^ bits) ltac:(apply Z.div_pos; lia)).
    rewrite Nat2Z.inj_succ. replace (bits * Z.succ (Z.of_nat n)) with (bits + bits * Z.of_nat n) by lia. rewrite Z.pow_add_r by nia.
    pose proof (Z.div_mod v (2 ^ bits) ltac:(lia)). nia.
Qed.
Lemma inplace_ok bits b self dest : basis_new F bits = Some b -> 0 <= bits -> canonical (fp F) self ->
  length dest = bs_len b -> Forall (fun d => length d = length self) dest ->
  p_decompose_inplace F b self dest = Some (repeat 0 (length self), pdigs bits (bs_len b) self).
Proof.
  intros Hb H0 Hc Ld Hd. destruct (basis_bits F bits b Hok Hb H0) as (H1 & _ & E2 & E3 & H2).
  unfold p_decompose_inplace, assert. rewrite Ld, Nat.eqb_refl. cbn [bind]. rewrite (rows_ok bits b E3 E2 ltac:(lia) dest self Hd), Ld.
  do 2 f_equal. assert (G : forall v, 0 <= v < fp F -> rest bits (bs_len b) v = 0).
  { intros v Hv. destruct (decompose_full F bits b v Hok Hb H0 Hv) as (d & _ & _ & _ & Dv & ->).
    pose proof (digs_total bits (bs_len b) v H0 ltac:(lia)) as T. assert (0 < 2 ^ (bits * Z.of_nat (bs_len b))) by (apply Z.pow_pos_nonneg; nia). nia. }
  unfold canonical in Hc. induction Hc as [|v l Hv Hl IH]; [reflexivity|]. cbn [map length repeat]. rewrite G by assumption. f_equal.
  clear - G Hl. induction Hl; [reflexivity|]. cbn [map length repeat]. rewrite G by assumption. f_equal. assumption.
Qed.
Lemma lsb_ok bits b self dest : basis_new F bits = Some b -> 0 <= bits -> length dest = length self ->
  p_lsb_inplace F b self dest = Some (map (fun v => v / 2 ^ bits) self, map (fun v => v mod 2 ^ bits) self).
Proof.
  intros Hb H0 L. destruct (basis_bits F bits b Hok Hb H0) as (H1 & _ & E2 & E3 & H2).
  unfold p_lsb_inplace, assert. rewrite L, Nat.eqb_refl. cbn [bind]. rewrite E2, E3. apply lsb_zip_ok; [lia|exact L].
Qed.
End S.
Lemma rows_bad F b : forall dest self, (exists d, In d dest /\ length d <> length self) -> decompose_rows F b self dest = None.
Proof.
  assert (L : forall self d s d', lsb_zip F (bs_mask b) (bs_bits b) self d = Some (s, d') -> length s = length self).
  { induction self as [|v self IH]; intros [|x d] s d' H; cbn [lsb_zip] in H; try (injection H as <- <-; reflexivity).
    unfold bind in H. destruct (ushr (fw F) v (bs_bits b)); [|discriminate]. destruct (lsb_zip F (bs_mask b) (bs_bits b) self d) as [[s0 d0]|] eqn:E; [|discriminate].
    injection H as <- <-. cbn [length]. f_equal. exact (IH _ _ _ E). }
  induction dest as [|x dest IH]; intros self (d & Hd & Nd); [contradiction|]. cbn [decompose_rows]. unfold assert.
  destruct (Nat.eqb_spec (length x) (length self)) as [E|E]; [|reflexivity]. cbn [bind].
  destruct (lsb_zip F (bs_mask b) (bs_bits b) self x) as [[s x']|] eqn:Ez; [|reflexivity]. cbn [bind].
  rewrite IH; [reflexivity|]. exists d. destruct Hd as [->|Hd]; [contradiction|]. split; [exact Hd|]. rewrite (L _ _ _ _ Ez). exact Nd.
Qed.
