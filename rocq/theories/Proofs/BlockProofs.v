(** Blocks: conversions and bitwise operators. *)
From Coq Require Import ZArith List Bool Arith Lia.
From Verif Require Import Spec.Aes Model.Base Model.Block Proofs.AesProofs Proofs.PrgProofs.
Import ListNotations.
Local Open Scope Z_scope.

Lemma u128_range b : bytes 16 b -> 0 <= to_u128 b < 2 ^ 128.
Proof. intros [L H]. pose proof (le_value_range _ H) as R. rewrite L in R. exact R. Qed.
Lemma u128_block b : bytes 16 b -> of_u128 (to_u128 b) = b.
Proof. intros [L H]. unfold of_u128, to_u128. rewrite <- L at 1. now apply le_bytes_value. Qed.
Lemma block_u128 x : 0 <= x < 2 ^ 128 -> to_u128 (of_u128 x) = x.
Proof. apply (le_value_bytes 16). Qed.
Lemma bytes_value n l : bytes n l -> le_bytes n (le_value l) = l.
Proof. intros [<- H]. now apply le_bytes_value. Qed.
Lemma u64s_block b : bytes 16 b -> of_u64s (fst (to_u64s b)) (snd (to_u64s b)) = b.
Proof.
  intros H. unfold to_u64s, of_u64s. cbn [fst snd].
  destruct (firstn_skipn_bytes 8 0 16 b H ltac:(lia)) as [L1 F1]. cbn [skipn] in L1, F1.
  destruct (firstn_skipn_bytes 8 8 16 b H ltac:(lia)) as [L2 F2].
  rewrite (firstn_all2 (n := 8) (skipn 8 b)) in L2, F2 by (destruct H as [L _]; rewrite skipn_length; lia).
  rewrite !bytes_value by (split; assumption). apply firstn_skipn.
Qed.
Lemma block_u64s x y : 0 <= x < 2 ^ 64 -> 0 <= y < 2 ^ 64 -> to_u64s (of_u64s x y) = (x, y).
Proof.
  intros Hx Hy. unfold to_u64s, of_u64s. rewrite firstn_app, skipn_app, le_bytes_length, Nat.sub_diag, firstn_O, app_nil_r.
  rewrite firstn_all2, skipn_all2 by (rewrite le_bytes_length; lia). cbn [skipn app]. f_equal; apply (le_value_bytes 8); assumption.
Qed.
Lemma u64s_u128 x y : 0 <= x < 2 ^ 64 -> 0 <= y < 2 ^ 64 -> to_u128 (of_u64s x y) = x + 2 ^ 64 * y.
Proof.
  intros Hx Hy. rewrite <- (block_u128 (x + 2 ^ 64 * y)) by lia. f_equal. unfold of_u64s, of_u128.
  change 16%nat with (8 + 8)%nat. rewrite le_bytes_app. rewrite Z.mul_comm. change (256 ^ Z.of_nat 8) with (2 ^ 64).
  rewrite Z.div_add, Z.div_small, Z.add_0_l by lia. change (2 ^ 64) with (256 ^ Z.of_nat 8). now rewrite le_bytes_add.
Qed.

Lemma try_from_slice_ok s : try_from_slice s = Some (if (length s =? 16)%nat then Some s else None).
Proof.
  unfold try_from_slice. destruct (Nat.eqb_spec (length s) 16) as [E|E]; [|reflexivity]. cbn [negb]. rewrite E. cbn [assert Nat.leb bind].
  unfold block_new. now rewrite firstn_all2 by lia.
Qed.
Lemma block_eq_iff a b : bytes 16 a -> bytes 16 b -> (block_eq a b = true <-> a = b).
Proof.
  intros Ha Hb. unfold block_eq. rewrite Z.eqb_eq. split; [|now intros ->]. intros E.
  rewrite <- (u128_block a), <- (u128_block b), E by assumption. reflexivity.
Qed.

(** A bitwise operator acts on each byte of a little-endian number. *)
Section Bitwise.
Variables (f : Z -> Z -> Z) (g : bool -> bool -> bool).
Hypothesis f_spec : forall x y n, Z.testbit (f x y) n = g (Z.testbit x n) (Z.testbit y n).
Hypothesis g_ff : g false false = false.
Lemma f_byte x y : byte x -> byte y -> byte (f x y).
Proof.
  unfold byte. intros Hx Hy.
  assert (B : f x y = f x y mod 2 ^ 8).
  { apply Z.bits_inj'. intros n Hn. destruct (Z.lt_ge_cases n 8) as [H|H].
    - now rewrite Z.mod_pow2_bits_low.
    - rewrite Z.mod_pow2_bits_high, f_spec, (bits_small x 8), (bits_small y 8), g_ff by lia. reflexivity. }
  rewrite B. apply Z.mod_pos_bound. lia.
Qed.
Lemma f_split x y a b : byte x -> byte y -> f (x + 256 * a) (y + 256 * b) = f x y + 256 * f a b.
Proof.
  intros Hx Hy. pose proof (f_byte x y Hx Hy) as Hf. unfold byte in *. rewrite !(Z.mul_comm 256).
  change 256 with (2 ^ 8). rewrite <- !lor_disjoint by lia. apply Z.bits_inj'. intros n Hn.
  rewrite f_spec, !Z.lor_spec, f_spec, !Z.mul_pow2_bits by lia. destruct (Z.lt_ge_cases n 8) as [H|H].
  - rewrite !(Z.testbit_neg_r _ (n - 8)) by lia. now rewrite !orb_false_r.
  - rewrite f_spec, (bits_small x 8), (bits_small y 8) by lia. cbn [orb]. now rewrite g_ff.
Qed.
Lemma lanewise_value a b : Forall byte a -> Forall byte b -> length a = length b ->
  le_value (lanewise f a b) = f (le_value a) (le_value b) /\ bytes (length a) (lanewise f a b).
Proof.
  intros Ha. revert b. induction Ha as [|x a Hx Ha IH]; intros b Hb L.
  - destruct b; [|discriminate]. cbn [lanewise le_value length]. split; [|split; [reflexivity|constructor]].
    symmetry. apply Z.bits_inj'. intros n Hn. now rewrite f_spec, Z.bits_0, g_ff.
  - destruct Hb as [|y b Hy Hb]; [discriminate|]. injection L as L. destruct (IH b Hb L) as [E [L' F]].
    cbn [lanewise le_value length]. rewrite E, f_split by assumption. split; [reflexivity|].
    split; [cbn [length]; now rewrite L'|constructor; [now apply f_byte|exact F]].
Qed.
End Bitwise.

Lemma block_xor_ok a b : bytes 16 a -> bytes 16 b -> bytes 16 (block_xor a b) /\ to_u128 (block_xor a b) = Z.lxor (to_u128 a) (to_u128 b).
Proof.
  intros [La Ha] [Lb Hb]. destruct (lanewise_value Z.lxor xorb Z.lxor_spec eq_refl a b Ha Hb ltac:(congruence)) as [E B].
  rewrite La in B. split; assumption.
Qed.
Lemma block_or_ok a b : bytes 16 a -> bytes 16 b -> bytes 16 (block_or a b) /\ to_u128 (block_or a b) = Z.lor (to_u128 a) (to_u128 b).
Proof.
  intros [La Ha] [Lb Hb]. destruct (lanewise_value Z.lor orb Z.lor_spec eq_refl a b Ha Hb ltac:(congruence)) as [E B].
  rewrite La in B. split; assumption.
Qed.
Lemma block_and_ok a b : bytes 16 a -> bytes 16 b -> bytes 16 (block_and a b) /\ to_u128 (block_and a b) = Z.land (to_u128 a) (to_u128 b).
Proof.
  intros [La Ha] [Lb Hb]. destruct (lanewise_value Z.land andb Z.land_spec eq_refl a b Ha Hb ltac:(congruence)) as [E B].
  rewrite La in B. split; assumption.
Qed.
