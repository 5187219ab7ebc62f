(** The optimised build as a whole; used for C76. *)
From Coq Require Import ZArith Znumtheory List Bool Lia.
From Verif Require Import Spec.Basic Spec.Poly Spec.Lattice Spec.Ring Spec.Gates Spec.KeyGen Spec.Profiles.
From Verif Require Import Model.Base Model.Field Model.NTT Model.Concrete Model.Poly Model.Plaintext Model.Lwe Model.Gadget Model.BlindRotation Model.KeySwitch Model.Params Model.Boolean Model.Sample Model.SecretKey.
From Verif Require Import Model.OptArith Model.OptRing Model.OptScheme.
From Verif Require Import Proofs.Refine Proofs.OptArithProofs Proofs.OptRingProofs Proofs.OptSchemeProofs.
Import ListNotations.
Local Open Scope Z_scope.

Lemma words_o B a b : 0 < B -> 0 <= a < 2 ^ B -> 0 <= b < 2 ^ B ->
  uadd_o B a b = Some ((a + b) mod 2 ^ B) /\ usub_o B a b = Some ((a - b) mod 2 ^ B) /\
  umul_o B a b = Some ((a * b) mod 2 ^ B) /\ ushl_o B a b = Some ((a * 2 ^ (b mod B)) mod 2 ^ B) /\
  ushr_o B a b = Some (a / 2 ^ (b mod B)) /\ (forall c, debug_assert_o c = Some tt).
Proof.
  intros HB Ha Hb. unfold uadd_o, usub_o, umul_o, ushl_o, ushr_o, debug_assert_o.
  assert (E : (if b <? B then b else b mod B) = b mod B).
  { destruct (Z.ltb_spec b B) as [L|L]; [|reflexivity]. symmetry. apply Z.mod_small. lia. }
  rewrite E. split; [|split; [|split]].
  - destruct (Z.ltb_spec (a + b) (2 ^ B)); [|reflexivity]. rewrite Z.mod_small by lia. reflexivity.
  - destruct (Z.leb_spec b a); [|reflexivity]. rewrite Z.mod_small by lia. reflexivity.
  - destruct (Z.ltb_spec (a * b) (2 ^ B)); [|reflexivity]. rewrite Z.mod_small by nia. reflexivity.
  - auto.
Qed.

Lemma schk_o_spec B a : 0 < B -> exists z, schk_o B a = Some z /\ - 2 ^ (B - 1) <= z < 2 ^ (B - 1) /\ cong (2 ^ B) z a.
Proof.
  intros HB. unfold schk_o.
  assert (E : 2 ^ B = 2 * 2 ^ (B - 1)) by (rewrite <- Z.pow_succ_r by lia; f_equal; lia).
  assert (P := Z.pow_pos_nonneg 2 (B - 1) eq_refl ltac:(lia)).
  destruct ((_ <=? a) && (a <? _)) eqn:C.
  - apply andb_prop in C. destruct C as [C1 C2]. apply Z.leb_le in C1. apply Z.ltb_lt in C2.
    exists a. split; [reflexivity|]. split; [lia|]. exists 0. lia.
  - eexists. split; [reflexivity|]. assert (M := Z.mod_pos_bound (a + 2 ^ (B - 1)) (2 ^ B) ltac:(lia)). split; [lia|].
    exists (- ((a + 2 ^ (B - 1)) / 2 ^ B)). assert (D := Z.div_mod (a + 2 ^ (B - 1)) (2 ^ B) ltac:(lia)). lia.
Qed.

Lemma signed_o B a b : 0 < B ->
  (exists z, sadd_o B a b = Some z /\ - 2 ^ (B - 1) <= z < 2 ^ (B - 1) /\ cong (2 ^ B) z (a + b)) /\
  (exists z, ssub_o B a b = Some z /\ - 2 ^ (B - 1) <= z < 2 ^ (B - 1) /\ cong (2 ^ B) z (a - b)).
Proof. intros HB. split; apply schk_o_spec, HB. Qed.

Lemma moduli_le O O' : moduli_agree O O' -> le_mops O O'.
Proof. intros (A & S & SA & Ng & M). constructor; assumption. Qed.
Lemma le_moduli O O' : le_mops O O' -> moduli_agree O O'.
Proof. intros [A S SA Ng M]. repeat (split; [assumption|]). assumption. Qed.

Lemma moduli_o :
  (forall B m, moduli_agree (barrett_mops B m) (barrett_mops_o B m)) /\
  (forall F, moduli_agree (field_mops F) (field_mops_o F)) /\ (forall O, moduli_agree O O).
Proof. split; [|split]; intros; apply le_moduli; [apply ref_barrett_mops|apply ref_field_mops|apply le_mops_refl]. Qed.

Lemma le_lift2 f g x x' y y' : (forall a b, le (f a b) (g a b)) -> le x x' -> le y y' -> le (lift2 f x y) (lift2 g x' y').
Proof. intros H Hx Hy. unfold lift2. apply le_bind; [exact Hx|]. intros a. apply le_bind; [exact Hy|]. intros b. apply H. Qed.
Lemma le_lift3 f g x x' y y' z z' : (forall a b c, le (f a b c) (g a b c)) -> le x x' -> le y y' -> le z z' -> le (lift3 f x y z) (lift3 g x' y' z').
Proof.
  intros H Hx Hy Hz. unfold lift3. apply le_bind; [exact Hx|]. intros a. apply le_bind; [exact Hy|]. intros b.
  apply le_bind; [exact Hz|]. intros c. apply H.
Qed.

Lemma ref_crun B F tbl K x c : le (crun B F tbl K x c) (crun_o B F tbl K x c).
Proof.
  induction c; cbn [crun crun_o];
    try match goal with
        | |- le (lift2 _ _ _) _ => apply le_lift2; [|assumption|assumption]
        | |- le (lift3 _ _ _ _) _ => apply le_lift3; [|assumption|assumption|assumption]
        end.
  - apply le_refl.
  - apply le_bind; [assumption|]. intros y. apply ref_g_not.
  - intros; apply ref_g_nand.
  - intros; apply ref_g_and.
  - intros; apply ref_g_or.
  - intros; apply ref_g_nor.
  - intros; apply ref_g_xor.
  - intros; apply ref_g_xnor.
  - intros; apply ref_g_majority.
  - intros; apply ref_g_mux.
Qed.

Lemma end_to_end_o BF p k F tbl B j bits P words rwords gauss R D kp K :
  good_params BF p k F tbl B j bits P ->
  key_pack_new F tbl P words rwords gauss = Some kp -> eval_key_new B F tbl kp R = Some K ->
  (forall (v : nat -> bool) (a : nat -> list Z) (e : nat -> Z),
      (forall i, length (a i) = Z.to_nat (pp_n P) /\ canonical (2 ^ j) (a i) /\ 2 * p * Z.abs (e i) <= D) ->
      exists x, (forall i, kp_encrypt B kp (a i) (e i mod 2 ^ j) (if v i then 1 else 0) = Some (x i)) /\
        forall (c : circuit) (M : msg_type), exists y, crun B F tbl K x c = Some y /\
          kp_decrypt M B kp y = Some (if cval v c then 1 else 0)) ->
  derive_field_o BF p = Some F /\ basis_new_o F bits = Some (pp_basis P) /\
  exists kp K, key_pack_new_o F tbl P words rwords gauss = Some kp /\ eval_key_new_o B F tbl kp R = Some K /\
    forall (v : nat -> bool) (a : nat -> list Z) (e : nat -> Z),
      (forall i, length (a i) = Z.to_nat (pp_n P) /\ canonical (2 ^ j) (a i) /\ 2 * p * Z.abs (e i) <= D) ->
      exists x, (forall i, kp_encrypt_o B kp (a i) (e i mod 2 ^ j) (if v i then 1 else 0) = Some (x i)) /\
        forall (c : circuit) (M : msg_type), exists y, crun_o B F tbl K x c = Some y /\
          kp_decrypt_o M B kp y = Some (if cval v c then 1 else 0).
Proof.
  intros ((_ & _ & _ & HF & _) & _ & (_ & _ & _ & _ & HB & _) & _) Hk HK H.
  split; [apply ref_derive_field, HF|]. split; [apply ref_basis_new, HB|].
  exists kp, K. split; [apply ref_key_pack_new, Hk|]. split; [apply ref_eval_key_new, HK|].
  intros v a e Hi. destruct (H v a e Hi) as (x & Hx & Hc). exists x. split.
  - intros i. apply ref_kp_encrypt, Hx.
  - intros c M. destruct (Hc c M) as (y & Hy & Hd). exists y. split; [apply ref_crun, Hy|apply ref_kp_decrypt, Hd].
Qed.
