(** Agreement wherever the first computation returns; used for C76. *)
From Coq Require Import ZArith List Bool Lia.
From Verif Require Import Model.Base Model.Lwe Model.OptArith.
Import ListNotations.
Local Open Scope Z_scope.

Definition le {A : Type} (x y : option A) : Prop := forall a, x = Some a -> y = Some a.

Lemma le_refl {A : Type} (x : option A) : le x x. Proof. intros a H. exact H. Qed.
Lemma le_none {A : Type} (y : option A) : le None y. Proof. intros a H. discriminate. Qed.
Lemma le_bind {A C : Type} (x y : option A) (f g : A -> option C) : le x y -> (forall a, le (f a) (g a)) -> le (bind x f) (bind y g).
Proof. intros H K c E. destruct x as [a|]; [|discriminate]. rewrite (H a eq_refl). cbn [bind] in *. apply K, E. Qed.
Lemma le_assert b : le (assert b) (debug_assert_o b).
Proof. intros [] _. reflexivity. Qed.
Lemma le_uadd B a b : le (uadd B a b) (uadd_o B a b).
Proof. intros x. unfold uadd, uadd_o. destruct (_ <? _); [auto|discriminate]. Qed.
Lemma le_usub B a b : le (usub a b) (usub_o B a b).
Proof. intros x. unfold usub, usub_o. destruct (_ <=? _); [auto|discriminate]. Qed.
Lemma le_umul B a b : le (umul B a b) (umul_o B a b).
Proof. intros x. unfold umul, umul_o. destruct (_ <? _); [auto|discriminate]. Qed.
Lemma le_ushl B a b : le (ushl B a b) (ushl_o B a b).
Proof. intros x. unfold ushl, ushl_o. destruct (_ <? _); [auto|discriminate]. Qed.
Lemma le_ushr B a b : le (ushr B a b) (ushr_o B a b).
Proof. intros x. unfold ushr, ushr_o. destruct (_ <? _); [auto|discriminate]. Qed.
Lemma le_schk B a : le (schk B a) (schk_o B a).
Proof. intros x. unfold schk, schk_o. destruct (_ && _); [auto|discriminate]. Qed.
Lemma le_sadd B a b : le (sadd B a b) (sadd_o B a b). Proof. apply le_schk. Qed.
Lemma le_ssub B a b : le (ssub B a b) (ssub_o B a b). Proof. apply le_schk. Qed.

Lemma le_mapM {A C : Type} (f g : A -> option C) l : (forall a, le (f a) (g a)) -> le (mapM f l) (mapM g l).
Proof. intros H. induction l as [|x l IH]; [apply le_refl|]. cbn [mapM]. apply le_bind; [apply H|]. intros y. apply le_bind; [exact IH|]. intros r. apply le_refl. Qed.
Lemma le_mapM2 {A A' C : Type} (f g : A -> A' -> option C) : (forall a b, le (f a b) (g a b)) -> forall l l', le (mapM2 f l l') (mapM2 g l l').
Proof.
  intros H. induction l as [|x l IH]; intros [|x' l']; try apply le_refl. cbn [mapM2]. apply le_bind; [apply H|]. intros y.
  apply le_bind; [apply IH|]. intros r. apply le_refl.
Qed.
Lemma le_foldM {A C : Type} (f g : C -> A -> option C) : (forall a b, le (f a b) (g a b)) -> forall l acc, le (foldM f acc l) (foldM g acc l).
Proof. intros H. induction l as [|x l IH]; intros acc; [apply le_refl|]. cbn [foldM]. apply le_bind; [apply H|]. intros a. apply IH. Qed.
Lemma le_iterM {A : Type} (f g : A -> option A) : (forall a, le (f a) (g a)) -> forall n s, le (iterM n f s) (iterM n g s).
Proof. intros H. induction n as [|n IH]; intros s; [apply le_refl|]. cbn [iterM]. apply le_bind; [apply H|]. intros a. apply IH. Qed.

(** Moduli: each operation agrees. *)
Record le_mops (O O' : mops) : Prop := mk_le_mops {
  le_o_add : forall a b, le (o_add O a b) (o_add O' a b);
  le_o_sub : forall a b, le (o_sub O a b) (o_sub O' a b);
  le_o_sub_assign : forall a b, le (o_sub_assign O a b) (o_sub_assign O' a b);
  le_o_neg : forall a, le (o_neg O a) (o_neg O' a);
  le_o_mul : forall a b, le (o_mul O a b) (o_mul O' a b) }.
Lemma le_mops_refl O : le_mops O O. Proof. constructor; intros; apply le_refl. Qed.

Create HintDb ro.
#[export] Hint Resolve le_none le_assert le_uadd le_usub le_umul le_ushl le_ushr le_schk le_sadd le_ssub le_mops_refl : ro.
#[export] Hint Extern 2 (le (mapM _ _) (mapM _ _)) => simple apply le_mapM : ro.
#[export] Hint Extern 2 (le (mapM2 _ _ _) (mapM2 _ _ _)) => simple apply le_mapM2 : ro.
#[export] Hint Extern 2 (le (foldM _ _ _) (foldM _ _ _)) => simple apply le_foldM : ro.
#[export] Hint Extern 2 (le (iterM _ _ _) (iterM _ _ _)) => simple apply le_iterM : ro.
#[export] Hint Extern 2 (le (o_add _ _ _) (o_add _ _ _)) => simple apply le_o_add : ro.
#[export] Hint Extern 2 (le (o_sub _ _ _) (o_sub _ _ _)) => simple apply le_o_sub : ro.
#[export] Hint Extern 2 (le (o_sub_assign _ _ _) (o_sub_assign _ _ _)) => simple apply le_o_sub_assign : ro.
#[export] Hint Extern 2 (le (o_neg _ _) (o_neg _ _)) => simple apply le_o_neg : ro.
#[export] Hint Extern 2 (le (o_mul _ _ _) (o_mul _ _ _)) => simple apply le_o_mul : ro.
#[export] Hint Extern 0 (le ?x ?x) => exact (le_refl x) : ro.
#[export] Hint Extern 1 (le (bind _ _) (bind _ _)) => simple apply le_bind : ro.
#[export] Hint Extern 1 (le (match ?x with _ => _ end) (match ?x with _ => _ end)) => destruct x : ro.
Ltac ro := cbv zeta; auto 200 with ro nocore.
