(** Maps that permute finite lists, for counting over uniform choices. *)
From Coq Require Import ZArith List Bool Lia Permutation.
From Verif Require Import Spec.Count Spec.HidingKeys Proofs.RandomProofs.
Import ListNotations.
Local Open Scope Z_scope.

Lemma count_perm {A} (D : A -> bool) l l' : Permutation l l' -> count D l = count D l'.
Proof. intros H. induction H as [|x l l' H IH|x y l|l l' l'' H IH H' IH']; rewrite ?count_cons; lia. Qed.

(** [f] permutes the list [L]. *)
Definition shuffles {A} (f : A -> A) (L : list A) : Prop := Permutation (map f L) L.

Lemma count_shuffle {A} (f : A -> A) L (D : A -> bool) : shuffles f L -> count (fun x => D (f x)) L = count D L.
Proof. intros H. rewrite <- count_map. apply count_perm. exact H. Qed.

Lemma shuffles_ext {A} (f g : A -> A) L : (forall x, In x L -> f x = g x) -> shuffles f L -> shuffles g L.
Proof. intros H P. unfold shuffles. rewrite <- (map_ext_in _ _ _ H). exact P. Qed.

Lemma shuffle_range q c : 0 < q -> shuffles (fun x => (x + c) mod q) (range q).
Proof.
  intros Hq. unfold shuffles. set (d := c mod q). pose proof (Z.mod_pos_bound c q Hq) as Hd. fold d in Hd.
  assert (E : map (fun x => (x + c) mod q) (range q) = map (fun x => d + x) (range (q - d)) ++ range d).
  { replace (range q) with (range ((q - d) + d)) by (f_equal; lia). rewrite range_add, map_app by lia. f_equal.
    - apply map_ext_in. intros x Hx. apply in_range in Hx. rewrite <- Zplus_mod_idemp_r. fold d. rewrite Z.mod_small; lia.
    - rewrite map_map. rewrite <- (map_id (range d)) at 2. apply map_ext_in. intros x Hx. apply in_range in Hx.
      rewrite <- Zplus_mod_idemp_r. fold d. replace (q - d + x + d) with (x + 1 * q) by lia. rewrite Z.mod_add by lia. apply Z.mod_small. lia. }
  rewrite E. rewrite Permutation_app_comm.
  assert (E' : range q = range (d + (q - d))) by (f_equal; lia). rewrite E', range_add by lia. apply Permutation_refl.
Qed.

Lemma flat_map_perm {A C} (g g' : A -> list C) L : (forall x, In x L -> Permutation (g x) (g' x)) ->
  Permutation (flat_map g L) (flat_map g' L).
Proof.
  induction L as [|x L IH]; intros H; [constructor|]. cbn [flat_map]. apply Permutation_app; [apply H; left; reflexivity|].
  apply IH. intros y Hy. apply H. right. exact Hy.
Qed.
Lemma flat_map_map {A B C} (f : A -> B) (g : B -> list C) L : flat_map g (map f L) = flat_map (fun x => g (f x)) L.
Proof. induction L; cbn; [reflexivity|]. now rewrite IHL. Qed.
Lemma map_flat_map {A B C} (f : B -> C) (g : A -> list B) L : map f (flat_map g L) = flat_map (fun x => map f (g x)) L.
Proof. induction L; cbn; [reflexivity|]. now rewrite map_app, IHL. Qed.

Lemma shuffle_prod {A C} (f : A -> A) (g : C -> C) L M : shuffles f L -> shuffles g M ->
  shuffles (fun xy => (f (fst xy), g (snd xy))) (list_prod L M).
Proof.
  unfold shuffles. intros HL HM.
  assert (E : forall (L : list A) (M : list C), list_prod L M = flat_map (fun x => map (pair x) M) L).
  { clear. induction L as [|x L IH]; intros M; [reflexivity|]. cbn [list_prod flat_map]. now rewrite IH. }
  rewrite !E, map_flat_map. etransitivity.
  - apply (flat_map_perm _ (fun x => map (pair (f x)) M)). intros x _. rewrite map_map. cbn [fst snd].
    rewrite <- (map_map g (pair (f x))). apply Permutation_map. exact HM.
  - rewrite <- (flat_map_map f (fun x => map (pair x) M)). apply Permutation_flat_map. exact HL.
Qed.

(** Functions applied entry by entry. *)
Definition each {A} (fs : list (A -> A)) (l : list A) : list A := map (fun fx => fst fx (snd fx)) (combine fs l).

Lemma shuffle_lists {A} (L : list A) (fs : list (A -> A)) : Forall (fun f => shuffles f L) fs ->
  shuffles (each fs) (lists (length fs) L).
Proof.
  unfold shuffles. induction fs as [|f fs IH]; intros H; [apply Permutation_refl|]. inversion H as [|? ? Hf Hfs]; subst. specialize (IH Hfs).
  cbn [length lists]. rewrite map_flat_map. etransitivity.
  - apply (flat_map_perm _ (fun x => map (cons (f x)) (lists (length fs) L))). intros x _. rewrite map_map.
    rewrite (map_ext _ (fun l => f x :: each fs l)) by reflexivity. rewrite <- (map_map (each fs) (cons (f x))).
    apply Permutation_map. exact IH.
  - rewrite <- (flat_map_map f (fun x => map (cons x) (lists (length fs) L))). apply Permutation_flat_map. exact Hf.
Qed.

Lemma lists_in {A} k (L : list A) l : In l (lists k L) <-> length l = k /\ Forall (fun x => In x L) l.
Proof.
  revert l. induction k as [|k IH]; intros l; cbn [lists].
  - split; [intros [<-|[]]; split; [reflexivity|constructor]|]. intros (H & _). destruct l; [left; reflexivity|discriminate].
  - rewrite in_flat_map. split.
    + intros (x & Hx & Hl). apply in_map_iff in Hl. destruct Hl as (l' & <- & Hl). apply IH in Hl. destruct Hl as (<- & Hl).
      split; [reflexivity|]. constructor; assumption.
    + intros (Hl & H). destruct H as [|x l' Hx Hl']; [discriminate|]. exists x. split; [exact Hx|]. apply in_map_iff. exists l'.
      split; [reflexivity|]. apply IH. split; [cbn in Hl; lia|exact Hl'].
Qed.
Lemma tuples_lists k n : tuples k n = lists k (range n).
Proof. induction k as [|k IH]; [reflexivity|]. cbn [tuples lists]. now rewrite IH. Qed.
Lemma lists_length {A} k (L : list A) : Z.of_nat (length (lists k L)) = Z.of_nat (length L) ^ Z.of_nat k.
Proof.
  induction k as [|k IH]; [reflexivity|]. cbn [lists]. rewrite Nat2Z.inj_succ, Z.pow_succ_r, <- IH by lia. clear IH.
  generalize (lists k L). intros T. induction L as [|x L IHL]; [reflexivity|]. cbn [flat_map length]. rewrite app_length, map_length.
  rewrite Nat2Z.inj_add, Nat2Z.inj_succ, IHL. ring.
Qed.

Lemma each_map {A} (f : A -> A) k (l : list A) : length l = k -> each (repeat f k) l = map f l.
Proof. intros <-. unfold each. induction l as [|x l IH]; [reflexivity|]. cbn [length repeat combine map fst snd]. now rewrite IH. Qed.
