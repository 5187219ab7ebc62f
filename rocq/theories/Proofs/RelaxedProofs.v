(** The transform counters under the memory model of the language. *)
From Coq Require Import ZArith List Bool Arith Lia Permutation.
From Verif Require Import Spec.Basic Model.Base Model.Count Model.CountRelaxed Spec.Relaxed.
Import ListNotations.
Local Open Scope Z_scope.

Lemma firstn_snoc {A} (l : list A) k x : nth_error l k = Some x -> firstn (S k) l = firstn k l ++ [x].
Proof.
  revert k. induction l as [|y l IH]; intros [|k] H; cbn in H; try discriminate.
  - injection H as ->. reflexivity.
  - change (y :: firstn (S k) l = y :: (firstn k l ++ [x])). rewrite (IH k H). reflexivity.
Qed.
Lemma value_after_S E l k i : nth_error (ex_order E l) k = Some i -> value_after E l (S k) = wrote E l i (value_after E l k).
Proof. intros H. unfold value_after. rewrite (firstn_snoc _ _ _ H), fold_left_app. reflexivity. Qed.

Lemma dir_eqb_eq a b : dir_eqb a b = true <-> a = b.
Proof. destruct a, b; cbn; split; congruence. Qed.

(** A run of additions. *)
Lemma value_run E l a : forall n, 0 <= value_after E l a < 2 ^ 32 ->
  (forall m, (a <= m < a + n)%nat -> exists i d, nth_error (ex_order E l) m = Some i /\ call_at E i = Some (Transform d)) ->
  value_after E l (a + n) = (value_after E l a + Z.of_nat n) mod 2 ^ 32.
Proof.
  induction n as [|n IH]; intros H0 H.
  - rewrite Nat.add_0_r, Z.add_0_r, Z.mod_small by exact H0. reflexivity.
  - destruct (H (a + n)%nat) as (i & d & Hi & Hc); [lia|]. rewrite Nat.add_succ_r, (value_after_S _ _ _ _ Hi). unfold wrote. rewrite Hc.
    rewrite IH; [|exact H0|intros m Hm; apply H; lia]. unfold wadd. rewrite Zplus_mod_idemp_l. f_equal. lia.
Qed.

Lemma same_length {A} (l l' : list A) : NoDup l -> NoDup l' -> (forall x, In x l <-> In x l') -> length l = length l'.
Proof. intros H H' HI. apply Permutation_length, NoDup_Permutation; assumption. Qed.

Lemma in_calls E f i : In i (filter f (seq 0 (length (ex_calls E)))) <-> f i = true /\ (i < length (ex_calls E))%nat.
Proof. rewrite filter_In, in_seq. split; intros (H1 & H2); (split; [assumption|lia]) || (split; [lia|assumption]). Qed.
Lemma transform_lt d E i : is_transform d E i = true -> (i < length (ex_calls E))%nat.
Proof. unfold is_transform. destruct (nth_error (ex_calls E) i) eqn:H; [|discriminate]. intros _. apply nth_error_Some. congruence. Qed.
Lemma transform_call d E i : is_transform d E i = true -> call_at E i = Some (Transform d).
Proof.
  unfold is_transform, call_at. destruct (nth_error (ex_calls E) i) as [[]|]; try discriminate. intros H. apply dir_eqb_eq in H. congruence.
Qed.
Lemma call_transform d E i : call_at E i = Some (Transform d) -> is_transform d E i = true.
Proof. unfold is_transform, call_at. intros ->. apply dir_eqb_eq. reflexivity. Qed.

(** Positions of the writes. *)
Lemma in_firstn {A} (l : list A) k x : In x (firstn k l) <-> exists m, (m < k)%nat /\ nth_error l m = Some x.
Proof.
  revert k. induction l as [|y l IH]; intros [|k]; cbn [firstn In].
  - split; [tauto|]. intros (m & Hm & _). lia.
  - split; [tauto|]. intros ([|m] & _ & H); discriminate.
  - split; [tauto|]. intros (m & Hm & _). lia.
  - rewrite IH. split.
    + intros [->|(m & Hm & H)]; [exists 0%nat; split; [lia|reflexivity]|exists (S m); split; [lia|exact H]].
    + intros ([|m] & Hm & H); [left; injection H; auto|right; exists m; split; [lia|exact H]].
Qed.
Lemma in_skipn {A} (l : list A) k x : In x (skipn k l) <-> exists m, (k <= m)%nat /\ nth_error l m = Some x.
Proof.
  revert l. induction k as [|k IH]; intros l.
  - cbn [skipn]. split; [intros H; apply In_nth_error in H as (m & H); exists m; split; [lia|exact H]|intros (m & _ & H); exact (nth_error_In _ _ H)].
  - destruct l as [|y l]; [cbn; split; [tauto|]; intros ([|m] & _ & H); discriminate|]. cbn [skipn]. rewrite IH. split.
    + intros (m & Hm & H). exists (S m). split; [lia|exact H].
    + intros ([|m] & Hm & H); [lia|]. exists m. split; [lia|exact H].
Qed.
Lemma nodup_parts {A} (l l' : list A) : NoDup (l ++ l') -> NoDup l /\ NoDup l'.
Proof.
  induction l as [|x l IH]; cbn [app]; intros H; [split; [constructor|exact H]|]. inversion H as [|? ? Hn Hd]; subst. destruct (IH Hd) as (H1 & H2).
  split; [|exact H2]. constructor; [|exact H1]. intros Hi. apply Hn, in_or_app. left. exact Hi.
Qed.
Lemma nodup_firstn {A} (l : list A) k : NoDup l -> NoDup (firstn k l).
Proof. intros H. rewrite <- (firstn_skipn k l) in H. exact (proj1 (nodup_parts _ _ H)). Qed.
Lemma nodup_skipn {A} (l : list A) k : NoDup l -> NoDup (skipn k l).
Proof. intros H. rewrite <- (firstn_skipn k l) in H. exact (proj2 (nodup_parts _ _ H)). Qed.

Section U.
  Variables (d : dir) (E : exec).
  Hypothesis HC : consistent E.
  Hypothesis HU : undisturbed d E.

  Lemma undisturbed_call i c : call_at E i = Some c -> match c with Enable | Disable => False | Clear d' => d' <> d | _ => True end.
  Proof. destruct HU as (_ & _ & HF). intros H. rewrite Forall_forall in HF. apply HF. exact (nth_error_In _ _ H). Qed.

  Lemma flag_order : ex_order E LFlag = [].
  Proof.
    destruct (ex_order E LFlag) as [|i r] eqn:Eo; [reflexivity|]. exfalso.
    assert (Hi : stores E LFlag i = true) by (apply (co_writes E HC); rewrite Eo; left; reflexivity).
    unfold stores in Hi. destruct (call_at E i) as [c|] eqn:Ec; [|discriminate]. pose proof (undisturbed_call i c Ec). destruct c; try discriminate; contradiction.
  Qed.
  Lemma flag_read i : read_at E LFlag i = 1.
  Proof. unfold read_at, value_after. rewrite flag_order, firstn_nil. cbn. destruct HU as (-> & _). reflexivity. Qed.

  Lemma order_transforms i : In i (ex_order E (LCtr d)) <-> is_transform d E i = true.
  Proof.
    rewrite (co_writes E HC). unfold stores. split.
    - destruct (call_at E i) as [c|] eqn:Ec; [|discriminate]. pose proof (undisturbed_call i c Ec) as Hu. destruct c as [| |d'|d'|d']; try discriminate.
      + intros H. apply dir_eqb_eq in H. contradiction.
      + intros H. apply andb_true_iff in H as (H & _). apply dir_eqb_eq in H. subst d'. apply call_transform. exact Ec.
    - intros H. rewrite (transform_call _ _ _ H). rewrite flag_read. rewrite (proj2 (dir_eqb_eq d d) eq_refl). reflexivity.
  Qed.

  Lemma ctr_value k : (k <= length (ex_order E (LCtr d)))%nat -> value_after E (LCtr d) k = (ct_get d (ex_start E) + Z.of_nat k) mod 2 ^ 32.
  Proof.
    intros Hk. destruct HU as (_ & H0 & _). apply (value_run E (LCtr d) 0 k); [exact H0|].
    intros m Hm. destruct (nth_error (ex_order E (LCtr d)) m) as [i|] eqn:Ei; [|apply nth_error_None in Ei; lia].
    exists i, d. split; [reflexivity|]. apply transform_call, order_transforms. exact (nth_error_In _ _ Ei).
  Qed.

  Lemma order_length : Z.of_nat (length (ex_order E (LCtr d))) = calls_with E (is_transform d E).
  Proof.
    unfold calls_with. f_equal. apply same_length; [apply (co_once E HC)|apply NoDup_filter, seq_NoDup|].
    intros i. rewrite in_calls, order_transforms. split; [intros H; split; [exact H|exact (transform_lt _ _ _ H)]|tauto].
  Qed.

  Lemma total_relaxed : final_value E (LCtr d) = (ct_get d (ex_start E) + calls_with E (is_transform d E)) mod 2 ^ 32.
  Proof. unfold final_value. rewrite ctr_value by lia. rewrite order_length. reflexivity. Qed.

  Lemma get_relaxed g : call_at E g = Some (Get d) ->
    exists m, read_at E (LCtr d) g = (ct_get d (ex_start E) + m) mod 2 ^ 32 /\ before d E g <= m <= calls_with E (is_transform d E) - after d E g.
  Proof.
    intros Hg. assert (Lg : loads E (LCtr d) g = true) by (unfold loads; rewrite Hg; apply dir_eqb_eq; reflexivity).
    pose proof (co_from E HC _ _ Lg) as Hf. exists (Z.of_nat (ex_from E (LCtr d) g)). split; [unfold read_at; apply ctr_value; exact Hf|].
    rewrite <- order_length. unfold before, after, calls_with.
    assert (HA : (length (filter (fun j => is_transform d E j && ex_hb E g j) (seq 0 (length (ex_calls E)))) <= length (skipn (ex_from E (LCtr d) g) (ex_order E (LCtr d))))%nat).
    { apply NoDup_incl_length; [apply NoDup_filter, seq_NoDup|]. intros j Hj. apply in_calls in Hj as (Hj & _). apply andb_true_iff in Hj as (Hj & Hh). apply in_skipn.
      apply order_transforms, In_nth_error in Hj as (m & Hm). exists m. split; [|exact Hm]. exact (co_rw E HC _ _ _ _ Hh Lg Hm). }
    split.
    - apply inj_le. rewrite <- (firstn_length_le _ Hf) at 1. apply NoDup_incl_length; [apply NoDup_filter, seq_NoDup|].
      intros j Hj. apply in_calls in Hj as (Hj & _). apply andb_true_iff in Hj as (Hj & Hh). apply in_firstn.
      apply order_transforms, In_nth_error in Hj as (m & Hm). exists m. split; [|exact Hm]. exact (co_wr E HC _ _ _ _ Hh Hm Lg).
    - rewrite skipn_length in HA. lia.
  Qed.
End U.

Section M.
  Variables (d : dir) (E : exec) (e c g : nat).
  Hypothesis HC : consistent E.
  Hypothesis HM : measured d E e c g.

  Let counted t := is_transform d E t && (ex_hb E c t && ex_hb E t g).

  Lemma order_at l i : stores E l i = true -> exists m, nth_error (ex_order E l) m = Some i.
  Proof. intros H. apply In_nth_error. apply (co_writes E HC). exact H. Qed.
  Lemma at_order l m i : nth_error (ex_order E l) m = Some i -> stores E l i = true.
  Proof. intros H. apply (co_writes E HC). exact (nth_error_In _ _ H). Qed.
  Lemma hb_asym i j : ex_hb E i j = true -> ex_hb E j i = true -> False.
  Proof. intros H1 H2. pose proof (co_trans E HC _ _ _ H1 H2) as H. rewrite (co_irr E HC) in H. discriminate. Qed.
  Lemma same_place l m n i : nth_error (ex_order E l) m = Some i -> nth_error (ex_order E l) n = Some i -> m = n.
  Proof.
    intros H1 H2. apply (proj1 (NoDup_nth_error _) (co_once E HC l)); [apply nth_error_Some; congruence|congruence].
  Qed.

  Lemma counted_flag t : counted t = true -> read_at E LFlag t = 1.
  Proof.
    destruct HM as (He & Hc & Hg & Hcg & HF & _ & HT). intros H. apply andb_true_iff in H as (Ht & H). apply andb_true_iff in H as (Hct & Htg).
    assert (Het : ex_hb E e t = true).
    { destruct (HT t Ht) as [H|[(H & _)|H]]; [destruct (hb_asym _ _ H Hct)|exact H|destruct (hb_asym _ _ H Htg)]. }
    pose proof (transform_call _ _ _ Ht) as Ect.
    assert (Lt : loads E LFlag t = true) by (unfold loads; rewrite Ect; reflexivity).
    destruct (order_at LFlag e) as (m & Hm); [unfold stores, call_at; rewrite He; reflexivity|].
    pose proof (co_wr E HC _ _ _ _ Het Hm Lt) as Hlt. pose proof (co_from E HC _ _ Lt) as Hle. unfold read_at.
    assert (Ek : ex_from E LFlag t = S m).
    { destruct (Nat.eq_dec (ex_from E LFlag t) (S m)) as [Ek|Nk]; [exact Ek|]. exfalso.
      destruct (nth_error (ex_order E LFlag) (S m)) as [j|] eqn:Ej; [|apply nth_error_None in Ej; lia].
      assert (Hj : nth_error (ex_calls E) j = Some Enable \/ nth_error (ex_calls E) j = Some Disable).
      { apply at_order in Ej. unfold stores, call_at in Ej. destruct (nth_error (ex_calls E) j) as [[]|]; auto; discriminate. }
      destruct (HF j Hj) as [->|[Hje|Hall]].
      - pose proof (same_place _ _ _ _ Hm Ej). lia.
      - pose proof (co_ww E HC _ _ _ _ _ Hje Ej Hm). lia.
      - pose proof (co_rw E HC _ _ _ _ (Hall t Ht Hct Htg) Lt Ej). lia. }
    rewrite Ek, (value_after_S _ _ _ _ Hm). unfold wrote, call_at. rewrite He. reflexivity.
  Qed.

  Lemma measured_relaxed : read_at E (LCtr d) g = between d E c g mod 2 ^ 32.
  Proof.
    destruct HM as (He & Hc & Hg & Hcg & _ & HCl & HT).
    assert (Lg : loads E (LCtr d) g = true) by (unfold loads, call_at; rewrite Hg; apply dir_eqb_eq; reflexivity).
    destruct (order_at (LCtr d) c) as (m & Hm); [unfold stores, call_at; rewrite Hc; apply dir_eqb_eq; reflexivity|].
    pose proof (co_wr E HC _ _ _ _ Hcg Hm Lg) as Hlt. pose proof (co_from E HC _ _ Lg) as Hle. unfold read_at.
    set (k := ex_from E (LCtr d) g) in *.
    assert (HW : forall n j, (S m <= n < k)%nat -> nth_error (ex_order E (LCtr d)) n = Some j -> counted j = true).
    { intros n j Hn Hj. pose proof (at_order _ _ _ Hj) as Sj. unfold stores in Sj. destruct (call_at E j) as [x|] eqn:Ex; [|discriminate].
      destruct x as [| |d'|d'|d']; try discriminate.
      - apply dir_eqb_eq in Sj. subst d'. exfalso. destruct (HCl j Ex) as [->|[H|H]].
        + pose proof (same_place _ _ _ _ Hm Hj). lia.
        + pose proof (co_ww E HC _ _ _ _ _ H Hj Hm). lia.
        + pose proof (co_rw E HC _ _ _ _ H Lg Hj). fold k in H0. lia.
      - apply andb_true_iff in Sj as (Sj & _). apply dir_eqb_eq in Sj. subst d'. pose proof (call_transform _ _ _ Ex) as Tj.
        unfold counted. rewrite Tj. destruct (HT j Tj) as [H|[(_ & H1 & H2)|H]].
        + pose proof (co_ww E HC _ _ _ _ _ H Hj Hm). lia.
        + rewrite H1, H2. reflexivity.
        + pose proof (co_rw E HC _ _ _ _ H Lg Hj). fold k in H0. lia. }
    assert (V0 : value_after E (LCtr d) (S m) = 0) by (rewrite (value_after_S _ _ _ _ Hm); unfold wrote, call_at; rewrite Hc; reflexivity).
    replace k with (S m + (k - S m))%nat by lia. rewrite value_run; [|rewrite V0; lia|].
    2:{ intros n Hn. destruct (nth_error (ex_order E (LCtr d)) n) as [j|] eqn:Ej; [|apply nth_error_None in Ej; lia].
        exists j, d. split; [reflexivity|]. assert (Cj : counted j = true) by (apply (HW n); [lia|exact Ej]).
        apply andb_true_iff in Cj as (Cj & _). apply transform_call. exact Cj. }
    rewrite V0, Z.add_0_l. f_equal. unfold between, calls_with. f_equal.
    transitivity (length (skipn (S m) (firstn k (ex_order E (LCtr d))))); [rewrite skipn_length, firstn_length_le by exact Hle; reflexivity|].
    apply same_length; [apply nodup_skipn, nodup_firstn, (co_once E HC)|apply NoDup_filter, seq_NoDup|].
    intros j. rewrite in_calls, in_skipn. fold (counted j). split.
    - intros (n & Hn & Hj). assert (Hnk : (n < k)%nat) by (rewrite <- (firstn_length_le _ Hle); apply nth_error_Some; congruence).
      assert (Hj' : nth_error (ex_order E (LCtr d)) n = Some j).
      { rewrite <- (firstn_skipn k (ex_order E (LCtr d))), nth_error_app1 by (rewrite (firstn_length_le _ Hle); exact Hnk). exact Hj. }
      pose proof (HW n j ltac:(lia) Hj') as Cj. split; [exact Cj|]. apply andb_true_iff in Cj as (Cj & _). exact (transform_lt _ _ _ Cj).
    - intros (Cj & _). pose proof (counted_flag j Cj) as Fj. apply andb_true_iff in Cj as (Tj & Cj). apply andb_true_iff in Cj as (H1 & H2).
      destruct (order_at (LCtr d) j) as (n & Hn).
      { unfold stores. rewrite (transform_call _ _ _ Tj), Fj, (proj2 (dir_eqb_eq d d) eq_refl). reflexivity. }
      pose proof (co_ww E HC _ _ _ _ _ H1 Hm Hn). pose proof (co_wr E HC _ _ _ _ H2 Hn Lg) as Hnk. fold k in Hnk.
      exists n. split; [lia|]. rewrite <- (firstn_skipn k (ex_order E (LCtr d))), nth_error_app1 in Hn by (rewrite (firstn_length_le _ Hle); exact Hnk). exact Hn.
  Qed.
End M.

(** Interleavings of two threads: a finite set of worlds closed under the steps of both. *)
Definition world_dec (w w' : counters * list cthread) : {w = w'} + {w <> w'}.
Proof.
  assert (DD : forall a b : dir, {a = b} + {a <> b}) by decide equality.
  assert (DC : forall a b : ccall, {a = b} + {a <> b}) by decide equality.
  assert (DT : forall a b : cthread, {a = b} + {a <> b}).
  { decide equality; [apply (list_eq_dec Z.eq_dec)|apply (list_eq_dec DC)|]. decide equality. }
  assert (DS : forall a b : counters, {a = b} + {a <> b}) by (decide equality; try apply Z.eq_dec; apply Bool.bool_dec).
  decide equality. apply (list_eq_dec DT).
Defined.
Fixpoint worlds_of (n : nat) (ws : list (counters * list cthread)) : list (counters * list cthread) :=
  match n with O => ws | S n' => worlds_of n' (nodup world_dec (ws ++ flat_map (fun w => [cwstep w 0; cwstep w 1]) ws)) end.
Definition closed_set (ws : list (counters * list cthread)) : bool :=
  forallb (fun w => (length (snd w) =? 2)%nat && (if in_dec world_dec (cwstep w 0) ws then true else false) && (if in_dec world_dec (cwstep w 1) ws then true else false)) ws.
Lemma closed_set_spec ws w s : closed_set ws = true -> In w ws -> In (cschedule s w) ws.
Proof.
  intros HC. revert w. induction s as [|i s IH]; intros w Hw; [exact Hw|]. cbn [cschedule fold_left]. apply IH.
  unfold closed_set in HC. rewrite forallb_forall in HC. specialize (HC w Hw). apply andb_true_iff in HC as (HC & H1). apply andb_true_iff in HC as (HL & H0).
  destruct i as [|[|i]].
  - destruct (in_dec world_dec (cwstep w 0) ws); [assumption|discriminate].
  - destruct (in_dec world_dec (cwstep w 1) ws); [assumption|discriminate].
  - apply Nat.eqb_eq in HL. unfold cwstep. replace (nth_error (snd w) (S (S i))) with (@None cthread); [exact Hw|].
    symmetry. apply nth_error_None. lia.
Qed.

Lemma firstn_In_local {A} k (l : list A) x : In x (firstn k l) -> In x l.
Proof. intros H. rewrite <- (firstn_skipn k l). apply in_or_app. left. exact H. Qed.
(** Counting is off and nobody switches it on: the flag stays off. *)
Lemma flag_off E k : ct_on (ex_start E) = false -> consistent E -> ~ In Enable (ex_calls E) -> value_after E LFlag k = 0.
Proof.
  intros Off HC NE. unfold value_after. assert (A : forall i, In i (firstn k (ex_order E LFlag)) -> call_at E i = Some Disable).
  { intros i Hi. apply firstn_In_local in Hi. apply (co_writes _ HC) in Hi. unfold stores in Hi. destruct (call_at E i) as [[| |d|d|d]|] eqn:Ec; try discriminate; [|reflexivity].
    exfalso. apply NE. exact (nth_error_In _ _ Ec). }
  revert A. generalize (firstn k (ex_order E LFlag)). cbn [at_start]. rewrite Off. intros l. induction l as [|i l IH]; intros A; [reflexivity|]. cbn [fold_left].
  unfold wrote at 2. rewrite (A i (or_introl eq_refl)). apply IH. intros j Hj. apply A. right. exact Hj.
Qed.
Lemma off_relaxed d E : consistent E -> ct_on (ex_start E) = false -> Forall (fun c => match c with Enable => False | Clear d' => d' <> d | _ => True end) (ex_calls E) ->
  forall k, value_after E (LCtr d) k = ct_get d (ex_start E).
Proof.
  intros HC Off HF k. rewrite Forall_forall in HF. assert (NE : ~ In Enable (ex_calls E)) by (intros H; exact (HF _ H)).
  assert (EO : ex_order E (LCtr d) = []).
  { destruct (ex_order E (LCtr d)) as [|i r] eqn:Eo; [reflexivity|]. exfalso. assert (Hi : In i (ex_order E (LCtr d))) by (rewrite Eo; left; reflexivity).
    apply (co_writes _ HC) in Hi. unfold stores in Hi. destruct (call_at E i) as [[| |d'|d'|d']|] eqn:Ec; try discriminate.
    - pose proof (HF _ (nth_error_In _ _ Ec)) as Hn. cbn in Hn. destruct d, d'; try discriminate; congruence.
    - unfold read_at in Hi. rewrite (flag_off E _ Off HC NE) in Hi. rewrite andb_false_r in Hi. discriminate. }
  unfold value_after. rewrite EO, firstn_nil. reflexivity.
Qed.
