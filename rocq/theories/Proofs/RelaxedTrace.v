(** Every interleaving is an execution of the memory model. *)
From Coq Require Import ZArith List Bool Arith Lia.
From Verif Require Import Spec.Basic Model.Base Model.Count Model.CountRelaxed Spec.Counting Spec.Relaxed Proofs.RelaxedProofs.
Import ListNotations.
Local Open Scope Z_scope.

(** * Accesses in one global order *)

Inductive access := ARead (l : loc) (i : nat) | AWrite (l : loc) (i : nat).
Definition who (a : access) : nat := match a with ARead _ i | AWrite _ i => i end.
Definition loc_eqb (l l' : loc) : bool := match l, l' with LFlag, LFlag => true | LCtr d, LCtr d' => dir_eqb d d' | _, _ => false end.
Lemma loc_eqb_eq l l' : loc_eqb l l' = true <-> l = l'.
Proof. destruct l as [|[]], l' as [|[]]; cbn; split; congruence. Qed.
Lemma loc_eqb_refl l : loc_eqb l l = true.
Proof. apply loc_eqb_eq. reflexivity. Qed.

(** Who writes [l], in turn. *)
Fixpoint writers (l : loc) (L : list access) : list nat :=
  match L with
  | [] => []
  | AWrite l' i :: L' => if loc_eqb l l' then i :: writers l L' else writers l L'
  | _ :: L' => writers l L'
  end.
(** How many writes to [l] come before the read of call [i]. *)
Fixpoint seen_by (l : loc) (i : nat) (L : list access) : nat :=
  match L with
  | [] => 0
  | ARead l' j :: L' => if loc_eqb l l' && (i =? j)%nat then 0 else seen_by l i L'
  | AWrite l' _ :: L' => if loc_eqb l l' then S (seen_by l i L') else seen_by l i L'
  end.
Definition exec_of (c : counters) (calls : list ccall) (hb : nat -> nat -> bool) (L : list access) : exec :=
  mk_exec c calls hb (fun l => writers l L) (fun l i => seen_by l i L).

Lemma writers_app l L M : writers l (L ++ M) = writers l L ++ writers l M.
Proof.
  induction L as [|[l' i|l' i] L IH]; cbn [app writers]; [reflexivity|exact IH|]. destruct (loc_eqb l l'); [cbn; f_equal|]; exact IH.
Qed.
Lemma seen_by_app l i L M : In (ARead l i) L -> seen_by l i (L ++ M) = seen_by l i L.
Proof.
  induction L as [|[l' j|l' j] L IH]; cbn [app seen_by In]; intros H; [tauto| |].
  - destruct (loc_eqb l l' && (i =? j)%nat) eqn:Eb; [reflexivity|]. apply IH. destruct H as [H|H]; [|exact H].
    injection H as -> ->. rewrite loc_eqb_refl, Nat.eqb_refl in Eb. discriminate.
  - assert (H' : In (ARead l i) L) by (destruct H as [H|H]; [discriminate|exact H]). rewrite (IH H'). reflexivity.
Qed.
Lemma seen_by_new l i L : ~ In (ARead l i) L -> seen_by l i (L ++ [ARead l i]) = length (writers l L).
Proof.
  induction L as [|[l' j|l' j] L IH]; cbn [app seen_by writers In length]; intros H.
  - rewrite loc_eqb_refl, Nat.eqb_refl. reflexivity.
  - destruct (loc_eqb l l' && (i =? j)%nat) eqn:Eb.
    + exfalso. apply H. left. apply andb_true_iff in Eb as (E1 & E2). apply loc_eqb_eq in E1. apply Nat.eqb_eq in E2. congruence.
    + apply IH. tauto.
  - destruct (loc_eqb l l'); cbn [length]; rewrite IH by tauto; reflexivity.
Qed.
Lemma seen_by_le l i L : (seen_by l i L <= length (writers l L))%nat.
Proof.
  induction L as [|[l' j|l' j] L IH]; cbn [seen_by writers length]; [lia| |].
  - destruct (_ && _); lia.
  - destruct (loc_eqb l l'); cbn [length]; lia.
Qed.
Lemma in_writers l i L : In i (writers l L) <-> In (AWrite l i) L.
Proof.
  induction L as [|[l' j|l' j] L IH]; cbn [writers In]; [tauto| |].
  - rewrite IH. split; [auto|]. intros [H|H]; [discriminate|exact H].
  - destruct (loc_eqb l l') eqn:El.
    + apply loc_eqb_eq in El. subst l'. cbn [In]. rewrite IH. split; (intros [H|H]; [left; congruence|right; exact H]).
    + rewrite IH. split; [auto|]. intros [H|H]; [|exact H]. injection H as -> ->. rewrite loc_eqb_refl in El. discriminate.
Qed.
Lemma nodup_writers l L : NoDup L -> NoDup (writers l L).
Proof.
  induction L as [|[l' j|l' j] L IH]; cbn [writers]; intros H; [constructor| |]; inversion H as [|? ? Hn Hd]; subst; [exact (IH Hd)|].
  destruct (loc_eqb l l') eqn:El; [|exact (IH Hd)]. apply loc_eqb_eq in El. subst l'. constructor; [|exact (IH Hd)]. rewrite in_writers. exact Hn.
Qed.

(** Places in the global order and places in the modification order. *)
Lemma writers_place l m i L : nth_error (writers l L) m = Some i -> exists L1 L2, L = L1 ++ AWrite l i :: L2 /\ length (writers l L1) = m.
Proof.
  revert m. induction L as [|a L IH]; intros m H; [destruct m; discriminate|].
  assert (STEP : forall m', nth_error (writers l L) m' = Some i -> m = (length (writers l [a]) + m')%nat -> exists L1 L2, a :: L = L1 ++ AWrite l i :: L2 /\ length (writers l L1) = m).
  { intros m' H' Em. destruct (IH m' H') as (L1 & L2 & -> & E). exists (a :: L1), L2. split; [reflexivity|].
    change (a :: L1) with ([a] ++ L1). rewrite writers_app, app_length. lia. }
  destruct a as [l' j|l' j]; cbn [writers] in H, STEP; [apply (STEP m H); reflexivity|].
  destruct (loc_eqb l l') eqn:El; [|apply (STEP m H); reflexivity]. destruct m as [|m]; [|apply (STEP m H); reflexivity].
  cbn in H. injection H as <-. apply loc_eqb_eq in El. subst l'. exists [], L. split; reflexivity.
Qed.
Lemma seen_place l i L : In (ARead l i) L -> exists L1 L2, L = L1 ++ ARead l i :: L2 /\ length (writers l L1) = seen_by l i L.
Proof.
  intros H. induction L as [|a L IH]; [destruct H|].
  destruct a as [l' j|l' j]; cbn [seen_by].
  - destruct (loc_eqb l l' && (i =? j)%nat) eqn:Eb.
    + apply andb_true_iff in Eb as (E1 & E2). apply loc_eqb_eq in E1. apply Nat.eqb_eq in E2. subst. exists [], L. split; reflexivity.
    + destruct H as [H|H]; [injection H as -> ->; rewrite loc_eqb_refl, Nat.eqb_refl in Eb; discriminate|].
      destruct (IH H) as (L1 & L2 & E & El). exists (ARead l' j :: L1), L2. split; [rewrite E; reflexivity|exact El].
  - destruct H as [H|H]; [discriminate|]. destruct (IH H) as (L1 & L2 & E & El). exists (AWrite l' j :: L1), L2.
    split; [rewrite E; reflexivity|]. cbn [writers]. destruct (loc_eqb l l'); cbn [length]; rewrite El; reflexivity.
Qed.

(** [a] comes before [b]. *)
Definition earlier (L : list access) (a b : access) : Prop := exists L1 L2 L3, L = L1 ++ a :: L2 ++ b :: L3.
Lemma split_unique (a : access) L1 L2 M1 M2 : NoDup (L1 ++ a :: L2) -> L1 ++ a :: L2 = M1 ++ a :: M2 -> L1 = M1.
Proof.
  revert M1. induction L1 as [|x L1 IH]; intros [|y M1] HN E; cbn [app] in *.
  - reflexivity.
  - injection E as Ex E'. apply NoDup_cons_iff in HN as (Hn & _). exfalso. apply Hn. rewrite E'. apply in_or_app. right. left. reflexivity.
  - injection E as Ex E'. subst x. apply NoDup_cons_iff in HN as (Hn & _). exfalso. apply Hn. apply in_or_app. right. left. reflexivity.
  - injection E as Ex E'. subst y. f_equal. apply NoDup_cons_iff in HN as (_ & HN). exact (IH M1 HN E').
Qed.
Lemma earlier_prefix L a b L1 L2 M1 M2 : NoDup L -> earlier L a b -> L = L1 ++ a :: L2 -> L = M1 ++ b :: M2 -> exists K, M1 = L1 ++ a :: K.
Proof.
  intros HN (K1 & K2 & K3 & E) EL EM. subst L. rewrite EL in HN. pose proof (split_unique a L1 L2 K1 (K2 ++ b :: K3) HN (eq_sym EL)) as E1. subst K1.
  exists K2. rewrite <- EL, EM in HN. symmetry. apply (split_unique b (L1 ++ a :: K2) K3 M1 M2); [|rewrite <- EM, <- app_assoc; reflexivity].
  rewrite <- app_assoc. cbn [app]. rewrite EM. exact HN.
Qed.

Lemma trace_consistent c calls hb L :
  let E := exec_of c calls hb L in
  (forall i, hb i i = false) -> (forall i j k, hb i j = true -> hb j k = true -> hb i k = true) -> NoDup L ->
  (forall l i, In (ARead l i) L <-> loads E l i = true) -> (forall l i, In (AWrite l i) L <-> stores E l i = true) ->
  (forall a b, In a L -> In b L -> hb (who a) (who b) = true -> earlier L a b) -> consistent E.
Proof.
  intros E Hirr Htr HN HR HW HO.
  assert (WP : forall l m i, nth_error (writers l L) m = Some i -> In (AWrite l i) L /\ exists L1 L2, L = L1 ++ AWrite l i :: L2 /\ length (writers l L1) = m).
  { intros l m i H. split; [apply in_writers; exact (nth_error_In _ _ H)|apply writers_place; exact H]. }
  constructor; cbn [ex_hb ex_order ex_from E exec_of].
  - exact Hirr.
  - exact Htr.
  - intros l. apply nodup_writers. exact HN.
  - intros l i. rewrite in_writers. apply HW.
  - intros l i j m n Hh Hi Hj. destruct (WP _ _ _ Hi) as (Ii & L1 & L2 & EL & <-). destruct (WP _ _ _ Hj) as (Ij & M1 & M2 & EM & <-).
    destruct (earlier_prefix L _ _ _ _ _ _ HN (HO _ _ Ii Ij Hh) EL EM) as (K & ->). rewrite writers_app, app_length. cbn [writers]. rewrite loc_eqb_refl. cbn [length]. lia.
  - intros l i j m Hh Hi Hj. destruct (WP _ _ _ Hi) as (Ii & L1 & L2 & EL & <-). apply HR in Hj. destruct (seen_place _ _ _ Hj) as (M1 & M2 & EM & <-).
    destruct (earlier_prefix L _ _ _ _ _ _ HN (HO _ _ Ii Hj Hh) EL EM) as (K & ->). rewrite writers_app, app_length. cbn [writers]. rewrite loc_eqb_refl. cbn [length]. lia.
  - intros l i j n Hh Hi Hj. apply HR in Hi. destruct (seen_place _ _ _ Hi) as (L1 & L2 & EL & <-). destruct (WP _ _ _ Hj) as (Ij & M1 & M2 & EM & <-).
    destruct (earlier_prefix L _ _ _ _ _ _ HN (HO _ _ Hi Ij Hh) EL EM) as (K & ->). rewrite writers_app, app_length. lia.
  - intros l i j Hh Hi Hj. apply HR in Hi, Hj. destruct (seen_place _ _ _ Hi) as (L1 & L2 & EL & <-). destruct (seen_place _ _ _ Hj) as (M1 & M2 & EM & <-).
    destruct (earlier_prefix L _ _ _ _ _ _ HN (HO _ _ Hi Hj Hh) EL EM) as (K & ->). rewrite writers_app, app_length. lia.
  - intros l i _. apply seen_by_le.
Qed.

(** * Numbered calls *)
Section N.
  Variable progs : list (list ccall).
  Definition off (t : nat) : nat := length (concat (firstn t progs)).

  Lemma off_S t p : nth_error progs t = Some p -> off (S t) = (off t + length p)%nat.
  Proof. intros H. unfold off. rewrite (firstn_snoc _ _ _ H), concat_app, app_length. cbn. rewrite app_nil_r. reflexivity. Qed.
  Lemma call_off t p k : nth_error progs t = Some p -> (k < length p)%nat -> nth_error (concat progs) (off t + k) = nth_error p k.
  Proof.
    intros H Hk. unfold off. rewrite <- (firstn_skipn t progs) at 1. rewrite concat_app, nth_error_app2 by lia.
    replace (length (concat (firstn t progs)) + k - length (concat (firstn t progs)))%nat with k by lia.
    assert (E : skipn t progs = p :: skipn (S t) progs).
    { clear Hk. revert t H. induction progs as [|q r IH]; intros [|t] H; try discriminate; [injection H as ->; reflexivity|]. exact (IH t H). }
    rewrite E. cbn [concat]. rewrite nth_error_app1 by exact Hk. reflexivity.
  Qed.
End N.

Lemma off_cons p r t : off (p :: r) (S t) = (length p + off r t)%nat.
Proof. unfold off. cbn [firstn concat]. apply app_length. Qed.
Lemma owner_off progs : forall t p k, nth_error progs t = Some p -> (k < length p)%nat -> owner progs (off progs t + k) = t.
Proof.
  induction progs as [|q r IH]; intros [|t] p k H Hk; try discriminate.
  - injection H as ->. cbn [owner]. change (off (p :: r) 0) with 0%nat. destruct (Nat.ltb_spec (0 + k) (length p)); [reflexivity|lia].
  - cbn [owner]. rewrite off_cons. destruct (Nat.ltb_spec (length q + off r t + k) (length q)); [lia|].
    f_equal. replace (length q + off r t + k - length q)%nat with (off r t + k)%nat by lia. exact (IH t p k H Hk).
Qed.
Lemma owner_place progs : forall i p, nth_error progs (owner progs i) = Some p -> exists k, i = (off progs (owner progs i) + k)%nat /\ (k < length p)%nat.
Proof.
  induction progs as [|q r IH]; intros i p H; cbn [owner] in *; [discriminate|].
  destruct (Nat.ltb_spec i (length q)); [cbn in H; injection H as ->; exists i; split; [reflexivity|assumption]|].
  cbn [nth_error] in H. destruct (IH _ _ H) as (k & E & Hk). exists k. split; [|exact Hk]. rewrite off_cons. lia.
Qed.
Lemma owner_total progs : forall i, (i < length (concat progs))%nat -> exists p, nth_error progs (owner progs i) = Some p.
Proof.
  induction progs as [|q r IH]; intros i H; cbn [concat owner] in *; [cbn in H; lia|]. rewrite app_length in H.
  destruct (Nat.ltb_spec i (length q)); [exists q; reflexivity|]. cbn [nth_error]. apply IH. lia.
Qed.
Lemma owner_le progs i j : owner progs i = owner progs j -> forall p, nth_error progs (owner progs i) = Some p -> (off progs (owner progs i) <= i < off progs (S (owner progs i)))%nat.
Proof. intros _ p H. destruct (owner_place progs i p H) as (k & E & Hk). rewrite (off_S progs _ p H). lia. Qed.

Lemma nth_set_same {A} t (x y : A) l : nth_error l t = Some y -> nth_error (set_thread t x l) t = Some x.
Proof. revert t. induction l as [|z l IH]; intros [|t] H; try discriminate; [reflexivity|exact (IH t H)]. Qed.
Lemma nth_set_other {A} t u (x : A) l : t <> u -> nth_error (set_thread t x l) u = nth_error l u.
Proof. revert t u. induction l as [|z l IH]; intros [|t] [|u] H; try reflexivity; [congruence|]. apply IH. congruence. Qed.
Lemma set_length {A} t (x : A) l : length (set_thread t x l) = length l.
Proof. revert t. induction l as [|z l IH]; intros [|t]; cbn; [reflexivity|reflexivity|reflexivity|]. f_equal. apply IH. Qed.

Lemma nodup_snoc {A} (x : A) l : NoDup l -> ~ In x l -> NoDup (l ++ [x]).
Proof.
  induction l as [|y l IH]; intros H Hn; cbn [app]; [constructor; [intros []|constructor]|]. apply NoDup_cons_iff in H as (H1 & H2). constructor.
  - rewrite in_app_iff. intros [H|[ ->|[]]]; [exact (H1 H)|]. apply Hn. left. reflexivity.
  - apply IH; [exact H2|]. intros H. apply Hn. right. exact H.
Qed.

(** * From steps to accesses *)
Section T.
  Variables (c0 : counters) (progs : list (list ccall)).
  Notation EX := (exec_of c0 (concat progs) (program_order progs)).
  Notation own := (owner progs).

  (** The number of the next call. *)
  Definition next (t : nat) (th : cthread) : nat := (off progs (S t) - length (th_prog th))%nat.
  Definition issued (w : counters * list cthread) (i : nat) : Prop := exists th, nth_error (snd w) (own i) = Some th /\ (i < next (own i) th)%nat.
  Definition pending (w : counters * list cthread) (l : loc) (i : nat) : Prop :=
    exists th d, nth_error (snd w) (own i) = Some th /\ th_add th = Some d /\ l = LCtr d /\ S i = next (own i) th.

  Record thread_ok (L : list access) (t : nat) (th : cthread) (p : list ccall) : Prop := mk_tok {
    tk_prog : exists before, p = before ++ th_prog th;
    tk_add : forall d, th_add th = Some d -> exists i, S i = next t th /\ own i = t /\ nth_error (concat progs) i = Some (Transform d) /\ read_at (EX L) LFlag i = 1 /\ In (ARead LFlag i) L;
    tk_seen : rev (th_seen th) = reads_of (EX L) (off progs t) (next t th - off progs t) }.

  Record inv (w : counters * list cthread) (L : list access) : Prop := mk_inv {
    in_len : length (snd w) = length progs;
    in_thread : forall t th p, nth_error (snd w) t = Some th -> nth_error progs t = Some p -> thread_ok L t th p;
    in_once : NoDup L;
    in_read : forall l i, In (ARead l i) L <-> issued w i /\ loads (EX L) l i = true;
    in_write : forall l i, In (AWrite l i) L <-> issued w i /\ stores (EX L) l i = true /\ ~ pending w l i;
    in_order : forall a b, In a L -> In b L -> program_order progs (who a) (who b) = true -> earlier L a b;
    in_value : forall l, value_after (EX L) l (length (writers l L)) = at_start (fst w) l }.

  Lemma loads_app L M l i : loads (EX M) l i = loads (EX L) l i.
  Proof. reflexivity. Qed.
  Lemma value_app L M l k : (k <= length (writers l L))%nat -> value_after (EX (L ++ M)) l k = value_after (EX L) l k.
  Proof.
    intros H. unfold value_after. cbn [ex_order exec_of ex_start]. rewrite writers_app, firstn_app.
    replace (k - length (writers l L))%nat with 0%nat by lia. rewrite firstn_O, app_nil_r. reflexivity.
  Qed.
  Lemma read_app L M l i : In (ARead l i) L -> read_at (EX (L ++ M)) l i = read_at (EX L) l i.
  Proof. intros H. unfold read_at. cbn [ex_from exec_of]. rewrite (seen_by_app _ _ _ _ H). apply value_app, seen_by_le. Qed.
  Lemma stores_app w L M l i : inv w L -> issued w i -> stores (EX (L ++ M)) l i = stores (EX L) l i.
  Proof.
    intros HI Hi. unfold stores. change (call_at (EX (L ++ M)) i) with (call_at (EX L) i). destruct (call_at (EX L) i) as [[| |d|d|d]|] eqn:Ec; try reflexivity.
    destruct l as [|d']; [reflexivity|]. rewrite read_app; [reflexivity|]. apply (in_read _ _ HI). split; [exact Hi|]. unfold loads. rewrite Ec. reflexivity.
  Qed.
  Lemma earlier_app L M a b : earlier L a b -> earlier (L ++ M) a b.
  Proof. intros (L1 & L2 & L3 & ->). exists L1, L2, (L3 ++ M). rewrite <- app_assoc. cbn [app]. rewrite <- app_assoc. reflexivity. Qed.
  Lemma earlier_new L a e : In a L -> earlier (L ++ [e]) a e.
  Proof. intros H. apply in_split in H as (L1 & L2 & ->). exists L1, L2, []. rewrite <- app_assoc. reflexivity. Qed.

  Lemma order_snoc L e : (forall a b, In a L -> In b L -> program_order progs (who a) (who b) = true -> earlier L a b) ->
    (forall b, In b L -> program_order progs (who e) (who b) = true -> False) ->
    forall a b, In a (L ++ [e]) -> In b (L ++ [e]) -> program_order progs (who a) (who b) = true -> earlier (L ++ [e]) a b.
  Proof.
    intros HO HE a b Ha Hb Hp. apply in_app_or in Ha as [Ha|[<-|[]]]; apply in_app_or in Hb as [Hb|[<-|[]]].
    - apply earlier_app, HO; assumption.
    - apply earlier_new. exact Ha.
    - destruct (HE b Hb Hp).
    - unfold program_order in Hp. rewrite Nat.ltb_irrefl, andb_false_r in Hp. discriminate.
  Qed.

  Lemma next_range w L t th p : inv w L -> nth_error (snd w) t = Some th -> nth_error progs t = Some p ->
    (off progs t <= next t th <= off progs (S t))%nat /\ off progs (S t) = (off progs t + length p)%nat /\
    (length (th_prog th) <= length p)%nat /\ next t th = (off progs t + (length p - length (th_prog th)))%nat.
  Proof.
    intros HI Ht Hp. pose proof (in_thread _ _ HI t th p Ht Hp) as HK. destruct (tk_prog _ _ _ _ HK) as (bf & E).
    pose proof (off_S progs t p Hp) as Eo. assert (length p = (length bf + length (th_prog th))%nat) by (rewrite E at 1; apply app_length). unfold next. rewrite Eo. lia.
  Qed.
  Lemma own_in t p i : nth_error progs t = Some p -> (off progs t <= i < off progs t + length p)%nat -> own i = t.
  Proof. intros Hp H. replace i with (off progs t + (i - off progs t))%nat by lia. apply (owner_off progs t p); [exact Hp|lia]. Qed.
  Lemma call_next w L t th p : inv w L -> nth_error (snd w) t = Some th -> nth_error progs t = Some p -> nth_error (concat progs) (next t th) = hd_error (th_prog th) \/ th_prog th = [].
  Proof.
    intros HI Ht Hp. destruct (next_range _ _ _ _ _ HI Ht Hp) as (H1 & H2 & H3 & H4). destruct (th_prog th) as [|x q] eqn:Eq; [right; reflexivity|left].
    pose proof (in_thread _ _ HI t th p Ht Hp) as HK. destruct (tk_prog _ _ _ _ HK) as (bf & E). rewrite Eq in E.
    rewrite H4. cbn [length] in *. rewrite (call_off progs t p) by (exact Hp || lia). rewrite E, nth_error_app2; rewrite app_length; cbn [length]; [|lia].
    replace (length bf + S (length q) - S (length q) - length bf)%nat with 0%nat by lia. reflexivity.
  Qed.

  Lemma flat_map_in {A B} (f g : A -> list B) l : (forall x, In x l -> f x = g x) -> flat_map f l = flat_map g l.
  Proof. induction l as [|x l IH]; intros H; [reflexivity|]. cbn [flat_map]. rewrite (H x (or_introl eq_refl)), IH; [reflexivity|]. intros y Hy. apply H. right. exact Hy. Qed.

  Lemma reads_app L M w t th p : inv w L -> nth_error (snd w) t = Some th -> nth_error progs t = Some p ->
    reads_of (EX (L ++ M)) (off progs t) (next t th - off progs t) = reads_of (EX L) (off progs t) (next t th - off progs t).
  Proof.
    intros HI Ht Hp. destruct (next_range _ _ _ _ _ HI Ht Hp) as (H1 & H2 & H3 & H4). unfold reads_of. apply flat_map_in. intros i Hi. apply in_seq in Hi.
    cbn [ex_calls exec_of]. destruct (nth_error (concat progs) i) as [[| |d|d|d]|] eqn:Ec; try reflexivity. rewrite read_app; [reflexivity|].
    assert (Eo : own i = t) by (apply (own_in t p i Hp); lia). apply (in_read _ _ HI). split.
    - exists th. rewrite Eo. split; [exact Ht|lia].
    - unfold loads, call_at. cbn [ex_calls exec_of]. rewrite Ec. destruct d; reflexivity.
  Qed.

  Lemma thread_stay w L M t th p : inv w L -> nth_error (snd w) t = Some th -> nth_error progs t = Some p -> thread_ok (L ++ M) t th p.
  Proof.
    intros HI Ht Hp. destruct (in_thread _ _ HI t th p Ht Hp) as [K1 K2 K3]. split; [exact K1| |].
    - intros d Hd. destruct (K2 d Hd) as (i & A1 & A2 & A3 & A4 & A5). exists i. repeat (split; [assumption|]). split; [rewrite read_app; assumption|apply in_or_app; left; exact A5].
    - rewrite (reads_app L M w t th p HI Ht Hp). exact K3.
  Qed.

  Lemma value_read w L l l' i c' : inv w L -> (forall x, at_start c' x = at_start (fst w) x) ->
    value_after (EX (L ++ [ARead l' i])) l (length (writers l (L ++ [ARead l' i]))) = at_start c' l.
  Proof. intros HI HC. rewrite writers_app. cbn [writers]. rewrite app_nil_r, value_app by lia. rewrite (in_value _ _ HI), HC. reflexivity. Qed.
  Lemma value_write w L l l' i c' : inv w L -> at_start c' l' = wrote (EX L) l' i (at_start (fst w) l') -> (forall x, x <> l' -> at_start c' x = at_start (fst w) x) ->
    value_after (EX (L ++ [AWrite l' i])) l (length (writers l (L ++ [AWrite l' i]))) = at_start c' l.
  Proof.
    intros HI HC HO. rewrite writers_app. cbn [writers]. destruct (loc_eqb l l') eqn:El.
    - apply loc_eqb_eq in El. subst l'. rewrite HC, <- (in_value _ _ HI). unfold value_after. cbn [ex_order exec_of ex_start]. rewrite writers_app. cbn [writers]. rewrite loc_eqb_refl.
      rewrite firstn_all, firstn_all, fold_left_app. reflexivity.
    - rewrite app_nil_r, value_app by lia. rewrite (in_value _ _ HI), HO; [reflexivity|]. intros ->. rewrite loc_eqb_refl in El. discriminate.
  Qed.

  (** Accesses of issued calls only. *)
  Lemma who_issued w L a : inv w L -> In a L -> issued w (who a).
  Proof. intros HI H. destruct a as [l i|l i]; [apply (in_read _ _ HI) in H as (H & _)|apply (in_write _ _ HI) in H as (H & _)]; exact H. Qed.

  Lemma prog_of w L t th : inv w L -> nth_error (snd w) t = Some th -> exists p, nth_error progs t = Some p.
  Proof.
    intros HI Ht. destruct (nth_error progs t) as [p|] eqn:Ep; [exists p; reflexivity|]. apply nth_error_None in Ep.
    assert (t < length (snd w))%nat by (apply nth_error_Some; congruence). rewrite (in_len _ _ HI) in *. lia.
  Qed.

  (** A pending [fetch_add] takes place. *)
  Lemma inv_add w L t th d c' : inv w L -> nth_error (snd w) t = Some th -> th_add th = Some d ->
    c' = ct_set d (wadd 32 (ct_get d (fst w)) 1) (fst w) ->
    exists i, inv (c', set_thread t (mk_cthread None (th_prog th) (th_seen th)) (snd w)) (L ++ [AWrite (LCtr d) i]).
  Proof.
    intros HI Ht Hd ->. destruct (prog_of _ _ _ _ HI Ht) as (p & Hp). pose proof (in_thread _ _ HI t th p Ht Hp) as HK.
    destruct (tk_add _ _ _ _ HK d Hd) as (i & En & Eo & Ec & Er & Hr). exists i.
    set (th' := mk_cthread None (th_prog th) (th_seen th)). set (w' := (_, _) : counters * list cthread).
    assert (En' : next t th' = next t th) by reflexivity.
    assert (SAME : forall j, own j <> t -> nth_error (snd w') (own j) = nth_error (snd w) (own j)) by (intros j Hj; apply nth_set_other; congruence).
    assert (HERE : nth_error (snd w') t = Some th') by (eapply nth_set_same; exact Ht).
    assert (ISS : forall j, issued w' j <-> issued w j).
    { intros j. unfold issued. destruct (Nat.eq_dec (own j) t) as [E|E]; [|rewrite (SAME j E); tauto]. rewrite E, HERE, Ht.
      split; intros (x & Ex & Hx); injection Ex as <-; eexists; (split; [reflexivity|]); exact Hx. }
    assert (PEND : forall l j, pending w' l j <-> pending w l j /\ ~ (l = LCtr d /\ j = i)).
    { intros l j. unfold pending. destruct (Nat.eq_dec (own j) t) as [E|E].
      - rewrite E, HERE, Ht. split.
        + intros (x & d' & Ex & Hx & _). injection Ex as <-. discriminate.
        + intros ((x & d' & Ex & Hx & -> & Ej) & Hn). injection Ex as <-. exfalso. apply Hn. split; [congruence|]. rewrite <- En in Ej. lia.
      - rewrite (SAME j E). split; [|tauto]. intros H. split; [exact H|]. intros (_ & ->). congruence. }
    assert (PI : pending w (LCtr d) i) by (exists th, d; rewrite Eo; auto).
    assert (II : issued w i) by (exists th; rewrite Eo; split; [exact Ht|lia]).
    assert (SI : stores (EX L) (LCtr d) i = true).
    { unfold stores. replace (call_at (EX L) i) with (Some (Transform d)) by (symmetry; exact Ec). rewrite Er. destruct d; reflexivity. }
    split.
    - cbn [snd w']. rewrite set_length. apply (in_len _ _ HI).
    - intros u x q Hu Hq. destruct (Nat.eq_dec u t) as [->|Hne].
      + rewrite HERE in Hu. injection Hu as <-. rewrite Hp in Hq. injection Hq as <-. destruct (thread_stay w L [AWrite (LCtr d) i] t th p HI Ht Hp) as [K1 _ K3]. split; [exact K1|discriminate|exact K3].
      + cbn [snd w'] in Hu. rewrite nth_set_other in Hu by congruence. apply (thread_stay w); assumption.
    - apply nodup_snoc; [exact (in_once _ _ HI)|]. intros H. apply (in_write _ _ HI) in H as (_ & _ & H). exact (H PI).
    - intros l j. rewrite ISS, in_app_iff, (in_read _ _ HI). split; [|tauto]. intros [H|[H|[]]]; [exact H|discriminate].
    - intros l j. rewrite ISS, in_app_iff, (in_write _ _ HI), PEND. split.
      + intros [(H1 & H2 & H3)|[H|[]]].
        * split; [exact H1|]. rewrite (stores_app w) by assumption. split; [exact H2|tauto].
        * injection H as <- <-. rewrite (stores_app w) by assumption. split; [exact II|]. split; [exact SI|]. intros (_ & H). apply H. auto.
      + intros (H1 & H2 & H3). rewrite (stores_app w) in H2 by assumption.
        destruct (loc_eqb l (LCtr d) && (j =? i)%nat) eqn:Eb.
        * apply andb_true_iff in Eb as (Ea & Eb). apply loc_eqb_eq in Ea. apply Nat.eqb_eq in Eb. subst. right. left. reflexivity.
        * left. split; [exact H1|]. split; [exact H2|]. intros H. apply H3. split; [exact H|]. intros (-> & ->). rewrite loc_eqb_refl, Nat.eqb_refl in Eb. discriminate.
    - apply order_snoc; [exact (in_order _ _ HI)|]. intros b Hb Hpo. cbn [who] in Hpo. unfold program_order in Hpo. apply andb_true_iff in Hpo as (Ho & Hlt).
      apply Nat.eqb_eq in Ho. apply Nat.ltb_lt in Hlt. destruct (who_issued _ _ _ HI Hb) as (x & Ex & Hx). rewrite <- Ho, Eo in Ex, Hx. rewrite Ht in Ex. injection Ex as <-. lia.
    - intros l. apply (value_write w); [exact HI| |].
      + unfold wrote, call_at. cbn [ex_calls exec_of]. rewrite Ec. destruct d; reflexivity.
      + intros [|d'] Hx; [destruct d; reflexivity|]. destruct d, d'; try reflexivity; congruence.
  Qed.

  (** A call is issued. *)
  Lemma inv_call w L t th x q c' a' seen' e : inv w L -> nth_error (snd w) t = Some th -> th_add th = None -> th_prog th = x :: q ->
    let n := next t th in
    who e = n ->
    (nth_error (concat progs) n = Some x -> ~ issued w n -> ~ In e L ->
      (forall l, loads (EX (L ++ [e])) l n = true <-> e = ARead l n) /\
      (forall l, (stores (EX (L ++ [e])) l n = true /\ ~ (exists d, a' = Some d /\ l = LCtr d)) <-> e = AWrite l n) /\
      (forall l, value_after (EX (L ++ [e])) l (length (writers l (L ++ [e]))) = at_start c' l) /\
      (forall d, a' = Some d -> x = Transform d /\ read_at (EX (L ++ [e])) LFlag n = 1 /\ e = ARead LFlag n) /\
      rev seen' = rev (th_seen th) ++ reads_of (EX (L ++ [e])) n 1) ->
    inv (c', set_thread t (mk_cthread a' q seen') (snd w)) (L ++ [e]).
  Proof.
    intros HI Ht Ha Hq n Hwho HALL. destruct (prog_of _ _ _ _ HI Ht) as (p & Hp). pose proof (in_thread _ _ HI t th p Ht Hp) as HK.
    destruct (next_range _ _ _ _ _ HI Ht Hp) as (R1 & R2 & R3 & R4). fold n in R1, R4. rewrite Hq in R3, R4. cbn [length] in R3, R4.
    assert (Ec : nth_error (concat progs) n = Some x).
    { destruct (call_next _ _ _ _ _ HI Ht Hp) as [E|E]; [rewrite Hq in E; exact E|congruence]. }
    assert (Eo : own n = t) by (apply (own_in t p n Hp); lia).
    assert (NI : ~ issued w n) by (intros (y & Ey & Hy); rewrite Eo, Ht in Ey; rewrite Eo in Hy; injection Ey as <-; fold n in Hy; lia).
    assert (NE : ~ In e L) by (intros H; apply (who_issued _ _ _ HI) in H; rewrite Hwho in H; exact (NI H)).
    destruct (HALL Ec NI NE) as (HL & HS & HV & HA & HR). clear HALL.
    set (th' := mk_cthread a' q seen'). set (w' := (_, _) : counters * list cthread).
    assert (En' : next t th' = S n) by (unfold next, n in *; unfold next; cbn [th_prog th']; rewrite R2 in *; rewrite Hq; cbn [length]; lia).
    assert (SAME : forall j, own j <> t -> nth_error (snd w') (own j) = nth_error (snd w) (own j)) by (intros j Hj; apply nth_set_other; congruence).
    assert (HERE : nth_error (snd w') t = Some th') by (eapply nth_set_same; exact Ht).
    assert (ISS : forall j, issued w' j <-> issued w j \/ j = n).
    { intros j. unfold issued. destruct (Nat.eq_dec (own j) t) as [E|E].
      - rewrite E, HERE, Ht. split.
        + intros (y & Ey & Hy). injection Ey as <-. rewrite En' in Hy. destruct (Nat.eq_dec j n) as [->|Hn]; [right; reflexivity|left]. exists th. split; [reflexivity|]. fold n. lia.
        + intros [(y & Ey & Hy)| ->]; exists th'; rewrite En'; (split; [reflexivity|]); [injection Ey as <-; fold n in Hy|]; lia.
      - rewrite (SAME j E). split; [tauto|]. intros [H| ->]; [exact H|congruence]. }
    assert (PEND : forall l j, pending w' l j <-> pending w l j \/ (j = n /\ exists d, a' = Some d /\ l = LCtr d)).
    { intros l j. unfold pending. destruct (Nat.eq_dec (own j) t) as [E|E].
      - rewrite E, HERE, Ht. split.
        + intros (y & d' & Ey & Hy & -> & Ej). injection Ey as <-. rewrite En' in Ej. right. split; [lia|]. exists d'. auto.
        + intros [(y & d' & Ey & Hy & _)|(-> & d' & Hd & ->)]; [injection Ey as <-; congruence|]. exists th', d'. rewrite En'. auto.
      - rewrite (SAME j E). split; [tauto|]. intros [H|(-> & _)]; [exact H|congruence]. }
    assert (NP : forall l, ~ pending w l n) by (intros l (y & d' & Ey & Hy & _); rewrite Eo, Ht in Ey; injection Ey as <-; congruence).
    split.
    - cbn [snd w']. rewrite set_length. apply (in_len _ _ HI).
    - intros u y r Hu Hr. destruct (Nat.eq_dec u t) as [->|Hne].
      + rewrite HERE in Hu. injection Hu as <-. rewrite Hp in Hr. injection Hr as <-. destruct (thread_stay w L [e] t th p HI Ht Hp) as [K1 _ K3]. split.
        * destruct K1 as (bf & ->). exists (bf ++ [x]). rewrite Hq, <- app_assoc. reflexivity.
        * intros d Hd. destruct (HA d Hd) as (-> & A2 & A3). exists n. split; [symmetry; exact En'|]. split; [exact Eo|]. split; [exact Ec|]. split; [exact A2|]. rewrite A3. apply in_or_app. right. left. reflexivity.
        * cbn [th_seen th']. rewrite HR, K3, En'. fold n. replace (S n - off progs t)%nat with ((n - off progs t) + 1)%nat by lia. unfold reads_of. rewrite seq_app, flat_map_app.
          replace (off progs t + (n - off progs t))%nat with n by lia. reflexivity.
      + cbn [snd w'] in Hu. rewrite nth_set_other in Hu by congruence. apply (thread_stay w); assumption.
    - apply nodup_snoc; [exact (in_once _ _ HI)|exact NE].
    - intros l j. rewrite ISS, in_app_iff, (in_read _ _ HI). change (loads (EX L) l j) with (loads (EX (L ++ [e])) l j). split.
      + intros [(H1 & H2)|[H|[]]]; [auto|]. assert (j = n) as -> by (rewrite <- Hwho, H; reflexivity). split; [right; reflexivity|]. apply HL. exact H.
      + intros ([H| ->] & H2); [auto|]. right. left. apply HL. exact H2.
    - intros l j. rewrite ISS, in_app_iff, (in_write _ _ HI), PEND. split.
      + intros [(H1 & H2 & H3)|[H|[]]].
        * split; [auto|]. rewrite (stores_app w) by assumption. split; [exact H2|]. intros [H| (-> & _)]; [exact (H3 H)|exact (NI H1)].
        * assert (j = n) as -> by (rewrite <- Hwho, H; reflexivity). apply HS in H as (H1 & H2). split; [auto|]. split; [exact H1|]. intros [H|(_ & H)]; [exact (NP l H)|exact (H2 H)].
      + intros ([H1| ->] & H2 & H3).
        * left. rewrite (stores_app w) in H2 by assumption. split; [exact H1|]. split; [exact H2|]. intros H. apply H3. left. exact H.
        * right. left. apply HS. split; [exact H2|]. intros H. apply H3. right. auto.
    - apply order_snoc; [exact (in_order _ _ HI)|]. intros b Hb Hpo. rewrite Hwho in Hpo. unfold program_order in Hpo. apply andb_true_iff in Hpo as (Ho & Hlt).
      apply Nat.eqb_eq in Ho. apply Nat.ltb_lt in Hlt. destruct (who_issued _ _ _ HI Hb) as (y & Ey & Hy). rewrite <- Ho, Eo in Ey, Hy. rewrite Ht in Ey. injection Ey as <-. fold n in Hy. lia.
    - exact HV.
  Qed.

  Lemma reads_one E n : reads_of E n 1 = match nth_error (ex_calls E) n with Some (Get d) => [read_at E (LCtr d) n] | _ => [] end.
  Proof. unfold reads_of. cbn [seq flat_map]. apply app_nil_r. Qed.

  Lemma inv_step w L t : inv w L -> exists M, inv (cwstep w t) (L ++ M).
  Proof.
    intros HI. unfold cwstep. destruct (nth_error (snd w) t) as [th|] eqn:Ht; [|exists []; rewrite app_nil_r; exact HI].
    unfold cstep. destruct (th_add th) as [d|] eqn:Ha.
    { destruct (inv_add w L t th d _ HI Ht Ha eq_refl) as (i & H). eexists. exact H. }
    destruct (th_prog th) as [|x q] eqn:Hq; [exists []; rewrite app_nil_r; exact HI|].
    assert (CALL : forall M n, nth_error (concat progs) n = Some x -> call_at (EX M) n = Some x) by (intros M n H; exact H).
    destruct x as [| |d|d|d].
    - exists [AWrite LFlag (next t th)]. eapply inv_call; try eassumption; [reflexivity|]. intros Ec _ HE.
      split; [|split; [|split; [|split]]].
      + intros l. unfold loads. rewrite (CALL _ _ Ec). split; [destruct l; discriminate|discriminate].
      + intros l. unfold stores. rewrite (CALL _ _ Ec). destruct l; split; try (intros (H & _); discriminate || reflexivity); try discriminate; try reflexivity. intros _. split; [reflexivity|]. intros (d & H & _). discriminate.
      + intros l. apply (value_write w); [exact HI| |].
        * unfold wrote. rewrite (CALL _ _ Ec). reflexivity.
        * intros [|d'] Hx; [congruence|destruct d'; reflexivity].
      + discriminate.
      + rewrite reads_one. cbn [ex_calls exec_of]. rewrite Ec, app_nil_r. reflexivity.
    - exists [AWrite LFlag (next t th)]. eapply inv_call; try eassumption; [reflexivity|]. intros Ec _ HE.
      split; [|split; [|split; [|split]]].
      + intros l. unfold loads. rewrite (CALL _ _ Ec). split; [destruct l; discriminate|discriminate].
      + intros l. unfold stores. rewrite (CALL _ _ Ec). destruct l; split; try (intros (H & _); discriminate || reflexivity); try discriminate; try reflexivity. intros _. split; [reflexivity|]. intros (d & H & _). discriminate.
      + intros l. apply (value_write w); [exact HI| |].
        * unfold wrote. rewrite (CALL _ _ Ec). reflexivity.
        * intros [|d'] Hx; [congruence|destruct d'; reflexivity].
      + discriminate.
      + rewrite reads_one. cbn [ex_calls exec_of]. rewrite Ec, app_nil_r. reflexivity.
    - exists [AWrite (LCtr d) (next t th)]. eapply inv_call; try eassumption; [reflexivity|]. intros Ec _ HE.
      split; [|split; [|split; [|split]]].
      + intros l. unfold loads. rewrite (CALL _ _ Ec). split; [destruct l; discriminate|discriminate].
      + intros l. unfold stores. rewrite (CALL _ _ Ec). destruct l as [|d']; [split; [intros (H & _); discriminate|discriminate]|]. split.
        * intros (H & _). destruct d, d'; try discriminate; reflexivity.
        * intros H. injection H as ->. split; [destruct d'; reflexivity|]. intros (d & H & _). discriminate.
      + intros l. apply (value_write w); [exact HI| |].
        * unfold wrote. rewrite (CALL _ _ Ec). destruct d; reflexivity.
        * intros [|d'] Hx; [destruct d; reflexivity|destruct d, d'; try reflexivity; congruence].
      + discriminate.
      + rewrite reads_one. cbn [ex_calls exec_of]. rewrite Ec, app_nil_r. reflexivity.
    - exists [ARead (LCtr d) (next t th)]. eapply inv_call; try eassumption; [reflexivity|]. intros Ec _ HE.
      split; [|split; [|split; [|split]]].
      + intros l. unfold loads. rewrite (CALL _ _ Ec). destruct l as [|d']; [split; discriminate|]. split.
        * intros H. destruct d, d'; try discriminate; reflexivity.
        * intros H. injection H as ->. destruct d'; reflexivity.
      + intros l. unfold stores. rewrite (CALL _ _ Ec). split; [intros (H & _); destruct l; discriminate|discriminate].
      + intros l. apply (value_read w); [exact HI|reflexivity].
      + discriminate.
      + rewrite reads_one. cbn [ex_calls exec_of]. rewrite Ec. cbn [rev]. f_equal. f_equal. unfold read_at. cbn [ex_from exec_of]. rewrite seen_by_new by exact HE.
        rewrite value_app by lia. rewrite (in_value _ _ HI). reflexivity.
    - exists [ARead LFlag (next t th)]. eapply inv_call; try eassumption; [reflexivity|]. intros Ec _ HE.
      assert (ER : read_at (EX (L ++ [ARead LFlag (next t th)])) LFlag (next t th) = if ct_on (fst w) then 1 else 0).
      { unfold read_at. cbn [ex_from exec_of]. rewrite seen_by_new by exact HE. rewrite value_app by lia. exact (in_value _ _ HI LFlag). }
      split; [|split; [|split; [|split]]].
      + intros l. unfold loads. rewrite (CALL _ _ Ec). destruct l; split; try discriminate; reflexivity.
      + intros l. unfold stores. rewrite (CALL _ _ Ec), ER. split; [|discriminate]. destruct l as [|d']; intros (H & Hn); [discriminate|]. exfalso.
        apply andb_true_iff in H as (H1 & H2). apply Hn. exists d'. destruct (ct_on (fst w)); [|discriminate]. split; [|reflexivity]. destruct d, d'; try discriminate; reflexivity.
      + intros l. apply (value_read w); [exact HI|reflexivity].
      + intros d' H. destruct (ct_on (fst w)) eqn:Eon; [|discriminate]. injection H as ->. split; [reflexivity|]. split; [exact ER|reflexivity].
      + rewrite reads_one. cbn [ex_calls exec_of]. rewrite Ec, app_nil_r. reflexivity.
  Qed.

  Lemma inv_start : inv (c0, cstart progs) [].
  Proof.
    assert (TH : forall t th, nth_error (cstart progs) t = Some th -> exists p, nth_error progs t = Some p /\ th = mk_cthread None p []).
    { intros t th H. unfold cstart in H. rewrite nth_error_map in H. destruct (nth_error progs t) as [p|]; [|discriminate]. injection H as <-. exists p. auto. }
    assert (NX : forall t p, nth_error progs t = Some p -> next t (mk_cthread None p []) = off progs t) by (intros t p H; unfold next; rewrite (off_S _ _ _ H); cbn [th_prog]; lia).
    assert (NI : forall i, ~ issued (c0, cstart progs) i).
    { intros i (th & H & Hi). cbn [snd] in H. destruct (TH _ _ H) as (p & Hp & ->). rewrite (NX _ _ Hp) in Hi. destruct (owner_place progs i p Hp) as (k & E & _). lia. }
    split.
    - apply map_length.
    - intros t th p H Hp. cbn [snd] in H. destruct (TH _ _ H) as (p' & Hp' & ->). rewrite Hp in Hp'. injection Hp' as <-. split.
      + exists []. reflexivity.
      + discriminate.
      + rewrite (NX _ _ Hp), Nat.sub_diag. reflexivity.
    - constructor.
    - intros l i. split; [intros []|]. intros (H & _). destruct (NI i H).
    - intros l i. split; [intros []|]. intros (H & _). destruct (NI i H).
    - intros a b [].
    - intros l. reflexivity.
  Qed.
  Lemma inv_schedule s : forall w L, inv w L -> exists M, inv (cschedule s w) (L ++ M).
  Proof.
    induction s as [|t s IH]; intros w L HI; [exists []; rewrite app_nil_r; exact HI|].
    destruct (inv_step w L t HI) as (M & HM). destruct (IH _ _ HM) as (M' & H). exists (M ++ M'). rewrite app_assoc. exact H.
  Qed.

  (** Every interleaving run to its end is a consistent execution. *)
  Lemma interleaving_consistent s : let w := cschedule s (c0, cstart progs) in
    (forall t th, nth_error (snd w) t = Some th -> th_add th = None /\ th_prog th = []) ->
    exists E, ex_start E = c0 /\ ex_calls E = concat progs /\ ex_hb E = program_order progs /\ consistent E /\
      (forall l, final_value E l = at_start (fst w) l) /\
      (forall t th p, nth_error (snd w) t = Some th -> nth_error progs t = Some p -> rev (th_seen th) = reads_of E (length (concat (firstn t progs))) (length p)).
  Proof.
    intros w HD. destruct (inv_schedule s _ _ inv_start) as (L & HI). cbn [app] in HI. fold w in HI. exists (EX L).
    assert (ALL : forall i, (i < length (concat progs))%nat -> issued w i).
    { intros i Hi. destruct (owner_total progs i Hi) as (p & Hp). destruct (owner_place progs i p Hp) as (k & E & Hk).
      destruct (nth_error (snd w) (own i)) as [th|] eqn:Ht.
      - exists th. split; [exact Ht|]. destruct (HD _ _ Ht) as (_ & Eq). unfold next. rewrite Eq, (off_S _ _ _ Hp). cbn [length]. lia.
      - apply nth_error_None in Ht. rewrite (in_len _ _ HI) in Ht. apply nth_error_None in Ht. congruence. }
    assert (CALL : forall i, call_at (EX L) i <> None -> issued w i) by (intros i H; apply ALL; apply nth_error_Some; exact H).
    assert (NP : forall l i, ~ pending w l i) by (intros l i (th & d & Ht & Hd & _); destruct (HD _ _ Ht) as (E & _); congruence).
    split; [reflexivity|]. split; [reflexivity|]. split; [reflexivity|]. split; [|split].
    - apply trace_consistent.
      + intros i. unfold program_order. rewrite Nat.ltb_irrefl. apply andb_false_r.
      + intros i j k. unfold program_order. intros H1 H2. apply andb_true_iff in H1 as (A1 & A2), H2 as (B1 & B2). apply Nat.eqb_eq in A1, B1. apply Nat.ltb_lt in A2, B2.
        rewrite A1, B1, Nat.eqb_refl. apply Nat.ltb_lt. lia.
      + exact (in_once _ _ HI).
      + intros l i. rewrite (in_read _ _ HI). split; [tauto|]. intros H. split; [|exact H]. apply CALL. intros E. unfold loads in H. rewrite E in H. discriminate.
      + intros l i. rewrite (in_write _ _ HI). split; [tauto|]. intros H. split; [|split; [exact H|apply NP]]. apply CALL. intros E. unfold stores in H. rewrite E in H. discriminate.
      + exact (in_order _ _ HI).
    - intros l. unfold final_value. cbn [ex_order exec_of]. apply (in_value _ _ HI).
    - intros t th p Ht Hp. destruct (in_thread _ _ HI t th p Ht Hp) as [_ _ K]. rewrite K. destruct (HD _ _ Ht) as (_ & Eq). unfold next. rewrite Eq, (off_S _ _ _ Hp). cbn [length].
      unfold off. f_equal. lia.
  Qed.
End T.
