(** The table cache. *)
From Coq Require Import ZArith List Arith Bool Lia Znumtheory Permutation.
From Verif Require Import Spec.Basic Spec.ConcreteNtt Model.Base Model.Field Model.NTT Model.Concrete Model.Poly Model.Cache.
From Verif Require Import Proofs.Arith Proofs.FieldProofs Proofs.NTTProofs Proofs.NTTTableProofs Proofs.ConcreteProofs.
Import ListNotations.
Local Open Scope Z_scope.

(** * Sequential histories *)

Lemma map_get_insert k T m k' : map_get (map_insert k T m) k' = if (k =? k')%nat then Some T else map_get m k'.
Proof.
  unfold map_insert. cbn [map_get]. destruct (Nat.eqb_spec k k') as [|Hne]; [reflexivity|].
  induction m as [|[j T'] m IH]; [reflexivity|]. cbn [filter fst]. destruct (Nat.eqb_spec j k) as [->|Hj]; cbn [negb map_get].
  - destruct (Nat.eqb_spec k k'); [contradiction|exact IH].
  - destruct (j =? k')%nat; [reflexivity|exact IH].
Qed.

Lemma map_get_key m k : existsb (Nat.eqb k) (map fst m) = true <-> exists T, map_get m k = Some T.
Proof.
  induction m as [|[j T] m IH]; cbn [map existsb fst map_get].
  - split; [discriminate|intros (T & H); discriminate].
  - rewrite (Nat.eqb_sym k j). destruct (j =? k)%nat; cbn [orb]; [split; [eauto|reflexivity]|exact IH].
Qed.

Lemma fill_spec gen ks : forall m m' r, fill gen ks m = (m', r) ->
  (forall k T, ~ In k ks -> map_get m k = Some T -> map_get m' k = Some T) /\
  (forall k T, map_get m' k = Some T -> map_get m k = Some T \/ gen k = Some (Ok T)) /\
  (forall k T, map_get m k = Some T -> exists T', map_get m' k = Some T') /\
  (r = Some (Ok tt) -> forall k, In k ks -> exists T, map_get m' k = Some T) /\
  ((forall k, In k ks -> gen k <> None) -> r <> None).
Proof.
  induction ks as [|k ks IH]; intros m m' r E; cbn [fill] in E.
  - injection E as <- <-. split; [auto|]. split; [auto|]. split; [eauto|]. split; [intros _ k []|discriminate].
  - destruct (gen k) as [[T|]|] eqn:G.
    + destruct (IH _ _ _ E) as (H1 & H2 & H3 & H4 & H5). split; [|split; [|split; [|split]]].
      * intros j T' Hn Hm. apply H1; [intros Hi; apply Hn; right; exact Hi|]. rewrite map_get_insert.
        destruct (Nat.eqb_spec k j) as [->|]; [exfalso; apply Hn; left; reflexivity|exact Hm].
      * intros j T' Hm. destruct (H2 j T' Hm) as [Hi|Hg]; [|right; exact Hg]. rewrite map_get_insert in Hi.
        destruct (Nat.eqb_spec k j) as [->|]; [right; congruence|left; exact Hi].
      * intros j T' Hm. destruct (Nat.eqb_spec k j) as [->|Hne].
        -- apply (H3 j T). rewrite map_get_insert, Nat.eqb_refl. reflexivity.
        -- apply (H3 j T'). rewrite map_get_insert. destruct (Nat.eqb_spec k j); [contradiction|exact Hm].
      * intros Hr j [->|Hj]; [|apply H4; assumption]. apply (H3 j T). rewrite map_get_insert, Nat.eqb_refl. reflexivity.
      * intros Hg. apply H5. intros j Hj. apply Hg. right. exact Hj.
    + injection E as <- <-. split; [auto|]. split; [auto|]. split; [eauto|]. split; discriminate.
    + injection E as <- <-. split; [auto|]. split; [auto|]. split; [eauto|]. split; [discriminate|].
      intros Hg. exfalso. apply (Hg k); [left; reflexivity|exact G].
Qed.


Definition good (F : field) (ext : option plans) (st : cache) : Prop := forall k T, cached st k = Some T -> is_table F ext k T.

Lemma good_init F ext : good F ext cache_init.
Proof. intros k T H. discriminate. Qed.

Lemma init_spec F ext draws order ks st st' r : draws_ok F draws order -> init_ntt_table F ext draws order ks st = (st', r) ->
  (good F ext st -> good F ext st') /\ (forall k T, cached st k = Some T -> cached st' k = Some T) /\
  (r = Some (Ok tt) -> forall k, In k ks -> exists T, cached st' k = Some T) /\
  (c_poison st = false -> (forall k d, In k ks -> (forall i, 2 <= d i <= fp F - 1) -> generate_table F ext d k <> None) -> r <> None /\ c_poison st' = false).
Proof.
  intros (Hd & Ho) E. unfold init_ntt_table in E. destruct (c_poison st) eqn:Hpo.
  { injection E as <- <-. split; [auto|]. split; [auto|]. split; discriminate. }
  destruct st as [po [m|]]; cbn [c_cell c_poison] in *.
  - destruct (fill _ (order _) m) as [m' r'] eqn:Ef. injection E as <- <-.
    destruct (fill_spec _ _ _ _ _ Ef) as (H1 & H2 & H3 & H4 & H5). unfold good, cached in *. cbn [c_cell c_poison] in *.
    set (miss := filter _ _) in *.
    assert (Hin : forall k, In k (order miss) <-> In k ks /\ existsb (Nat.eqb k) (map fst m) = false).
    { intros k. split.
      - intros Hi. apply (Permutation_in _ (Ho miss)) in Hi. apply filter_In in Hi. destruct Hi as (Hi & Hb).
        apply nodup_In in Hi. apply negb_true_iff in Hb. auto.
      - intros (Hi & Hb). apply (Permutation_in _ (Permutation_sym (Ho miss))). apply filter_In. rewrite nodup_In, Hb. auto. }
    split; [|split; [|split]].
    + intros Hg k T Hk. destruct (H2 k T Hk) as [Hm|Hgen]; [apply Hg; exact Hm|]. exists (draws k). split; [apply Hd|exact Hgen].
    + intros k T Hk. apply H1; [|exact Hk]. intros Hi. apply Hin in Hi. destruct Hi as (_ & Hb).
      assert (existsb (Nat.eqb k) (map fst m) = true) by (apply map_get_key; eauto). congruence.
    + intros Hr k Hk. destruct (existsb (Nat.eqb k) (map fst m)) eqn:Hb.
      * apply map_get_key in Hb. destruct Hb as (T & HT). apply (H3 k T HT).
      * apply H4; [exact Hr|]. apply Hin. auto.
    + intros _ Hg. assert (Hr : r' <> None).
      { apply H5. intros k Hk. apply Hin in Hk. apply Hg; [apply Hk|apply Hd]. }
      split; [exact Hr|]. destruct r'; [reflexivity|contradiction].
  - destruct (fill _ (order _) []) as [m' r'] eqn:Ef.
    destruct (fill_spec _ _ _ _ _ Ef) as (H1 & H2 & H3 & H4 & H5).
    assert (Hin : forall k, In k (order (nodup Nat.eq_dec ks)) <-> In k ks).
    { intros k. split; intros Hi.
      - apply (Permutation_in _ (Ho _)) in Hi. apply nodup_In in Hi. exact Hi.
      - apply (Permutation_in _ (Permutation_sym (Ho _))). apply nodup_In. exact Hi. }
    destruct r' as [[[]|]|]; injection E as <- <-; unfold good, cached in *; cbn [c_cell c_poison] in *.
    + split; [|split; [|split]].
      * intros _ k T Hk. destruct (H2 k T Hk) as [Hm|Hgen]; [discriminate|]. exists (draws k). split; [apply Hd|exact Hgen].
      * discriminate.
      * intros _ k Hk. apply H4; [reflexivity|]. apply Hin. exact Hk.
      * intros _ _. split; [discriminate|reflexivity].
    + split; [auto|]. split; [auto|]. split; [discriminate|]. intros H _. split; [discriminate|exact Hpo].
    + split; [auto|]. split; [discriminate|]. split; [discriminate|].
      intros _ Hg. exfalso. apply H5; [|reflexivity]. intros k Hk. apply Hin in Hk. apply Hg; [exact Hk|apply Hd].
Qed.

Lemma get_spec F ext draws order k st st' r : draws_ok F draws order -> get_ntt_table F ext draws order k st = (st', r) ->
  (good F ext st -> good F ext st') /\ (forall j T, cached st j = Some T -> cached st' j = Some T) /\
  (forall T, r = Some (Ok T) -> cached st' k = Some T) /\
  (forall T, cached st k = Some T -> r = Some (Ok T)) /\
  (c_poison st = false -> (forall d, (forall i, 2 <= d i <= fp F - 1) -> generate_table F ext d k <> None) -> r <> None /\ c_poison st' = false).
Proof.
  intros Hok E. unfold get_ntt_table in E. destruct (cached st k) as [T|] eqn:Hc.
  - injection E as <- <-. split; [auto|]. split; [auto|]. split; [congruence|]. split; [congruence|].
    intros H _. split; [discriminate|exact H].
  - destruct (init_ntt_table F ext draws order [k] st) as [s' r'] eqn:Ei.
    destruct (init_spec F ext draws order [k] st s' r' Hok Ei) as (H1 & H2 & H3 & H4).
    destruct r' as [[[]|]|]; injection E as <- <-.
    + destruct (H3 eq_refl k (or_introl eq_refl)) as (T & HT). rewrite HT. split; [exact H1|]. split; [exact H2|].
      split; [congruence|]. split; [congruence|]. intros Hp Hg. split; [discriminate|].
      apply H4; [exact Hp|]. intros j d [<-|[]]. apply Hg.
    + split; [exact H1|]. split; [exact H2|]. split; [discriminate|]. split; [discriminate|]. intros Hp Hg. split; [discriminate|].
      apply H4; [exact Hp|]. intros j d [<-|[]]. apply Hg.
    + split; [exact H1|]. split; [exact H2|]. split; [discriminate|]. split; [discriminate|]. intros Hp Hg. exfalso.
      apply H4; [exact Hp| |reflexivity]. intros j d [<-|[]]. apply Hg.
Qed.

Lemma call_spec F ext c st : call_ok F c ->
  (good F ext st -> good F ext (fst (do_call F ext c st))) /\
  (forall j T, cached st j = Some T -> cached (fst (do_call F ext c st)) j = Some T).
Proof.
  destruct c as [k d o|ks d o]; cbn [do_call call_ok]; intros H.
  - destruct (get_ntt_table F ext d o k st) as [st' r] eqn:E. cbn [fst]. pose proof (get_spec F ext d o k st st' r H E). tauto.
  - destruct (init_ntt_table F ext d o ks st) as [st' r] eqn:E. cbn [fst]. pose proof (init_spec F ext d o ks st st' r H E). tauto.
Qed.

Lemma run_fst_cons F ext c h st : fst (run F ext (c :: h) st) = fst (run F ext h (fst (do_call F ext c st))).
Proof. cbn [run]. destruct (do_call F ext c st) as [st' a]. cbn [fst]. destruct (run F ext h st') as [st'' l]. reflexivity. Qed.
Lemma run_fst_app F ext h1 h2 st : fst (run F ext (h1 ++ h2) st) = fst (run F ext h2 (fst (run F ext h1 st))).
Proof.
  revert st. induction h1 as [|c h1 IH]; intros st; [reflexivity|]. cbn [app]. rewrite !run_fst_cons. apply IH.
Qed.

Lemma run_spec F ext h : Forall (call_ok F) h -> forall st,
  (good F ext st -> good F ext (fst (run F ext h st))) /\
  (forall j T, cached st j = Some T -> cached (fst (run F ext h st)) j = Some T).
Proof.
  induction 1 as [|c h Hc _ IH]; intros st; [cbn; auto|]. rewrite run_fst_cons.
  destruct (call_spec F ext c st Hc) as (H1 & H2). destruct (IH (fst (do_call F ext c st))) as (H3 & H4).
  split; [auto|]. intros j T HT. apply H4, H2, HT.
Qed.


Lemma right_table F ext h k d o T : Forall (call_ok F) h -> draws_ok F d o ->
  answer_after F ext h (Get k d o) = GetAnswer k (Some (Ok T)) -> is_table F ext k T.
Proof.
  intros Hh Hd. unfold answer_after. cbn [do_call]. destruct (get_ntt_table F ext d o k _) as [st' r] eqn:E. cbn [snd].
  intros H. injection H as ->. destruct (get_spec F ext d o k _ st' _ Hd E) as (H1 & _ & H3 & _).
  apply H1; [|apply H3; reflexivity]. apply run_spec; [exact Hh|apply good_init].
Qed.

Lemma repeat_get F ext h h' k d o d' o' T : Forall (call_ok F) h -> Forall (call_ok F) h' -> draws_ok F d o -> draws_ok F d' o' ->
  answer_after F ext h (Get k d o) = GetAnswer k (Some (Ok T)) ->
  answer_after F ext (h ++ Get k d o :: h') (Get k d' o') = GetAnswer k (Some (Ok T)).
Proof.
  intros Hh Hh' Hd Hd'. unfold answer_after. rewrite run_fst_app, run_fst_cons. cbn [do_call].
  destruct (get_ntt_table F ext d o k _) as [st' r] eqn:E. cbn [snd fst]. intros H. injection H as ->.
  destruct (get_spec F ext d o k _ st' _ Hd E) as (_ & _ & H3 & _).
  destruct (get_ntt_table F ext d' o' k _) as [st'' r'] eqn:E'. cbn [snd].
  destruct (get_spec F ext d' o' k _ st'' r' Hd' E') as (_ & _ & _ & H4 & _).
  rewrite (H4 T); [reflexivity|]. apply run_spec; [exact Hh'|]. apply H3. reflexivity.
Qed.

Lemma init_then_get F ext h h' ks k d o d' o' : Forall (call_ok F) h -> Forall (call_ok F) h' -> draws_ok F d o -> draws_ok F d' o' ->
  answer_after F ext h (Init ks d o) = InitAnswer ks (Some (Ok tt)) -> In k ks ->
  exists T, answer_after F ext (h ++ Init ks d o :: h') (Get k d' o') = GetAnswer k (Some (Ok T)).
Proof.
  intros Hh Hh' Hd Hd'. unfold answer_after. rewrite run_fst_app, run_fst_cons. cbn [do_call].
  destruct (init_ntt_table F ext d o ks _) as [st' r] eqn:E. cbn [snd fst]. intros H Hk. injection H as ->.
  destruct (init_spec F ext d o ks _ st' _ Hd E) as (_ & _ & H3 & _). destruct (H3 eq_refl k Hk) as (T & HT).
  destruct (get_ntt_table F ext d' o' k _) as [st'' r'] eqn:E'. cbn [snd].
  destruct (get_spec F ext d' o' k _ st'' r' Hd' E') as (_ & _ & _ & H4 & _).
  exists T. rewrite (H4 T); [reflexivity|]. apply run_spec; [exact Hh'|exact HT].
Qed.

Lemma fits_gen F ext k d : fok F -> prime (fp F) -> build_ok ext -> fits F k -> (forall i, 2 <= d i <= fp F - 1) ->
  generate_table F ext d k <> None.
Proof.
  intros Hok Hp Hb (Hk & Hf) Hd. unfold generate_table. destruct (backend F ext) as [try_new|] eqn:Eb.
  - unfold backend in Eb. destruct ((fw F =? 32) || (fw F =? 64)); [|discriminate]. subst ext. cbn [build_ok] in Hb.
    unfold concrete_new, ushl. destruct (Z.ltb_spec (Z.of_nat k) 64) as [Hk'|]; [|lia]. cbn [bind].
    rewrite Z.mul_1_l, Z.mod_small by (split; [apply Z.pow_nonneg; lia|apply Z.pow_lt_mono_r; lia]).
    destruct (try_new (2 ^ Z.of_nat k) (fp F)) as [P|] eqn:EP; [|discriminate].
    pose proof (pd_root_range _ _ _ (Hb _ k P Hp EP)) as Hr. unfold f_new.
    destruct (Z.ltb_spec (pl_root P) (fp F)); [discriminate|lia].
  - rewrite <- pow2_nat in Hf. destruct (generate_spec F Hok Hp d k Hd Hk Hf) as (r & -> & _). discriminate.
Qed.
Lemma table_det F ext d d' k T T' : fok F -> prime (fp F) -> (forall i, 2 <= d i <= fp F - 1) ->
  (forall i, 2 <= d' i <= fp F - 1) -> generate_table F ext d k = Some (Ok T) ->
  generate_table F ext d' k = Some (Ok T') -> T = T'.
Proof.
  intros Hok Hp Hd Hd'. unfold generate_table. destruct (backend F ext) as [try_new|].
  - intros -> [= ->]. reflexivity.
  - intros E E'. apply bind_some in E. destruct E as ([t|] & E & [= <-]).
    apply bind_some in E'. destruct E' as ([t'|] & E' & [= <-]). f_equal.
    exact (generate_det F Hok Hp d d' k t t' Hd Hd' E E').
Qed.
Lemma no_panic F ext h : fok F -> prime (fp F) -> build_ok ext -> Forall (call_ok F) h -> Forall (call_fits F) h ->
  forall st, c_poison st = false -> Forall answer_ok (snd (run F ext h st)).
Proof.
  intros Hok Hp Hb Hh Hf. induction h as [|c h IH]; intros st Hst; [constructor|].
  inv Hh. inv Hf. cbn [run]. destruct (do_call F ext c st) as [st' a] eqn:E. specialize (IH H2 H4 st').
  assert (answer_ok a /\ c_poison st' = false) as (Ha & Hp').
  { destruct c as [k d o|ks d o]; cbn [do_call call_ok call_fits] in *.
    - destruct (get_ntt_table F ext d o k st) as [s r] eqn:Eg. injection E as <- <-.
      apply (get_spec F ext d o k st s r H1 Eg); [exact Hst|]. intros d' Hd'. apply fits_gen; assumption.
    - destruct (init_ntt_table F ext d o ks st) as [s r] eqn:Eg. injection E as <- <-.
      apply (init_spec F ext d o ks st s r H1 Eg); [exact Hst|]. intros k d' Hk Hd'. apply fits_gen; try assumption.
      rewrite Forall_forall in H3. apply H3. exact Hk. }
  specialize (IH Hp'). destruct (run F ext h st') as [st'' l]. cbn [snd] in *. constructor; assumption.
Qed.

(** The cache of any history provides the lookup the polynomial operations need. *)
Lemma cache_serves F ext h k T : build_ok ext -> Forall (call_ok F) h -> cached (fst (run F ext h cache_init)) k = Some T ->
  serves F (cached (fst (run F ext h cache_init))) k.
Proof.
  intros Hb Hh HT. destruct (run_spec F ext h Hh cache_init) as (Hg & _).
  destruct (Hg (good_init F ext) k T HT) as (d & Hd & E). exists ext, d, T. auto.
Qed.

(** * Interleavings *)

Lemma upd_nth {A} (l : list A) i x l' j : upd l i x = Some l' ->
  nth_error l' j = if (i =? j)%nat then Some x else nth_error l j.
Proof.
  revert i l' j. induction l as [|y l IH]; intros [|i] l' j E; cbn [upd] in E; try discriminate.
  - injection E as <-. destruct j; reflexivity.
  - apply bind_some in E. destruct E as (r & Er & E). injection E as <-. destruct j as [|j]; [reflexivity|].
    cbn [nth_error Nat.eqb]. apply (IH i r j Er).
Qed.

Lemma wstep_spec i w w' : wstep i w = Some w' -> exists t t',
  nth_error (w_threads w) i = Some t /\ tstep (w_cell w) (w_lock w) t = Some (w_cell w', w_lock w', t') /\
  forall j, nth_error (w_threads w') j = if (i =? j)%nat then Some t' else nth_error (w_threads w) j.
Proof.
  unfold wstep. intros E. apply bind_some in E. destruct E as (t & Et & E). apply bind_some in E.
  destruct E as ([[cell lock] t'] & Es & E). apply bind_some in E. destruct E as (ts & Eu & E). injection E as <-.
  exists t, t'. split; [exact Et|]. split; [exact Es|]. intros j. apply upd_nth. exact Eu.
Qed.

Lemma sched_inv (P : world -> Prop) s : (forall i w w', P w -> wstep i w = Some w' -> P w') ->
  forall w w', P w -> sched s w = Some w' -> P w'.
Proof.
  intros Hstep. induction s as [|i s IH]; intros w w' Hw E; cbn [sched] in E; [congruence|].
  apply bind_some in E. destruct E as (w1 & E1 & E). apply (IH w1); [eapply Hstep; eassumption|exact E].
Qed.

(** Mutual exclusion. *)
Definition excl (w : world) : Prop :=
  (forall i t, nth_error (w_threads w) i = Some t -> locked_pc t -> w_lock w = true) /\
  (forall i j t u, nth_error (w_threads w) i = Some t -> nth_error (w_threads w) j = Some u ->
     locked_pc t -> locked_pc u -> i = j).

Lemma tstep_lock cell lock t cell' lock' t' : tstep cell lock t = Some (cell', lock', t') ->
  (locked_pc t -> lock = true) ->
  (locked_pc t' -> lock' = true /\ (locked_pc t \/ lock = false)) /\
  (~ locked_pc t -> ~ locked_pc t' -> lock' = lock) /\ (locked_pc t -> ~ locked_pc t' -> lock' = false).
Proof.
  unfold tstep, locked_pc. intros E Hl.
  destruct (t_pc t) as [|k|ks back|todo fresh back|k todo back|k].
  - destruct (t_prog t) as [|[k|ks] prog]; [discriminate| |].
    + destruct cell; injection E as <- <- <-; cbn [t_pc]; tauto.
    + injection E as <- <- <-; cbn [t_pc]; tauto.
  - destruct cell as [m|]; [|discriminate]. destruct (has k m); injection E as <- <- <-; cbn [t_pc]; tauto.
  - destruct lock; [discriminate|]. destruct cell; injection E as <- <- <-; cbn [t_pc]; tauto.
  - specialize (Hl I). destruct todo as [|k todo].
    + injection E as <- <- <-. destruct back; cbn [t_pc]; tauto.
    + destruct fresh; injection E as <- <- <-; cbn [t_pc]; tauto.
  - specialize (Hl I). destruct cell as [m|]; [|discriminate]. injection E as <- <- <-. cbn [t_pc]; tauto.
  - injection E as <- <- <-. cbn [t_pc]; tauto.
Qed.

Lemma locked_dec t : locked_pc t \/ ~ locked_pc t.
Proof. unfold locked_pc. destruct (t_pc t); tauto. Qed.

Lemma excl_step i w w' : excl w -> wstep i w = Some w' -> excl w'.
Proof.
  intros (H1 & H2) E. destruct (wstep_spec i w w' E) as (t & t' & Et & Es & Hn).
  destruct (tstep_lock _ _ _ _ _ _ Es (H1 i t Et)) as (L1 & L2 & L3).
  assert (Hothers : forall j u, j <> i -> nth_error (w_threads w') j = Some u -> nth_error (w_threads w) j = Some u).
  { intros j u Hj Hu. rewrite Hn in Hu. destruct (Nat.eqb_spec i j); [congruence|exact Hu]. }
  assert (Hself : forall u, nth_error (w_threads w') i = Some u -> u = t').
  { intros u Hu. rewrite Hn, Nat.eqb_refl in Hu. congruence. }
  assert (Hno : locked_pc t' -> forall j u, j <> i -> nth_error (w_threads w') j = Some u -> locked_pc u -> False).
  { intros Ht' j u Hj Hu Lu. apply Hothers in Hu; [|exact Hj]. destruct (L1 Ht') as (_ & [Lt|Hf]).
    - apply Hj. apply (H2 j i u t Hu Et Lu Lt).
    - specialize (H1 j u Hu Lu). congruence. }
  split.
  - intros j u Hu Lu. destruct (Nat.eq_dec j i) as [->|Hj].
    + apply Hself in Hu. subst u. apply L1. exact Lu.
    + destruct (locked_dec t') as [Ht'|Ht']; [exfalso; eapply Hno; eassumption|].
      apply Hothers in Hu; [|exact Hj]. destruct (locked_dec t) as [Lt|Lt].
      * exfalso. apply Hj. apply (H2 j i u t Hu Et Lu Lt).
      * rewrite (L2 Lt Ht'). apply (H1 j u Hu Lu).
  - intros j l u v Hu Hv Lu Lv. destruct (Nat.eq_dec j i) as [->|Hj], (Nat.eq_dec l i) as [->|Hl].
    + reflexivity.
    + exfalso. apply Hself in Hu. subst u. eapply Hno; eassumption.
    + exfalso. apply Hself in Hv. subst v. eapply Hno; eassumption.
    + apply (H2 j l u v); auto.
Qed.

Lemma excl_start cell progs : excl (start cell progs).
Proof.
  assert (H : forall i t, nth_error (w_threads (start cell progs)) i = Some t -> ~ locked_pc t).
  { intros i t Ht. cbn in Ht. apply nth_error_In in Ht. apply in_map_iff in Ht. destruct Ht as (p & <- & _). cbn. tauto. }
  split; [intros i t Ht Lt; exfalso; eapply H; eassumption|].
  intros i j t u Ht _ Lt _. exfalso. eapply H; eassumption.
Qed.

Lemma writers_exclusive cell progs s w : sched s (start cell progs) = Some w -> excl w.
Proof. apply (sched_inv excl); [exact excl_step|apply excl_start]. Qed.

(** No insertion when everything asked for is already there. *)
Definition calm_thread (m : list nat) (t : thread) : Prop :=
  Forall (calls_in m) (t_prog t) /\
  match t_pc t with
  | PIdle | PReread _ => True
  | PRead k => In k m
  | PLock ks _ => incl ks m
  | PFill todo fresh _ => todo = [] /\ fresh = None
  | PInsert _ _ _ => False
  end.
Definition calm (m : list nat) (w : world) : Prop :=
  w_cell w = Some m /\ forall i t, nth_error (w_threads w) i = Some t -> calm_thread m t.

Lemma has_In k m : has k m = true <-> In k m.
Proof.
  unfold has. rewrite existsb_exists. split; [intros (x & Hx & E); apply Nat.eqb_eq in E; congruence|].
  intros H. exists k. split; [exact H|apply Nat.eqb_refl].
Qed.

Lemma filter_none (m ks : list nat) : incl ks m -> filter (fun k => negb (has k m)) ks = [].
Proof.
  induction ks as [|k ks IH]; intros H; [reflexivity|]. cbn [filter].
  assert (E : has k m = true) by (apply has_In, H; left; reflexivity). rewrite E. cbn [negb]. apply IH.
  intros x Hx. apply H. right. exact Hx.
Qed.

Lemma calm_step m i w w' : calm m w -> wstep i w = Some w' -> calm m w'.
Proof.
  intros (Hc & Ht) E. destruct (wstep_spec i w w' E) as (t & t' & Et & Es & Hn).
  destruct (Ht i t Et) as (Hprog & Hpc). rewrite Hc in Es.
  assert (w_cell w' = Some m /\ calm_thread m t') as (Hc' & Ht').
  { revert Es Hpc. unfold tstep. destruct (t_pc t) as [|k|ks back|todo fresh back|k todo back|k]; intros Es Hpc.
    - destruct (t_prog t) as [|[k|ks] prog]; [discriminate| |]; inv Hprog; injection Es as Ec _ <-; split; auto; split; auto.
    - rewrite (proj2 (has_In k m) Hpc) in Es. injection Es as Ec _ <-. split; auto. split; cbn; auto.
    - destruct (w_lock w); [discriminate|]. injection Es as Ec _ <-. split; auto. split; cbn; auto.
      split; [|reflexivity]. apply filter_none. intros x Hx. apply nodup_In in Hx. apply Hpc. exact Hx.
    - destruct Hpc as (-> & ->). injection Es as Ec _ <-. split; auto. split; cbn; auto. destruct back; exact I.
    - contradiction.
    - injection Es as Ec _ <-. split; auto. split; cbn; auto. }
  split; [exact Hc'|]. intros j u Hu. rewrite Hn in Hu. destruct (Nat.eqb_spec i j); [congruence|]. apply (Ht j u Hu).
Qed.

Lemma cached_no_race m progs s w : Forall (Forall (calls_in m)) progs ->
  sched s (start (Some m) progs) = Some w -> ~ race w.
Proof.
  intros Hp E. assert (Hc : calm m w).
  { revert E. apply (sched_inv (calm m)); [apply calm_step|]. split; [reflexivity|]. intros i t Ht. cbn in Ht.
    apply nth_error_In in Ht. apply in_map_iff in Ht. destruct Ht as (p & <- & Hin). split; cbn; [|exact I].
    rewrite Forall_forall in Hp. apply Hp. exact Hin. }
  intros (i & j & t & u & _ & Ht & _ & (k & todo & back & Em) & _).
  destruct Hc as (_ & Hc). destruct (Hc i t Ht) as (_ & Hpc). rewrite Em in Hpc. exact Hpc.
Qed.

(** A process that only ever uses one size. *)
Definition one_thread (k : nat) (cell : option (list nat)) (t : thread) : Prop :=
  Forall (fun c => c = TGet k) (t_prog t) /\
  match t_pc t with
  | PIdle | PReread _ => True
  | PRead j => j = k
  | PLock ks _ => ks = [k]
  | PFill todo None _ => todo = [] /\ cell <> None
  | PFill todo (Some m) _ => In k m \/ todo = [k]
  | PInsert _ _ _ => False
  end.
Definition one_cell (k : nat) (cell : option (list nat)) : Prop :=
  match cell with Some m => In k m | None => True end.
Definition one (k : nat) (w : world) : Prop :=
  one_cell k (w_cell w) /\ forall i t, nth_error (w_threads w) i = Some t -> one_thread k (w_cell w) t.

Lemma one_mono k c c' t : one_thread k c t -> (c <> None -> c' <> None) -> one_thread k c' t.
Proof.
  intros (H1 & H2) H. split; [exact H1|]. destruct (t_pc t) as [| | |todo [|] back| |]; auto.
  destruct H2 as (H2 & H3). split; auto.
Qed.

Lemma one_step k i w w' : one k w -> wstep i w = Some w' -> one k w'.
Proof.
  intros (Hc & Ht) E. destruct (wstep_spec i w w' E) as (t & t' & Et & Es & Hn).
  destruct (Ht i t Et) as (Hprog & Hpc).
  assert (one_cell k (w_cell w') /\ (w_cell w <> None -> w_cell w' <> None) /\ one_thread k (w_cell w') t') as (Hc' & Hm & Ht').
  { revert Es Hpc. unfold tstep. destruct (t_pc t) as [|j|ks back|todo fresh back|j todo back|j]; intros Es Hpc.
    - destruct (t_prog t) as [|[j|ks] prog]; [discriminate| |]; inv Hprog; [|discriminate].
      assert (j = k) by congruence. subst j.
      destruct (w_cell w) as [m|]; injection Es as Ec _ <-; rewrite <- Ec; split; auto; split; try congruence; split; cbn; auto.
    - destruct (w_cell w) as [m|]; [|discriminate]. subst j. rewrite (proj2 (has_In k m) Hc) in Es.
      injection Es as Ec _ <-. rewrite <- Ec. split; auto. split; [congruence|]. split; cbn; auto.
    - destruct (w_lock w); [discriminate|]. subst ks. destruct (w_cell w) as [m|]; injection Es as Ec _ <-; rewrite <- Ec;
        (split; [auto|]); (split; [congruence|]); split; cbn; auto.
      cbn in Hc. rewrite (proj2 (has_In k m) Hc). cbn. split; [reflexivity|discriminate].
    - destruct fresh as [m|].
      + destruct todo as [|j todo]; injection Es as Ec _ <-; rewrite <- Ec.
        * destruct Hpc as [Hpc|]; [|discriminate]. split; [exact Hpc|]. split; [congruence|]. split; cbn; auto. destruct back; exact I.
        * split; [exact Hc|]. split; [auto|]. split; cbn; auto. destruct Hpc as [Hpc|Hpc]; [left; right; exact Hpc|].
          injection Hpc as -> ->. left. left. reflexivity.
      + destruct Hpc as (-> & Hne). injection Es as Ec _ <-. rewrite <- Ec. split; [exact Hc|]. split; [auto|]. split; cbn; auto. destruct back; exact I.
    - contradiction.
    - injection Es as Ec _ <-. rewrite <- Ec. split; [exact Hc|]. split; [auto|]. split; cbn; auto. }
  split; [exact Hc'|]. intros j u Hu. rewrite Hn in Hu. destruct (Nat.eqb_spec i j); [congruence|].
  apply (one_mono k (w_cell w)); [apply (Ht j u Hu)|exact Hm].
Qed.

Lemma one_size_no_race k progs s w : Forall (Forall (fun c => c = TGet k)) progs ->
  sched s (start None progs) = Some w -> ~ race w.
Proof.
  intros Hp E. assert (Hc : one k w).
  { revert E. apply (sched_inv (one k)); [apply one_step|]. split; [exact I|]. intros i t Ht. cbn in Ht.
    apply nth_error_In in Ht. apply in_map_iff in Ht. destruct Ht as (p & <- & Hin). split; cbn; [|exact I].
    rewrite Forall_forall in Hp. apply Hp. exact Hin. }
  intros (i & j & t & u & _ & Ht & _ & (k' & todo & back & Em) & _).
  destruct Hc as (_ & Hc). destruct (Hc i t Ht) as (_ & Hpc). rewrite Em in Hpc. exact Hpc.
Qed.
