(** Threads sharing the table cache: answers, progress, termination. *)
From Coq Require Import ZArith Znumtheory List Bool Arith Permutation Lia Wellfounded.
From Verif Require Import Spec.Basic Model.Base Model.Field Model.NTT Model.Concrete Spec.ConcreteNtt Model.Poly Model.Cache Model.Threads Spec.Programs.
From Verif Require Import Proofs.Arith Proofs.NumTheory Proofs.FieldProofs Proofs.NTTTableProofs Proofs.CacheProofs.
Import ListNotations.
Local Open Scope Z_scope.

Section T.
Context {A : Type}.
Variables (F : field) (ext : option plans).
Hypothesis Hgen : forall k d, fits F k -> (forall i, 2 <= d i <= fp F - 1) -> generate_table F ext d k <> None.

Definition cok (c : call) : Prop := call_ok F c /\ call_fits F c.
Definition nok (next : answer -> prog A) : Prop := forall a, asks cok (next a).
Definition drange (d : nat -> nat -> Z) : Prop := forall k i, 2 <= d k i <= fp F - 1.
Definition back_ok (ks : list nat) (back : option nat) : Prop := match back with None => True | Some k => ks = [k] end.

(** What holds of a thread in a given cache. *)
Definition tinv (c : cache) (t : tstate A) : Prop :=
  match t with
  | Run p => asks cok p
  | Look k d o next => draws_ok F d o /\ fits F k /\ nok next /\ c_cell c <> None
  | Wait ks d o back next => draws_ok F d o /\ Forall (fits F) ks /\ back_ok ks back /\ nok next
  | Fill ks todo fresh d back next => drange d /\ Forall (fits F) ks /\ back_ok ks back /\ nok next /\ incl todo ks /\ NoDup todo /\
      match fresh with
      | None => exists m, c_cell c = Some m /\ (forall k, In k todo -> map_get m k = None) /\ (forall k, In k ks -> In k todo \/ map_get m k <> None)
      | Some m => c_cell c = None /\ (forall k T, map_get m k = Some T -> is_table F ext k T) /\ (forall k, In k ks -> In k todo \/ map_get m k <> None)
      end
  | Insert ks k T todo d back next => drange d /\ Forall (fits F) ks /\ back_ok ks back /\ nok next /\ incl todo ks /\ NoDup (k :: todo) /\
      is_table F ext k T /\
      exists m, c_cell c = Some m /\ (forall k', In k' (k :: todo) -> map_get m k' = None) /\ (forall k', In k' ks -> In k' (k :: todo) \/ map_get m k' <> None)
  | Reread k next => nok next /\ cached c k <> None
  end.
Definition holding (t : tstate A) : bool := match t with Fill _ _ _ _ _ _ | Insert _ _ _ _ _ _ _ => true | _ => false end.

(** The results a thread can still come to. *)
Definition tcall_of (ks : list nat) (d : nat -> nat -> Z) (back : option nat) : call :=
  match back with Some k => Get k d (fun l => l) | None => Init ks d (fun l => l) end.
Definition tres (known : list nat) (t : tstate A) (x : A) : Prop :=
  let go c next := exists a, right_answer F ext known c a /\ result F ext (learn a known) (next a) x in
  match t with
  | Run p => result F ext known p x
  | Look k d o next => go (Get k d o) next
  | Wait ks d o back next => go (tcall_of ks d back) next
  | Fill ks todo fresh d back next => go (tcall_of ks d back) next
  | Insert ks k T todo d back next => go (tcall_of ks d back) next
  | Reread k next => exists T, is_table F ext k T /\ result F ext (k :: known) (next (GetAnswer k (Some (Ok T)))) x
  end.

Definition cle (c c' : cache) : Prop :=
  (c_cell c <> None -> c_cell c' <> None) /\ forall k T, cached c k = Some T -> cached c' k = Some T.
Lemma cle_refl c : cle c c.
Proof. split; auto. Qed.
Lemma cle_cached c c' k : cle c c' -> cached c k <> None -> cached c' k <> None.
Proof. intros (_ & H) E. destruct (cached c k) as [T|] eqn:Ec; [rewrite (H k T Ec); discriminate|congruence]. Qed.
Lemma tinv_other c c' t : cle c c' -> holding t = false -> tinv c t -> tinv c' t.
Proof.
  intros H Hh Ht. destruct t; try discriminate Hh; cbn [tinv] in *; try exact Ht.
  - destruct Ht as (H1 & H2 & H3 & H4). split; [exact H1|]. split; [exact H2|]. split; [exact H3|]. apply (proj1 H). exact H4.
  - split; [apply Ht|]. apply (cle_cached c c'); [exact H|apply Ht].
Qed.

Lemma returned_inv c ks d back next r :
  Forall (fits F) ks -> back_ok ks back -> nok next -> drange d ->
  (match r with Some (Ok _) => forall k, In k ks -> cached c k <> None | _ => True end) ->
  tinv c (returned ks back next r).
Proof.
  intros Hf Hb Hn Hd Hr. unfold returned. destruct back as [k|]; cbn [back_ok] in Hb.
  - subst ks. destruct r as [[u|]|]; cbn [tinv]; [|apply Hn..]. split; [exact Hn|]. apply Hr. left. reflexivity.
  - cbn [tinv]. apply Hn.
Qed.
Lemma returned_holding ks back (next : answer -> prog A) r : holding (returned ks back next r) = false.
Proof. unfold returned. destruct back; [destruct r as [[|]|]|]; reflexivity. Qed.

(** [returned] gives a right answer: success. *)
Lemma returned_ok known ks d back next :
  exists known', incl known known' /\ (forall k, In k known' -> In k known \/ In k ks) /\
    forall x, tres known' (returned ks back next (Some (Ok tt))) x ->
      back_ok ks back -> exists a, right_answer F ext known (tcall_of ks d back) a /\ result F ext (learn a known) (next a) x.
Proof.
  destruct back as [k|].
  - exists known. split; [apply incl_refl|]. split; [auto|]. cbn [returned tres tcall_of]. intros x (T & HT & Hx) _.
    exists (GetAnswer k (Some (Ok T))). split; [split; [reflexivity|exact HT]|exact Hx].
  - exists (ks ++ known). split; [apply incl_appr, incl_refl|]. split; [intros k Hk; apply in_app_or in Hk; tauto|].
    cbn [returned tres tcall_of]. intros x Hx _. exists (InitAnswer ks (Some (Ok tt))). split; [split; [reflexivity|exact I]|exact Hx].
Qed.
Lemma returned_err known ks d back next k x :
  In k ks -> ~ In k known -> generate_table F ext (d k) k = Some Err -> back_ok ks back ->
  tres known (returned ks back next (Some Err)) x ->
  exists a, right_answer F ext known (tcall_of ks d back) a /\ result F ext (learn a known) (next a) x.
Proof.
  intros Hk Hn E Hb Hx. destruct back as [k'|]; cbn [back_ok] in Hb; cbn [returned tres tcall_of] in *.
  - subst ks. destruct Hk as [->|[]]. exists (GetAnswer k (Some Err)). split; [split; [reflexivity|split; assumption]|exact Hx].
  - exists (InitAnswer ks (Some Err)). split; [split; [reflexivity|exists k; auto]|exact Hx].
Qed.

Lemma cached_cell c m k : c_cell c = Some m -> cached c k = map_get m k.
Proof. unfold cached. intros ->. reflexivity. Qed.
Lemma cached_none c k : c_cell c = None -> cached c k = None.
Proof. unfold cached. intros ->. reflexivity. Qed.

Lemma step_ok c lock t c' lock' t' known :
  c_poison c = false -> good F ext c -> tinv c t -> (forall k, In k known -> cached c k <> None) ->
  step F ext c lock t = Some (c', lock', t') ->
  c_poison c' = false /\ good F ext c' /\ cle c c' /\ tinv c' t' /\
  (holding t = false -> c' = c) /\
  (holding t' = true -> lock' = lock /\ holding t = true \/ lock' = true /\ lock = false) /\
  (holding t' = false -> if holding t then lock' = false else lock' = lock) /\
  exists known', (forall k, In k known' -> cached c' k <> None) /\ forall x, tres known' t' x -> tres known t x.
Proof.
  intros Hpo Hg Ht Hkn E. destruct t as [p|k d o next|ks d o back next|ks todo fresh d back next|ks k T todo d back next|k next]; cbn [step] in E.
  - (* Run *) destruct p as [a|cl next]; [discriminate|]. cbn [tinv asks] in Ht. destruct Ht as (Hc & Hn). destruct cl as [k d o|ks d o].
    + destruct Hc as (Hd & Hf). cbn [call_ok call_fits] in Hd, Hf. destruct (c_cell c) as [m|] eqn:Ec; injection E as <- <- <-.
      * split; [exact Hpo|]. split; [exact Hg|]. split; [apply cle_refl|].
        split; [cbn [tinv]; split; [exact Hd|]; split; [exact Hf|]; split; [exact Hn|congruence]|].
        split; [reflexivity|]. split; [discriminate|]. split; [reflexivity|]. exists known. split; [exact Hkn|]. cbn [tres result]. auto.
      * split; [exact Hpo|]. split; [exact Hg|]. split; [apply cle_refl|].
        split; [cbn [tinv back_ok]; split; [exact Hd|]; split; [apply Forall_cons; [exact Hf|apply Forall_nil]|]; split; [reflexivity|exact Hn]|].
        split; [reflexivity|]. split; [discriminate|]. split; [reflexivity|]. exists known. split; [exact Hkn|]. cbn [tres result tcall_of]. auto.
    + destruct Hc as (Hd & Hf). cbn [call_ok call_fits] in Hd, Hf. injection E as <- <- <-.
      split; [exact Hpo|]. split; [exact Hg|]. split; [apply cle_refl|].
      split; [cbn [tinv back_ok]; split; [exact Hd|]; split; [exact Hf|]; split; [exact I|exact Hn]|].
      split; [reflexivity|]. split; [discriminate|]. split; [reflexivity|]. exists known. split; [exact Hkn|]. cbn [tres result tcall_of]. auto.
  - (* Look *) cbn [tinv] in Ht. destruct Ht as (Hd & Hf & Hn & Hce). destruct (cached c k) as [T|] eqn:Ec; injection E as <- <- <-.
    + split; [exact Hpo|]. split; [exact Hg|]. split; [apply cle_refl|]. split; [cbn [tinv]; apply Hn|].
      split; [reflexivity|]. split; [discriminate|]. split; [reflexivity|]. exists (k :: known). split.
      * intros k' [<-|Hk']; [congruence|apply Hkn; exact Hk'].
      * cbn [tres]. intros x Hx. exists (GetAnswer k (Some (Ok T))). split; [split; [reflexivity|exact (Hg k T Ec)]|exact Hx].
    + split; [exact Hpo|]. split; [exact Hg|]. split; [apply cle_refl|].
      split; [cbn [tinv back_ok]; split; [exact Hd|]; split; [apply Forall_cons; [exact Hf|apply Forall_nil]|]; split; [reflexivity|exact Hn]|].
      split; [reflexivity|]. split; [discriminate|]. split; [reflexivity|]. exists known. split; [exact Hkn|]. cbn [tres tcall_of]. auto.
  - (* Wait *) cbn [tinv] in Ht. destruct Ht as (Hd & Hf & Hb & Hn). destruct lock; [discriminate|]. rewrite Hpo in E.
    destruct (c_cell c) as [m|] eqn:Ec; injection E as <- <- <-.
    + set (missing := filter (fun k => negb (existsb (Nat.eqb k) (map fst m))) (nodup Nat.eq_dec ks)).
      pose proof (proj2 Hd missing) as Hper.
      assert (Hmis : forall k, In k (o missing) <-> In k ks /\ map_get m k = None).
      { intros k. assert (Hi : In k (o missing) <-> In k missing) by (split; apply Permutation_in; [exact Hper|symmetry; exact Hper]).
        rewrite Hi. unfold missing. rewrite filter_In, nodup_In, negb_true_iff.
        pose proof (map_get_key m k) as Hmk. destruct (existsb (Nat.eqb k) (map fst m)).
        - destruct (proj1 Hmk eq_refl) as (T & HT). rewrite HT. split; intros (_ & X); discriminate X.
        - destruct (map_get m k) as [T|]; [|tauto]. pose proof (proj2 Hmk (ex_intro _ T eq_refl)) as X. discriminate X. }
      split; [exact Hpo|]. split; [exact Hg|]. split; [apply cle_refl|]. split.
      { cbn [tinv]. split; [exact (proj1 Hd)|]. split; [exact Hf|]. split; [exact Hb|]. split; [exact Hn|].
        split; [intros k Hk; apply Hmis in Hk; apply Hk|]. split.
        - apply (Permutation_NoDup (l := missing)); [symmetry; exact Hper|]. apply NoDup_filter, NoDup_nodup.
        - exists m. split; [exact Ec|]. split; [intros k Hk; apply Hmis in Hk; apply Hk|].
          intros k Hk. destruct (map_get m k) eqn:Em; [right; congruence|]. left. apply Hmis. auto. }
      split; [reflexivity|]. split; [intros _; right; auto|]. split; [discriminate|]. exists known. split; [exact Hkn|]. cbn [tres]. auto.
    + pose proof (proj2 Hd (nodup Nat.eq_dec ks)) as Hper.
      assert (Hmis : forall k, In k (o (nodup Nat.eq_dec ks)) <-> In k ks).
      { intros k. rewrite <- (nodup_In Nat.eq_dec ks k). split; apply Permutation_in; [exact Hper|symmetry; exact Hper]. }
      split; [exact Hpo|]. split; [exact Hg|]. split; [apply cle_refl|]. split.
      { cbn [tinv]. split; [exact (proj1 Hd)|]. split; [exact Hf|]. split; [exact Hb|]. split; [exact Hn|].
        split; [intros k Hk; apply Hmis; exact Hk|]. split.
        - apply (Permutation_NoDup (l := nodup Nat.eq_dec ks)); [symmetry; exact Hper|]. apply NoDup_nodup.
        - split; [exact Ec|]. split; [discriminate|]. intros k Hk. left. apply Hmis. exact Hk. }
      split; [reflexivity|]. split; [intros _; right; auto|]. split; [discriminate|]. exists known. split; [exact Hkn|]. cbn [tres]. auto.
  - (* Fill *) cbn [tinv] in Ht. destruct Ht as (Hd & Hf & Hb & Hn & Hinc & Hnd & Hfr). destruct todo as [|k todo].
    + destruct fresh as [m|].
      * destruct Hfr as (Ec & Hm & Hcov). rewrite Ec in E. injection E as <- <- <-.
        assert (Hca : forall k, In k ks -> map_get m k <> None) by (intros k Hk; destruct (Hcov k Hk) as [[]|X]; exact X).
        split; [exact Hpo|]. split; [intros k T; unfold cached; cbn [c_cell]; apply Hm|].
        split. { split; [intros _; cbn [c_cell]; discriminate|]. intros k T. rewrite (cached_none c k Ec). discriminate. }
        split; [apply (returned_inv _ ks d); assumption|]. split; [discriminate|].
        rewrite returned_holding. split; [discriminate|]. split; [reflexivity|].
        destruct (returned_ok known ks d back next) as (known' & Hi & Hj & Hx). exists known'. split.
        -- intros k Hk. unfold cached. cbn [c_cell]. destruct (Hj k Hk) as [Hk'|Hk']; [|apply Hca; exact Hk'].
           specialize (Hkn k Hk'). rewrite (cached_none c k Ec) in Hkn. congruence.
        -- intros x Hr. apply Hx; assumption.
      * destruct Hfr as (m & Ec & _ & Hcov). injection E as <- <- <-.
        assert (Hca : forall k, In k ks -> cached c k <> None).
        { intros k Hk. rewrite (cached_cell c m k Ec). destruct (Hcov k Hk) as [[]|X]; exact X. }
        split; [exact Hpo|]. split; [exact Hg|]. split; [apply cle_refl|]. split; [apply (returned_inv _ ks d); assumption|].
        split; [discriminate|]. rewrite returned_holding. split; [discriminate|]. split; [reflexivity|].
        destruct (returned_ok known ks d back next) as (known' & Hi & Hj & Hx). exists known'. split.
        -- intros k Hk. destruct (Hj k Hk) as [Hk'|Hk']; [apply Hkn; exact Hk'|apply Hca; exact Hk'].
        -- intros x Hr. apply Hx; assumption.
    + assert (Hks : In k ks) by (apply Hinc; left; reflexivity).
      assert (Hfk : fits F k) by (rewrite Forall_forall in Hf; apply Hf; exact Hks).
      assert (Hnk : cached c k = None).
      { destruct fresh as [m|]; [apply cached_none; apply Hfr|]. destruct Hfr as (m & Ec & Hto & _). rewrite (cached_cell c m k Ec). apply Hto. left. reflexivity. }
      destruct (generate_table F ext (d k) k) as [[T|]|] eqn:Eg; [| |destruct (Hgen k (d k) Hfk (Hd k) Eg)].
      * assert (HT : is_table F ext k T) by (exists (d k); split; [exact (Hd k)|exact Eg]).
        destruct fresh as [m|]; injection E as <- <- <-.
        -- destruct Hfr as (Ec & Hm & Hcov). split; [exact Hpo|]. split; [exact Hg|]. split; [apply cle_refl|]. split.
           { cbn [tinv]. split; [exact Hd|]. split; [exact Hf|]. split; [exact Hb|]. split; [exact Hn|].
             split; [intros y Hy; apply Hinc; right; exact Hy|]. split; [inversion Hnd; assumption|]. split; [exact Ec|]. split.
             - intros y Ty. rewrite map_get_insert. destruct (Nat.eqb_spec k y) as [->|]; [intros [= <-]; exact HT|apply Hm].
             - intros y Hy. rewrite map_get_insert. destruct (Nat.eqb_spec k y) as [->|]; [right; discriminate|].
               destruct (Hcov y Hy) as [[Ey|Hy']|Hy']; [contradiction|left; exact Hy'|right; exact Hy']. }
           split; [discriminate|]. split; [intros _; left; auto|]. split; [discriminate|]. exists known. split; [exact Hkn|]. cbn [tres]. auto.
        -- destruct Hfr as (m & Ec & Hto & Hcov). split; [exact Hpo|]. split; [exact Hg|]. split; [apply cle_refl|]. split.
           { cbn [tinv]. split; [exact Hd|]. split; [exact Hf|]. split; [exact Hb|]. split; [exact Hn|].
             split; [intros y Hy; apply Hinc; right; exact Hy|]. split; [exact Hnd|]. split; [exact HT|]. exists m. auto. }
           split; [discriminate|]. split; [intros _; left; auto|]. split; [discriminate|]. exists known. split; [exact Hkn|]. cbn [tres]. auto.
      * injection E as <- <- <-. split; [exact Hpo|]. split; [exact Hg|]. split; [apply cle_refl|].
        split; [apply (returned_inv _ ks d); try assumption; exact I|]. split; [discriminate|]. rewrite returned_holding.
        split; [discriminate|]. split; [reflexivity|]. exists known. split; [exact Hkn|]. intros x Hr. cbn [tres].
        apply (returned_err known ks d back next k x); try assumption. intros Hin. apply (Hkn k Hin). exact Hnk.
  - (* Insert *) cbn [tinv] in Ht. destruct Ht as (Hd & Hf & Hb & Hn & Hinc & Hnd & HT & m & Ec & Hto & Hcov). rewrite Ec in E. cbn [bind] in E. injection E as <- <- <-.
    split; [exact Hpo|]. split.
    { intros y Ty. unfold cached. cbn [c_cell]. rewrite map_get_insert. destruct (Nat.eqb_spec k y) as [->|]; [intros [= <-]; exact HT|].
      intros Ey. apply (Hg y Ty). rewrite (cached_cell c m y Ec). exact Ey. }
    assert (Hcle : cle c (mk_cache (c_poison c) (Some (map_insert k T m)))).
    { split; [intros _; discriminate|]. intros y Ty. rewrite (cached_cell c m y Ec). unfold cached. cbn [c_cell]. rewrite map_get_insert.
      intros Ey. destruct (Nat.eqb_spec k y) as [->|]; [|exact Ey]. rewrite (Hto y (or_introl eq_refl)) in Ey. discriminate. }
    split; [exact Hcle|]. split.
    { cbn [tinv]. split; [exact Hd|]. split; [exact Hf|]. split; [exact Hb|]. split; [exact Hn|]. split; [exact Hinc|].
      inversion Hnd as [|? ? Hnk Hnd']; subst. split; [exact Hnd'|]. exists (map_insert k T m). split; [reflexivity|]. split.
      - intros y Hy. rewrite map_get_insert. destruct (Nat.eqb_spec k y) as [->|]; [contradiction|]. apply Hto. right. exact Hy.
      - intros y Hy. rewrite map_get_insert. destruct (Nat.eqb_spec k y) as [->|]; [right; discriminate|].
        destruct (Hcov y Hy) as [[Ey|Hy']|Hy']; [contradiction|left; exact Hy'|right; exact Hy']. }
    split; [discriminate|]. split; [intros _; left; auto|]. split; [discriminate|]. exists known. split.
    + intros y Hy. apply (cle_cached c); [exact Hcle|apply Hkn; exact Hy].
    + cbn [tres]. auto.
  - (* Reread *) cbn [tinv] in Ht. destruct Ht as (Hn & Hc). destruct (cached c k) as [T|] eqn:Ec; [|congruence]. injection E as <- <- <-.
    split; [exact Hpo|]. split; [exact Hg|]. split; [apply cle_refl|]. split; [cbn [tinv]; apply Hn|].
    split; [reflexivity|]. split; [discriminate|]. split; [reflexivity|]. exists (k :: known). split.
    + intros y [<-|Hy]; [congruence|apply Hkn; exact Hy].
    + cbn [tres]. intros x Hx. exists T. split; [exact (Hg k T Ec)|exact Hx].
Qed.

(** The whole state. *)
Definition winv (ps : list (prog A)) (w : state A) : Prop :=
  c_poison (s_cache w) = false /\ good F ext (s_cache w) /\
  length (s_threads w) = length ps /\
  (forall i t, nth_error (s_threads w) i = Some t -> tinv (s_cache w) t) /\
  (forall i t, nth_error (s_threads w) i = Some t -> holding t = true -> s_lock w = true) /\
  (forall i j t u, nth_error (s_threads w) i = Some t -> nth_error (s_threads w) j = Some u -> holding t = true -> holding u = true -> i = j) /\
  (s_lock w = true -> exists i t, nth_error (s_threads w) i = Some t /\ holding t = true) /\
  (forall i t p, nth_error (s_threads w) i = Some t -> nth_error ps i = Some p ->
     exists known, (forall k, In k known -> cached (s_cache w) k <> None) /\ forall x, tres known t x -> result F ext [] p x).

Lemma winv_begin ps : Forall (asks cok) ps -> winv ps (begin ps).
Proof.
  intros Hps. unfold winv, begin. cbn [s_cache s_lock s_threads c_poison cache_init].
  assert (Hr : forall i t, nth_error (map Run ps) i = Some t -> exists p, t = Run p /\ nth_error ps i = Some p).
  { intros i t. rewrite nth_error_map. destruct (nth_error ps i) as [p|]; [intros [= <-]; eauto|discriminate]. }
  split; [reflexivity|]. split; [apply good_init|]. split; [apply map_length|].
  split. { intros i t Hi. destruct (Hr i t Hi) as (p & -> & Hp). cbn [tinv]. rewrite Forall_forall in Hps. apply Hps. eapply nth_error_In. exact Hp. }
  split. { intros i t Hi Hh. destruct (Hr i t Hi) as (p & -> & _). discriminate. }
  split. { intros i j t u Hi _ Hh. destruct (Hr i t Hi) as (p & -> & _). discriminate. }
  split; [discriminate|]. intros i t p Hi Hp. destruct (Hr i t Hi) as (p' & -> & Hp'). rewrite Hp in Hp'. injection Hp' as <-.
  exists []. split; [intros k []|]. cbn [tres]. auto.
Qed.

Lemma move_spec i (w w' : state A) : move F ext i w = Some w' -> exists t t',
  nth_error (s_threads w) i = Some t /\ step F ext (s_cache w) (s_lock w) t = Some (s_cache w', s_lock w', t') /\ upd (s_threads w) i t' = Some (s_threads w').
Proof.
  unfold move. destruct (nth_error (s_threads w) i) as [t|] eqn:Et; [|discriminate]. cbn [bind].
  destruct (step F ext (s_cache w) (s_lock w) t) as [[[c l] t']|] eqn:Es; [|discriminate]. cbn [bind].
  destruct (upd (s_threads w) i t') as [ts|] eqn:Eu; [|discriminate]. cbn [bind]. intros [= <-]. exists t, t'. cbn [s_cache s_lock s_threads]. auto.
Qed.
Lemma upd_length {X} (l : list X) i x l' : upd l i x = Some l' -> length l' = length l.
Proof.
  revert i l'. induction l as [|y l IH]; intros [|i] l' E; cbn [upd] in E; try discriminate; [injection E as <-; reflexivity|].
  apply bind_some in E as (r & Er & E). injection E as <-. cbn [length]. f_equal. eapply IH. exact Er.
Qed.
Lemma upd_some {X} (l : list X) i y x : nth_error l i = Some y -> exists l', upd l i x = Some l'.
Proof.
  revert i. induction l as [|z l IH]; intros [|i] E; cbn [nth_error] in E; try discriminate; cbn [upd]; [eauto|].
  destruct (IH i E) as (l' & El). rewrite El. cbn [bind]. eauto.
Qed.

Lemma move_ok ps i (w w' : state A) : winv ps w -> move F ext i w = Some w' -> winv ps w' /\ cle (s_cache w) (s_cache w').
Proof.
  intros (Hpo & Hg & Hl & Ht & Hlk & Hex & Hho & Hre) E. apply move_spec in E as (t & t' & Et & Es & Eu).
  assert (Hn : forall j, nth_error (s_threads w') j = if (i =? j)%nat then Some t' else nth_error (s_threads w) j) by (intros j; apply upd_nth; exact Eu).
  assert (Hp : exists p, nth_error ps i = Some p).
  { destruct (nth_error ps i) eqn:Ep; [eauto|]. apply nth_error_None in Ep. assert (i < length (s_threads w))%nat by (apply nth_error_Some; congruence). lia. }
  destruct Hp as (p & Hp). destruct (Hre i t p Et Hp) as (known & Hk & Hx).
  destruct (step_ok _ _ _ _ _ _ known Hpo Hg (Ht i t Et) Hk Es) as (Hpo' & Hg' & Hcle & Ht' & Hsame & Hh1 & Hh2 & known' & Hk' & Hx').
  split; [|exact Hcle].
  assert (Hoth : forall j u, (i =? j)%nat = false -> nth_error (s_threads w) j = Some u -> holding u = true -> holding t = true -> False).
  { intros j u Hij Hu Hhu Hht. apply Nat.eqb_neq in Hij. apply Hij. exact (Hex i j t u Et Hu Hht Hhu). }
  split; [exact Hpo'|]. split; [exact Hg'|]. split; [rewrite (upd_length _ _ _ _ Eu); exact Hl|].
  split.
  { intros j u. rewrite Hn. destruct (i =? j)%nat eqn:Eij; [intros [= <-]; exact Ht'|]. intros Hu.
    destruct (holding u) eqn:Hhu; [|apply (tinv_other (s_cache w)); [exact Hcle|exact Hhu|exact (Ht j u Hu)]].
    destruct (holding t) eqn:Hht; [destruct (Hoth j u Eij Hu Hhu eq_refl)|]. rewrite (Hsame eq_refl). exact (Ht j u Hu). }
  split.
  { intros j u. rewrite Hn. destruct (i =? j)%nat eqn:Eij.
    - intros [= <-] Hh. destruct (Hh1 Hh) as [(E1 & E2)|(E1 & _)]; [rewrite E1; exact (Hlk i t Et E2)|exact E1].
    - intros Hu Hh. pose proof (Hlk j u Hu Hh) as El. destruct (holding t') eqn:Hht'.
      + destruct (Hh1 eq_refl) as [(E1 & E2)|(E1 & _)]; [congruence|exact E1].
      + specialize (Hh2 eq_refl). destruct (holding t) eqn:Hht; [destruct (Hoth j u Eij Hu Hh eq_refl)|congruence]. }
  split.
  { intros j j' u u'. rewrite !Hn.
    assert (Hone : forall v v' l, (i =? l)%nat = false -> nth_error (s_threads w) l = Some v' -> Some t' = Some v -> holding v = true -> holding v' = true -> False).
    { intros v v' l Eil Hv' [= <-] Hv Hhv'. destruct (Hh1 Hv) as [(_ & E2)|(_ & E2)]; [exact (Hoth l v' Eil Hv' Hhv' E2)|].
      rewrite (Hlk l v' Hv' Hhv') in E2. discriminate. }
    destruct (i =? j)%nat eqn:Eij; destruct (i =? j')%nat eqn:Eij'.
    - apply Nat.eqb_eq in Eij, Eij'. congruence.
    - intros H1 H2 H3 H4. destruct (Hone u u' j' Eij' H2 H1 H3 H4).
    - intros H1 H2 H3 H4. destruct (Hone u' u j Eij H1 H2 H4 H3).
    - apply Hex. }
  split.
  { intros El. destruct (holding t') eqn:Hht'.
    - exists i, t'. rewrite Hn, Nat.eqb_refl. auto.
    - specialize (Hh2 eq_refl). destruct (holding t) eqn:Hht; [congruence|]. rewrite El in Hh2. destruct (Hho (eq_sym Hh2)) as (j & u & Hu & Hhu).
      exists j, u. split; [|exact Hhu]. rewrite Hn. destruct (i =? j)%nat eqn:Eij; [|exact Hu]. apply Nat.eqb_eq in Eij. subst j. congruence. }
  intros j u q. rewrite Hn. destruct (i =? j)%nat eqn:Eij.
  - apply Nat.eqb_eq in Eij. subst j. intros [= <-] Hq. rewrite Hp in Hq. injection Hq as <-. exists known'. split; [exact Hk'|].
    intros x Hr. apply Hx, Hx', Hr.
  - intros Hu Hq. destruct (Hre j u q Hu Hq) as (kn & Hkn & Hr). exists kn. split; [|exact Hr].
    intros k Hin. apply (cle_cached (s_cache w)); [exact Hcle|apply Hkn; exact Hin].
Qed.

Lemma moves_ok (ps : list (prog A)) s w w' : winv ps w -> moves F ext s w = Some w' -> winv ps w' /\ cle (s_cache w) (s_cache w').
Proof.
  revert w. induction s as [|i s IH]; intros w Hw E; cbn [moves] in E; [injection E as <-; split; [exact Hw|apply cle_refl]|].
  apply bind_some in E as (w1 & E1 & E). destruct (move_ok ps i w w1 Hw E1) as (Hw1 & (Ha & Hb)).
  destruct (IH w1 Hw1 E) as (Hw' & (Ha' & Hb')). split; [exact Hw'|]. split; auto.
Qed.

Lemma got_result (ps : list (prog A)) s w i x p : Forall (asks cok) ps -> moves F ext s (begin ps) = Some w -> nth_error ps i = Some p -> got w i x -> result F ext [] p x.
Proof.
  intros Hps E Hp Hgot. destruct (moves_ok ps s _ _ (winv_begin ps Hps) E) as ((_ & _ & _ & _ & _ & _ & _ & Hre) & _).
  destruct (Hre i _ p Hgot Hp) as (known & _ & Hr). apply Hr. cbn [tres result]. reflexivity.
Qed.

End T.

(** Progress: needs no hypotheses on the requests. *)
Section Weak.
Context {A : Type}.
Variables (F : field) (ext : option plans).
Definition wtinv (c : cache) (t : tstate A) : Prop :=
  match t with Fill _ _ None _ _ _ | Insert _ _ _ _ _ _ _ => c_cell c <> None | _ => True end.
Definition weak (w : state A) : Prop :=
  (forall i t, nth_error (s_threads w) i = Some t -> wtinv (s_cache w) t) /\
  (s_lock w = true -> exists i t, nth_error (s_threads w) i = Some t /\ holding t = true).
Lemma wtinv_mono c c' t : (c_cell c <> None -> c_cell c' <> None) -> wtinv c t -> wtinv c' t.
Proof. intros H. destruct t as [| | |? ? [m|] ? ? ?| |]; cbn [wtinv]; auto. Qed.
Lemma wtinv_returned c ks back (next : answer -> prog A) r : wtinv c (returned ks back next r).
Proof. unfold returned. destruct back; [destruct r as [[|]|]|]; exact I. Qed.
Lemma step_weak c lock (t : tstate A) c' lock' t' : wtinv c t -> step F ext c lock t = Some (c', lock', t') ->
  (c_cell c <> None -> c_cell c' <> None) /\ wtinv c' t' /\
  (holding t' = false -> if holding t then lock' = false else lock' = lock).
Proof.
  intros Ht E. destruct t as [p|k d o next|ks d o back next|ks todo fresh d back next|ks k T todo d back next|k next]; cbn [step] in E; cbn [wtinv] in Ht.
  - destruct p as [a|[k d o|ks d o] next]; [discriminate|destruct (c_cell c) eqn:Ec|]; injection E as <- <- <-; rewrite ?Ec; (split; [congruence|]; split; [exact I|reflexivity]).
  - destruct (cached c k); injection E as <- <- <-; (split; [congruence|]; split; [exact I|reflexivity]).
  - destruct lock; [discriminate|]. destruct (c_poison c); [injection E as <- <- <-; split; [auto|]; split; [apply wtinv_returned|reflexivity]|].
    destruct (c_cell c) eqn:Ec; injection E as <- <- <-; (split; [congruence|]; split; [cbn [wtinv]; try exact I; congruence|discriminate]).
  - destruct todo as [|k todo].
    + destruct fresh; [destruct (c_cell c) eqn:Ec|]; injection E as <- <- <-; (split; [cbn [c_cell]; congruence|]; split; [apply wtinv_returned|reflexivity]).
    + destruct (generate_table F ext (d k) k) as [[T|]|].
      * destruct fresh; injection E as <- <- <-; (split; [auto|]; split; [cbn [wtinv]; try exact I; exact Ht|discriminate]).
      * injection E as <- <- <-. split; [auto|]. split; [apply wtinv_returned|reflexivity].
      * injection E as <- <- <-. split; [auto|]. split; [apply wtinv_returned|reflexivity].
  - destruct (c_cell c) as [m|] eqn:Ec; [|congruence]. cbn [bind] in E. injection E as <- <- <-. split; [intros _; discriminate|]. split; [cbn [wtinv c_cell]; discriminate|discriminate].
  - injection E as <- <- <-. split; [auto|]. split; [exact I|reflexivity].
Qed.
Lemma weak_begin ps : weak (begin ps).
Proof.
  split; [|discriminate]. cbn [begin s_threads]. intros i t. rewrite nth_error_map. destruct (nth_error ps i); [intros [= <-]; exact I|discriminate].
Qed.
Lemma weak_move i (w w' : state A) : weak w -> move F ext i w = Some w' -> weak w'.
Proof.
  intros (Ht & Hho) E. apply move_spec in E as (t & t' & Et & Es & Eu).
  assert (Hn : forall j, nth_error (s_threads w') j = if (i =? j)%nat then Some t' else nth_error (s_threads w) j) by (intros j; apply upd_nth; exact Eu).
  destruct (step_weak _ _ _ _ _ _ (Ht i t Et) Es) as (Hm & Ht' & Hh). split.
  - intros j u. rewrite Hn. destruct (i =? j)%nat; [intros [= <-]; exact Ht'|]. intros Hu. apply (wtinv_mono (s_cache w)); [exact Hm|exact (Ht j u Hu)].
  - intros El. destruct (holding t') eqn:Hht'.
    + exists i, t'. rewrite Hn, Nat.eqb_refl. auto.
    + specialize (Hh eq_refl). destruct (holding t) eqn:Hht; [congruence|]. rewrite El in Hh. destruct (Hho (eq_sym Hh)) as (j & u & Hu & Hhu).
      exists j, u. split; [|exact Hhu]. rewrite Hn. destruct (i =? j)%nat eqn:Eij; [|exact Hu]. apply Nat.eqb_eq in Eij. subst j. congruence.
Qed.
Lemma weak_moves s (w w' : state A) : weak w -> moves F ext s w = Some w' -> weak w'.
Proof.
  revert w. induction s as [|i s IH]; intros w Hw E; cbn [moves] in E; [injection E as <-; exact Hw|].
  apply bind_some in E as (w1 & E1 & E). apply (IH w1); [exact (weak_move i w w1 Hw E1)|exact E].
Qed.
Lemma step_some c lock (t : tstate A) : wtinv c t -> (holding t = true \/ lock = false) -> (forall x, t <> Run (Ret x)) -> exists y, step F ext c lock t = Some y.
Proof.
  intros Ht Hh Hr. destruct t as [p|k d o next|ks d o back next|ks todo fresh d back next|ks k T todo d back next|k next]; cbn [step].
  - destruct p as [x|cl next]; [destruct (Hr x eq_refl)|]. destruct cl; [destruct (c_cell c)|]; eauto.
  - destruct (cached c k); eauto.
  - destruct Hh as [H| ->]; [discriminate H|]. destruct (c_poison c); [eauto|]. destruct (c_cell c); eauto.
  - destruct todo as [|k todo].
    + destruct fresh; [destruct (c_cell c)|]; eauto.
    + destruct (generate_table F ext (d k) k) as [[T|]|]; [destruct fresh| |]; eauto.
  - cbn [wtinv] in Ht. destruct (c_cell c); [|congruence]. cbn [bind]. eauto.
  - eauto.
Qed.
Lemma move_some (w : state A) i t y : nth_error (s_threads w) i = Some t -> step F ext (s_cache w) (s_lock w) t = Some y -> exists w', move F ext i w = Some w'.
Proof.
  intros Et Es. unfold move. rewrite Et. cbn [bind]. rewrite Es. cbn [bind]. destruct y as [[c l] t'].
  destruct (upd_some _ _ _ t' Et) as (ts & Eu). rewrite Eu. cbn [bind]. eauto.
Qed.
Lemma fin_dec (w : state A) : finished w \/ exists i t, nth_error (s_threads w) i = Some t /\ forall x : A, t <> Run (Ret x).
Proof.
  unfold finished. induction (s_threads w) as [|t ts IH]; [left; constructor|].
  destruct IH as [IH|(i & u & Hu & Hn)]; [|right; exists (S i), u; auto].
  destruct t as [[x|cl next]| | | | |]; [left; constructor; eauto|..]; right; eexists 0%nat, _; (split; [reflexivity|intros y; discriminate]).
Qed.
Lemma progress (w : state A) : weak w -> finished w \/ exists i w', move F ext i w = Some w'.
Proof.
  intros (Ht & Hho). destruct (fin_dec w) as [Hf|(i & t & Hi & Hr)]; [left; exact Hf|right].
  destruct (s_lock w) eqn:El.
  - destruct (Hho eq_refl) as (j & u & Hj & Hu). exists j.
    destruct (step_some (s_cache w) (s_lock w) u (Ht j u Hj) (or_introl Hu)) as (y & Ey); [intros x ->; discriminate Hu|].
    exact (move_some w j u y Hj Ey).
  - exists i. destruct (step_some (s_cache w) (s_lock w) t (Ht i t Hi) (or_intror El) Hr) as (y & Ey). exact (move_some w i t y Hi Ey).
Qed.
End Weak.

(** Termination: needs no invariant. *)
Section Term.
Context {A : Type}.
Variables (F : field) (ext : option plans).
Definition after (t' t : tstate A) : Prop := exists c lock c' lock', step F ext c lock t = Some (c', lock', t').

Lemma acc_returned (ks : list nat) back (next : answer -> prog A) r : (forall a, Acc after (Run (next a))) -> Acc after (returned ks back next r).
Proof.
  intros H. unfold returned. destruct back as [k|]; [|apply H]. destruct r as [[u|]|]; [|apply H..].
  constructor. intros t' (c & l & c' & l' & E). cbn [step] in E. injection E as _ _ <-. apply H.
Qed.
Lemma acc_fill (next : answer -> prog A) : (forall a, Acc after (Run (next a))) -> forall todo ks fresh d back, Acc after (Fill ks todo fresh d back next).
Proof.
  intros H. induction todo as [|k todo IH]; intros ks fresh d back; constructor; intros t' (c & l & c' & l' & E); cbn [step] in E.
  - destruct fresh; [destruct (c_cell c)|]; injection E as _ _ <-; apply acc_returned; exact H.
  - destruct (generate_table F ext (d k) k) as [[T|]|].
    + destruct fresh; injection E as _ _ <-; [apply IH|]. constructor. intros t' (c2 & l2 & c3 & l3 & E). cbn [step] in E.
      destruct (c_cell c2); [|discriminate]. cbn [bind] in E. injection E as _ _ <-. apply IH.
    + injection E as _ _ <-. apply acc_returned; exact H.
    + injection E as _ _ <-. apply acc_returned; exact H.
Qed.
Lemma acc_wait (next : answer -> prog A) ks d o back : (forall a, Acc after (Run (next a))) -> Acc after (Wait ks d o back next).
Proof.
  intros H. constructor. intros t' (c & l & c' & l' & E). cbn [step] in E. destruct l; [discriminate|].
  destruct (c_poison c); [injection E as _ _ <-; apply acc_returned; exact H|].
  destruct (c_cell c); injection E as _ _ <-; apply acc_fill; exact H.
Qed.
Lemma acc_look (next : answer -> prog A) k d o : (forall a, Acc after (Run (next a))) -> Acc after (Look k d o next).
Proof.
  intros H. constructor. intros t' (c & l & c' & l' & E). cbn [step] in E.
  destruct (cached c k); injection E as _ _ <-; [apply H|apply acc_wait; exact H].
Qed.
Lemma acc_run (p : prog A) : Acc after (Run p).
Proof.
  induction p as [x|cl next IH]; constructor; intros t' (c & l & c' & l' & E); cbn [step] in E; [discriminate|].
  destruct cl as [k d o|ks d o]; [|injection E as _ _ <-; apply acc_wait; exact IH].
  destruct (c_cell c); injection E as _ _ <-; [apply acc_look|apply acc_wait]; exact IH.
Qed.

Inductive one_after : list (tstate A) -> list (tstate A) -> Prop :=
| oa_here t t' l : after t' t -> one_after (t' :: l) (t :: l)
| oa_there t l l' : one_after l' l -> one_after (t :: l') (t :: l).
Lemma acc_cons t l : Acc after t -> Acc one_after l -> Acc one_after (t :: l).
Proof.
  intros Ht. revert l. induction Ht as [t _ IHt]. intros l Hl. induction Hl as [l Hl' IHl].
  constructor. intros y Hy. inversion Hy as [a t' b Ha|a b l' Hb]; subst; [apply IHt; [exact Ha|constructor; exact Hl']|apply IHl; exact Hb].
Qed.
Lemma acc_list l : (forall t, In t l -> Acc after t) -> Acc one_after l.
Proof.
  induction l as [|t l IH]; intros H; [constructor; intros y Hy; inversion Hy|].
  apply acc_cons; [apply H; left; reflexivity|apply IH; intros u Hu; apply H; right; exact Hu].
Qed.
Lemma upd_after (l : list (tstate A)) i t t' l' : nth_error l i = Some t -> after t' t -> upd l i t' = Some l' -> one_after l' l.
Proof.
  revert i l'. induction l as [|u l IH]; intros [|i] l' Ei Ha Eu; cbn [nth_error] in Ei; cbn [upd] in Eu; try discriminate.
  - injection Ei as ->. injection Eu as <-. constructor. exact Ha.
  - apply bind_some in Eu as (r & Er & Eu). injection Eu as <-. apply oa_there. eapply IH; eassumption.
Qed.

Definition next_state (w' w : state A) : Prop := exists i, move F ext i w = Some w'.
Lemma acc_state (w : state A) : Acc one_after (s_threads w) -> Acc next_state w.
Proof.
  intros H. remember (s_threads w) as l eqn:El. revert w El. induction H as [l _ IH]. intros w ->.
  constructor. intros w' (i & E). apply move_spec in E as (t & t' & Et & Es & Eu). apply (IH (s_threads w')); [|reflexivity].
  eapply upd_after; [exact Et| |exact Eu]. exists (s_cache w), (s_lock w), (s_cache w'), (s_lock w'). exact Es.
Qed.
Lemma acc_begin (ps : list (prog A)) : Acc next_state (begin ps).
Proof.
  apply acc_state. apply acc_list. cbn [begin s_threads]. intros t Ht. apply in_map_iff in Ht as (p & <- & _). apply acc_run.
Qed.
Lemma no_infinite (w : state A) : Acc next_state w -> forall f : nat -> state A, f O = w -> ~ (forall n, exists i, move F ext i (f n) = Some (f (S n))).
Proof.
  intros H. induction H as [w _ IH]. intros f Hf Hn. subst w.
  apply (IH (f 1%nat) (Hn O) (fun n => f (S n)) eq_refl). intros n. apply Hn.
Qed.
Lemma acc_moves s (w w' : state A) : Acc next_state w -> moves F ext s w = Some w' -> Acc next_state w'.
Proof.
  revert w. induction s as [|i s IH]; intros w Hw E; cbn [moves] in E; [injection E as <-; exact Hw|].
  apply bind_some in E as (w1 & E1 & E). apply (IH w1); [apply (Acc_inv Hw); exists i; exact E1|exact E].
Qed.
Lemma completes (w : state A) : weak w -> Acc next_state w -> exists s w', moves F ext s w = Some w' /\ finished w'.
Proof.
  intros Hw Ha. induction Ha as [w _ IH]. destruct (progress F ext w Hw) as [Hf|(i & w1 & E)].
  - exists [], w. split; [reflexivity|exact Hf].
  - destruct (IH w1 (ex_intro _ i E) (weak_move F ext i w w1 Hw E)) as (s & w' & Es & Hf).
    exists (i :: s), w'. split; [cbn [moves]; rewrite E; exact Es|exact Hf].
Qed.
End Term.

Lemma result_succeeds {A} F ext tbl (p : prog A) known x : fok F -> prime (fp F) -> asks (call_ok F) p -> asks (succeeds F ext tbl) p ->
  result F ext known p x -> x = the_result tbl p.
Proof.
  intros Hok Hp. revert known. induction p as [y|c next IH]; intros known Ha Hs Hr; cbn [asks result the_result] in *; [exact Hr|].
  destruct Ha as (Hc & Ha), Hs as (Hsc & Hs), Hr as (a & Hra & Hr).
  assert (a = the_answer tbl c).
  { destruct c as [k d o|ks d o], a as [k' r|ks' r]; cbn [right_answer] in Hra; try contradiction; cbn [the_answer succeeds call_ok] in *.
    - destruct Hra as (-> & Hra). destruct r as [[T|]|]; [| |contradiction].
      + destruct Hra as (d' & Hd' & E). do 3 f_equal. apply (table_det F ext d' (d k) k T (tbl k) Hok Hp Hd' (proj1 Hc k) E Hsc).
      + destruct Hra as (_ & E). congruence.
    - destruct Hra as (-> & Hra). destruct r as [[[]|]|]; [reflexivity| |contradiction].
      destruct Hra as (k & Hk & _ & E). rewrite (Hsc k Hk) in E. discriminate. }
  subst a. apply (IH _ _ (Ha _) (Hs _) Hr).
Qed.

(** The hypotheses as in the property. *)
Lemma asks_and {A} (P Q : call -> Prop) (p : prog A) : asks P p -> asks Q p -> asks (fun c => P c /\ Q c) p.
Proof. induction p as [x|c next IH]; cbn [asks]; [auto|]. intros (H1 & H2) (H3 & H4). split; [auto|]. intros a. apply IH; auto. Qed.

Section P.
Context {A : Type}.
Variables (w p : Z) (F : field) (ext : option plans) (ps : list (prog A)).
Hypotheses (Hw : wwidth w) (Hp : prime p) (HF : derive_field w p = Some F) (Hb : build_ok ext).
Hypotheses (Hok : Forall (asks (call_ok F)) ps) (Hfit : Forall (asks (call_fits F)) ps).
Lemma thr_fok : fok F.
Proof. pose proof (prime_ge_2 p Hp). exact (proj1 (derive_field_ok w p F Hw ltac:(lia) HF)). Qed.
Lemma thr_p : prime (fp F).
Proof. pose proof (prime_ge_2 p Hp). destruct (derive_field_ok w p F Hw ltac:(lia) HF) as (_ & _ & ->). exact Hp. Qed.
Lemma thr_gen k d : fits F k -> (forall i, 2 <= d i <= fp F - 1) -> generate_table F ext d k <> None.
Proof. apply fits_gen; [exact thr_fok|exact thr_p|exact Hb]. Qed.
Lemma thr_ok : Forall (asks (cok F)) ps.
Proof. rewrite Forall_forall in *. intros q Hq. apply asks_and; auto. Qed.

Lemma threads_right s st i q x : moves F ext s (begin ps) = Some st -> nth_error ps i = Some q -> got st i x -> result F ext [] q x.
Proof. exact (got_result F ext thr_gen ps s st i x q thr_ok). Qed.
Lemma threads_det tbl s st i q x : Forall (asks (succeeds F ext tbl)) ps ->
  moves F ext s (begin ps) = Some st -> nth_error ps i = Some q -> got st i x -> x = the_result tbl q.
Proof.
  intros Hs E Hq Hx. assert (Hin : In q ps) by (eapply nth_error_In; exact Hq). pose proof (proj1 (Forall_forall _ _) Hok q Hin) as Hoq.
  rewrite Forall_forall in Hs. apply (result_succeeds F ext tbl q [] x thr_fok thr_p Hoq (Hs q Hin)). exact (threads_right s st i q x E Hq Hx).
Qed.
Lemma threads_stable s s' st st' k T : moves F ext s (begin ps) = Some st -> moves F ext s' st = Some st' ->
  cached (s_cache st) k = Some T -> cached (s_cache st') k = Some T.
Proof.
  intros E E' H. destruct (moves_ok F ext thr_gen ps s _ _ (winv_begin F ext ps thr_ok) E) as (Hi & _).
  destruct (moves_ok F ext thr_gen ps s' _ _ Hi E') as (_ & (_ & Hc)). apply Hc. exact H.
Qed.
End P.
Lemma threads_finite {A} F ext (ps : list (prog A)) (f : nat -> state A) : f O = begin ps -> ~ (forall n, exists i, move F ext i (f n) = Some (f (S n))).
Proof. apply no_infinite, acc_begin. Qed.
Lemma threads_progress {A} F ext (ps : list (prog A)) s st : moves F ext s (begin ps) = Some st ->
  (finished st \/ exists i st', move F ext i st = Some st') /\ exists s' st', moves F ext s' st = Some st' /\ finished st'.
Proof.
  intros E. pose proof (weak_moves F ext s _ _ (weak_begin ps) E) as Hw.
  split; [exact (progress F ext st Hw)|]. apply (completes F ext st Hw). exact (acc_moves F ext s _ _ (acc_begin F ext ps) E).
Qed.
