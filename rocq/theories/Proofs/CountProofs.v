(** The transform counters. *)
From Coq Require Import ZArith List Bool Lia.
From Verif Require Import Model.Base Model.Count Spec.Counting.
Import ListNotations.
Local Open Scope Z_scope.

Definition sumz {A} (f : A -> Z) (l : list A) : Z := fold_right (fun x a => f x + a) 0 l.
Lemma sumz_set {A} (f : A -> Z) x y l : forall i, nth_error l i = Some x -> sumz f (set_thread i y l) = sumz f l - f x + f y.
Proof.
  induction l as [|a l IH]; intros [|i] H; try discriminate H; cbn [nth_error] in H.
  - injection H as ->. cbn [set_thread sumz fold_right]. unfold sumz. lia.
  - cbn [set_thread]. change (sumz f (a :: set_thread i y l)) with (f a + sumz f (set_thread i y l)). rewrite (IH i H). cbn [sumz fold_right]. unfold sumz. lia.
Qed.
Lemma Forall_set {A} (P : A -> Prop) y l : P y -> Forall P l -> forall i, Forall P (set_thread i y l).
Proof. intros Hy H. induction H as [|a l Ha H IH]; intros [|i]; cbn [set_thread]; constructor; auto. Qed.

Definition pend (d : dir) (t : cthread) : Z := match th_add t with Some d' => if dir_eqb d d' then 1 else 0 | None => 0 end.
Lemma pending_sum d ts : pending d ts = sumz (pend d) ts.
Proof.
  unfold pending. induction ts as [|t ts IH]; [reflexivity|]. cbn [filter]. cbn [sumz fold_right]. fold (sumz (pend d) ts). rewrite <- IH.
  unfold pend. destruct (th_add t) as [d'|]; [|reflexivity]. destruct (dir_eqb d d'); cbn [length]; lia.
Qed.
Lemma total_sum d ts : total d (map th_prog ts) = sumz (fun t => transforms d (th_prog t)) ts.
Proof. induction ts as [|t ts IH]; [reflexivity|]. cbn [map total fold_right sumz]. unfold total in IH. rewrite IH. reflexivity. Qed.
Lemma transforms_cons d c p : transforms d (c :: p) = (match c with Transform d' => if dir_eqb d d' then 1 else 0 | _ => 0 end) + transforms d p.
Proof. unfold transforms. cbn [filter]. destruct c as [| | | |d']; try lia. destruct (dir_eqb d d'); cbn [length]; lia. Qed.
Lemma get_set d d' v c : ct_get d (ct_set d' v c) = if dir_eqb d d' then v else ct_get d c.
Proof. destruct d, d'; reflexivity. Qed.
Lemma on_set d v c : ct_on (ct_set d v c) = ct_on c. Proof. destruct d; reflexivity. Qed.

Definition quiet (t : cthread) : Prop := only_counts (th_prog t).

(** What is counted, what is pending and what is to come adds up. *)
Lemma step_inv d K w i : ct_on (fst w) = true -> Forall quiet (snd w) -> 0 <= ct_get d (fst w) < 2 ^ 32 ->
  (ct_get d (fst w) + pending d (snd w) + total d (map th_prog (snd w))) mod 2 ^ 32 = K ->
  let w' := cwstep w i in
  ct_on (fst w') = true /\ Forall quiet (snd w') /\ 0 <= ct_get d (fst w') < 2 ^ 32 /\
  (ct_get d (fst w') + pending d (snd w') + total d (map th_prog (snd w'))) mod 2 ^ 32 = K.
Proof.
  destruct w as [c ts]. cbn [fst snd]. intros On Q R E. unfold cwstep. cbn [fst snd].
  destruct (nth_error ts i) as [t|] eqn:Ei; [|cbn [fst snd]; auto].
  pose proof (proj1 (Forall_forall _ _) Q t (nth_error_In _ _ Ei)) as Qt. unfold quiet in Qt.
  destruct t as [a p sn]. cbn [th_prog] in Qt. unfold cstep. cbn [th_add th_prog th_seen].
  assert (G : forall c' t', ct_on c' = true -> quiet t' -> 0 <= ct_get d c' < 2 ^ 32 ->
    (ct_get d c' + (pend d t' + transforms d (th_prog t'))) mod 2 ^ 32 = (ct_get d c + (pend d (mk_cthread a p sn) + transforms d p)) mod 2 ^ 32 ->
    let w' := (c', set_thread i t' ts) in ct_on (fst w') = true /\ Forall quiet (snd w') /\ 0 <= ct_get d (fst w') < 2 ^ 32 /\
    (ct_get d (fst w') + pending d (snd w') + total d (map th_prog (snd w'))) mod 2 ^ 32 = K).
  { intros c' t' O' Q' R' E'. cbn [fst snd]. split; [exact O'|]. split; [now apply Forall_set|]. split; [exact R'|].
    rewrite pending_sum, total_sum in *. rewrite (sumz_set _ _ t' ts i Ei), (sumz_set _ _ t' ts i Ei). cbn [th_prog].
    rewrite <- E. set (S1 := sumz (pend d) ts). set (S2 := sumz _ ts).
    replace (ct_get d c' + (S1 - pend d (mk_cthread a p sn) + pend d t') + (S2 - transforms d p + transforms d (th_prog t')))
      with ((ct_get d c' + (pend d t' + transforms d (th_prog t'))) + (S1 + S2 - pend d (mk_cthread a p sn) - transforms d p)) by lia.
    rewrite <- Zplus_mod_idemp_l, E', Zplus_mod_idemp_l. f_equal. lia. }
  destruct a as [d'|].
  - apply G; [now rewrite on_set|exact Qt| |].
    + rewrite get_set. destruct (dir_eqb d d'); [unfold wadd; apply Z.mod_pos_bound; reflexivity|exact R].
    + rewrite get_set. unfold pend. cbn [th_add th_prog]. destruct (dir_eqb d d') eqn:D.
      * assert (d = d') by (destruct d, d'; try discriminate; reflexivity). subst d'. unfold wadd. rewrite Zplus_mod_idemp_l. f_equal. lia.
      * reflexivity.
  - destruct p as [|x p]; [cbn [fst snd]; auto|]. inversion Qt as [|? ? Hx Qp]; subst. destruct x as [| | |d'|d']; try contradiction.
    + apply G; [exact On|exact Qp|exact R|]. unfold pend. cbn [th_add th_prog]. rewrite transforms_cons. f_equal.
    + rewrite On. apply G; [exact On|exact Qp|exact R|]. unfold pend. cbn [th_add th_prog]. rewrite transforms_cons. f_equal.
Qed.
Lemma schedule_inv d K s : forall w, ct_on (fst w) = true -> Forall quiet (snd w) -> 0 <= ct_get d (fst w) < 2 ^ 32 ->
  (ct_get d (fst w) + pending d (snd w) + total d (map th_prog (snd w))) mod 2 ^ 32 = K ->
  let w' := cschedule s w in
  0 <= ct_get d (fst w') < 2 ^ 32 /\ (ct_get d (fst w') + pending d (snd w') + total d (map th_prog (snd w'))) mod 2 ^ 32 = K.
Proof.
  induction s as [|i s IH]; intros w On Q R E; [cbn; auto|]. cbn [cschedule fold_left].
  destruct (step_inv d K w i On Q R E) as (On' & Q' & R' & E'). exact (IH (cwstep w i) On' Q' R' E').
Qed.
Lemma start_progs ps : map th_prog (cstart ps) = ps.
Proof. unfold cstart. rewrite map_map. cbn [th_prog]. apply map_id. Qed.
Lemma start_pending d ps : pending d (cstart ps) = 0.
Proof. unfold pending, cstart. induction ps as [|p ps IH]; [reflexivity|exact IH]. Qed.
Lemma start_quiet ps : Forall only_counts ps -> Forall quiet (cstart ps).
Proof. unfold cstart. induction 1; constructor; auto. Qed.
Lemma done_zero d ts : done ts -> pending d ts = 0 /\ total d (map th_prog ts) = 0.
Proof.
  induction 1 as [|t ts (A & P) _ (IH1 & IH2)]; [split; reflexivity|]. split.
  - unfold pending in *. cbn [filter]. rewrite A. exact IH1.
  - cbn [map total fold_right]. rewrite P. unfold total in IH2. rewrite IH2. reflexivity.
Qed.
Lemma counts_ok d c ps s : ct_on c = true -> 0 <= ct_get d c < 2 ^ 32 -> Forall only_counts ps ->
  let w := cschedule s (c, cstart ps) in
  ct_get d (fst w) = (ct_get d c + total d ps - total d (map th_prog (snd w)) - pending d (snd w)) mod 2 ^ 32.
Proof.
  intros On R Q. destruct (schedule_inv d ((ct_get d c + total d ps) mod 2 ^ 32) s (c, cstart ps)) as (R' & E); cbn [fst snd]; auto.
  - now apply start_quiet.
  - rewrite start_progs, start_pending. f_equal. lia.
  - cbv zeta. set (w := cschedule s (c, cstart ps)) in *.
    rewrite <- (Z.mod_small (ct_get d (fst w)) (2 ^ 32)) by exact R'.
    replace (ct_get d (fst w)) with (ct_get d (fst w) + pending d (snd w) + total d (map th_prog (snd w)) - (total d (map th_prog (snd w)) + pending d (snd w))) by lia.
    rewrite <- Zminus_mod_idemp_l, E, Zminus_mod_idemp_l. f_equal. lia.
Qed.

(** While counting is off nothing is ever counted. *)
Definition silent (t : cthread) : Prop := th_add t = None /\ Forall (fun c => match c with Enable | Clear _ => False | _ => True end) (th_prog t).
Lemma off_step w i : ct_on (fst w) = false -> Forall silent (snd w) ->
  let w' := cwstep w i in ct_on (fst w') = false /\ Forall silent (snd w') /\ ct_fwd (fst w') = ct_fwd (fst w) /\ ct_inv (fst w') = ct_inv (fst w).
Proof.
  destruct w as [c ts]. cbn [fst snd]. intros Off Q. unfold cwstep. cbn [fst snd]. destruct (nth_error ts i) as [t|] eqn:Ei; [|cbn [fst snd]; auto].
  destruct (proj1 (Forall_forall _ _) Q t (nth_error_In _ _ Ei)) as (Qa & Qp). destruct t as [a p sn]. cbn [th_add th_prog] in *. subst a.
  unfold cstep. cbn [th_add th_prog th_seen]. destruct p as [|x p]; [cbn [fst snd]; auto|]. inversion Qp as [|? ? Hx Hp]; subst.
  destruct x as [| | |d'|d']; try contradiction; cbn [fst snd]; rewrite ?Off; (split; [first [exact Off|reflexivity]|]); (split; [apply Forall_set; [split; [reflexivity|exact Hp]|exact Q]|]); split; reflexivity.
Qed.
Lemma off_schedule s : forall w, ct_on (fst w) = false -> Forall silent (snd w) ->
  ct_fwd (fst (cschedule s w)) = ct_fwd (fst w) /\ ct_inv (fst (cschedule s w)) = ct_inv (fst w).
Proof.
  induction s as [|i s IH]; intros w Off Q; [auto|]. cbn [cschedule fold_left]. destruct (off_step w i Off Q) as (O' & Q' & <- & <-). exact (IH _ O' Q').
Qed.

(** One thread alone. *)
Lemma alone_ok p : forall c f i sn, ct_fwd c = f mod 2 ^ 32 -> ct_inv c = i mod 2 ^ 32 ->
  exists n c', (n <= 2 * length p)%nat /\ cschedule (repeat 0%nat n) (c, [mk_cthread None p sn]) = (c', [mk_cthread None [] (rev (answers (ct_on c) f i p) ++ sn)]).
Proof.
  assert (ST : forall w n, cschedule (repeat 0%nat (S n)) w = cschedule (repeat 0%nat n) (cwstep w 0)) by reflexivity.
  induction p as [|x p IH]; intros c f i sn Ef Ei.
  - exists 0%nat, c. split; [cbn; lia|reflexivity].
  - assert (ADD : forall d f' i', ct_on c = true -> x = Transform d -> f' = (if dir_eqb d Fwd then f + 1 else f) -> i' = (if dir_eqb d Inv then i + 1 else i) ->
      exists n c', (n <= 2 * length (x :: p))%nat /\ cschedule (repeat 0%nat n) (c, [mk_cthread None (x :: p) sn]) = (c', [mk_cthread None [] (rev (answers (ct_on c) f' i' p) ++ sn)])).
    { intros d f' i' On -> -> ->. destruct (IH (ct_set d (wadd 32 (ct_get d c) 1) c) (if dir_eqb d Fwd then f + 1 else f) (if dir_eqb d Inv then i + 1 else i) sn) as (n & c' & Hn & E).
      - destruct d; cbn [ct_set ct_fwd ct_get dir_eqb]; [|exact Ef]. unfold wadd. rewrite Ef. apply Zplus_mod_idemp_l.
      - destruct d; cbn [ct_set ct_inv ct_get dir_eqb]; [exact Ei|]. unfold wadd. rewrite Ei. apply Zplus_mod_idemp_l.
      - exists (S (S n)), c'. split; [cbn [length]; lia|]. rewrite !ST. unfold cwstep at 2. cbn [snd fst nth_error cstep th_add th_prog th_seen set_thread]. rewrite On.
        unfold cwstep. cbn [snd fst nth_error cstep th_add th_prog th_seen set_thread]. rewrite E, on_set, On. reflexivity. }
    assert (ONE : forall c1 f1 i1 sn1, cstep c (mk_cthread None (x :: p) sn) = Some (c1, mk_cthread None p sn1) -> ct_fwd c1 = f1 mod 2 ^ 32 -> ct_inv c1 = i1 mod 2 ^ 32 ->
      exists n c', (n <= 2 * length (x :: p))%nat /\ cschedule (repeat 0%nat n) (c, [mk_cthread None (x :: p) sn]) = (c', [mk_cthread None [] (rev (answers (ct_on c1) f1 i1 p) ++ sn1)])).
    { intros c1 f1 i1 sn1 S1 E1 E2. destruct (IH c1 f1 i1 sn1 E1 E2) as (n & c' & Hn & E). exists (S n), c'. split; [cbn [length]; lia|].
      rewrite ST. unfold cwstep. cbn [snd fst nth_error set_thread]. rewrite S1. exact E. }
    destruct x as [| |d|d|d].
    + apply (ONE (mk_counters true (ct_fwd c) (ct_inv c)) f i sn); auto.
    + apply (ONE (mk_counters false (ct_fwd c) (ct_inv c)) f i sn); auto.
    + destruct d; [apply (ONE (ct_set Fwd 0 c) 0 i sn)|apply (ONE (ct_set Inv 0 c) f 0 sn)]; auto.
    + destruct d; cbn [answers rev]; rewrite <- app_assoc; cbn [app].
      * apply (ONE c f i); auto. cbn [cstep th_add th_prog th_seen ct_get]. now rewrite Ef.
      * apply (ONE c f i); auto. cbn [cstep th_add th_prog th_seen ct_get]. now rewrite Ei.
    + destruct (ct_on c) eqn:On.
      * destruct d; cbn [answers]; [apply (ADD Fwd (f + 1) i)|apply (ADD Inv f (i + 1))]; auto.
      * destruct d; cbn [answers]; rewrite <- On; apply (ONE c f i); auto; cbn [cstep th_add th_prog th_seen]; now rewrite On.
Qed.
