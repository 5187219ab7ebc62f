(** Computations that draw from one generator: locality, and drawing first versus drawing on the way. *)
From Coq Require Import ZArith List Bool Lia SpecFloat.
From Verif Require Import Spec.Basic Spec.Poly Spec.Gauss Spec.Sampled Spec.OneStream.
From Verif Require Import Model.Base Model.PowOf2 Model.Field Model.NTT Model.Poly Model.Lwe Model.Rlwe Model.Gadget Model.BlindRotation Model.KeySwitch Model.Params Model.Boolean Model.Sample Model.SecretKey Model.Gaussian Model.Sampled Model.Stream.
Import ListNotations.
Local Open Scope Z_scope.

Notation rand := (rand_on nat).

(** * Locality *)

Definition local {A : Type} (m : rand A) : Prop := forall (G : generator) a b v, m G a = Got (v, b) ->
  (a <= b)%nat /\ forall H : generator, agree a b G H -> m H a = Got (v, b).

Lemma agree_sub a b a' b' G H : (a <= a')%nat -> (b' <= b)%nat -> agree a b G H -> agree a' b' G H.
Proof. intros H1 H2 E i Hi. apply E. lia. Qed.
Lemma local_ret {A : Type} (v : A) : local (rret v).
Proof. intros G a b w E. injection E as <- <-. split; [lia|reflexivity]. Qed.
Lemma local_lift {A : Type} (o : option A) : local (rlift o).
Proof. intros G a b w E. unfold rlift in *. destruct o; [|discriminate E]. injection E as <- <-. split; [lia|reflexivity]. Qed.
Lemma local_loop {A : Type} : local (fun _ _ => @Looping (A * nat)).
Proof. intros G a b w E. discriminate E. Qed.
Lemma local_bind {A C : Type} (m : rand A) (f : A -> rand C) : local m -> (forall v, local (f v)) -> local (rbind m f).
Proof.
  intros Hm Hf G a c w E. unfold rbind in E. destruct (m G a) as [| |[v b]] eqn:E1; [discriminate E|discriminate E|].
  destruct (Hm _ _ _ _ E1) as (L1 & A1). destruct (Hf v _ _ _ _ E) as (L2 & A2). split; [lia|].
  intros H HA. unfold rbind. rewrite (A1 H) by (apply (agree_sub a c); [lia|lia|exact HA]). apply A2. apply (agree_sub a c); [lia|lia|exact HA].
Qed.
Lemma local_word w : local (fun R => rn_word R w).
Proof. intros G a b v E. injection E as <- <-. split; [lia|]. intros H HA. cbn. rewrite (proj1 (HA a ltac:(lia)) w). reflexivity. Qed.
Lemma local_bytes n : local (fun R => rn_bytes R n).
Proof. intros G a b v E. injection E as <- <-. split; [lia|]. intros H HA. cbn. do 2 f_equal. apply map_ext. intros t. symmetry. apply (HA a). lia. Qed.
Lemma local_normal g : local (fun R => rn_normal R g).
Proof. intros G a b v E. injection E as <- <-. split; [lia|]. intros H HA. cbn. rewrite (proj1 (proj2 (proj2 (HA a ltac:(lia)))) g). reflexivity. Qed.
Lemma local_below q : local (fun R => rn_below R q).
Proof. intros G a b v E. injection E as <- <-. split; [lia|]. intros H HA. cbn. rewrite (proj2 (proj2 (proj2 (HA a ltac:(lia)))) q). reflexivity. Qed.
Lemma local_times {A : Type} (m : rand A) n : local m -> local (rtimes n m).
Proof. intros Hm. induction n; cbn [rtimes]; [apply local_ret|]. apply local_bind; [exact Hm|]. intros x. apply local_bind; [exact IHn|]. intros l. apply local_ret. Qed.
Lemma local_map {A C : Type} (f : A -> rand C) l : (forall z, local (f z)) -> local (rmap f l).
Proof. intros Hf. induction l; cbn [rmap]; [apply local_ret|]. apply local_bind; [apply Hf|]. intros x. apply local_bind; [exact IHl|]. intros r. apply local_ret. Qed.

Ltac loc := repeat first [assumption | match goal with
  | |- local (rret _) => apply local_ret | |- local (rlift _) => apply local_lift | |- local (fun _ _ => Looping) => apply local_loop
  | |- local (rtimes _ _) => apply local_times | |- local (rbind _ _) => apply local_bind; [|intros ?] | |- local (rmap _ _) => apply local_map; intros ?
  | |- local (if ?b then _ else _) => destruct b | |- local (match ?x with _ => _ end) => destruct x end].

Lemma next_local : local next_u32.
Proof. apply (local_word 32). Qed.
Lemma chunks_local w s per c : local (fill_chunks_g w s per c).
Proof. induction c; cbn [fill_chunks_g]; loc. apply next_local. Qed.
Lemma symbols_local w s per len : local (sample_symbols_g w s per len).
Proof. unfold sample_symbols_g. loc; [apply chunks_local|apply next_local]. Qed.
Lemma cbd_local F len : local (sample_cbd_field_vec_g F len).
Proof.
  unfold sample_cbd_field_vec_g. loc. apply local_bytes.
Qed.
Lemma uniform_local F th fuel : local (uniform_g F th fuel).
Proof. induction fuel; cbn [uniform_g]; loc. apply local_word. Qed.
Lemma random_local F fuel n : local (random_g F fuel n).
Proof. unfold random_g. loc. apply uniform_local. Qed.
Lemma gauss_local conv g fuel : local (gauss_loop_g conv g fuel).
Proof. induction fuel; cbn [gauss_loop_g]; loc. apply local_normal. Qed.
Lemma rwg_local F fuel n g : local (random_with_gaussian_g F fuel n g).
Proof. unfold random_with_gaussian_g. destruct (gs_cbd g); [apply cbd_local|]. loc. apply gauss_local. Qed.
Lemma lwe_draws_local B q g fuel n : local (lwe_draws_g B q g fuel n).
Proof. unfold lwe_draws_g. loc; [apply local_below|apply gauss_local]. Qed.
Lemma ring_draws_local F g fuel n : local (ring_draws_g F g fuel n).
Proof. unfold ring_draws_g. loc; [apply random_local|apply rwg_local]. Qed.
Lemma nzero_local F tbl g fuel sk : local (nrlwe_zero_sample_g F tbl g fuel sk).
Proof. unfold nrlwe_zero_sample_g. loc. apply ring_draws_local. Qed.
Lemma nvalue_local F tbl g fuel sk v : local (nrlwe_value_sample_g F tbl g fuel sk v).
Proof. unfold nrlwe_value_sample_g. loc. apply ring_draws_local. Qed.
Lemma power_local F row bv len : (forall v, local (row v)) -> forall power, local (power_rows_g F row bv power len).
Proof.
  intros Hr. induction len as [|len IH]; intros power; cbn [power_rows_g]; [apply local_lift|].
  destruct len; [apply local_bind; [apply Hr|intros r; apply local_ret]|]. loc; [apply Hr|apply IH].
Qed.
Lemma nrgsw_zero_local F tbl g fuel sk b : local (nrgsw_zero_sample_g F tbl g fuel sk b).
Proof. unfold nrgsw_zero_sample_g, ng_zero_sample_g. loc; apply nzero_local. Qed.
Lemma nrgsw_one_local F tbl g fuel sk b : local (nrgsw_one_sample_g F tbl g fuel sk b).
Proof. unfold nrgsw_one_sample_g, ng_neg_secret_sample_g, ng_one_sample_g. loc; (apply power_local; intros ?); loc; [apply nzero_local|apply nvalue_local]. Qed.
Lemma br_local F tbl dev fuel kp : local (br_key_generate_g F tbl dev fuel kp).
Proof.
  unfold br_key_generate_g, binary_generate_g, ternary_generate_g. loc; try apply nrgsw_zero_local; apply nrgsw_one_local.
Qed.
Lemma entries_local B mask q basis g fuel sk z c : forall v, local (lks_entries_g B mask q basis g fuel sk z v c).
Proof. induction c as [|c IH]; intros v; cbn [lks_entries_g]; cbv zeta; unfold lwe_zero_sample_g; loc; [apply lwe_draws_local|apply IH]. Qed.
Lemma levels_local B mask q basis g fuel sk len : forall zs, local (lks_levels_g B mask q basis g fuel sk zs len).
Proof. induction len as [|len IH]; intros zs; cbn [lks_levels_g]; cbv zeta; loc; [apply entries_local|apply IH]. Qed.
Lemma lks_local B q bits dev fuel sk ring_sk : local (lks_generate_g B q bits dev fuel sk ring_sk).
Proof. unfold lks_generate_g. loc. apply levels_local. Qed.
Lemma rks_rows_local F tbl g fuel lwe_sk bv len : forall z, local (rks_rows_g F tbl g fuel lwe_sk bv z len).
Proof. induction len as [|len IH]; intros z; cbn [rks_rows_g]; loc; [apply nzero_local|apply IH]. Qed.
Lemma rks_local F tbl bits dev fuel sk ring_sk nsk : local (rks_generate_g F tbl bits dev fuel sk ring_sk nsk).
Proof. unfold rks_generate_g. cbv zeta. loc; apply rks_rows_local. Qed.
Lemma eval_key_local B F tbl dv fuel kp : local (eval_key_new_g B F tbl dv fuel kp).
Proof. unfold eval_key_new_g. cbv zeta. loc; [apply br_local|apply lks_local|apply rks_local]. Qed.
Lemma key_pack_local F tbl P dv fuel : local (key_pack_new_g F tbl P dv fuel).
Proof.
  unfold key_pack_new_g, create_lwe_secret_key_g, create_ring_secret_key_g, sample_binary_values_g, sample_ternary_values_g, sample_binary_field_vec_g, sample_ternary_field_vec_g.
  loc; try apply symbols_local; apply rwg_local.
Qed.
Lemma encrypt_local B dv fuel kp m : local (kp_encrypt_g B dv fuel kp m).
Proof. unfold kp_encrypt_g, lwe_zero_sample_g. cbv zeta. loc. apply lwe_draws_local. Qed.

(** * Drawing first *)

Section Follow.
Variables (G : generator) (Pn L : Prop).

(** The outcomes of a draw: [ok] values, panics only if [Pn], endless loops only if [L]. *)
Definition rd {D : Type} (read : rand D) (ok : D -> Prop) : Prop := forall i,
  match read G i with Got (x, _) => ok x | Panicked => Pn | Looping => L end.
(** [m] draws what [read] draws and computes [d] of it. *)
Definition fol {A D : Type} (m : rand A) (read : rand D) (ok : D -> Prop) (d : D -> option A) : Prop := forall i,
  match m G i with
  | Got (v, j) => exists x, read G i = Got (x, j) /\ d x = Some v
  | Panicked => Pn \/ exists x, ok x /\ d x = None
  | Looping => L
  end.
Definition allok {D : Type} (k : nat) (ok : D -> Prop) (xs : list D) : Prop := length xs = k /\ Forall ok xs.
Definition rpair {D D' : Type} (r : rand D) (r' : rand D') : rand (D * D') := let% x := r in let% y := r' in rret (x, y).
Definition okpair {D D' : Type} (ok : D -> Prop) (ok' : D' -> Prop) (xy : D * D') : Prop := ok (fst xy) /\ ok' (snd xy).

Lemma rd_times {D : Type} (read : rand D) ok k : rd read ok -> rd (rtimes k read) (allok k ok).
Proof.
  intros H. induction k as [|k IH]; intros i; cbn [rtimes]; [split; [reflexivity|constructor]|].
  unfold rbind, rret. pose proof (H i) as Hi. destruct (read G i) as [| |[x j]]; [exact Hi|exact Hi|].
  specialize (IH j). destruct (rtimes k read G j) as [| |[l j']]; [exact IH|exact IH|]. destruct IH as (E & F). split; [cbn; congruence|constructor; assumption].
Qed.
Lemma rd_pair {D D' : Type} (r : rand D) (r' : rand D') ok ok' : rd r ok -> rd r' ok' -> rd (rpair r r') (okpair ok ok').
Proof.
  intros H H' i. unfold rpair, rbind, rret. pose proof (H i) as Hi. destruct (r G i) as [| |[x j]]; [exact Hi|exact Hi|].
  pose proof (H' j) as Hj. destruct (r' G j) as [| |[y j']]; [exact Hj|exact Hj|]. split; assumption.
Qed.
Lemma allok_ex {D : Type} k (ok : D -> Prop) : (exists x, ok x) -> exists xs, allok k ok xs.
Proof. intros (x & Hx). exists (repeat x k). split; [apply repeat_length|]. apply Forall_forall. intros y Hy. apply repeat_spec in Hy. subst y. exact Hx. Qed.
Lemma okpair_ex {D D' : Type} (ok : D -> Prop) (ok' : D' -> Prop) : (exists x, ok x) -> (exists x, ok' x) -> exists xy, okpair ok ok' xy.
Proof. intros (x & Hx) (y & Hy). exists (x, y). split; assumption. Qed.

Lemma fol_lift {A D : Type} (read : rand D) ok (d : D -> option A) : rd read ok -> fol (let% x := read in rlift (d x)) read ok d.
Proof.
  intros H i. unfold rbind, rlift. specialize (H i). destruct (read G i) as [| |[x j]]; [exact H|left; exact H|].
  destruct (d x) eqn:E; [exists x; split; [reflexivity|exact E]|right; exists x; split; assumption].
Qed.
Lemma fol_then {A C D : Type} (m : rand A) (read : rand D) ok d (h : A -> option C) : fol m read ok d -> rd read ok ->
  fol (let% v := m in rlift (h v)) read ok (fun x => let* v := d x in h v).
Proof.
  intros H HR i. unfold rbind, rlift. specialize (H i). specialize (HR i). destruct (m G i) as [| |[v j]]; [exact H| |].
  - destruct H as [H|(x & Hx & E)]; [left; exact H|right; exists x; split; [exact Hx|rewrite E; reflexivity]].
  - destruct H as (x & E1 & E2). rewrite E1 in HR. destruct (h v) eqn:E; [exists x; split; [exact E1|rewrite E2; exact E]|right; exists x; split; [exact HR|rewrite E2; exact E]].
Qed.
Lemma fol_ret {A C D : Type} (m : rand A) (read : rand D) ok d (h : A -> C) : fol m read ok d ->
  fol (let% v := m in rret (h v)) read ok (fun x => let* v := d x in Some (h v)).
Proof.
  intros H i. unfold rbind, rret. specialize (H i). destruct (m G i) as [| |[v j]]; [exact H| |].
  - destruct H as [H|(x & Hx & E)]; [left; exact H|right; exists x; split; [exact Hx|rewrite E; reflexivity]].
  - destruct H as (x & E1 & E2). exists x. split; [exact E1|rewrite E2; reflexivity].
Qed.
Lemma fol_pre {A C D : Type} (o : option C) (m : C -> rand A) (read : rand D) ok (d : C -> D -> option A) :
  (exists x, ok x) -> (forall v, o = Some v -> fol (m v) read ok (d v)) ->
  fol (let% v := rlift o in m v) read ok (fun x => let* v := o in d v x).
Proof.
  intros (x & Hx) H i. unfold rbind, rlift. destruct o as [v|]; [apply (H v eq_refl)|]. right. exists x. split; [exact Hx|reflexivity].
Qed.
Lemma fol_ext {A D : Type} (m : rand A) (read : rand D) ok d d' : fol m read ok d -> rd read ok -> (forall x, ok x -> d x = d' x) -> fol m read ok d'.
Proof.
  intros H HR HE i. specialize (H i). specialize (HR i). destruct (m G i) as [| |[v j]]; [exact H| |].
  - destruct H as [H|(x & Hx & E)]; [left; exact H|right; exists x; split; [exact Hx|rewrite <- HE; assumption]].
  - destruct H as (x & E1 & E2). rewrite E1 in HR. exists x. split; [exact E1|rewrite <- HE; assumption].
Qed.
Lemma fol_both {A A' C D D' : Type} (m : rand A) (m' : rand A') (r : rand D) (r' : rand D') ok ok' d d' (h : A -> A' -> C) :
  fol m r ok d -> fol m' r' ok' d' -> rd r ok -> (exists x, ok' x) ->
  fol (let% x := m in let% y := m' in rret (h x y)) (rpair r r') (okpair ok ok')
    (fun xy => let* x := d (fst xy) in let* y := d' (snd xy) in Some (h x y)).
Proof.
  intros H H' HR (x0 & Hx0) i. unfold rbind, rpair, rret. specialize (H i). specialize (HR i). destruct (m G i) as [| |[v j]]; [exact H| |].
  - destruct H as [H|(x & Hx & E)]; [left; exact H|right]. exists (x, x0). split; [split; assumption|]. cbn [fst snd]. rewrite E. reflexivity.
  - destruct H as (x & E1 & E2). unfold rbind. rewrite E1 in HR |- *. specialize (H' j). destruct (m' G j) as [| |[v' j']]; [exact H'| |].
    + destruct H' as [H'|(y & Hy & E)]; [left; exact H'|right]. exists (x, y). split; [split; assumption|]. cbn [fst snd]. rewrite E2, E. reflexivity.
    + destruct H' as (y & E3 & E4). rewrite E3. exists (x, y). split; [reflexivity|]. cbn [fst snd]. rewrite E2, E4. reflexivity.
Qed.
(** A row after another: the common step of the loops. *)
Lemma fol_cons {A C D : Type} (m : rand A) (rest : A -> rand C) (read : rand D) ok d k (e : D -> list D -> option C) :
  fol m read ok d -> rd read ok -> (exists x, ok x) ->
  (forall x v, ok x -> d x = Some v -> fol (rest v) (rtimes k read) (allok k ok) (e x)) ->
  (forall x xs, ok x -> d x = None -> e x xs = None) ->
  fol (let% v := m in rest v) (rtimes (S k) read) (allok (S k) ok) (fun xs => match xs with [] => None | x :: xs' => e x xs' end).
Proof.
  intros H HR Hex Hr Hn i. unfold rbind. cbn [rtimes]. unfold rbind, rret. specialize (H i). specialize (HR i). destruct (m G i) as [| |[v j]]; [exact H| |].
  - destruct H as [H|(x & Hx & E)]; [left; exact H|right]. destruct (allok_ex k ok Hex) as (xs & Lx & Fx).
    exists (x :: xs). split; [split; [cbn; congruence|constructor; assumption]|]. apply Hn; assumption.
  - destruct H as (x & E1 & E2). rewrite E1 in HR |- *. specialize (Hr x v HR E2 j). destruct (rest v G j) as [| |[w j']]; [exact Hr| |].
    + destruct Hr as [Hr|(xs & (Lx & Fx) & E)]; [left; exact Hr|right]. exists (x :: xs). split; [split; [cbn; congruence|constructor; assumption]|exact E].
    + destruct Hr as (xs & E3 & E4). rewrite E3. exists (x :: xs). split; [reflexivity|exact E4].
Qed.
Lemma fol_nil {A D : Type} (v : A) (read : rand D) ok (d : list D -> option A) : d [] = Some v -> fol (rret v) (rtimes 0 read) (allok 0 ok) d.
Proof. intros E i. cbn. exists []. split; [reflexivity|exact E]. Qed.

Lemma fol_times {A D : Type} (m : rand A) (read : rand D) ok d k : fol m read ok d -> rd read ok -> (exists x, ok x) ->
  fol (rtimes k m) (rtimes k read) (allok k ok) (mapM d).
Proof.
  intros H HR Hex. induction k as [|k IH]; [apply fol_nil; reflexivity|]. cbn [rtimes].
  eapply fol_ext; [apply (fol_cons m _ read ok d k (fun x xs => let* y := d x in let* ys := mapM d xs in Some (y :: ys)) H HR Hex)|apply (rd_times read ok (S k) HR)|].
  - intros x v Hx E. eapply fol_ext; [apply (fol_ret _ _ _ _ _ IH)|apply rd_times; exact HR|]. intros xs _. rewrite E. reflexivity.
  - intros x xs _ E. rewrite E. reflexivity.
  - intros [|x xs] (Lx & _); [discriminate Lx|]. reflexivity.
Qed.
Lemma fol_map {A C D : Type} (f : C -> rand A) (read : rand D) ok (d : C -> D -> option A) zs :
  (forall z, fol (f z) read ok (d z)) -> rd read ok -> (exists x, ok x) ->
  fol (rmap f zs) (rtimes (length zs) read) (allok (length zs) ok) (mapM2 d zs).
Proof.
  intros H HR Hex. induction zs as [|z zs IH]; [apply fol_nil; reflexivity|]. cbn [rmap length].
  eapply fol_ext; [apply (fol_cons (f z) _ read ok (d z) (length zs) (fun x xs => let* y := d z x in let* ys := mapM2 d zs xs in Some (y :: ys)) (H z) HR Hex)|apply (rd_times read ok (S (length zs)) HR)|].
  - intros x v Hx E. eapply fol_ext; [apply (fol_ret _ _ _ _ _ IH)|apply rd_times; exact HR|]. intros xs _. rewrite E. reflexivity.
  - intros x xs _ E. rewrite E. reflexivity.
  - intros [|x xs] (Lx & _); [discriminate Lx|]. reflexivity.
Qed.

(** * The functions of the scheme *)

Lemma power_rows_fol F (row : Z -> rand rlwe) (read : rand (list Z * list Z)) ok rowd bv len :
  (forall power, fol (row power) read ok (fun ae => rowd power (fst ae) (snd ae))) -> rd read ok -> (exists x, ok x) ->
  forall power, fol (power_rows_g F row bv power len) (rtimes len read) (allok len ok) (power_rows_peeled F rowd bv power).
Proof.
  intros H HR Hex. induction len as [|len IH]; intros power.
  - intros i. cbn. right. exists []. split; [split; [reflexivity|constructor]|reflexivity].
  - destruct len as [|len].
    + cbn [power_rows_g].
      eapply fol_ext; [apply (fol_cons (row power) _ read ok _ 0 (fun ae _ => let* r := rowd power (fst ae) (snd ae) in Some [r]) (H power) HR Hex)|apply (rd_times read ok 1 HR)|].
      * intros x v Hx E. apply fol_nil. rewrite E. reflexivity.
      * intros x xs _ E. rewrite E. reflexivity.
      * intros [|[a e] [|y xs]] (Lx & _); try discriminate Lx. reflexivity.
    + change (power_rows_g F row bv power (S (S len))) with
        (let% r := row power in let% power := rlift (umul (fw F) power bv) in let% t := power_rows_g F row bv power (S len) in rret (r :: t)).
      eapply fol_ext; [apply (fol_cons (row power) _ read ok _ (S len) (fun ae xs => let* r := rowd power (fst ae) (snd ae) in
        let* power := umul (fw F) power bv in let* t := power_rows_peeled F rowd bv power xs in Some (r :: t)) (H power) HR Hex)|apply (rd_times read ok (S (S len)) HR)|].
      * intros x v Hx E. eapply fol_ext; [apply (fol_pre (umul (fw F) power bv) _ _ _ (fun p xs => let* t := power_rows_peeled F rowd bv p xs in Some (v :: t)))|apply rd_times; exact HR|].
        -- apply allok_ex. exact Hex.
        -- intros p _. apply fol_ret. apply IH.
        -- intros xs _. rewrite E. reflexivity.
      * intros x xs _ E. rewrite E. reflexivity.
      * intros [|[a e] [|y xs]] (Lx & _); try discriminate Lx. reflexivity.
Qed.

Section Ring.
Variables (F : field) (tbl : tables) (g : gaussian) (fuel : nat) (sk : list Z) (b : basis).
Let read : rand _ := ring_draws_g F g fuel (length sk).
Variable ok : list Z * list Z -> Prop.
Hypothesis HR : rd read ok.
Hypothesis Hex : exists x, ok x.
Let rows := rtimes (bs_len b) read.
Let oks := allok (bs_len b) ok.

Lemma nzero_fol : fol (nrlwe_zero_sample_g F tbl g fuel sk) read ok (fun ae => nrlwe_zero_sample F tbl sk (fst ae) (snd ae)).
Proof. apply (fol_lift read ok (fun ae => nrlwe_zero_sample F tbl sk (fst ae) (snd ae))). exact HR. Qed.
Lemma nvalue_fol v : fol (nrlwe_value_sample_g F tbl g fuel sk v) read ok (fun ae => nrlwe_value_sample F tbl sk (fst ae) (snd ae) v).
Proof. apply (fol_lift read ok (fun ae => nrlwe_value_sample F tbl sk (fst ae) (snd ae) v)). exact HR. Qed.
Lemma firstn_ok (xs : list (list Z * list Z)) : oks xs -> firstn (bs_len b) xs = xs.
Proof. intros (Lx & _). rewrite <- Lx. apply firstn_all. Qed.
Lemma rows_rd : rd rows oks. Proof. apply rd_times. exact HR. Qed.
Lemma rows_ex : exists x, oks x. Proof. apply allok_ex. exact Hex. Qed.

Lemma ng_zero_fol : fol (ng_zero_sample_g F tbl g fuel sk b) rows oks (ng_zero_sample F tbl sk b).
Proof.
  eapply fol_ext; [apply fol_ret; apply (fol_times _ read ok _ (bs_len b) nzero_fol HR Hex)|exact rows_rd|].
  intros xs Hxs. unfold ng_zero_sample, zero_rows. rewrite firstn_ok by exact Hxs. reflexivity.
Qed.
Lemma ng_one_fol : fol (ng_one_sample_g F tbl g fuel sk b) rows oks (ng_one_sample F tbl sk b).
Proof.
  eapply fol_ext; [apply fol_ret; apply (power_rows_fol F _ read ok (fun power a e => nrlwe_value_sample F tbl sk a e power)); [intros power; apply nvalue_fol|exact HR|exact Hex]|exact rows_rd|].
  intros xs Hxs. unfold ng_one_sample. rewrite firstn_ok by exact Hxs. reflexivity.
Qed.
Lemma ng_neg_fol : fol (ng_neg_secret_sample_g F tbl g fuel sk b) rows oks (ng_neg_secret_sample F tbl sk b).
Proof.
  eapply fol_ext; [apply fol_ret; apply (power_rows_fol F _ read ok (fun power a e =>
      let* r := nrlwe_zero_sample F tbl sk a e in
      let* a := mapM (fun v => f_add F v power) (ra r) in Some (mk_rlwe a (rb r)))); [intros power|exact HR|exact Hex]|exact rows_rd|].
  - intros i. pose proof (fol_then _ _ _ _ (fun r => let* a := mapM (fun v => f_add F v power) (ra r) in Some (mk_rlwe a (rb r))) nzero_fol HR i) as H.
    unfold rbind, rlift, rret in *. destruct (nrlwe_zero_sample_g F tbl g fuel sk G i) as [| |[v j]]; [exact H|exact H|].
    destruct (mapM (fun v => f_add F v power) (ra v)) as [a|]; cbn [bind] in H; exact H.
  - intros xs Hxs. unfold ng_neg_secret_sample. rewrite firstn_ok by exact Hxs. reflexivity.
Qed.

Definition rgsw_read : rand (list (list Z * list Z) * list (list Z * list Z)) := rpair rows rows.
Definition rgsw_ok := okpair oks oks.
Lemma rgsw_rd : rd rgsw_read rgsw_ok. Proof. apply rd_pair; apply rows_rd. Qed.
Lemma rgsw_ex : exists x, rgsw_ok x. Proof. apply okpair_ex; apply rows_ex. Qed.
Lemma nrgsw_zero_fol : fol (nrgsw_zero_sample_g F tbl g fuel sk b) rgsw_read rgsw_ok (fun r => nrgsw_zero_sample F tbl sk b (fst r) (snd r)).
Proof. apply (fol_both _ _ rows rows oks oks _ _ mk_rgsw ng_zero_fol ng_zero_fol rows_rd rows_ex). Qed.
Lemma nrgsw_one_fol : fol (nrgsw_one_sample_g F tbl g fuel sk b) rgsw_read rgsw_ok (fun r => nrgsw_one_sample F tbl sk b (fst r) (snd r)).
Proof. apply (fol_both _ _ rows rows oks oks _ _ mk_rgsw ng_neg_fol ng_one_fol rows_rd rows_ex). Qed.

Lemma binary_fol zs : fol (binary_generate_g F tbl g fuel zs sk b) (rtimes (length zs) rgsw_read) (allok (length zs) rgsw_ok) (binary_generate F tbl zs sk b).
Proof.
  apply (fol_map _ rgsw_read rgsw_ok (fun s r => if s =? 0 then nrgsw_zero_sample F tbl sk b (fst r) (snd r) else nrgsw_one_sample F tbl sk b (fst r) (snd r))); [|exact rgsw_rd|exact rgsw_ex].
  intros z. destruct (z =? 0); [apply nrgsw_zero_fol|apply nrgsw_one_fol].
Qed.
Lemma ternary_fol zs : fol (ternary_generate_g F tbl g fuel zs sk b) (rtimes (length zs) (rpair rgsw_read rgsw_read)) (allok (length zs) (okpair rgsw_ok rgsw_ok)) (ternary_generate F tbl zs sk b).
Proof.
  assert (R2 : rd (rpair rgsw_read rgsw_read) (okpair rgsw_ok rgsw_ok)) by (apply rd_pair; apply rgsw_rd).
  apply fol_map; [|exact R2|apply okpair_ex; apply rgsw_ex].
  intros z. destruct (z =? 1); [|destruct (z =? 0)];
    (eapply fol_ext; [eapply (fol_both _ _ rgsw_read rgsw_read rgsw_ok rgsw_ok _ _ pair); [first [exact nrgsw_one_fol|exact nrgsw_zero_fol]|first [exact nrgsw_one_fol|exact nrgsw_zero_fol]|exact rgsw_rd|exact rgsw_ex]|exact R2|]);
    intros [[r0 r0'] [r1 r1']] _; reflexivity.
Qed.

Lemma rks_rows_fol bv len : forall z, fol (rks_rows_g F tbl g fuel sk bv z len) (rtimes len read) (allok len ok) (rks_rows F tbl sk bv z).
Proof.
  induction len as [|len IH]; intros z; [apply fol_nil; reflexivity|]. cbn [rks_rows_g].
  eapply fol_ext; [apply (fol_cons (nrlwe_zero_sample_g F tbl g fuel sk) _ read ok _ len (fun ae xs =>
      let* r := nrlwe_zero_sample F tbl sk (fst ae) (snd ae) in
      let* rb' := p_add_assign F (rb r) z in
      let* z := (match len with O => Some z | _ => p_mul_scalar F z bv end) in
      let* rest := rks_rows F tbl sk bv z xs in
      Some (mk_rlwe (ra r) rb' :: rest)) nzero_fol HR Hex)|apply (rd_times read ok (S len) HR)|].
  - intros x v Hx E.
    eapply fol_ext; [apply (fol_pre (p_add_assign F (rb v) z) _ _ _ (fun rb' xs => let* z := (match len with O => Some z | _ => p_mul_scalar F z bv end) in
      let* rest := rks_rows F tbl sk bv z xs in Some (mk_rlwe (ra v) rb' :: rest)))|apply rd_times; exact HR|].
    + apply allok_ex; exact Hex.
    + intros rb' _. apply (fol_pre (match len with O => Some z | _ => p_mul_scalar F z bv end) _ _ _ (fun z xs => let* rest := rks_rows F tbl sk bv z xs in Some (mk_rlwe (ra v) rb' :: rest))).
      * apply allok_ex; exact Hex.
      * intros z' _. apply fol_ret. apply IH.
    + intros xs _. rewrite E. reflexivity.
  - intros x xs _ E. rewrite E. reflexivity.
  - intros [|[a e] xs] (Lx & _); [discriminate Lx|]. cbn [length] in Lx. cbn [rks_rows fst snd].
    replace (match xs with [] => Some z | _ :: _ => p_mul_scalar F z bv end) with (match len with O => Some z | _ => p_mul_scalar F z bv end); [reflexivity|].
    destruct xs; cbn [length] in Lx; destruct len; try lia; reflexivity.
Qed.
End Ring.

Section Words.
Variables (B mask q : Z) (g : gaussian) (fuel : nat) (sk : list Z).
Let read : rand _ := lwe_draws_g B q g fuel (length sk).
Variable ok : list Z * Z -> Prop.
Hypothesis HR : rd read ok.
Hypothesis Hex : exists x, ok x.

Lemma lwe_zero_fol : fol (lwe_zero_sample_g B mask q g fuel sk) read ok (fun ae => lwe_zero_sample B mask sk (fst ae) (snd ae)).
Proof. apply (fol_lift read ok (fun ae => lwe_zero_sample B mask sk (fst ae) (snd ae))). exact HR. Qed.

Lemma entries_fol basis z : forall c e v, v + Z.of_nat c = basis ->
  fol (lks_entries_g B mask q basis g fuel sk z v (c + e)) (rtimes c read) (allok c ok) (lks_entries B mask sk z v).
Proof.
  induction c as [|c IH]; intros e v Hv.
  - cbn [Nat.add]. assert (Ev : (v <? basis) = false) by (apply Z.ltb_ge; lia).
    destruct e; cbn [lks_entries_g]; [|rewrite Ev]; apply fol_nil; reflexivity.
  - cbn [Nat.add lks_entries_g]. assert (Ev : (v <? basis) = true) by (apply Z.ltb_lt; lia). rewrite Ev. cbv zeta.
    eapply fol_ext; [apply (fol_cons (lwe_zero_sample_g B mask q g fuel sk) _ read ok _ c (fun ae xs =>
      let* x := lwe_zero_sample B mask sk (fst ae) (snd ae) in
      let* v' := uadd B v 1 in
      let* r := lks_entries B mask sk z v' xs in
      Some (mk_lwe (la x) (p2_add B mask (lb x) (p2_mul B mask v z)) :: r)) lwe_zero_fol HR Hex)|apply (rd_times read ok (S c) HR)|].
    + intros x w Hx E. eapply fol_ext; [apply (fol_pre (uadd B v 1) _ _ _ (fun v' xs => let* r := lks_entries B mask sk z v' xs in
        Some (mk_lwe (la w) (p2_add B mask (lb w) (p2_mul B mask v z)) :: r)))|apply rd_times; exact HR|].
      * apply allok_ex; exact Hex.
      * intros v' Hv'. apply fol_ret. apply IH. unfold uadd in Hv'. destruct (v + 1 <? 2 ^ B); [|discriminate Hv']. injection Hv' as <-. lia.
      * intros xs _. rewrite E. reflexivity.
    + intros x xs _ E. rewrite E. reflexivity.
    + intros [|[a e0] xs] (Lx & _); [discriminate Lx|]. reflexivity.
Qed.

Definition row_ok (basis : Z) := allok (Z.to_nat (basis - 1)) ok.
Definition row_read (basis : Z) := rtimes (Z.to_nat (basis - 1)) read.
Lemma inner_fol basis zs : 1 <= basis -> fol (rmap (fun z => let% _ := rlift (usub basis 2) in lks_entries_g B mask q basis g fuel sk z 1 (Z.to_nat basis)) zs)
  (rtimes (length zs) (row_read basis)) (allok (length zs) (row_ok basis)) (lks_inner B mask basis sk zs).
Proof.
  intros Hb. assert (RR : rd (row_read basis) (row_ok basis)) by (apply rd_times; exact HR).
  eapply fol_ext; [apply (fol_map _ (row_read basis) (row_ok basis) (fun z r => let* _ := usub basis 2 in let* _ := assert (Z.of_nat (length r) =? basis - 1) in lks_entries B mask sk z 1 r))|apply rd_times; exact RR|].
  - intros z. apply (fol_pre (usub basis 2) _ _ _ (fun _ r => let* _ := assert (Z.of_nat (length r) =? basis - 1) in lks_entries B mask sk z 1 r)); [apply allok_ex; exact Hex|].
    intros u _. replace (Z.to_nat basis) with (Z.to_nat (basis - 1) + 1)%nat by lia.
    eapply fol_ext; [apply (entries_fol basis z); lia|exact RR|]. intros r (Lr & _).
    replace (Z.of_nat (length r) =? basis - 1) with true by (symmetry; apply Z.eqb_eq; lia). reflexivity.
  - exact RR.
  - apply allok_ex; exact Hex.
  - intros rnd (Lr & _). unfold lks_inner. rewrite Lr, Nat.eqb_refl. reflexivity.
Qed.
Lemma levels_fol basis len : 1 <= basis -> forall n zs, length zs = n -> fol (lks_levels_g B mask q basis g fuel sk zs len)
  (rtimes len (rtimes n (row_read basis))) (allok len (allok n (row_ok basis))) (lks_levels B mask basis sk zs).
Proof.
  intros Hb n. assert (RR : rd (rtimes n (row_read basis)) (allok n (row_ok basis))) by (apply rd_times, rd_times; exact HR).
  assert (EX : exists x, allok n (row_ok basis) x) by (apply allok_ex, allok_ex; exact Hex).
  induction len as [|len IH]; intros zs Hz; [apply fol_nil; reflexivity|]. cbn [lks_levels_g]. cbv zeta.
  pose proof (inner_fol basis zs Hb) as HI. rewrite Hz in HI.
  eapply fol_ext; [apply (fol_cons _ _ _ _ _ len (fun r xs => let* inner := lks_inner B mask basis sk zs r in
      let* rest := lks_levels B mask basis sk (match len with O => zs | _ => map (fun z => p2_mul B mask z basis) zs end) xs in
      Some (inner :: rest)) HI RR EX)|apply (rd_times _ _ (S len) RR)|].
  - intros x w Hx E. eapply fol_ext; [apply fol_ret; apply IH|apply rd_times; exact RR|].
    + destruct len; [exact Hz|rewrite map_length; exact Hz].
    + intros xs _. rewrite E. reflexivity.
  - intros x xs _ E. rewrite E. reflexivity.
  - intros [|r xs] (Lx & _); [discriminate Lx|]. cbn [length] in Lx. cbn [lks_levels]. cbv zeta.
    replace (match xs with [] => zs | _ :: _ => map (fun z => p2_mul B mask z basis) zs end) with (match len with O => zs | _ => map (fun z => p2_mul B mask z basis) zs end); [reflexivity|].
    destruct xs; cbn [length] in Lx; destruct len; try lia; reflexivity.
Qed.
End Words.
End Follow.
