(** Generators with a state against sequences of answers, against each other, and against a stream. *)
From Coq Require Import ZArith List Bool Lia SpecFloat.
From Verif Require Import Spec.Basic Spec.Aes Spec.Stream Spec.Gauss Spec.OneStream Spec.Machine.
From Verif Require Import Model.Base Model.Block Model.Aes Model.Gaussian Model.Prg Model.Stream Model.Seeded.
From Verif Require Import Proofs.AesProofs Proofs.PrgProofs Proofs.Reify.
Import ListNotations.
Local Open Scope Z_scope.

(** * The sequence of answers *)

Section Answers.
Context {St : Type}.
Variable (R : rng St).

Definition follows {A : Type} (m : forall St, rand_on St A) (x : St) : Prop :=
  match m St R x with
  | Got (v, y) => exists l, visits R x l y /\ forall (G : generator) a, answered R a l G -> m nat G a = Got (v, (a + length l)%nat)
  | Panicked => refuses R x \/ exists l y, visits R x l y /\ forall (G : generator) a, answered R a l G -> m nat G a = Panicked
  | Looping => True
  end.

Lemma answered_tail a x l G : answered R a (x :: l) G -> answered R (S a) l G.
Proof. intros H i y Hy. specialize (H (S i) y Hy). rewrite Nat.add_succ_r in H. exact H. Qed.
Lemma refuses_step x y : moves R x y -> refuses R y -> refuses R x.
Proof. intros M (l & z & V & E). exists (x :: l), z. split; [econstructor; [exact M|exact V]|exact E]. Qed.

Lemma follows_step {A : Type} (t t' : tree A) x y : moves R x y ->
  run t R x = run t' R y ->
  (forall l (G : generator) a, answered R a (x :: l) G -> run t G a = run t' G (S a)) ->
  follows (fun St => @run A t' St) y -> follows (fun St => @run A t St) x.
Proof.
  intros M E1 E2 H. unfold follows in *. rewrite E1. destruct (run t' R y) as [| |[v z]]; [exact I| |].
  - destruct H as [H|(l & z & V & H)]; [left; exact (refuses_step x y M H)|]. right. exists (x :: l), z.
    split; [econstructor; [exact M|exact V]|]. intros G a HA. rewrite (E2 l G a HA). apply H. exact (answered_tail a x l G HA).
  - destruct H as (l & V & H). exists (x :: l). split; [econstructor; [exact M|exact V]|]. intros G a HA. rewrite (E2 l G a HA).
    rewrite (H G (S a) (answered_tail a x l G HA)). cbn [length]. do 2 f_equal. lia.
Qed.

Lemma tree_follows {A : Type} (t : tree A) : forall x, follows (fun St => @run A t St) x.
Proof.
  induction t as [v| | |w k IH|k IH|g k IH|q k IH]; intros x.
  - exists []. split; [constructor|]. intros G a _. cbn. do 2 f_equal. lia.
  - right. exists [], x. split; [constructor|]. reflexivity.
  - exact I.
  - destruct (rn_word R w x) as [| |[v y]] eqn:E; [unfold follows; cbn [run]; rewrite E; exact I| |].
    + unfold follows; cbn [run]; rewrite E. left. exists [], x. split; [constructor|]. left. exists w. exact E.
    + apply (follows_step _ (k v) x y); [left; exists w, v; exact E|cbn [run]; rewrite E; reflexivity| |apply IH].
      intros l G a HA. cbn. destruct (HA 0%nat x eq_refl) as (H & _). rewrite Nat.add_0_r in H. rewrite (H w v y E). reflexivity.
  - destruct (rn_bytes R 6 x) as [| |[v y]] eqn:E; [unfold follows; cbn [run]; rewrite E; exact I| |].
    + unfold follows; cbn [run]; rewrite E. left. exists [], x. split; [constructor|]. right. left. exact E.
    + apply (follows_step _ (k v) x y); [right; left; exists v; exact E|cbn [run]; rewrite E; reflexivity| |apply IH].
      intros l G a HA. destruct (HA 0%nat x eq_refl) as (_ & H & _). rewrite Nat.add_0_r in H. cbn [run counter rn_bytes after fst snd]. rewrite (H v y E). reflexivity.
  - destruct (rn_normal R g x) as [| |[v y]] eqn:E; [unfold follows; cbn [run]; rewrite E; exact I| |].
    + unfold follows; cbn [run]; rewrite E. left. exists [], x. split; [constructor|]. right. right. left. exists g. exact E.
    + apply (follows_step _ (k v) x y); [right; right; left; exists g, v; exact E|cbn [run]; rewrite E; reflexivity| |apply IH].
      intros l G a HA. cbn. destruct (HA 0%nat x eq_refl) as (_ & _ & H & _). rewrite Nat.add_0_r in H. rewrite (H g v y E). reflexivity.
  - destruct (rn_below R q x) as [| |[v y]] eqn:E; [unfold follows; cbn [run]; rewrite E; exact I| |].
    + unfold follows; cbn [run]; rewrite E. left. exists [], x. split; [constructor|]. right. right. right. exists q. exact E.
    + apply (follows_step _ (k v) x y); [right; right; right; exists q, v; exact E|cbn [run]; rewrite E; reflexivity| |apply IH].
      intros l G a HA. cbn. destruct (HA 0%nat x eq_refl) as (_ & _ & _ & H). rewrite Nat.add_0_r in H. rewrite (H q v y E). reflexivity.
Qed.
Lemma all_follow {A : Type} (m : forall St, rand_on St A) : treelike m -> forall x, follows m x.
Proof.
  intros (t & Ht) x. pose proof (tree_follows t x) as H. unfold follows in *. rewrite Ht. destruct (run t R x) as [| |[v y]]; [exact I| |].
  - destruct H as [H|(l & z & V & H)]; [left; exact H|right]. exists l, z. split; [exact V|]. intros G a HA. rewrite Ht. apply H. exact HA.
  - destruct H as (l & V & H). exists l. split; [exact V|]. intros G a HA. rewrite Ht. apply H. exact HA.
Qed.

(** A sequence of answers that agrees with the states visited. *)
Definition ans {V : Type} (d : V) (o : drawn (V * St)) : V := match o with Got (v, _) => v | _ => d end.
Lemma answers_exist l : rng_ok R -> exists G, gen_ok G /\ answered R 0 l G.
Proof.
  intros (H1 & H2 & H3 & H4).
  exists (mk_generator
    (fun w i => match nth_error l i with Some x => ans 0 (rn_word R w x) | None => 0 end)
    (fun i t => match nth_error l i with Some x => nth t (ans [] (rn_bytes R 6 x)) 0 | None => 0 end)
    (fun g i => match nth_error l i with Some x => ans (S754_zero false) (rn_normal R g x) | None => S754_zero false end)
    (fun q i => match nth_error l i with Some x => ans 0 (rn_below R q x) | None => 0 end)).
  split.
  - split; [|split; [|split]]; cbn [gn_word gn_byte gn_normal gn_below].
    + intros w i Hw. assert (0 < 2 ^ w) by (apply Z.pow_pos_nonneg; lia). destruct (nth_error l i) as [x|]; [|lia].
      destruct (rn_word R w x) as [| |[v y]] eqn:E; cbn [ans]; [lia|lia|]. exact (H1 w x v y Hw E).
    + intros i t. destruct (nth_error l i) as [x|]; [|lia]. destruct (rn_bytes R 6 x) as [| |[b y]] eqn:E; cbn [ans]; try (destruct t; cbn; lia).
      destruct (H2 x b y E) as (Lb & Fb). destruct (Nat.lt_ge_cases t (length b)) as [Ht|Ht]; [|rewrite nth_overflow by exact Ht; lia].
      exact (proj1 (Forall_forall _ _) Fb _ (nth_In b 0 Ht)).
    + intros g i. destruct (nth_error l i) as [x|]; [|reflexivity]. destruct (rn_normal R g x) as [| |[v y]] eqn:E; cbn [ans]; [reflexivity|reflexivity|]. exact (H3 g x v y E).
    + intros q i Hq. destruct (nth_error l i) as [x|]; [|lia]. destruct (rn_below R q x) as [| |[v y]] eqn:E; cbn [ans]; [lia|lia|]. exact (H4 q x v y Hq E).
  - intros i x Hx. cbn [Nat.add gn_word gn_byte gn_normal gn_below]. rewrite Hx. split; [|split; [|split]].
    + intros w v y E. rewrite E. reflexivity.
    + intros b y E. rewrite E. destruct (H2 x b y E) as (Lb & _). cbn [ans].
      destruct b as [|b0 [|b1 [|b2 [|b3 [|b4 [|b5 [|]]]]]]]; try discriminate Lb. reflexivity.
    + intros g v y E. rewrite E. reflexivity.
    + intros q v y E. rewrite E. reflexivity.
Qed.
End Answers.

(** * Two generators that answer alike *)

Section Alike.
Context {St St' : Type}.
Variables (R : rng St) (R' : rng St') (Q : St -> St' -> Prop).

Definition alike {V : Type} (o : drawn (V * St)) (o' : drawn (V * St')) : Prop :=
  match o with
  | Got (v, y) => exists y', o' = Got (v, y') /\ Q y y'
  | Panicked => o' = Panicked
  | Looping => o' = Looping
  end.
Hypothesis HW : forall w x x', Q x x' -> alike (rn_word R w x) (rn_word R' w x').
Hypothesis HS : forall x x', Q x x' -> alike (rn_bytes R 6 x) (rn_bytes R' 6 x').
Hypothesis HN : forall g x x', Q x x' -> alike (rn_normal R g x) (rn_normal R' g x').
Hypothesis HB : forall q x x', Q x x' -> alike (rn_below R q x) (rn_below R' q x').

Lemma alike_after {V C : Type} (o : drawn (V * St)) o' (f : V -> St -> drawn (C * St)) (f' : V -> St' -> drawn (C * St')) : alike o o' ->
  (forall v y y', Q y y' -> alike (f v y) (f' v y')) -> alike (after o (fun vy => f (fst vy) (snd vy))) (after o' (fun vy => f' (fst vy) (snd vy))).
Proof.
  intros H Hf. destruct o as [| |[v y]]; cbn [alike] in H; [rewrite H; reflexivity|rewrite H; reflexivity|]. destruct H as (y' & -> & HQ). cbn [after fst snd]. apply Hf. exact HQ.
Qed.
Lemma tree_alike {A : Type} (t : tree A) : forall x x', Q x x' -> alike (run t R x) (run t R' x').
Proof.
  induction t as [v| | |w k IH|k IH|g k IH|q k IH]; intros x x' H; cbn [run].
  - exists x'. split; [reflexivity|exact H].
  - reflexivity.
  - reflexivity.
  - apply (alike_after _ _ (fun v y => run (k v) R y) (fun v y => run (k v) R' y) (HW w x x' H)). intros v y y' HQ. apply IH. exact HQ.
  - apply (alike_after _ _ (fun v y => run (k v) R y) (fun v y => run (k v) R' y) (HS x x' H)). intros v y y' HQ. apply IH. exact HQ.
  - apply (alike_after _ _ (fun v y => run (k v) R y) (fun v y => run (k v) R' y) (HN g x x' H)). intros v y y' HQ. apply IH. exact HQ.
  - apply (alike_after _ _ (fun v y => run (k v) R y) (fun v y => run (k v) R' y) (HB q x x' H)). intros v y y' HQ. apply IH. exact HQ.
Qed.
Lemma all_alike {A : Type} (m : forall St, rand_on St A) : treelike m -> forall x x', Q x x' -> alike (m St R x) (m St' R' x').
Proof. intros (t & Ht) x x' H. rewrite !Ht. apply tree_alike. exact H. Qed.
End Alike.

(** * The seeded generator reads its key stream *)

Section Seeded.
Variables (A : arch) (seed : list Z) (normal : gaussian -> reader spec_float) (below : Z -> reader Z).
Hypothesis Hk : bytes 16 seed.

Lemma prg_run_app cs cs' : forall g, prg_run A (cs ++ cs') g =
  (let* '(o, g) := prg_run A cs g in let* '(o', g) := prg_run A cs' g in Some (o ++ o', g)).
Proof.
  induction cs as [|c cs IH]; intros g; cbn [prg_run app bind].
  - destruct (prg_run A cs' g) as [[o' g']|]; reflexivity.
  - destruct (prg_do A c g) as [[o1 g1]|]; cbn [bind]; [|reflexivity]. rewrite IH. destruct (prg_run A cs g1) as [[o2 g2]|]; cbn [bind]; [|reflexivity].
    destruct (prg_run A cs' g2) as [[o3 g3]|]; reflexivity.
Qed.
Lemma costs_app cs cs' : costs (cs ++ cs') = costs cs + costs cs'.
Proof. induction cs as [|c cs IH]; [reflexivity|]. cbn [app]. rewrite !costs_cons, IH. lia. Qed.
Lemma reached_rep pos g : reached A seed pos g -> rep seed g pos.
Proof.
  intros (cs & <- & E). destruct (rep_start A seed Hk) as (g0 & E0 & H0). rewrite E0 in E. cbn [bind] in E.
  pose proof (run_ok A seed cs Hk g0 0 H0) as H. rewrite Z.add_0_l in H. unfold reads in H.
  destruct (costs cs <=? capacity); [|rewrite H in E; discriminate E]. destruct H as (g' & E' & H'). rewrite E' in E. cbn [bind] in E. injection E as <-. exact H'.
Qed.
Lemma reached_do pos g c o g' : reached A seed pos g -> prg_do A c g = Some (o, g') -> reached A seed (pos + cost c) g'.
Proof.
  intros (cs & <- & E) Ed. exists (cs ++ [c]). split; [rewrite costs_app, costs_cons; change (costs []) with 0; lia|].
  destruct (prg_from_seed A seed) as [g0|]; [|discriminate E]. cbn [bind] in *. rewrite prg_run_app.
  destruct (prg_run A cs g0) as [[o1 g1]|]; [|discriminate E]. cbn [bind] in *. injection E as ->. cbn [prg_run]. rewrite Ed. reflexivity.
Qed.

Notation Q := (fun g pos => reached A seed pos g).
Notation R := (prg_rng A normal below).
Notation R' := (stream_rng (stream_byte seed) normal below).

Lemma part_stream pos n : part (stream_byte seed) pos n = stream seed (4 * pos) n.
Proof. unfold part, stream. reflexivity. Qed.
Lemma word_value pos : word seed pos = le_value (part (stream_byte seed) pos 4).
Proof. rewrite part_stream. unfold word. reflexivity. Qed.
Lemma join_value pos : join seed pos = le_value (part (stream_byte seed) pos 8).
Proof.
  rewrite part_stream, <- join_bytes by exact Hk. symmetry. apply le_value_bytes. unfold join.
  pose proof (word_range seed pos Hk). pose proof (word_range seed (pos + 1) Hk). rewrite Z.lor_comm, Z.shiftl_mul_pow2, lor_disjoint by lia. lia.
Qed.

Lemma u32_alike g pos : reached A seed pos g -> alike Q (got (Prg.next_u32 A g)) (take (pos + 1) (le_value (part (stream_byte seed) pos 4))).
Proof.
  intros H. pose proof (next_u32_ok A seed g pos Hk (reached_rep pos g H)) as E. unfold reads, take in *. rewrite <- word_value.
  destruct (pos + 1 <=? capacity); [|rewrite E; reflexivity]. destruct E as (g' & E & _). rewrite E. cbn [got alike]. exists (pos + 1). split; [reflexivity|].
  apply (reached_do pos g NextU32 (le_bytes 4 (word seed pos)) g' H). cbn [prg_do]. rewrite E. reflexivity.
Qed.
Lemma u64_alike g pos : reached A seed pos g -> alike Q (got (next_u64 A g)) (take (pos + 2) (le_value (part (stream_byte seed) pos 8))).
Proof.
  intros H. pose proof (next_u64_ok A seed g pos Hk (reached_rep pos g H)) as E. unfold reads, take in *. rewrite <- join_value.
  destruct (pos + 2 <=? capacity); [|rewrite E; reflexivity]. destruct E as (g' & E & _). rewrite E. cbn [got alike]. exists (pos + 2). split; [reflexivity|].
  apply (reached_do pos g NextU64 (le_bytes 8 (join seed pos)) g' H). cbn [prg_do]. rewrite E. reflexivity.
Qed.
Lemma fill_alike n g pos : reached A seed pos g -> alike Q (got (fill_bytes A (S n) n g)) (take (pos + (Z.of_nat n + 3) / 4) (part (stream_byte seed) pos n)).
Proof.
  intros H. pose proof (do_ok A seed (FillBytes n) g pos Hk (reached_rep pos g H)) as E. cbn [prg_do answer cost] in E. unfold reads, take in *. rewrite part_stream.
  destruct (pos + (Z.of_nat n + 3) / 4 <=? capacity); [|rewrite E; reflexivity]. destruct E as (g' & E & _). rewrite E. cbn [got alike]. exists (pos + (Z.of_nat n + 3) / 4). split; [reflexivity|].
  apply (reached_do pos g (FillBytes n) (stream seed (4 * pos) n) g' H). exact E.
Qed.
Lemma read_alike {V : Type} (r : reader V) : forall g pos, reached A seed pos g -> alike Q (read_with A r g) (read_stream (stream_byte seed) r pos).
Proof.
  induction r as [v| |k IH|k IH]; intros g pos H; cbn [read_with read_stream].
  - exists pos. split; [reflexivity|exact H].
  - reflexivity.
  - pose proof (u32_alike g pos H) as E. unfold take in E. generalize dependent (le_value (part (stream_byte seed) pos 4)). intros u E. destruct (Prg.next_u32 A g) as [[v g']|]; cbn [got alike] in E.
    + destruct E as (pos' & E & H'). destruct (pos + 1 <=? capacity); [|discriminate E]. injection E as <- <-. apply IH. exact H'.
    + destruct (pos + 1 <=? capacity); [discriminate E|reflexivity].
  - pose proof (u64_alike g pos H) as E. unfold take in E. generalize dependent (le_value (part (stream_byte seed) pos 8)). intros u E. destruct (next_u64 A g) as [[v g']|]; cbn [got alike] in E.
    + destruct E as (pos' & E & H'). destruct (pos + 2 <=? capacity); [|discriminate E]. injection E as <- <-. apply IH. exact H'.
    + destruct (pos + 2 <=? capacity); [discriminate E|reflexivity].
Qed.
Lemma seeded_alike {V : Type} (m : forall St, rand_on St V) : treelike m -> forall pos g, reached A seed pos g -> alike Q (m _ R g) (m _ R' pos).
Proof.
  intros Hm pos g H. apply (all_alike R R' Q); [| | | |exact Hm|exact H]; cbn [prg_rng stream_rng rn_word rn_bytes rn_normal rn_below].
  - intros w x x' HQ. destruct (w =? 32); [apply u32_alike; exact HQ|]. destruct (w =? 64); [apply u64_alike; exact HQ|reflexivity].
  - intros x x' HQ. apply (fill_alike 6). exact HQ.
  - intros g' x x' HQ. apply read_alike. exact HQ.
  - intros q x x' HQ. apply read_alike. exact HQ.
Qed.
Lemma reached_bounds pos g : reached A seed pos g -> 0 <= pos <= capacity.
Proof. intros H. pose proof (reached_rep pos g H) as Hr. split; [|exact (rep_capacity _ _ _ Hr)]. destruct Hr as (s & _ & _ & _ & _ & H0 & _). exact H0. Qed.
Lemma reached_answers pos g cs : reached A seed pos g ->
  (let* '(out, _) := prg_run A cs g in Some out) = if pos + costs cs <=? capacity then Some (answers seed pos cs) else None.
Proof.
  intros H. pose proof (run_ok A seed cs Hk g pos (reached_rep pos g H)) as E. unfold reads in E. destruct (pos + costs cs <=? capacity); [|rewrite E; reflexivity].
  destruct E as (g' & -> & _). reflexivity.
Qed.
End Seeded.

(** * Reading a stream *)

Section Streams.
Variables (normal : gaussian -> reader spec_float) (below : Z -> reader Z).

Lemma part_agree s s' pos pos' n : Z.of_nat n <= 4 * (pos' - pos) -> same_words s s' pos pos' -> part s pos n = part s' pos n.
Proof. intros Hn H. unfold part. apply map_ext_in. intros j Hj. apply in_seq in Hj. apply H. lia. Qed.

Definition own {V : Type} (m : (Z -> Z) -> Z -> drawn (V * Z)) : Prop := forall s pos v pos', m s pos = Got (v, pos') ->
  pos <= pos' /\ forall s', same_words s s' pos pos' -> m s' pos = Got (v, pos').
Lemma own_after {V C : Type} (m : (Z -> Z) -> Z -> drawn (V * Z)) (f : V -> (Z -> Z) -> Z -> drawn (C * Z)) : own m -> (forall v, own (f v)) ->
  own (fun s pos => after (m s pos) (fun vy => f (fst vy) s (snd vy))).
Proof.
  intros Hm Hf s pos v pos' E. destruct (m s pos) as [| |[u p1]] eqn:E1; cbn [after fst snd] in E; [discriminate E|discriminate E|].
  destruct (Hm s pos u p1 E1) as (L1 & A1). destruct (Hf u s p1 v pos' E) as (L2 & A2). split; [lia|]. intros s' HS.
  rewrite (A1 s') by (intros i Hi; apply HS; lia). cbn [after fst snd]. apply A2. intros i Hi. apply HS. lia.
Qed.
Lemma own_take {V : Type} (f : list Z -> V) n k : 0 <= k -> Z.of_nat n <= 4 * k -> own (fun s pos => take (pos + k) (f (part s pos n))).
Proof.
  intros Hk Hn s pos v pos' E. unfold take in *. destruct (pos + k <=? capacity); [|discriminate E]. injection E as <- <-. split; [lia|].
  intros s' HS. rewrite (part_agree s s' pos (pos + k) n) by (lia || exact HS). reflexivity.
Qed.
Lemma own_read {V : Type} (r : reader V) : own (fun s pos => read_stream s r pos).
Proof.
  induction r as [v| |k IH|k IH]; intros s pos u pos' E; cbn [read_stream] in *.
  - injection E as <- <-. split; [lia|reflexivity].
  - discriminate E.
  - destruct (pos + 1 <=? capacity); [|discriminate E]. destruct (IH _ s _ u pos' E) as (L & H). split; [lia|]. intros s' HS.
    rewrite <- (part_agree s s' pos pos' 4) by (lia || exact HS). apply H. intros i Hi. apply HS. lia.
  - destruct (pos + 2 <=? capacity); [|discriminate E]. destruct (IH _ s _ u pos' E) as (L & H). split; [lia|]. intros s' HS.
    rewrite <- (part_agree s s' pos pos' 8) by (lia || exact HS). apply H. intros i Hi. apply HS. lia.
Qed.
Lemma own_tree {V : Type} (t : tree V) : own (fun s pos => run t (stream_rng s normal below) pos).
Proof.
  induction t as [v| | |w k IH|k IH|g k IH|q k IH]; cbn [run].
  - intros s pos u pos' E. injection E as <- <-. split; [lia|reflexivity].
  - intros s pos u pos' E. discriminate E.
  - intros s pos u pos' E. discriminate E.
  - apply (own_after (fun s pos => rn_word (stream_rng s normal below) w pos) (fun v s pos => run (k v) (stream_rng s normal below) pos)); [|exact IH].
    cbn [stream_rng rn_word]. destruct (w =? 32); [apply (own_take le_value 4 1); lia|]. destruct (w =? 64); [apply (own_take le_value 8 2); lia|]. intros s pos u pos' E. discriminate E.
  - apply (own_after (fun s pos => rn_bytes (stream_rng s normal below) 6 pos) (fun v s pos => run (k v) (stream_rng s normal below) pos)); [|exact IH].
    cbn [stream_rng rn_bytes]. apply (own_take (fun l => l) 6 ((Z.of_nat 6 + 3) / 4)); vm_compute; discriminate.
  - apply (own_after (fun s pos => rn_normal (stream_rng s normal below) g pos) (fun v s pos => run (k v) (stream_rng s normal below) pos)); [|exact IH]. apply own_read.
  - apply (own_after (fun s pos => rn_below (stream_rng s normal below) q pos) (fun v s pos => run (k v) (stream_rng s normal below) pos)); [|exact IH]. apply own_read.
Qed.
Lemma all_own {V : Type} (m : forall St, rand_on St V) : treelike m -> own (fun s pos => m Z (stream_rng s normal below) pos).
Proof.
  intros (t & Ht) s pos v pos' E. rewrite Ht in E. destruct (own_tree t s pos v pos' E) as (L & H). split; [exact L|]. intros s' HS. rewrite Ht. apply H. exact HS.
Qed.

Lemma part_bytes s pos n : (forall i, byte (s i)) -> bytes n (part s pos n).
Proof. intros H. split; [unfold part; rewrite map_length, seq_length; reflexivity|]. apply Forall_map, Forall_forall. intros j _. apply H. Qed.
Lemma part_value s pos n : (forall i, byte (s i)) -> 0 <= le_value (part s pos n) < 256 ^ Z.of_nat n.
Proof. intros H. destruct (part_bytes s pos n H) as (L & F). pose proof (le_value_range _ F) as E. rewrite L in E. exact E. Qed.
Lemma read_gives {V : Type} (P : V -> Prop) s (r : reader V) : (forall i, byte (s i)) -> gives P r -> forall pos v pos', read_stream s r pos = Got (v, pos') -> P v.
Proof.
  intros Hs. induction 1 as [v Hv| |k _ IH|k _ IH]; intros pos u pos' E; cbn [read_stream] in E.
  - injection E as <- _. exact Hv.
  - discriminate E.
  - destruct (pos + 1 <=? capacity); [|discriminate E]. refine (IH _ _ _ _ _ E). exact (part_value s pos 4 Hs).
  - destruct (pos + 2 <=? capacity); [|discriminate E]. refine (IH _ _ _ _ _ E). exact (part_value s pos 8 Hs).
Qed.
Lemma stream_ok s : (forall i, byte (s i)) -> (forall g, gives is_f64 (normal g)) -> (forall q, 0 < q -> gives (fun v => 0 <= v < q) (below q)) -> rng_ok (stream_rng s normal below).
Proof.
  intros Hs HN HB. split; [|split; [|split]]; cbn [stream_rng rn_word rn_bytes rn_normal rn_below].
  - intros w x v y Hw E. unfold take in E. destruct (Z.eqb_spec w 32) as [->|_].
    + destruct (x + 1 <=? capacity); [|discriminate E]. injection E as <- _. exact (part_value s x 4 Hs).
    + destruct (Z.eqb_spec w 64) as [->|_]; [|discriminate E]. destruct (x + 2 <=? capacity); [|discriminate E]. injection E as <- _. exact (part_value s x 8 Hs).
  - intros x l y E. unfold take in E. destruct (_ <=? capacity); [|discriminate E]. injection E as <- _. apply part_bytes. exact Hs.
  - intros g x v y E. exact (read_gives is_f64 s (normal g) Hs (HN g) x v y E).
  - intros q x v y Hq E. exact (read_gives _ s (below q) Hs (HB q Hq) x v y E).
Qed.
End Streams.
