(** Lifting what holds for every sequence of answers to every generator with a state. *)
From Coq Require Import ZArith List Bool Lia SpecFloat.
From Verif Require Import Spec.Basic Spec.Aes Spec.Stream Spec.Gauss Spec.Gates Spec.KeyGen Spec.Sampled Spec.OneStream Spec.Machine.
From Verif Require Import Model.Base Model.Field Model.NTT Model.Poly Model.Aes Model.Gaussian Model.Params Model.Prg Model.Stream Model.Seeded.
From Verif Require Import Proofs.PrgProofs Proofs.Reify Proofs.MachineProofs.
Import ListNotations.
Local Open Scope Z_scope.

Lemma lift_got {V : Type} (m : forall St, rand_on St V) {St : Type} (R : rng St) x v y : treelike m -> rng_ok R -> m St R x = Got (v, y) ->
  exists G b, gen_ok G /\ m nat (counter G) 0%nat = Got (v, b).
Proof.
  intros Hm HR E. pose proof (all_follow R m Hm x) as H. unfold follows in H. rewrite E in H. destruct H as (l & _ & H).
  destruct (answers_exist R l HR) as (G & HG & HA). exists G, (0 + length l)%nat. split; [exact HG|]. apply H. exact HA.
Qed.
Lemma lift_panic {V : Type} (m : forall St, rand_on St V) {St : Type} (R : rng St) x : treelike m -> rng_ok R ->
  (forall G, gen_ok G -> m nat (counter G) 0%nat <> Panicked) -> m St R x = Panicked -> refuses R x.
Proof.
  intros Hm HR HP E. pose proof (all_follow R m Hm x) as H. unfold follows in H. rewrite E in H. destruct H as [H|(l & y & _ & H)]; [exact H|].
  destruct (answers_exist R l HR) as (G & HG & HA). destruct (HP G HG (H G 0%nat HA)).
Qed.
Lemma lift_counter {V : Type} (m : forall St, rand_on St V) {St : Type} (R : rng St) x v y : treelike m -> m St R x = Got (v, y) ->
  exists l, visits R x l y /\ forall (G : generator) a, answered R a l G -> m nat G a = Got (v, (a + length l)%nat).
Proof. intros Hm E. pose proof (all_follow R m Hm x) as H. unfold follows in H. rewrite E in H. exact H. Qed.

Lemma counter_ok G : gen_ok G -> rng_ok (counter G).
Proof.
  intros (H1 & H2 & H3 & H4). split; [|split; [|split]]; cbn [counter rn_word rn_bytes rn_normal rn_below].
  - intros w x v y Hw E. injection E as <- _. apply H1. exact Hw.
  - intros x l y E. injection E as <- _. split; [reflexivity|]. repeat (constructor; [apply H2|]). constructor.
  - intros g x v y E. injection E as <- _. apply H3.
  - intros q x v y Hq E. injection E as <- _. apply H4. exact Hq.
Qed.
Lemma seeded_stream {V : Type} (m : forall St, rand_on St V) A seed normal below pos g : treelike m -> bytes 16 seed -> reached A seed pos g ->
  as_stream A seed (m _ (prg_rng A normal below) g) (m _ (stream_rng (stream_byte seed) normal below) pos).
Proof. intros Hm Hk H. exact (seeded_alike A seed normal below Hk m Hm pos g H). Qed.
Lemma seeded_portable {V : Type} (m : forall St, rand_on St V) A A' seed normal below pos g g' v g1 : treelike m -> bytes 16 seed ->
  reached A seed pos g -> reached A' seed pos g' -> m _ (prg_rng A normal below) g = Got (v, g1) ->
  exists g1' pos1, m _ (prg_rng A' normal below) g' = Got (v, g1') /\ reached A seed pos1 g1 /\ reached A' seed pos1 g1'.
Proof.
  intros Hm Hk H H' E. pose proof (seeded_stream m A seed normal below pos g Hm Hk H) as E1. rewrite E in E1. destruct E1 as (pos1 & E1 & R1).
  pose proof (seeded_stream m A' seed normal below pos g' Hm Hk H') as E2. rewrite E1 in E2. destruct (m _ (prg_rng A' normal below) g') as [| |[v' g1']]; [discriminate E2|discriminate E2|].
  destruct E2 as (pos2 & E2 & R2). injection E2 as <- <-. exists g1', pos1. split; [reflexivity|]. split; assumption.
Qed.
Lemma seed_stream_ok seed normal below : bytes 16 seed -> (forall g, gives is_f64 (normal g)) -> (forall q, 0 < q -> gives (fun v => 0 <= v < q) (below q)) ->
  rng_ok (stream_rng (stream_byte seed) normal below).
Proof. intros Hk HN HB. apply stream_ok; [|exact HN|exact HB]. intros i. apply stream_byte_byte. exact Hk. Qed.
