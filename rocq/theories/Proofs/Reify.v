(** Computations that draw from a generator, written as trees of requests: what holds of every tree holds
    of key generation and encryption, for every type of generator. *)
From Coq Require Import ZArith List Bool Lia SpecFloat.
From Verif Require Import Spec.Basic Spec.Gauss Spec.Machine.
From Verif Require Import Model.Base Model.Field Model.Gaussian Model.Sample Model.Params Model.Boolean Model.Sampled Model.Stream.
Import ListNotations.
Local Open Scope Z_scope.

Inductive tree (A : Type) :=
| Leaf (v : A) | Fail | Endless
| Word (w : Z) (k : Z -> tree A) | Six (k : list Z -> tree A) | Norm (g : gaussian) (k : spec_float -> tree A) | Below (q : Z) (k : Z -> tree A).
Arguments Leaf {A}.
Arguments Fail {A}.
Arguments Endless {A}.
Arguments Word {A}.
Arguments Six {A}.
Arguments Norm {A}.
Arguments Below {A}.

Definition after {A C : Type} (o : drawn A) (f : A -> drawn C) : drawn C := match o with Got v => f v | Looping => Looping | Panicked => Panicked end.
Fixpoint run {A : Type} (t : tree A) {St : Type} (R : rng St) (x : St) : drawn (A * St) :=
  match t with
  | Leaf v => Got (v, x)
  | Fail => Panicked
  | Endless => Looping
  | Word w k => after (rn_word R w x) (fun vy => run (k (fst vy)) R (snd vy))
  | Six k => after (rn_bytes R 6 x) (fun vy => run (k (fst vy)) R (snd vy))
  | Norm g k => after (rn_normal R g x) (fun vy => run (k (fst vy)) R (snd vy))
  | Below q k => after (rn_below R q x) (fun vy => run (k (fst vy)) R (snd vy))
  end.
Fixpoint graft {A C : Type} (t : tree A) (f : A -> tree C) : tree C :=
  match t with
  | Leaf v => f v
  | Fail => Fail
  | Endless => Endless
  | Word w k => Word w (fun v => graft (k v) f)
  | Six k => Six (fun v => graft (k v) f)
  | Norm g k => Norm g (fun v => graft (k v) f)
  | Below q k => Below q (fun v => graft (k v) f)
  end.
Lemma graft_run {A C : Type} (t : tree A) (f : A -> tree C) {St : Type} (R : rng St) : forall x,
  run (graft t f) R x = after (run t R x) (fun vy => run (f (fst vy)) R (snd vy)).
Proof.
  induction t as [v| | |w k IH|k IH|g k IH|q k IH]; intros x; cbn [graft run]; try reflexivity.
  - destruct (rn_word R w x) as [| |[v y]]; [reflexivity|reflexivity|]. cbn [after fst snd]. apply IH.
  - destruct (rn_bytes R 6 x) as [| |[v y]]; [reflexivity|reflexivity|]. cbn [after fst snd]. apply IH.
  - destruct (rn_normal R g x) as [| |[v y]]; [reflexivity|reflexivity|]. cbn [after fst snd]. apply IH.
  - destruct (rn_below R q x) as [| |[v y]]; [reflexivity|reflexivity|]. cbn [after fst snd]. apply IH.
Qed.

(** [m] is a tree. *)
Definition treelike {A : Type} (m : forall St, rand_on St A) : Type := {t : tree A | forall St (R : rng St) x, m St R x = run t R x}.

Lemma tl_ret {A : Type} (v : A) : treelike (fun St => rret v).
Proof. exists (Leaf v). reflexivity. Qed.
Lemma tl_lift {A : Type} (o : option A) : treelike (fun St => rlift o).
Proof. destruct o as [v|]; [exists (Leaf v)|exists Fail]; reflexivity. Qed.
Lemma tl_loop {A : Type} : treelike (fun St _ _ => @Looping (A * St)).
Proof. exists Endless. reflexivity. Qed.
Lemma tl_word w : treelike (fun St R => rn_word R w).
Proof. exists (Word w Leaf). intros St R x. cbn [run]. destruct (rn_word R w x) as [| |[v y]]; reflexivity. Qed.
Lemma tl_six : treelike (fun St R => rn_bytes R 6).
Proof. exists (Six Leaf). intros St R x. cbn [run]. destruct (rn_bytes R 6 x) as [| |[v y]]; reflexivity. Qed.
Lemma tl_normal g : treelike (fun St R => rn_normal R g).
Proof. exists (Norm g Leaf). intros St R x. cbn [run]. destruct (rn_normal R g x) as [| |[v y]]; reflexivity. Qed.
Lemma tl_below q : treelike (fun St R => rn_below R q).
Proof. exists (Below q Leaf). intros St R x. cbn [run]. destruct (rn_below R q x) as [| |[v y]]; reflexivity. Qed.
Lemma tl_bind {A C : Type} (m : forall St, rand_on St A) (f : forall St, A -> rand_on St C) :
  treelike m -> (forall v, treelike (fun St => f St v)) -> treelike (fun St => rbind (m St) (f St)).
Proof.
  intros (t & Ht) Hf. exists (graft t (fun v => proj1_sig (Hf v))). intros St R x. rewrite graft_run, <- Ht. unfold rbind.
  destruct (m St R x) as [| |[v y]]; [reflexivity|reflexivity|]. cbn [after fst snd]. apply (proj2_sig (Hf v)).
Qed.
Lemma tl_times {A : Type} (m : forall St, rand_on St A) n : treelike m -> treelike (fun St => rtimes n (m St)).
Proof.
  intros Hm. induction n as [|n IH]; cbn [rtimes]; [apply tl_ret|]. apply (tl_bind m (fun St x => let% l := rtimes n (m St) in rret (x :: l))); [exact Hm|]. intros v.
  apply (tl_bind (fun St => rtimes n (m St)) (fun St l => rret (v :: l))); [exact IH|]. intros l. apply tl_ret.
Qed.
Lemma tl_map {A C : Type} (f : forall St, A -> rand_on St C) l : (forall z, treelike (fun St => f St z)) -> treelike (fun St => rmap (f St) l).
Proof.
  intros Hf. induction l as [|z l IH]; cbn [rmap]; [apply tl_ret|]. apply (tl_bind (fun St => f St z) (fun St x => let% r := rmap (f St) l in rret (x :: r))); [apply Hf|]. intros v.
  apply (tl_bind (fun St => rmap (f St) l) (fun St r => rret (v :: r))); [exact IH|]. intros r. apply tl_ret.
Qed.

Ltac tl := repeat first [assumption | match goal with
  | |- treelike (fun St => rret _) => apply tl_ret | |- treelike (fun St => rlift _) => apply tl_lift | |- treelike (fun St _ _ => Looping) => apply tl_loop
  | |- treelike (fun St R => rn_word R _) => apply tl_word | |- treelike (fun St R => rn_bytes R 6) => apply tl_six
  | |- treelike (fun St R => rn_normal R _) => apply tl_normal | |- treelike (fun St R => rn_below R _) => apply tl_below
  | |- treelike (fun St => rtimes _ (@?m St)) => apply (tl_times m)
  | |- treelike (fun St => rbind (@?m St) (@?f St)) => apply (tl_bind m f); [|intros ?]
  | |- treelike (fun St => rmap (@?f St) _) => apply (tl_map f); intros ?
  | |- treelike (fun St => if ?b then _ else _) => destruct b | |- treelike (fun St => match ?x with _ => _ end) => destruct x end].

Lemma next_tl : treelike (@next_u32).
Proof. apply (tl_word 32). Qed.
Lemma chunks_tl w s per c : treelike (fun St => @fill_chunks_g St w s per c).
Proof. induction c; cbn [fill_chunks_g]; tl. apply next_tl. Qed.
Lemma symbols_tl w s per len : treelike (fun St => @sample_symbols_g St w s per len).
Proof. unfold sample_symbols_g. tl; [apply chunks_tl|apply next_tl]. Qed.
Lemma cbd_tl F len : treelike (fun St => @sample_cbd_field_vec_g St F len).
Proof. unfold sample_cbd_field_vec_g. tl. Qed.
Lemma uniform_tl F th fuel : treelike (fun St => @uniform_g St F th fuel).
Proof. induction fuel; cbn [uniform_g]; tl. Qed.
Lemma random_tl F fuel n : treelike (fun St => @random_g St F fuel n).
Proof. unfold random_g. tl. apply uniform_tl. Qed.
Lemma gauss_tl conv g fuel : treelike (fun St => @gauss_loop_g St conv g fuel).
Proof. induction fuel; cbn [gauss_loop_g]; tl. Qed.
Lemma rwg_tl F fuel n g : treelike (fun St => @random_with_gaussian_g St F fuel n g).
Proof. unfold random_with_gaussian_g. destruct (gs_cbd g); [apply cbd_tl|]. tl. apply gauss_tl. Qed.
Lemma lwe_draws_tl B q g fuel n : treelike (fun St => @lwe_draws_g St B q g fuel n).
Proof. unfold lwe_draws_g. tl. apply gauss_tl. Qed.
Lemma ring_draws_tl F g fuel n : treelike (fun St => @ring_draws_g St F g fuel n).
Proof. unfold ring_draws_g. tl; [apply random_tl|apply rwg_tl]. Qed.
Lemma nzero_tl F tbl g fuel sk : treelike (fun St => @nrlwe_zero_sample_g St F tbl g fuel sk).
Proof. unfold nrlwe_zero_sample_g. tl. apply ring_draws_tl. Qed.
Lemma nvalue_tl F tbl g fuel sk v : treelike (fun St => @nrlwe_value_sample_g St F tbl g fuel sk v).
Proof. unfold nrlwe_value_sample_g. tl. apply ring_draws_tl. Qed.
Lemma power_tl F (row : forall St, Z -> rand_on St _) bv len : (forall v, treelike (fun St => row St v)) -> forall power, treelike (fun St => @power_rows_g St F (row St) bv power len).
Proof.
  intros Hr. induction len as [|len IH]; intros power; cbn [power_rows_g]; [apply tl_lift|].
  destruct len; [apply (tl_bind (fun St => row St power) (fun St r => rret [r])); [apply Hr|intros r; apply tl_ret]|]. tl; [apply Hr|apply IH].
Qed.
Lemma nrgsw_zero_tl F tbl g fuel sk b : treelike (fun St => @nrgsw_zero_sample_g St F tbl g fuel sk b).
Proof. unfold nrgsw_zero_sample_g, ng_zero_sample_g. tl; apply nzero_tl. Qed.
Lemma nrgsw_one_tl F tbl g fuel sk b : treelike (fun St => @nrgsw_one_sample_g St F tbl g fuel sk b).
Proof.
  unfold nrgsw_one_sample_g, ng_neg_secret_sample_g, ng_one_sample_g. tl;
    match goal with |- treelike (fun St => power_rows_g _ (@?row St) _ _ _) => apply (power_tl _ row); intros ? end; tl; [apply nzero_tl|apply nvalue_tl].
Qed.
Lemma br_tl F tbl dev fuel kp : treelike (fun St => @br_key_generate_g St F tbl dev fuel kp).
Proof. unfold br_key_generate_g, binary_generate_g, ternary_generate_g. tl; try apply nrgsw_zero_tl; apply nrgsw_one_tl. Qed.
Lemma entries_tl B mask q basis g fuel sk z c : forall v, treelike (fun St => @lks_entries_g St B mask q basis g fuel sk z v c).
Proof. induction c as [|c IH]; intros v; cbn [lks_entries_g]; cbv zeta; unfold lwe_zero_sample_g; tl; [apply lwe_draws_tl|apply IH]. Qed.
Lemma levels_tl B mask q basis g fuel sk len : forall zs, treelike (fun St => @lks_levels_g St B mask q basis g fuel sk zs len).
Proof. induction len as [|len IH]; intros zs; cbn [lks_levels_g]; cbv zeta; tl; [apply entries_tl|apply IH]. Qed.
Lemma lks_tl B q bits dev fuel sk ring_sk : treelike (fun St => @lks_generate_g St B q bits dev fuel sk ring_sk).
Proof. unfold lks_generate_g. tl. apply levels_tl. Qed.
Lemma rks_rows_tl F tbl g fuel lwe_sk bv len : forall z, treelike (fun St => @rks_rows_g St F tbl g fuel lwe_sk bv z len).
Proof. induction len as [|len IH]; intros z; cbn [rks_rows_g]; tl; [apply nzero_tl|apply IH]. Qed.
Lemma rks_tl F tbl bits dev fuel sk ring_sk nsk : treelike (fun St => @rks_generate_g St F tbl bits dev fuel sk ring_sk nsk).
Proof. unfold rks_generate_g. cbv zeta. tl; apply rks_rows_tl. Qed.
Lemma eval_key_tl B F tbl dv fuel kp : treelike (fun St => @eval_key_new_g St B F tbl dv fuel kp).
Proof. unfold eval_key_new_g. cbv zeta. tl; [apply br_tl|apply lks_tl|apply rks_tl]. Qed.
Lemma key_pack_tl F tbl P dv fuel : treelike (fun St => @key_pack_new_g St F tbl P dv fuel).
Proof.
  unfold key_pack_new_g, create_lwe_secret_key_g, create_ring_secret_key_g, sample_binary_values_g, sample_ternary_values_g, sample_binary_field_vec_g, sample_ternary_field_vec_g.
  tl; try apply symbols_tl; apply rwg_tl.
Qed.
Lemma encrypt_tl B dv fuel kp m : treelike (fun St => @kp_encrypt_g St B dv fuel kp m).
Proof. unfold kp_encrypt_g, lwe_zero_sample_g. cbv zeta. tl. apply lwe_draws_tl. Qed.
