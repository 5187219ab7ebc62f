(** From one generator to circuits. *)
From Coq Require Import ZArith QArith List Bool Lia SpecFloat.
From Verif Require Import Spec.Basic Spec.Poly Spec.Gauss Spec.Gates Spec.KeyGen Spec.Sampled Spec.OneStream.
From Verif Require Import Model.Base Model.Plaintext Model.Field Model.NTT Model.Poly Model.Lwe Model.Params Model.Boolean Model.Sample Model.SecretKey Model.Gaussian Model.Sampled Model.Stream.
From Verif Require Import Proofs.SampledProofs Proofs.StreamProofs Proofs.StreamSource Proofs.StreamKeys Props.C49.
Import ListNotations.
Local Open Scope Z_scope.

(** A circuit looks at finitely many of its inputs. *)
Fixpoint cmax (c : circuit) : nat :=
  match c with
  | CInput i => i
  | CNot a => cmax a
  | CNand a b | CAnd a b | COr a b | CNor a b | CXor a b | CXnor a b => Nat.max (cmax a) (cmax b)
  | CMajority a b c | CMux a b c => Nat.max (cmax a) (Nat.max (cmax b) (cmax c))
  end.
Lemma cval_ext v w c : (forall i, (i <= cmax c)%nat -> v i = w i) -> cval v c = cval w c.
Proof.
  induction c; cbn [cmax cval]; intros H; [apply H; lia|..];
    repeat match goal with IH : (forall i, (i <= _)%nat -> v i = w i) -> _ = _ |- _ => rewrite IH by (intros; apply H; lia); clear IH end; reflexivity.
Qed.
Lemma crun_ext B F tbl K x y c : (forall i, (i <= cmax c)%nat -> x i = y i) -> crun B F tbl K x c = crun B F tbl K y c.
Proof.
  induction c; cbn [cmax crun]; intros H; [f_equal; apply H; lia|..];
    repeat match goal with IH : (forall i, (i <= _)%nat -> x i = y i) -> _ = _ |- _ => rewrite IH by (intros; apply H; lia); clear IH end; reflexivity.
Qed.

Section Main.
Variables (BF p : Z) (k : nat) (F : field) (tbl : tables) (B j bits : Z) (P : parameters) (dv : deviations) (E Ek Ee D : Z).
Hypothesis HS : sampled_setting BF p k F tbl B j bits P dv E Ek Ee D.

Lemma key_sources_any (A : spec_float -> nat -> source -> Prop) X : key_sources_are F k j P (source_ok p (2 ^ k)) (source_ok (switch_modulus p j P) (switch_length P)) X ->
  (forall d m x, A d m x) -> key_sources_are F k j P (fun x => source_ok p (2 ^ k) x /\ A (dv_ring dv) (2 ^ k)%nat x)
    (fun x => source_ok (switch_modulus p j P) (switch_length P) x /\ A (dv_ks dv) (switch_count P) x) X.
Proof. intros H HA. eapply sources_mono; [| |exact H]; intros x Hx; (split; [exact Hx|apply HA]). Qed.

(** What generated keys are, and what follows for ciphertexts. *)
Definition pack_fine (kp : key_pack) : Prop := exists words rwords gx gauss, (words32 words /\ words32 rwords) /\
  ((pp_steps P = BrKsMs -> pp_ring_key P = RGaussian -> errors_ok gx) /\ sampled_key_pack F tbl P dv words rwords gx = Got kp) /\
  ring_draw p k gauss /\ key_pack_new F tbl P words rwords gauss = Some kp.

Lemma pack_main G fuel L a : gen_ok G -> L \/ lively G F dv fuel ->
  match key_pack_new_g F tbl P dv fuel G a with
  | Got (kp, b) => pack_fine kp
  | Panicked => False
  | Looping => L
  end.
Proof.
  intros HGen HL. destruct HS as (HG & (HE & HEp) & HK & Hk0 & _).
  pose proof (pack_run BF p k F tbl B j bits P HG dv E Ek HE HEp HK G fuel L HGen HL a) as H.
  destruct (key_pack_new_g F tbl P dv fuel G a) as [| |[kp b]]; [exact H|exact H|]. destruct H as (rwords & gx & _ & H2 & H3 & H4).
  pose proof (ws_ok G HGen a) as Hw.
  pose proof (pack_spec BF p k F tbl B j bits P HG dv E Ek HE HEp HK True (ws G a) rwords gx Hw H2) as H5.
  rewrite H4 in H5. destruct H5 as (_ & gauss & H6 & H7). { intros A1 A2. split; [apply H3; assumption|right; exact I]. }
  exists (ws G a), rwords, gx, gauss. split; [split; assumption|]. split; [split; assumption|]. split; assumption.
Qed.

Lemma eval_main kp G fuel L a : pack_fine kp -> gen_ok G -> L \/ lively G F dv fuel ->
  match eval_key_new_g B F tbl dv fuel kp G a with
  | Got (K, c) => 
      (forall H fuel' L' m s, gen_ok H -> L' \/ lively H F dv fuel' -> m = 0 \/ m = 1 -> match kp_encrypt_g B dv fuel' kp m H s with Got _ => True | Panicked => False | Looping => L' end) /\
      forall (v : nat -> bool) x, (forall i, exists H fuel' s e, gen_ok H /\ kp_encrypt_g B dv fuel' kp (if v i then 1 else 0) H s = Got (x i, e)) ->
        forall (c : circuit) (M : msg_type), exists r, crun B F tbl K x c = Some r /\ kp_decrypt M B kp r = Some (if cval v c then 1 else 0)
  | Panicked => False
  | Looping => L
  end.
Proof.
  intros (words & rwords & gx & gauss & (Hw & Hrw) & (Hgx & HSK) & Hg & HKP) HGen HL. destruct HS as (HG & (HE & HEp) & HK & Hk0 & (HEe & HEq) & HD & HDe & HB).
  pose proof (eval_run BF p k F tbl B j bits P HG dv E Ek HE HEp HK Hk0 G fuel L HGen HL words rwords gauss kp Hw Hrw Hg HKP a) as H.
  destruct (eval_key_new_g B F tbl dv fuel kp G a) as [| |[K c]]; [exact H|exact H|]. destruct H as (X & _ & HX & HEK).
  assert (EP : kp_par kp = P) by apply (pack_lengths BF p k F tbl B j bits P HG words rwords gauss kp Hw Hrw Hg HKP).
  assert (E0 : 0 <= E) by exact (E_nonneg dv E HE).
  split.
  - intros H fuel' L' m s HGen' HL' Hm.
    pose proof (encrypt_run BF p k F tbl B j bits P HG dv H fuel' L' HGen' HL' words rwords gauss kp Hw Hrw Hg HKP Ee HEe HEq m s) as HR.
    destruct (kp_encrypt_g B dv fuel' kp m H s) as [| |[x e]]; [exact HR| |exact I].
    destruct HR as (u & e & (Lu & Cu) & He & HN).
    pose proof (sampled_draws_ok BF p k F tbl B j bits P HG dv E Ek HE HEp HK True X) as HDr.
    unfold sampled_eval_key in HEK. rewrite EP in HEK. destruct (sampled_draws B F P dv X) as [| |R]; try discriminate HEK.
    assert (DS : draws_small F k j P E Ek R). { apply HDr. eapply sources_mono; [| |exact HX]; intros y Hy; (split; [exact Hy|right; exact I]). }
    destruct (C49_any_key BF p k F tbl B j bits P words rwords gauss E Ek R D HG Hw Hrw Hg E0 Hk0 DS HD HB) as (kp' & K' & E1 & E2 & HC).
    assert (kp' = kp) by congruence. subst kp'.
    destruct (HC (fun _ => m =? 1) (fun _ => u) (fun _ => e)) as (x & Hx & _).
    { intros _. split; [exact Lu|]. split; [exact Cu|]. destruct HG as ((_ & Hp & _) & _). pose proof (Znumtheory.prime_ge_2 p Hp). nia. }
    specialize (Hx 0%nat). cbn beta in Hx. replace (if m =? 1 then 1 else 0) with m in Hx by (destruct Hm as [-> | ->]; reflexivity). rewrite HN in Hx. discriminate Hx.
  - intros v x Hx.
    assert (PS : pair_sources F p k j P dv anything words rwords gx X).
    { split; [exact Hw|]. split; [exact Hrw|]. split; [intros A1 A2; split; [apply Hgx; assumption|exact I]|]. apply key_sources_any; [exact HX|intros; exact I]. }
    pose proof (sampled_main BF p k F tbl B j bits P dv E Ek Ee D anything True words rwords gx X ltac:(intros; right; exact I) HS PS) as SM.
    rewrite HSK in SM. cbn [dspec] in SM. rewrite HEK in SM. cbn [dspec] in SM.
    assert (HY : forall i, exists y, source_ok (2 ^ j) (Z.to_nat (pp_n P)) y /\ sampled_encrypt B kp dv (if v i then 1 else 0) y = Got (x i)).
    { intros i. destruct (Hx i) as (H & fuel' & s & e & HGen' & EX).
      pose proof (encrypt_run BF p k F tbl B j bits P HG dv H fuel' True HGen' (or_introl I) words rwords gauss kp Hw Hrw Hg HKP Ee HEe HEq (if v i then 1 else 0) s) as HR.
      rewrite EX in HR. destruct HR as (y & _ & H1 & H2). exists y. split; assumption. }
    intros c0 M.
    (* only finitely many inputs of the circuit matter: choose sources by recursion on it *)
    assert (FIN : forall m, exists y : nat -> source, forall i, (i < m)%nat -> source_ok (2 ^ j) (Z.to_nat (pp_n P)) (y i) /\ sampled_encrypt B kp dv (if v i then 1 else 0) (y i) = Got (x i)).
    { induction m as [|m (y & IH)]; [exists (fun _ => mk_source [] (fun _ => 0) []); intros i Hi; lia|]. destruct (HY m) as (ym & Hm). exists (fun i => if (i =? m)%nat then ym else y i).
      intros i Hi. destruct (Nat.eqb_spec i m) as [->|N]; [exact Hm|apply IH; lia]. }
    set (m := cmax c0).
    destruct (FIN (S m)) as (y & Hy). set (cut := fun i => if (i <=? m)%nat then i else 0%nat).
    destruct (SM (fun i => v (cut i)) (fun i => y (cut i))) as (_ & SM').
    { intros i. unfold cut. destruct (Nat.leb_spec i m); (split; [apply Hy; lia|exact I]). }
    destruct (SM' (fun i => x (cut i))) with (c := c0) (M := M) as (r & R1 & R2).
    { intros i. unfold cut. destruct (Nat.leb_spec i m); apply Hy; lia. }
    exists r. rewrite <- R1.
    assert (EX : forall i, (i <= m)%nat -> cut i = i) by (intros i Hi; unfold cut; destruct (Nat.leb_spec i m); [reflexivity|lia]).
    assert (Q1 : crun B F tbl K (fun i => x (cut i)) c0 = crun B F tbl K x c0) by (apply crun_ext; intros i Hi; rewrite EX by exact Hi; reflexivity).
    assert (Q2 : cval (fun i => v (cut i)) c0 = cval v c0) by (apply cval_ext; intros i Hi; rewrite EX by exact Hi; reflexivity).
    rewrite Q2 in R2. rewrite Q1. split; [reflexivity|exact R2].
Qed.
End Main.
