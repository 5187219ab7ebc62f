(** C61: keys and ciphertexts with noise from the Gaussian samplers. *)
From Coq Require Import ZArith Znumtheory QArith Qabs List Bool Lia SpecFloat.
From Verif Require Import Spec.Basic Spec.Poly Spec.Lattice Spec.Ring Spec.Blind Spec.Switch Spec.Gates Spec.KeyGen Spec.Gauss Spec.Sampled.
From Verif Require Import Model.Base Model.Plaintext Model.Field Model.NTT Model.Concrete Model.Poly Model.Lwe Model.Gadget Model.Params Model.Boolean Model.Sample Model.SecretKey Model.Gaussian Model.Sampled.
From Verif Require Import Proofs.NumTheory Proofs.SampledProofs Proofs.ExampleTac Props.C49.
Import ListNotations.
Local Open Scope Z_scope.

(** Whatever the words, masks, bytes and normal draws: generating keys and encrypting never panics, and
    ciphertexts obtained go through any circuit to the value of the circuit. *)
Theorem C61_always (BF p : Z) (k : nat) (F : field) (tbl : tables) (B j bits : Z) (P : parameters) (dv : deviations) (E Ek Ee D : Z)
    (words rwords : nat -> Z) (gx : source) (X : key_sources) :
  sampled_setting BF p k F tbl B j bits P dv E Ek Ee D -> pair_sources F p k j P dv anything words rwords gx X ->
  sampled_key_pack F tbl P dv words rwords gx <> Panicked /\
  forall kp, sampled_key_pack F tbl P dv words rwords gx = Got kp ->
  sampled_eval_key B F tbl kp dv X <> Panicked /\
  forall K, sampled_eval_key B F tbl kp dv X = Got K ->
  forall (v : nat -> bool) (y : nat -> source), (forall i, source_ok (2 ^ j) (Z.to_nat (pp_n P)) (y i)) ->
    (forall i, sampled_encrypt B kp dv (if v i then 1 else 0) (y i) <> Panicked) /\
    forall x, (forall i, sampled_encrypt B kp dv (if v i then 1 else 0) (y i) = Got (x i)) ->
    forall (c : circuit) (M : msg_type), exists r, crun B F tbl K x c = Some r /\ kp_decrypt M B kp r = Some (if cval v c then 1 else 0).
Proof.
  intros HS HP. pose proof (sampled_main BF p k F tbl B j bits P dv E Ek Ee D anything True words rwords gx X ltac:(tauto) HS HP) as H.
  destruct (sampled_key_pack F tbl P dv words rwords gx) as [| |kp]; cbn [dspec] in H; [split; [discriminate|intros ? HH; discriminate HH]|contradiction|].
  split; [discriminate|]. intros kp' EK. injection EK as <-.
  destruct (sampled_eval_key B F tbl kp dv X) as [| |K]; cbn [dspec] in H; [split; [discriminate|intros ? HH; discriminate HH]|contradiction|].
  split; [discriminate|]. intros K' EK. injection EK as <-. intros v y Hy. destruct (H v y) as (H1 & H2).
  { intros i. split; [apply Hy|exact I]. }
  split; [|exact H2]. intros i HP'. specialize (H1 i). rewrite HP' in H1. exact H1.
Qed.
Print Assumptions C61_always.

(** With enough normal draws within five deviations the samplers also return. *)
Theorem C61_returns (BF p : Z) (k : nat) (F : field) (tbl : tables) (B j bits : Z) (P : parameters) (dv : deviations) (E Ek Ee D : Z)
    (words rwords : nat -> Z) (gx : source) (X : key_sources) :
  sampled_setting BF p k F tbl B j bits P dv E Ek Ee D -> pair_sources F p k j P dv plenty words rwords gx X ->
  exists kp K, sampled_key_pack F tbl P dv words rwords gx = Got kp /\ sampled_eval_key B F tbl kp dv X = Got K /\
  forall (v : nat -> bool) (y : nat -> source), (forall i, source_ok (2 ^ j) (Z.to_nat (pp_n P)) (y i) /\ plenty (dv_lwe dv) 1 (y i)) ->
    exists x, (forall i, sampled_encrypt B kp dv (if v i then 1 else 0) (y i) = Got (x i)) /\
    forall (c : circuit) (M : msg_type), exists r, crun B F tbl K x c = Some r /\ kp_decrypt M B kp r = Some (if cval v c then 1 else 0).
Proof.
  intros HS HP. pose proof (sampled_main BF p k F tbl B j bits P dv E Ek Ee D plenty False words rwords gx X ltac:(tauto) HS HP) as H.
  destruct (sampled_key_pack F tbl P dv words rwords gx) as [| |kp]; cbn [dspec] in H; [contradiction|contradiction|]. exists kp.
  destruct (sampled_eval_key B F tbl kp dv X) as [| |K]; cbn [dspec] in H; [contradiction|contradiction|]. exists K.
  split; [reflexivity|]. split; [reflexivity|]. intros v y Hy. destruct (H v y Hy) as (H1 & H2).
  set (x i := match sampled_encrypt B kp dv (if v i then 1 else 0) (y i) with Got c => c | _ => mk_lwe [] 0 end).
  assert (HX : forall i, sampled_encrypt B kp dv (if v i then 1 else 0) (y i) = Got (x i)).
  { intros i. specialize (H1 i). unfold x. destruct (sampled_encrypt _ _ _ _ _); [contradiction|contradiction|reflexivity]. }
  exists x. split; [exact HX|apply H2; exact HX].
Qed.
Print Assumptions C61_returns.

(** The default field, N = 8, n = 2, q = 2^14, 16-bit words, a ternary key and a Gaussian ring key,
    deviations 3.2 for encryption and the switching key and 6.4 for the ring: the hypotheses of both
    theorems hold, with sources whose first normal draw is discarded. *)
Definition C61_dv : deviations := mk_deviations f64_3_2 (S754_finite false 7205759403792794 (-50)) f64_3_2.
Definition C61_src (mask : list Z) : source :=
  mk_source mask (fun _ => 7) (S754_finite false 5629499534213120 (-46) :: repeat (S754_finite true 5629499534213120 (-51)) 8).
Definition C61_X : key_sources :=
  let r := repeat (C61_src C49_a) 4 in mk_key_sources [] (repeat ((r, r), (r, r)) 2) [] (repeat (repeat (C61_src [5; 132120000]) 4) 4).
Example C61_ex : exists F T1 T3 b,
  let tbl k := match k with 1%nat => Some T1 | _ => Some T3 end in
  let P := C49_par b BrKsMs in
  sampled_setting 32 132120577 3 F tbl 16 14 7 P C61_dv 38 21 21 44000000000 /\
  pair_sources F 132120577 3 14 P C61_dv plenty C49_words C49_words (C61_src []) C61_X /\
  pair_sources F 132120577 3 14 P C61_dv anything C49_words C49_words (C61_src []) C61_X /\
  source_ok (2 ^ 14) 2 (C61_src [3; 1023]) /\ plenty (dv_lwe C61_dv) 1 (C61_src [3; 1023]).
Proof.
  destruct C49_ex as (F & T1 & T3 & b & H). exists F, T1, T3, b. cbv zeta. specialize (H BrKsMs). destruct H as (HG & Hw & _ & HD & _).
  pose proof HG as ((_ & _ & _ & HF & _) & _ & (_ & _ & _ & _ & Hb & _) & _).
  vm_compute in HF. injection HF as EF. rewrite <- EF in Hb. vm_compute in Hb. injection Hb as Eb.
  assert (EO : errors_ok (C61_src [])) by (split; [intros i; cbn; lia|repeat (constructor; [reflexivity|]); constructor]).
  assert (EA : forall m, errors_ok (C61_src m)) by (intros m; exact EO).
  assert (PL : forall d c m, d = f64_3_2 \/ d = dv_ring C61_dv -> (c <= 8)%nat -> plenty d c (C61_src m)).
  { intros d c m Hd Hc. exists (seq 1 c). split; [apply seq_NoDup|]. split; [apply seq_length|]. intros i Hi. apply in_seq in Hi.
    assert (Hi' : (1 <= i <= 8)%nat) by lia. clear Hi Hc. cbn [C61_src src_normals].
    split; [cbn [length]; rewrite repeat_length; lia|]. cbv zeta.
    do 9 (destruct i as [|i]; [first [lia|split; [exact I|destruct Hd as [-> | ->]; reflexivity]]|]). lia. }
  assert (SK : forall Q : spec_float -> nat -> source -> Prop, (forall d c m, d = f64_3_2 \/ d = dv_ring C61_dv -> (c <= 8)%nat -> Q d c (C61_src m)) ->
    pair_sources F 132120577 3 14 (C49_par b BrKsMs) C61_dv Q C49_words C49_words (C61_src []) C61_X).
  { intros Q HQ. split; [exact Hw|]. split; [exact Hw|]. split; [intros _ _; split; [exact EO|apply HQ; [right; reflexivity|cbn; lia]]|].
    rewrite <- EF, <- Eb. split; [|exists b; rewrite <- Eb].
    - cbn [C49_par pp_key C61_X ks_ter pp_n pp_basis bs_len].
      assert (R : Forall (fun x => source_ok 132120577 (2 ^ 3) x /\ Q (dv_ring C61_dv) (2 ^ 3)%nat x) (repeat (C61_src C49_a) 4)).
      { apply Forall_forall. intros x Hx. apply repeat_spec in Hx. subst x. split; [|apply HQ; [right; reflexivity|cbn; lia]].
        split; [|apply EA]. cbn [C61_src src_mask]. split; [reflexivity|]. unfold C49_a. ex_canon. }
      split; [reflexivity|]. apply Forall_forall. intros x Hx. apply repeat_spec in Hx. subst x. cbn [fst snd]. split; split; split; (reflexivity || exact R).
    - split; [vm_compute; reflexivity|]. split; [reflexivity|]. apply Forall_forall. intros x Hx. apply repeat_spec in Hx. subst x. split; [reflexivity|].
      apply Forall_forall. intros x Hx. apply repeat_spec in Hx. subst x. split; [|apply HQ; [left; reflexivity|vm_compute; lia]].
      split; [|apply EA]. cbn [C61_src src_mask]. split; [reflexivity|]. cbn [switch_modulus C49_par pp_steps]. ex_canon. }
  split; [|split; [apply SK; exact PL|split; [apply SK; intros; exact I|split]]].
  - split; [exact HG|]. split; [split; [|reflexivity]|split; [intros _; split; [|reflexivity]|split; [lia|split; [split; [|reflexivity]|]]]].
    1-3: split; [reflexivity|]; split; [split; vm_compute; discriminate|]; split; [vm_compute; discriminate|].
    + intros H. discriminate H.
    + lia.
    + lia.
    + rewrite <- EF, <- Eb. split; [vm_compute; discriminate|]. split; [vm_compute; discriminate|vm_compute; reflexivity].
  - split; [|apply EA]. cbn [C61_src src_mask]. split; [reflexivity|]. change (2 ^ 14) with 16384. ex_canon.
  - apply PL; [left; reflexivity|lia].
Qed.
