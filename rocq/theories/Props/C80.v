(** C80: keys and ciphertexts from one random generator. *)
From Coq Require Import ZArith QArith Qabs List Bool Lia SpecFloat.
From Verif Require Import Spec.Basic Spec.Poly Spec.Gauss Spec.Gates Spec.KeyGen Spec.Sampled Spec.OneStream.
From Verif Require Import Model.Base Model.Plaintext Model.Field Model.NTT Model.Poly Model.Lwe Model.Gadget Model.Params Model.Boolean Model.Sample Model.SecretKey Model.Gaussian Model.Sampled Model.Stream.
From Verif Require Import Proofs.SampledProofs Proofs.StreamProofs Proofs.StreamSource Proofs.StreamKeys Proofs.StreamMain Props.C49 Props.C61.
Import ListNotations.
Local Open Scope Z_scope.

(** Generating keys: the words of the secrets, the masks and the errors of all samples are drawn by
    consecutive, hence disjoint, stretches of requests to the generator, in the order of [pack_at] and
    [key_at]; the keys are those that the secrets, masks and errors so drawn determine. *)
Theorem C80_keys (BF p : Z) (k : nat) (F : field) (tbl : tables) (B j bits : Z) (P : parameters) (dv : deviations) (E Ek : Z)
    (G : generator) (fuel a b c : nat) kp K :
  good_params BF p k F tbl B j bits P ->
  dev_bound (dv_ring dv) E /\ E < p ->
  (pp_steps P <> BrMs -> dev_bound (dv_ks dv) Ek /\ Ek < switch_modulus p j P) -> 0 <= Ek ->
  gen_ok G ->
  key_pack_new_g F tbl P dv fuel G a = Got (kp, b) -> eval_key_new_g B F tbl dv fuel kp G b = Got (K, c) ->
  exists words rwords gx X,
    (pack_at G P dv a b words rwords gx /\ key_at G F P dv b c X) /\
    pair_sources F p k j P dv anything words rwords gx X /\
    sampled_key_pack F tbl P dv words rwords gx = Got kp /\ sampled_eval_key B F tbl kp dv X = Got K.
Proof.
  intros HG (HE & HEp) HK Hk0 HGen H1 H2.
  pose proof (pack_run BF p k F tbl B j bits P HG dv E Ek HE HEp HK G fuel True HGen (or_introl I) a) as R1.
  rewrite H1 in R1. destruct R1 as (rwords & gx & A1 & Hrw & Hgx & S1). pose proof (ws_ok G HGen a) as Hw.
  pose proof (pack_spec BF p k F tbl B j bits P HG dv E Ek HE HEp HK True (ws G a) rwords gx Hw Hrw) as R2.
  rewrite S1 in R2. destruct R2 as (_ & gauss & Hg & HKP). { intros ? ?. split; [apply Hgx; assumption|right; exact I]. }
  pose proof (eval_run BF p k F tbl B j bits P HG dv E Ek HE HEp HK Hk0 G fuel True HGen (or_introl I) (ws G a) rwords gauss kp Hw Hrw Hg HKP b) as R3.
  rewrite H2 in R3. destruct R3 as (X & A2 & HX & S2).
  exists (ws G a), rwords, gx, X. split; [split; assumption|]. split; [|split; assumption].
  split; [exact Hw|]. split; [exact Hrw|]. split; [intros ? ?; split; [apply Hgx; assumption|exact I]|].
  apply key_sources_any; [exact HX|intros; exact I].
Qed.
Print Assumptions C80_keys.

(** Likewise a ciphertext: its mask is the next residues, its error the first normal draws after them. *)
Theorem C80_encrypt (BF p : Z) (k : nat) (F : field) (tbl : tables) (B j bits : Z) (P : parameters) (dv : deviations) (E Ek Ee : Z)
    (G H : generator) (fuel fuel' a b : nat) kp (m : Z) (s e : nat) x :
  good_params BF p k F tbl B j bits P ->
  dev_bound (dv_ring dv) E /\ E < p ->
  (pp_steps P <> BrMs -> dev_bound (dv_ks dv) Ek /\ Ek < switch_modulus p j P) ->
  dev_bound (dv_lwe dv) Ee /\ Ee < 2 ^ j ->
  gen_ok G -> gen_ok H ->
  key_pack_new_g F tbl P dv fuel G a = Got (kp, b) -> kp_encrypt_g B dv fuel' kp m H s = Got (x, e) ->
  exists y, with_dev (dv_lwe dv) (lwe_at H (2 ^ j) (Z.to_nat (pp_n P))) s e y /\
    source_ok (2 ^ j) (Z.to_nat (pp_n P)) y /\ sampled_encrypt B kp dv m y = Got x.
Proof.
  intros HG (HE & HEp) HK (HEe & HEq) HGen HGen' H1 H2.
  pose proof (pack_run BF p k F tbl B j bits P HG dv E Ek HE HEp HK G fuel True HGen (or_introl I) a) as R1.
  rewrite H1 in R1. destruct R1 as (rwords & gx & A1 & Hrw & Hgx & S1). pose proof (ws_ok G HGen a) as Hw.
  pose proof (pack_spec BF p k F tbl B j bits P HG dv E Ek HE HEp HK True (ws G a) rwords gx Hw Hrw) as R2.
  rewrite S1 in R2. destruct R2 as (_ & gauss & Hg & HKP). { intros ? ?. split; [apply Hgx; assumption|right; exact I]. }
  pose proof (encrypt_run BF p k F tbl B j bits P HG dv H fuel' True HGen' (or_introl I) (ws G a) rwords gauss kp Hw Hrw Hg HKP Ee HEe HEq m s) as R3.
  rewrite H2 in R3. exact R3.
Qed.
Print Assumptions C80_encrypt.

(** Each operation depends on its own stretch of requests only: answers given before it starts or after
    it ends do not matter. *)
Theorem C80_local (B : Z) (F : field) (tbl : tables) (P : parameters) (dv : deviations) (kp : key_pack) (m : Z) (fuel : nat) (G : generator) (a : nat) :
  (forall kp' b, key_pack_new_g F tbl P dv fuel G a = Got (kp', b) ->
    (a <= b)%nat /\ forall H, agree a b G H -> key_pack_new_g F tbl P dv fuel H a = Got (kp', b)) /\
  (forall K b, eval_key_new_g B F tbl dv fuel kp G a = Got (K, b) ->
    (a <= b)%nat /\ forall H, agree a b G H -> eval_key_new_g B F tbl dv fuel kp H a = Got (K, b)) /\
  (forall x b, kp_encrypt_g B dv fuel kp m G a = Got (x, b) ->
    (a <= b)%nat /\ forall H, agree a b G H -> kp_encrypt_g B dv fuel kp m H a = Got (x, b)).
Proof.
  split; [|split]; intros v b HR;
    [apply (key_pack_local F tbl P dv fuel)|apply (eval_key_local B F tbl dv fuel kp)|apply (encrypt_local B dv fuel kp m)]; exact HR.
Qed.
Print Assumptions C80_local.

(** Whatever the generator answers, and wherever it stands: generating keys and encrypting bits never
    panics, and ciphertexts obtained go through any circuit to the value of the circuit. *)
Theorem C80_always (BF p : Z) (k : nat) (F : field) (tbl : tables) (B j bits : Z) (P : parameters) (dv : deviations) (E Ek Ee D : Z)
    (G H : generator) (fuel a b : nat) :
  sampled_setting BF p k F tbl B j bits P dv E Ek Ee D -> gen_ok G -> gen_ok H ->
  key_pack_new_g F tbl P dv fuel G a <> Panicked /\
  forall kp a', key_pack_new_g F tbl P dv fuel G a = Got (kp, a') ->
  eval_key_new_g B F tbl dv fuel kp H b <> Panicked /\
  forall K b', eval_key_new_g B F tbl dv fuel kp H b = Got (K, b') ->
  (forall G' fuel' m s, gen_ok G' -> m = 0 \/ m = 1 -> kp_encrypt_g B dv fuel' kp m G' s <> Panicked) /\
  forall (v : nat -> bool) x,
    (forall i, exists G' fuel' s e, gen_ok G' /\ kp_encrypt_g B dv fuel' kp (if v i then 1 else 0) G' s = Got (x i, e)) ->
    forall (c : circuit) (M : msg_type), exists r, crun B F tbl K x c = Some r /\ kp_decrypt M B kp r = Some (if cval v c then 1 else 0).
Proof.
  intros HS HGen HGen'.
  pose proof (pack_main BF p k F tbl B j bits P dv E Ek Ee D HS G fuel True a HGen (or_introl I)) as R1.
  destruct (key_pack_new_g F tbl P dv fuel G a) as [| |[kp a1]]; [split; [discriminate|intros ? ? HH; discriminate HH]|contradiction|].
  split; [discriminate|]. intros kp' a' HH. injection HH as <- <-.
  pose proof (eval_main BF p k F tbl B j bits P dv E Ek Ee D HS kp H fuel True b R1 HGen' (or_introl I)) as R2.
  destruct (eval_key_new_g B F tbl dv fuel kp H b) as [| |[K b1]]; [split; [discriminate|intros ? ? HH; discriminate HH]|contradiction|].
  split; [discriminate|]. intros K' b' HH. injection HH as <- <-. destruct R2 as (R2 & R3). split; [|exact R3].
  intros G' fuel' m s HG' Hm HP. specialize (R2 G' fuel' True m s HG' (or_introl I) Hm). rewrite HP in R2. exact R2.
Qed.
Print Assumptions C80_always.

(** And with a generator that within any [fuel] requests gives a word and a normal draw that are kept,
    all of them return. *)
Theorem C80_returns (BF p : Z) (k : nat) (F : field) (tbl : tables) (B j bits : Z) (P : parameters) (dv : deviations) (E Ek Ee D : Z)
    (G : generator) (fuel a : nat) :
  sampled_setting BF p k F tbl B j bits P dv E Ek Ee D -> gen_ok G -> lively G F dv fuel ->
  exists kp b K c, key_pack_new_g F tbl P dv fuel G a = Got (kp, b) /\ eval_key_new_g B F tbl dv fuel kp G b = Got (K, c) /\
  forall m s, m = 0 \/ m = 1 -> exists x e, kp_encrypt_g B dv fuel kp m G s = Got (x, e).
Proof.
  intros HS HGen HL.
  pose proof (pack_main BF p k F tbl B j bits P dv E Ek Ee D HS G fuel False a HGen (or_intror HL)) as R1.
  destruct (key_pack_new_g F tbl P dv fuel G a) as [| |[kp b]]; [contradiction|contradiction|]. exists kp, b.
  pose proof (eval_main BF p k F tbl B j bits P dv E Ek Ee D HS kp G fuel False b R1 HGen (or_intror HL)) as R2.
  destruct (eval_key_new_g B F tbl dv fuel kp G b) as [| |[K c]]; [contradiction|contradiction|]. exists K, c.
  split; [reflexivity|]. split; [reflexivity|]. intros m s Hm. destruct R2 as (R2 & _). specialize (R2 G fuel False m s HGen (or_intror HL) Hm).
  destruct (kp_encrypt_g B dv fuel kp m G s) as [| |[x e]]; [contradiction|contradiction|]. exists x, e. reflexivity.
Qed.
Print Assumptions C80_returns.

(** The parameters of [C61_ex] with a generator of which every other answer is rejected. *)
Definition C80_gen : generator := mk_generator
  (fun w i => if Nat.even i then 2 ^ w - 1 else 1) (fun i t => Z.of_nat (7 * i + t) mod 256)
  (fun _ i => if Nat.even i then S754_finite false 5629499534213120 (-46) else S754_finite true 5629499534213120 (-51))
  (fun q i => Z.of_nat i mod q).
Example C80_ex : exists F T1 T3 b,
  let tbl k := match k with 1%nat => Some T1 | _ => Some T3 end in
  let P := C49_par b BrKsMs in
  sampled_setting 32 132120577 3 F tbl 16 14 7 P C61_dv 38 21 21 44000000000 /\
  gen_ok C80_gen /\ lively C80_gen F C61_dv 2 /\
  exists kp c K d, key_pack_new_g F tbl P C61_dv 2 C80_gen 3%nat = Got (kp, c) /\ eval_key_new_g 16 F tbl C61_dv 2 kp C80_gen c = Got (K, d) /\
  forall m s, m = 0 \/ m = 1 -> exists x e, kp_encrypt_g 16 C61_dv 2 kp m C80_gen s = Got (x, e).
Proof.
  destruct C61_ex as (F & T1 & T3 & b & H). exists F, T1, T3, b. cbv zeta in *. destruct H as (HS & _). 
  assert (GO : gen_ok C80_gen).
  { split; [|split; [|split]]; cbn [C80_gen gn_word gn_byte gn_normal gn_below].
    - intros w i Hw. assert (2 ^ 1 <= 2 ^ w) by (apply Z.pow_le_mono_r; lia). destruct (Nat.even i); lia.
    - intros i t. apply Z.mod_pos_bound. lia.
    - intros g i. destruct (Nat.even i); reflexivity.
    - intros q i Hq. apply Z.mod_pos_bound. exact Hq. }
  assert (LI : lively C80_gen F C61_dv 2).
  { pose proof HS as (((_ & _ & _ & HF & _) & _) & _).
    vm_compute in HF. injection HF as <-.
    intros i. assert (HT : exists t, (i <= t < i + 2)%nat /\ Nat.even t = false).
    { destruct (Nat.even i) eqn:Ei; [|exists i; split; [lia|exact Ei]]. exists (S i). split; [lia|]. rewrite Nat.even_succ, <- Nat.negb_even, Ei. reflexivity. }
    destruct HT as (t & Ht & Et). split.
    - exists t. split; [exact Ht|]. cbn [C80_gen gn_word]. rewrite Et. eexists. vm_compute. reflexivity.
    - intros dev g Hd _. exists t. split; [exact Ht|]. cbn [C80_gen gn_normal]. rewrite Et. split; [exact I|].
      destruct Hd as [<-|[<-|[<-|[]]]]; reflexivity. }
  split; [exact HS|]. split; [exact GO|]. split; [exact LI|].
  exact (C80_returns _ _ _ _ _ _ _ _ _ _ _ _ _ _ C80_gen 2%nat 3%nat HS GO LI).
Qed.
