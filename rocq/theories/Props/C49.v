(** C49: key generation and end-to-end evaluation. *)
From Coq Require Import ZArith Znumtheory List Bool Lia.
From Verif Require Import Spec.Basic Spec.Poly Spec.Lattice Spec.Ring Spec.Blind Spec.Switch Spec.Gates Spec.KeyGen.
From Verif Require Import Model.Base Model.Plaintext Model.Field Model.NTT Model.Concrete Model.Poly Model.Lwe Model.Rlwe Model.Gadget Model.BlindRotation Model.KeySwitch Model.Params Model.Boolean Model.Sample Model.SecretKey.
From Verif Require Import Proofs.NumTheory Proofs.GateProofs Proofs.KeyGenProofs Proofs.ExampleTac Props.C28 Props.C41.
Import ListNotations.
Local Open Scope Z_scope.

(** For every parameter set of any of the three processing orders and key kinds, and whatever the
    random words, both keys are generated; the secrets are as declared, and the evaluation key is one
    the gate theorems of C41 apply to, with the noise level given by the parameters and the number of
    nonzero entries of the secrets. *)
Theorem C49_keys (BF p : Z) (k : nat) (F : field) (tbl : tables) (B j bits : Z) (P : parameters) (words rwords : nat -> Z) (gauss : list Z) (E Ek : Z) (R : key_draws) :
  good_params BF p k F tbl B j bits P -> words32 words -> words32 rwords -> ring_draw p k gauss ->
  0 <= E -> 0 <= Ek -> draws_small F k j P E Ek R ->
  let q := 2 ^ j in let N := Z.of_nat (2 ^ k) in
  exists kp K s z W, key_pack_new F tbl P words rwords gauss = Some kp /\ eval_key_new B F tbl kp R = Some K /\
    kp_par kp = P /\ kp_lwe kp = map (fun x => x mod q) z /\ kp_ring kp = map (fun x => x mod p) s /\
    length z = Z.to_nat (pp_n P) /\ Forall (fun x => x = 0 \/ x = 1 \/ x = -1) z /\
    gate_setting BF p k F tbl B j bits K s z E W /\
    length s = (2 ^ k)%nat /\
    out_noise p k j bits K s z E W = key_noise F p k j bits P E Ek (weight (kp_ring kp)) (weight (kp_lwe kp)) /\
    first_switch N q z = key_first_switch N q (weight (kp_lwe kp)).
Proof. intros HG Hw Hr Hg HE HEk HD. exact (keys_ok BF p k F tbl B j bits P HG words rwords gauss E Ek R Hw Hr Hg HE HEk HD). Qed.
Print Assumptions C49_keys.

(** Generate keys, encrypt bits, evaluate any circuit gate by gate, decrypt: the result is the value of
    the circuit on the bits, when a noise level D at least that of a gate output fits the budget and
    the encryption noises stay within D. *)
Theorem C49_end_to_end (BF p : Z) (k : nat) (F : field) (tbl : tables) (B j bits : Z) (P : parameters) (words rwords : nat -> Z) (gauss : list Z) (E Ek : Z) (R : key_draws) :
  good_params BF p k F tbl B j bits P -> words32 words -> words32 rwords -> ring_draw p k gauss ->
  0 <= E -> 0 <= Ek -> draws_small F k j P E Ek R ->
  let q := 2 ^ j in let N := Z.of_nat (2 ^ k) in
  exists kp K, key_pack_new F tbl P words rwords gauss = Some kp /\ eval_key_new B F tbl kp R = Some K /\
    forall (D : Z) (v : nat -> bool) (a : nat -> list Z) (e : nat -> Z),
      key_noise F p k j bits P E Ek (weight (kp_ring kp)) (weight (kp_lwe kp)) <= D ->
      12 * N * D + 2 * key_first_switch N q (weight (kp_lwe kp)) * p < q * N * p ->
      (forall i, length (a i) = Z.to_nat (pp_n P) /\ canonical q (a i) /\ 2 * p * Z.abs (e i) <= D) ->
      exists x, (forall i, kp_encrypt B kp (a i) (e i mod q) (if v i then 1 else 0) = Some (x i)) /\
        forall (c : circuit) (M : msg_type), exists y, crun B F tbl K x c = Some y /\
          kp_decrypt M B kp y = Some (if cval v c then 1 else 0).
Proof.
  intros HG Hw Hr Hg HE HEk HD q N.
  destruct (C49_keys BF p k F tbl B j bits P words rwords gauss E Ek R HG Hw Hr Hg HE HEk HD) as (kp & K & s & z & W & E1 & E2 & EP & Ez & _ & Lz & _ & GS & _ & HO & HF).
  exists kp, K. split; [exact E1|]. split; [exact E2|]. intros D v a e HKN HB Ha.
  assert (HG' := HG). destruct HG' as ((_ & Hp & _) & (HB64 & Hj & _) & (_ & Eq & Et & _) & _). pose proof (prime_ge_2 p Hp) as P2.
  rewrite <- HO in HKN. rename HKN into HD'. fold q N in HF. rewrite <- HF in HB. rename HB into HB'.
  assert (HEnc : forall i, exists c, kp_encrypt B kp (a i) (e i mod q) (if v i then 1 else 0) = Some c /\ bit_ct q z (v i) (e i) c).
  { intros i. destruct (Ha i) as (La & Ca & He). pose proof (circuit_room BF p k F tbl B j bits K s z E W GS D (e i) HB' He) as Hroom.
    fold q in Hroom.
    destruct (C28_roundtrip B 2 j MU64 (map (fun x => x mod q) z) (a i) (e i) (if v i then 1 else 0)) as (c & Ec & Wc & _ & Pc & _).
    - lia.
    - lia.
    - rewrite map_length, La, Lz. reflexivity.
    - exact Ca.
    - change (2 ^ 2) with 4. destruct (v i); lia.
    - destruct (v i); vm_compute; discriminate.
    - change (2 * 2 ^ 2) with 8. fold q. lia.
    - exists c. unfold kp_encrypt. rewrite EP, Et, Eq, Ez. change 4 with (2 ^ 2). split; [exact Ec|].
      split; [rewrite map_length in Wc; exact Wc|]. rewrite phase_mod in Pc by (apply Z.pow_pos_nonneg; lia). rewrite Pc. fold q. f_equal. f_equal.
      replace (q / 4) with (2 ^ (j - 2)); [destruct (v i); ring|].
      change 4 with (2 ^ 2). unfold q. rewrite Z.pow_sub_r by lia. reflexivity. }
  exists (fun i => match kp_encrypt B kp (a i) (e i mod q) (if v i then 1 else 0) with Some c => c | None => mk_lwe [] 0 end).
  split. { intros i. destruct (HEnc i) as (c & -> & _). reflexivity. }
  intros c M.
  destruct (C41_circuits BF p k F tbl B j bits K s z E W D v
    (fun i => match kp_encrypt B kp (a i) (e i mod q) (if v i then 1 else 0) with Some c => c | None => mk_lwe [] 0 end) e c M GS HD' HB') as (y & f & H1 & _ & _ & H4).
  { intros i. destruct (HEnc i) as (c' & -> & Hc). split; [exact Hc|apply Ha]. }
  exists y. split; [exact H1|]. unfold kp_decrypt. rewrite EP, Et, Eq, Ez. exact H4.
Qed.
Print Assumptions C49_end_to_end.

(** The same with a budget that depends on the parameters only, for every key. *)
Theorem C49_any_key (BF p : Z) (k : nat) (F : field) (tbl : tables) (B j bits : Z) (P : parameters) (words rwords : nat -> Z) (gauss : list Z) (E Ek : Z) (R : key_draws) (D : Z) :
  good_params BF p k F tbl B j bits P -> words32 words -> words32 rwords -> ring_draw p k gauss ->
  0 <= E -> 0 <= Ek -> draws_small F k j P E Ek R ->
  let q := 2 ^ j in let N := Z.of_nat (2 ^ k) in
  key_noise F p k j bits P E Ek N (pp_n P) <= D -> 12 * N * D + 2 * key_first_switch N q (pp_n P) * p < q * N * p ->
  exists kp K, key_pack_new F tbl P words rwords gauss = Some kp /\ eval_key_new B F tbl kp R = Some K /\
    forall (v : nat -> bool) (a : nat -> list Z) (e : nat -> Z),
      (forall i, length (a i) = Z.to_nat (pp_n P) /\ canonical q (a i) /\ 2 * p * Z.abs (e i) <= D) ->
      exists x, (forall i, kp_encrypt B kp (a i) (e i mod q) (if v i then 1 else 0) = Some (x i)) /\
        forall (c : circuit) (M : msg_type), exists y, crun B F tbl K x c = Some y /\
          kp_decrypt M B kp y = Some (if cval v c then 1 else 0).
Proof.
  intros HG Hw Hr Hg HE HEk HD q N HKN HB.
  destruct (C49_keys BF p k F tbl B j bits P words rwords gauss E Ek R HG Hw Hr Hg HE HEk HD) as (kp & K & s & z & W & E1 & E2 & _ & Ez & Es & Lz & _ & _ & Ls & _).
  destruct (C49_end_to_end BF p k F tbl B j bits P words rwords gauss E Ek R HG Hw Hr Hg HE HEk HD) as (kp' & K' & E1' & E2' & H).
  assert (kp' = kp) by congruence. subst kp'. assert (K' = K) by congruence. subst K'.
  exists kp, K. split; [exact E1|]. split; [exact E2|]. intros v a e Ha.
  destruct HG as ((_ & Hp & _) & (_ & Hj & _) & (_ & _ & _ & _ & _ & Hn) & _). pose proof (prime_ge_2 p Hp) as P2.
  pose proof (weight_le (kp_lwe kp)) as Wl. rewrite Ez, map_length, Lz, Z2Nat.id in Wl by exact Hn. rewrite <- Ez in Wl.
  pose proof (weight_le (kp_ring kp)) as Wr. rewrite Es, map_length, Ls in Wr. rewrite <- Es in Wr. fold N in Wr.
  assert (Q0 : 0 < q) by (apply Z.pow_pos_nonneg; lia).
  apply (H D v a e); [| |exact Ha]; fold q N.
  - etransitivity; [|exact HKN]. unfold key_noise. cbv zeta. fold q N. set (d := p + p * q / 2 ^ 49 + 1).
    assert (0 <= d) by (unfold d; assert (0 <= p * q / 2 ^ 49) by (apply Z.div_pos; [apply Z.mul_nonneg_nonneg; lia|reflexivity]); lia).
    apply Z.add_le_mono_r. destruct (pp_steps P).
    + apply Z.add_le_mono_r, Z.add_le_mono_l, Z.mul_le_mono_nonneg_l; lia.
    + apply Z.add_le_mono_l, Z.mul_le_mono_nonneg_l; lia.
    + apply Z.add_le_mono_l, Z.mul_le_mono_nonneg_l; lia.
  - assert (key_first_switch N q (weight (kp_lwe kp)) <= key_first_switch N q (pp_n P)).
    { unfold key_first_switch. destruct (_ =? 0); [lia|]. apply Z.mul_le_mono_nonneg_l; lia. }
    assert (2 * key_first_switch N q (weight (kp_lwe kp)) * p <= 2 * key_first_switch N q (pp_n P) * p); [|lia].
    apply Z.mul_le_mono_nonneg_r; lia.
Qed.
Print Assumptions C49_any_key.

(** The default field, N = 8, q = 2^14, 16-bit words, noise in {-1, 0, 1}: one parameter set for each
    processing order (n = 2 and ternary keys with either kind of key switching; n = 8 and a binary key
    of weight 2 without) meets the hypotheses, budget included. *)
Definition C49_a : list Z := [5; 0; 132120000; 7; 77777; 3; 1000; 9].
Definition C49_r : list (list Z * list Z) :=
  [(C49_a, [1; 0; 0; 0; 132120576; 0; 0; 1]); (C49_a, [0; 1; 0; 0; 0; 0; 0; 0]); (C49_a, [0; 0; 0; 0; 0; 0; 0; 1]); (C49_a, [1; 1; 0; 0; 0; 0; 0; 0])].
Definition C49_R : key_draws := mk_key_draws (repeat (C49_r, C49_r) 8) (repeat ((C49_r, C49_r), (C49_r, C49_r)) 2)
  (repeat (repeat [([3; 1023], 1); ([0; 9], 16383); ([15; 2], 0)] 8) 7)
  (repeat [([5; 132120000], [1; 0]); ([9; 77], [0; 132120576]); ([1; 2], [0; 0]); ([4; 3], [1; 1])] 4).
Definition C49_par (b : basis) (st : steps) : parameters :=
  match st with
  | BrMsKs => mk_parameters 2 4 16384 LTernary 8 132120577 RTernary b 2 BrMsKs
  | BrKsMs => mk_parameters 2 4 16384 LTernary 8 132120577 RGaussian b 7 BrKsMs
  | BrMs => mk_parameters 8 4 16384 LBinary 8 132120577 RBinary b 1 BrMs
  end.
Definition C49_words (i : nat) : Z := 16 + 128.
Example C49_ex : exists F T1 T3 b,
  let tbl k := match k with 1%nat => Some T1 | _ => Some T3 end in
  forall st, good_params 32 132120577 3 F tbl 16 14 7 (C49_par b st) /\ words32 C49_words /\
    ring_draw 132120577 3 C49_a /\ draws_small F 3 14 (C49_par b st) 1 1 C49_R /\
    let h := match st with BrMs => 2 | _ => pp_n (C49_par b st) end in
    let D := key_noise F 132120577 3 14 7 (C49_par b st) 1 1 8 h in
    12 * 8 * D + 2 * key_first_switch 8 16384 h * 132120577 < 16384 * 8 * 132120577.
Proof.
  assert (W32 : wwidth 32) by (exists 16; split; [discriminate|reflexivity]).
  destruct (derive_field 32 132120577) as [F|] eqn:HF; [|vm_compute in HF; discriminate]. pose proof HF as HF'.
  vm_compute in HF'. injection HF' as EF.
  assert (HT1 : exists T, serves F (fun _ => Some T) 1) by (subst F; eexists; ex_serves). destruct HT1 as (T1 & HT1).
  assert (HT3 : exists T, serves F (fun _ => Some T) 3) by (subst F; eexists; ex_serves). destruct HT3 as (T3 & HT3).
  destruct (basis_new F 7) as [b|] eqn:Hb; [|rewrite <- EF in Hb; vm_compute in Hb; discriminate].
  pose proof Hb as Hb'. rewrite <- EF in Hb'. vm_compute in Hb'. injection Hb' as Eb.
  exists F, T1, T3, b. intros tbl.
  assert (D3 : drawn_small 132120577 8 1 (bs_len b) C49_r) by (rewrite <- Eb; unfold C49_r, C49_a; ex_drawn).
  assert (EP : fp F = 132120577) by (rewrite <- EF; reflexivity).
  intros st. split; [|split; [|split; [|split]]].
  - split; [|split; [|split]].
    + split; [exact W32|]. split; [exact prime_default|]. split; [reflexivity|]. split; [exact HF|]. split; [exact HT3|lia].
    + repeat split; vm_compute; congruence.
    + destruct st; (split; [reflexivity|]; split; [reflexivity|]; split; [reflexivity|]; split; [lia|]; split; [exact Hb|vm_compute; discriminate]).
    + destruct st; cbn [C49_par pp_steps pp_ring_key pp_ks_bits pp_n pp_N].
      * split; [discriminate|lia].
      * split; [lia|]. split; [exists b; exact Hb|]. change (Nat.log2_up (Z.to_nat 2)) with 1%nat. split; [lia|exact HT1].
      * split; [discriminate|reflexivity].
  - intros i. unfold C49_words. lia.
  - split; [reflexivity|]. unfold C49_a. ex_canon.
  - unfold draws_small. rewrite EP. destruct st; cbn [C49_par pp_steps pp_key pp_ks_bits pp_n pp_basis C49_R kd_ter kd_bin kd_lwe kd_ring].
    + split; [split; [reflexivity|repeat (constructor; [cbn [fst snd]; tauto|]); constructor]|]. split.
      * split; [reflexivity|]. apply Forall_forall. intros l Hl. apply repeat_spec in Hl. subst l. split; [reflexivity|].
        apply Forall_forall. intros l Hl. apply repeat_spec in Hl. subst l. split; [reflexivity|]. repeat (constructor; [split; [reflexivity|ex_canon]|]). constructor.
      * apply Forall_forall. intros l Hl. apply repeat_spec in Hl. subst l. apply Forall_forall. intros l Hl. apply repeat_spec in Hl. subst l.
        change (2 ^ 14) with 16384. repeat (constructor; [cbn [snd]; lia|]). constructor.
    + split; [split; [reflexivity|repeat (constructor; [cbn [fst snd]; tauto|]); constructor]|]. exists b. split; [exact Hb|].
      change (Nat.log2_up (Z.to_nat 2)) with 1%nat. split; [reflexivity|].
      apply Forall_forall. intros l Hl. apply repeat_spec in Hl. subst l. rewrite <- Eb. ex_drawn.
    + split; [|exact I]. split; [reflexivity|repeat (constructor; [cbn [fst snd]; tauto|]); constructor].
  - rewrite <- EF, <- Eb. destruct st; vm_compute; reflexivity.
Qed.
(** The third one run: the key from those words, and the nand of an encrypted one with itself. *)
Example C49_run :
  match derive_field 32 132120577 with
  | Some F =>
    match generate_table F None (fun _ => 5) 3, basis_new F 7 with
    | Some (Ok T), Some b =>
      let tbl := fun _ => Some T in
      (let* kp := key_pack_new F tbl (C49_par b BrMs) C49_words C49_words [] in
       let* K := eval_key_new 16 F tbl kp C49_R in
       let* c := kp_encrypt 16 kp [100; 3; 900; 0; 1; 77; 1023; 512] 16382 1 in
       let* y := g_nand 16 F tbl K c c in
       let* m := kp_decrypt MBool 16 kp y in Some (kp_lwe kp, m)) = Some ([0; 0; 0; 0; 1; 0; 0; 1], 0)
    | _, _ => False
    end
  | None => False
  end.
Proof. vm_compute. reflexivity. Qed.
