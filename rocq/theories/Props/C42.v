(** C42: what [Parameters::new] accepts. *)
From Coq Require Import ZArith Znumtheory List Bool Lia.
From Verif Require Import Spec.Basic Spec.Poly Spec.Lattice Spec.Ring Spec.Blind Spec.Switch Spec.Gates Spec.KeyGen.
From Verif Require Import Model.Base Model.Plaintext Model.Field Model.NTT Model.Concrete Model.Poly Model.Lwe Model.Rlwe Model.Gadget Model.BlindRotation Model.KeySwitch Model.Params Model.Shipped Model.Boolean Model.Sample Model.SecretKey.
From Verif Require Import Proofs.Arith Proofs.FieldProofs Proofs.LweProofs Proofs.GateProofs Proofs.ParamsProofs Proofs.KeyGenProofs Proofs.ExampleTac Props.C37 Props.C49.
Import ListNotations.
Local Open Scope Z_scope.

(** Accepted exactly when N is a power of two (at most 2^62) and 2N divides Q - 1, t <= q are powers of
    two and the rotation basis has between 1 and bit-length-of-the-field-modulus bits. *)
Theorem C42_accepted (BF p : Z) (F : field) (c : const_params) :
  wwidth BF -> 0 <= p -> derive_field BF p = Some F -> 0 <= cp_N c < 2 ^ 64 -> 0 <= cp_Q c < 2 ^ 64 -> 0 <= cp_bits c ->
  (exists P, params_new F c = Some (Some P)) <->
  (exists a, 0 <= a < 63 /\ cp_N c = 2 ^ a) /\ 1 <= cp_Q c /\ (2 * cp_N c | cp_Q c - 1) /\
  (exists i j, 0 <= i <= j /\ cp_t c = 2 ^ i /\ cp_q c = 2 ^ j) /\ 1 <= cp_bits c <= bit_len p.
Proof.
  intros HB Hp HF HN HQ Hb. destruct (derive_field_ok BF p F HB Hp HF) as (Hok & <- & <-). rewrite params_new_cases by assumption.
  assert (P2 : forall x, is_pow2 x = true <-> exists i, 0 <= i /\ x = 2 ^ i) by apply is_pow2_spec.
  split.
  - intros (P & E). destruct (is_pow2 (cp_N c)) eqn:E1; cbn [negb] in E; [|discriminate].
    destruct (Z.eqb_spec (cp_N c) (2 ^ 63)); [discriminate|]. destruct (Z.eqb_spec (cp_Q c) 0); [discriminate|]. cbn [orb] in E.
    destruct (Z.eqb_spec ((cp_Q c - 1) mod (2 * cp_N c)) 0) as [E2|]; cbn [negb] in E; [|discriminate].
    destruct (Z.leb_spec (cp_t c) (cp_q c)); cbn [andb] in E; [|discriminate].
    destruct (is_pow2 (cp_t c)) eqn:E3; cbn [andb] in E; [|discriminate]. destruct (is_pow2 (cp_q c)) eqn:E4; [|discriminate].
    destruct (basis_new F (cp_bits c)) as [b|] eqn:E5; [|discriminate].
    apply P2 in E1. destruct E1 as (a & Ha & Ea). apply P2 in E3. destruct E3 as (i & Hi & Ei). apply P2 in E4. destruct E4 as (j & Hj & Ej).
    assert (0 < 2 ^ a) by (apply Z.pow_pos_nonneg; lia).
    split. { exists a. split; [|exact Ea]. pose proof (pow2_bound a Ha). destruct (Z.eq_dec a 63); [subst a; contradiction|]. lia. }
    split; [lia|]. split; [apply Z.mod_divide; lia|]. split; [|apply (basis_new_iff F (cp_bits c) Hok Hb); eauto].
    exists i, j. split; [|auto]. split; [exact Hi|]. apply (Z.pow_le_mono_r_iff 2); lia.
  - intros ((a & Ha & Ea) & Q1 & D & (i & j & Hij & Ei & Ej) & HBits).
    apply (basis_new_iff F (cp_bits c) Hok Hb) in HBits. destruct HBits as (b & Eb). rewrite Eb.
    replace (is_pow2 (cp_N c)) with true by (symmetry; apply P2; exists a; split; [lia|exact Ea]).
    replace (is_pow2 (cp_t c)) with true by (symmetry; apply P2; exists i; split; [lia|exact Ei]).
    replace (is_pow2 (cp_q c)) with true by (symmetry; apply P2; exists j; split; [lia|exact Ej]).
    assert (2 ^ a < 2 ^ 63) by (apply Z.pow_lt_mono_r; lia). assert (0 < 2 ^ a) by (apply Z.pow_pos_nonneg; lia).
    destruct (Z.eqb_spec (cp_N c) (2 ^ 63)); [lia|]. destruct (Z.eqb_spec (cp_Q c) 0); [lia|]. cbn [negb orb].
    apply Z.mod_divide in D; [|lia]. rewrite D. cbn [Z.eqb negb].
    destruct (Z.leb_spec (cp_t c) (cp_q c)) as [|L]; [eexists; reflexivity|].
    assert (2 ^ i <= 2 ^ j) by (apply Z.pow_le_mono_r; lia). lia.
Qed.
Print Assumptions C42_accepted.

(** An error (not a panic) exactly for a dimension that is no power of two or does not fit the modulus. *)
Theorem C42_error (BF p : Z) (F : field) (c : const_params) :
  wwidth BF -> 0 <= p -> derive_field BF p = Some F -> 0 <= cp_N c < 2 ^ 64 -> 0 <= cp_Q c < 2 ^ 64 -> 0 <= cp_bits c ->
  params_new F c = Some None <->
  (forall a, 0 <= a -> cp_N c <> 2 ^ a) \/
  ((exists a, 0 <= a < 63 /\ cp_N c = 2 ^ a) /\ 1 <= cp_Q c /\ ~ (2 * cp_N c | cp_Q c - 1)).
Proof.
  intros HB Hp HF HN HQ Hb. destruct (derive_field_ok BF p F HB Hp HF) as (Hok & <- & <-). rewrite params_new_cases by assumption.
  destruct (is_pow2 (cp_N c)) eqn:E1; cbn [negb].
  - apply is_pow2_spec in E1. destruct E1 as (a & Ha & Ea). assert (A0 : 0 < 2 ^ a) by (apply Z.pow_pos_nonneg; lia).
    assert (H1 : ~ (forall a, 0 <= a -> cp_N c <> 2 ^ a)) by (intros H; exact (H a Ha Ea)).
    destruct (Z.eqb_spec (cp_N c) (2 ^ 63)) as [E63|]; cbn [orb].
    { split; [discriminate|]. intros [H|((a' & Ha' & Ea') & _)]; [contradiction|]. exfalso.
      assert (2 ^ a' < 2 ^ 63) by (apply Z.pow_lt_mono_r; lia). lia. }
    destruct (Z.eqb_spec (cp_Q c) 0). { split; [discriminate|]. intros [H|(_ & H & _)]; [contradiction|lia]. }
    destruct (Z.eqb_spec ((cp_Q c - 1) mod (2 * cp_N c)) 0) as [E2|E2]; cbn [negb].
    + apply Z.mod_divide in E2; [|lia]. split; [|intros [H|(_ & _ & H)]; contradiction].
      destruct (_ && _); [|discriminate]. destruct (basis_new F (cp_bits c)); discriminate.
    + split; [intros _; right|reflexivity]. split.
      * exists a. split; [|exact Ea]. pose proof (pow2_bound a Ha). destruct (Z.eq_dec a 63); [subst a; contradiction|lia].
      * split; [lia|]. intros D. apply E2. apply Z.mod_divide; [lia|exact D].
  - split; [intros _; left|reflexivity]. intros a Ha Ea. assert (is_pow2 (cp_N c) = true) by (apply is_pow2_spec; eauto). congruence.
Qed.
Print Assumptions C42_error.

(** The accepted record carries the given values. *)
Theorem C42_record (F : field) (c : const_params) (P : parameters) :
  params_new F c = Some (Some P) ->
  pp_n P = cp_n c /\ pp_t P = cp_t c /\ pp_q P = cp_q c /\ pp_key P = cp_key c /\ pp_N P = cp_N c /\ pp_Q P = cp_Q c /\
  pp_ring_key P = cp_ring_key c /\ basis_new F (cp_bits c) = Some (pp_basis P) /\ pp_ks_bits P = cp_ks_bits c /\ pp_steps P = cp_steps c.
Proof.
  unfold params_new. intros E. destruct (negb _) in E; [discriminate|].
  destruct (ushl 64 (cp_N c) 1) as [tw|]; cbn [bind] in E; [|discriminate].
  destruct (assert _) in E; cbn [bind] in E; [|discriminate].
  destruct (usub (cp_Q c) 1) as [m|]; cbn [bind] in E; [|discriminate]. destruct (udiv m tw) as [f|]; cbn [bind] in E; [|discriminate].
  destruct (umul 64 f tw) as [bk|]; cbn [bind] in E; [|discriminate]. destruct (negb _) in E; [discriminate|].
  destruct (assert _) in E; cbn [bind] in E; [|discriminate]. destruct (assert _) in E; cbn [bind] in E; [|discriminate].
  destruct (basis_new F (cp_bits c)) as [b|]; cbn [bind] in E; [|discriminate]. injection E as <-. cbn. auto 12.
Qed.
Print Assumptions C42_record.

(** Accepted parameters that in addition are [usable] (modulus of the actual field, widths, switching
    basis, key kind, n = N for BrMs): key generation, encryption, every circuit of gates on any
    well-formed ciphertexts and decryption never panic.  Missing for the full claim: [Parameters::new]
    does not check [usable], see the refutations below. *)
Theorem C42_safe_partial (BF p : Z) (k : nat) (F : field) (tbl : tables) (B j : Z) (c : const_params) (P : parameters)
    (words rwords : nat -> Z) (gauss : list Z) (E Ek : Z) (R : key_draws) :
  params_new F c = Some (Some P) -> usable BF p k F tbl B j c ->
  words32 words -> words32 rwords -> ring_draw p k gauss -> 0 <= E -> 0 <= Ek -> draws_small F k j P E Ek R ->
  let q := 2 ^ j in let n := Z.to_nat (cp_n c) in
  exists kp K, key_pack_new F tbl P words rwords gauss = Some kp /\ eval_key_new B F tbl kp R = Some K /\
    (forall a e m, length a = n -> canonical q a -> 0 <= m < 4 -> exists x, kp_encrypt B kp a e m = Some x /\ lwe_wf q n x) /\
    (forall x cc, (forall i, lwe_wf q n (x i)) -> exists y m, crun B F tbl K x cc = Some y /\ kp_decrypt MU64 B kp y = Some m).
Proof.
  intros HP HU Hw Hr Hg HE HEk HD q n. destruct (C42_record F c P HP) as (R1 & R2 & R3 & R4 & R5 & R6 & R7 & R8 & R9 & R10).
  destruct HU as (U1 & U2 & (V1 & V2 & V3 & V4 & V5) & U4).
  assert (HG : good_params BF p k F tbl B j (cp_bits c) P).
  { split; [exact U1|]. split; [exact U2|]. rewrite R5, R3, R2, R1, R9, R10, R7. split; [repeat split; assumption|exact U4]. }
  destruct (C49_keys BF p k F tbl B j (cp_bits c) P words rwords gauss E Ek R HG Hw Hr Hg HE HEk HD) as (kp & K & s & z & W & E1 & E2 & EP & Ez & _ & Lz & _ & GS & _).
  exists kp, K. split; [exact E1|]. split; [exact E2|]. destruct U2 as (B64 & Hj & _).
  assert (Ln : length (map (fun x => x mod q) z) = n) by (rewrite map_length, Lz, R1; reflexivity). split.
  - intros a e m La Ca Hm. unfold kp_encrypt. rewrite EP, R2, R3, V2, V3, Ez.
    destruct (encrypt_total B 2 j (map (fun x => x mod q) z) a e m ltac:(lia) ltac:(lia) ltac:(congruence) Ca Hm) as (x & Ex & Wx).
    rewrite Ln in Wx. exists x. split; assumption.
  - intros x cc Hx. assert (Lz' : length z = n) by (rewrite Lz, R1; reflexivity).
    destruct (circuit_any BF p k F tbl B j (cp_bits c) K s z E W GS x ltac:(rewrite Lz'; exact Hx) cc) as (y & Ey & Wy).
    destruct (decrypt_any B 2 j (map (fun x => x mod q) z) y ltac:(lia) ltac:(lia)) as (m & d & Em & _); [rewrite Ln, <- Lz'; apply Wy|].
    exists y, m. split; [exact Ey|]. unfold kp_decrypt. rewrite EP, R2, R3, V2, V3, Ez. exact Em.
Qed.
Print Assumptions C42_safe_partial.

(** Both parameter sets shipped are accepted and usable, whatever the tables for dimension 1024. *)
Theorem C42_shipped (F : field) (tbl : tables) : derive_field 32 132120577 = Some F -> serves F tbl 10 ->
  (exists P, params_new F default_set = Some (Some P)) /\ usable 32 132120577 10 F tbl 16 10 default_set /\
  (exists P, params_new F custom_set = Some (Some P)) /\ usable 32 132120577 10 F tbl 16 14 custom_set.
Proof.
  intros HF HS. assert (W32 : wwidth 32) by (exists 16; split; [discriminate|reflexivity]).
  assert (A : wwidth 32 /\ prime 132120577 /\ 132120577 < 2 ^ 64 /\ derive_field 32 132120577 = Some F /\ serves F tbl 10 /\ (2 <= 10 <= 31)%nat).
  { split; [exact W32|]. split; [exact prime_default|]. split; [reflexivity|]. split; [exact HF|]. split; [exact HS|lia]. }
  assert (N : forall c, c = default_set \/ c = custom_set -> exists P, params_new F c = Some (Some P)).
  { intros c [E|E]; subst c; apply (C42_accepted 32 132120577); try assumption; try (vm_compute; split; congruence); try discriminate.
    - split; [exists 10; split; [lia|reflexivity]|]. split; [discriminate|]. split; [exists 64512; reflexivity|]. split; [exists 2, 10; repeat split; discriminate|vm_compute; split; congruence].
    - split; [exists 10; split; [lia|reflexivity]|]. split; [discriminate|]. split; [exists 64512; reflexivity|]. split; [exists 2, 14; repeat split; discriminate|vm_compute; split; congruence]. }
  split; [apply N; auto|]. split.
  { split; [exact A|]. split; [vm_compute; repeat split; congruence|]. split; [vm_compute; repeat split; congruence|].
    split; [discriminate|]. split; [|split; [split; apply Nat.leb_le; reflexivity|exact HS]].
    vm_compute in HF. injection HF as <-. eexists. vm_compute. reflexivity. }
  split; [apply N; auto|]. split; [exact A|]. split; [vm_compute; repeat split; congruence|]. split; [vm_compute; repeat split; congruence|].
  split; [discriminate|vm_compute; split; congruence].
Qed.
Print Assumptions C42_shipped.

(** The main conditions of [usable] are needed, whatever the accepted parameters: where one fails, the
    step in question panics on every input.  Equal moduli: decryption; a Gaussian ring key without
    switching before the modulus switch, or BrMs with n <> N: key generation; a switching basis out of
    range: evaluation keys; 2N not below 2^B: every bootstrapping. *)
Theorem C42_needed_partial (BF p : Z) (F : field) (c : const_params) (P : parameters) :
  wwidth BF -> 0 <= p -> derive_field BF p = Some F -> 0 <= cp_N c < 2 ^ 64 -> 0 <= cp_Q c < 2 ^ 64 ->
  0 <= cp_bits c -> 0 <= cp_ks_bits c -> params_new F c = Some (Some P) ->
  (forall M B s x m, decrypt M B (pp_t P) (pp_q P) s x = Some m -> cp_t c < cp_q c) /\
  (forall tbl words rwords gauss kp, key_pack_new F tbl P words rwords gauss = Some kp ->
     (cp_steps c <> BrKsMs -> cp_ring_key c <> RGaussian) /\ (cp_steps c = BrMs -> cp_n c = cp_N c)) /\
  (forall B j tbl kp R K, kp_par kp = P -> 1 <= j < B -> cp_q c = 2 ^ j -> eval_key_new B F tbl kp R = Some K ->
     (cp_steps c = BrMsKs -> 1 <= cp_ks_bits c <= j) /\ (cp_steps c = BrKsMs -> 1 <= cp_ks_bits c <= bit_len p)) /\
  (forall B tbl K x lut y, ek_par K = P -> bootstrap B F tbl K x lut = Some y -> 2 * cp_N c < 2 ^ B).
Proof.
  intros HB Hp HF HN HQ Hb Hks HP. destruct (C42_record F c P HP) as (R1 & R2 & R3 & R4 & R5 & R6 & R7 & R8 & R9 & R10).
  destruct (proj1 (C42_accepted BF p F c HB Hp HF HN HQ Hb) (ex_intro _ P HP)) as ((a & Ha & Ea) & _ & _ & (i & j & Hij & Ei & Ej) & _).
  destruct (derive_field_ok BF p F HB Hp HF) as (Hok & _ & Ep).
  split; [|split; [|split]].
  - intros M B s x m E. rewrite Ei, Ej. destruct (Z.eq_dec i j) as [<-|]; [exfalso|apply Z.pow_lt_mono_r; lia].
    rewrite R2, R3, Ei, Ej in E. unfold decrypt, decode in E.
    destruct (PowOf2.p2_new (2 ^ i)); cbn [bind] in E; [|discriminate].
    destruct (PowOf2.p2_dot _ _ _ _); cbn [bind] in E; [|discriminate].
    destruct (assert _); cbn [bind] in E; [|discriminate].
    assert (0 < 2 ^ i) by (apply Z.pow_pos_nonneg; lia).
    unfold udiv in E. replace (2 ^ i =? 0) with false in E by (symmetry; apply Z.eqb_neq; lia).
    rewrite Z.div_same in E by lia. cbn [bind] in E. discriminate.
  - intros tbl words rwords gauss kp E. unfold key_pack_new in E. destruct (create_lwe_secret_key P words); cbn [bind] in E; [|discriminate].
    unfold create_ring_secret_key in E. rewrite R10, R7, R1, R5 in E.
    destruct (cp_steps c); destruct (cp_ring_key c); try discriminate; (split; [intros ?; try congruence|intros ?; try congruence]).
    all: destruct (Z.eqb_spec (cp_n c) (cp_N c)) as [Heq|]; [exact Heq|discriminate].
  - intros B j' tbl kp R K EP Hj' Eq E. unfold eval_key_new in E. rewrite EP in E.
    destruct (br_key_generate F tbl kp R); cbn [bind] in E; [|discriminate]. rewrite R10, R9, R3, Eq in E. split; intros Es; rewrite Es in E.
    + destruct (Z.leb_spec 1 (cp_ks_bits c)); [destruct (Z.leb_spec (cp_ks_bits c) j'); [lia|]|];
        rewrite C37_basis_refused in E by lia; discriminate.
    + rewrite <- Ep. apply (basis_new_iff F (cp_ks_bits c) Hok Hks). unfold rks_generate in E.
      destruct (assert _); cbn [bind] in E; [|discriminate]. destruct (basis_new F (cp_ks_bits c)) as [bb|]; [eexists; reflexivity|discriminate].
  - intros B tbl K x lut y EP E. unfold bootstrap in E. rewrite EP, R5 in E.
    assert (2 ^ a < 2 ^ 63) by (apply Z.pow_lt_mono_r; lia). assert (0 < 2 ^ a) by (apply Z.pow_pos_nonneg; lia).
    rewrite (ushl_some 64 (cp_N c) 1) in E by lia. cbn [bind] in E.
    destruct (Z.ltb_spec (cp_N c * 2 ^ 1) (2 ^ B)); [lia|discriminate].
Qed.
Print Assumptions C42_needed_partial.

(** t = q is accepted, and then no ciphertext can be decrypted. *)
Theorem C42_equal_moduli_refuted : exists F c P, derive_field 32 132120577 = Some F /\ params_new F c = Some (Some P) /\
  forall M s x, decrypt M 16 (pp_t P) (pp_q P) s x = None.
Proof.
  eexists. exists (mk_const_params 512 1024 1024 LTernary 1024 132120577 RTernary 7 BrKsMs 7). eexists.
  split; [vm_compute; reflexivity|]. split; [vm_compute; reflexivity|]. intros M s x. cbn [pp_t pp_q]. unfold decrypt.
  destruct (PowOf2.p2_new 1024) as [mk|]; cbn [bind]; [|reflexivity].
  match goal with |- (let* _ := ?d in _) = None => destruct d; cbn [bind]; [|reflexivity] end.
  reflexivity.
Qed.
Print Assumptions C42_equal_moduli_refuted.

(** Gaussian ring keys are accepted with BrMsKs, and key generation then always panics. *)
Theorem C42_gaussian_refuted : exists F c P, derive_field 32 132120577 = Some F /\ params_new F c = Some (Some P) /\
  forall tbl words rwords gauss, key_pack_new F tbl P words rwords gauss = None.
Proof.
  eexists. exists (mk_const_params 512 4 16384 LTernary 1024 132120577 RGaussian 7 BrMsKs 7). eexists.
  split; [vm_compute; reflexivity|]. split; [vm_compute; reflexivity|]. intros tbl words rwords gauss. unfold key_pack_new.
  destruct (create_lwe_secret_key _ words); reflexivity.
Qed.
Print Assumptions C42_gaussian_refuted.

(** So are different dimensions with BrMs. *)
Theorem C42_dimension_refuted : exists F c P, derive_field 32 132120577 = Some F /\ params_new F c = Some (Some P) /\
  forall tbl words rwords gauss, key_pack_new F tbl P words rwords gauss = None.
Proof.
  eexists. exists (mk_const_params 512 4 16384 LTernary 1024 132120577 RTernary 7 BrMs 7). eexists.
  split; [vm_compute; reflexivity|]. split; [vm_compute; reflexivity|]. intros tbl words rwords gauss. unfold key_pack_new.
  destruct (create_lwe_secret_key _ words); reflexivity.
Qed.
Print Assumptions C42_dimension_refuted.

(** The switching basis is not checked: 15 bits do not fit q = 2^14, and evaluation key generation
    then always panics. *)
Theorem C42_switch_basis_refuted : exists F c P, derive_field 32 132120577 = Some F /\ params_new F c = Some (Some P) /\
  forall tbl kp R, kp_par kp = P -> eval_key_new 16 F tbl kp R = None.
Proof.
  eexists. exists (mk_const_params 512 4 16384 LTernary 1024 132120577 RTernary 7 BrMsKs 15). eexists.
  split; [vm_compute; reflexivity|]. split; [vm_compute; reflexivity|]. intros tbl kp R EP. unfold eval_key_new. rewrite EP.
  match goal with |- (let* _ := ?d in _) = None => destruct d; cbn [bind]; [|reflexivity] end. cbn [pp_steps pp_ks_bits pp_q].
  change 16384 with (2 ^ 14). rewrite C37_basis_refused by lia. reflexivity.
Qed.
Print Assumptions C42_switch_basis_refuted.

(** 2N need not fit the ciphertext word: with 8-bit words and N = 1024 every gate panics. *)
Theorem C42_word_refuted : exists F c P, derive_field 32 132120577 = Some F /\ params_new F c = Some (Some P) /\
  forall tbl K c0 c1, ek_par K = P -> g_nand 8 F tbl K c0 c1 = None.
Proof.
  eexists. exists (mk_const_params 512 4 128 LTernary 1024 132120577 RTernary 7 BrKsMs 7). eexists.
  split; [vm_compute; reflexivity|]. split; [vm_compute; reflexivity|]. intros tbl K c0 c1 EP. unfold g_nand. rewrite EP.
  match goal with |- (let* _ := ?d in _) = None => destruct d; cbn [bind]; [|reflexivity] end.
  match goal with |- (let* _ := ?d in _) = None => destruct d; cbn [bind]; [|reflexivity] end.
  match goal with |- (let* _ := ?d in _) = None => destruct d; cbn [bind]; [|reflexivity] end.
  match goal with |- (let* _ := ?d in _) = None => destruct d; cbn [bind]; [|reflexivity] end.
  unfold bootstrap. rewrite EP. reflexivity.
Qed.
Print Assumptions C42_word_refuted.

(** The ring modulus is not compared with the modulus of the field: modulus 12289 passes the dimension
    test for N = 64, but the field modulo 97 has no table for it, whatever the random draws. *)
Theorem C42_ring_modulus_refuted : exists F c P, derive_field 32 97 = Some F /\ params_new F c = Some (Some P) /\ pp_N P = 64 /\
  forall draws T, generate_ntt_table F draws 6 <> Some (Ok T).
Proof.
  eexists. exists (mk_const_params 16 4 16384 LTernary 64 12289 RTernary 2 BrKsMs 2). eexists.
  split; [vm_compute; reflexivity|]. split; [vm_compute; reflexivity|]. split; [reflexivity|]. intros draws T. vm_compute. discriminate.
Qed.
Print Assumptions C42_ring_modulus_refuted.

(** The default parameters are accepted; so is a small usable set. *)
Example C42_ex : exists F T1 T3 P P', derive_field 32 132120577 = Some F /\
  params_new F (mk_const_params 1024 4 1024 LTernary 1024 132120577 RTernary 3 BrKsMs 1) = Some (Some P') /\
  let c := mk_const_params 2 4 16384 LTernary 8 132120577 RTernary 7 BrMsKs 2 in
  let tbl k := match k with 1%nat => Some T1 | _ => Some T3 end in
  params_new F c = Some (Some P) /\ usable 32 132120577 3 F tbl 16 14 c /\ draws_small F 3 14 P 1 1 C49_R.
Proof.
  destruct C49_ex as (F & T1 & T3 & b & H). specialize (H BrMsKs). destruct H as ((G1 & G2 & (G3 & G4 & G5 & G6 & G7 & G8) & G9) & _ & _ & HD & _).
  destruct G1 as (G10 & G11 & G12 & G13 & G14). pose proof G13 as HF. vm_compute in HF. injection HF as EF.
  exists F, T1, T3, (C49_par b BrMsKs). eexists. split; [exact G13|]. split; [rewrite <- EF; vm_compute; reflexivity|].
  intros c tbl. split.
  { cbn [C49_par pp_basis] in G7. rewrite <- EF in G7. vm_compute in G7. injection G7 as Eb. rewrite <- EF, <- Eb. vm_compute. reflexivity. }
  split; [|exact HD]. split; [split; [exact G10|]; split; [exact G11|]; split; [exact G12|]; split; [exact G13|exact G14]|]. split; [exact G2|]. split; [vm_compute; repeat split; congruence|]. exact G9.
Qed.
