(** The randomised unit tests of the two fixed fields, of blocks, of the generator and of a derived field. *)
From Coq Require Import ZArith Znumtheory List Bool Lia.
From Verif Require Import Spec.Basic Spec.Aes Spec.Stream Model.Base Model.Reduce Model.Barrett Model.BabyBear Model.Goldilocks Model.Block Model.Aes Model.Prg.
From Verif Require Import Model.Prime Model.Field Model.Gaussian Model.Sampled Model.Example Model.UnitTests.
From Verif Require Import Proofs.Arith Proofs.BarrettProofs Proofs.BabyBearProofs Proofs.GoldilocksProofs Proofs.BlockProofs Proofs.AesProofs Proofs.PrgProofs Proofs.FieldProofs.
From Verif Require Import Proofs.NumTheory Proofs.PrimeProofs Proofs.ExamplesProofs Proofs.UnitTestProofs.
Import ListNotations.
Local Open Scope Z_scope.

(** The reference power, for any multiplication that is one modulo [p]. *)
Lemma pow_loop_ok (p : Z) (mul : Z -> Z -> option Z) (P : Z -> Prop) (val : Z -> Z)
  (Hmul : forall a b, P a -> P b -> exists z, mul a b = Some z /\ P z /\ cong p (val z) (val a * val b))
  fuel res base e : P res -> P base -> 0 <= e < 2 ^ (Z.of_nat fuel - 1) -> (0 < fuel)%nat ->
  exists z, pow_loop mul fuel res base e = Some z /\ P z /\ cong p (val z) (val res * val base ^ e).
Proof.
  revert res base e. induction fuel as [|fuel IH]; intros res base e Hr Hb He Hf; [lia|]. cbn [pow_loop].
  destruct (Z.eqb_spec e 0) as [->|E].
  - exists res. split; [reflexivity|]. split; [exact Hr|]. rewrite Z.pow_0_r, Z.mul_1_r. apply cong_refl.
  - assert (S : exists r', (if Z.odd e then mul res base else Some res) = Some r' /\ P r' /\ cong p (val r') (val res * val base ^ (e mod 2))).
    { rewrite Zmod_odd. destruct (Z.odd e).
      - rewrite Z.pow_1_r. apply Hmul; assumption.
      - exists res. split; [reflexivity|]. split; [exact Hr|]. rewrite Z.pow_0_r, Z.mul_1_r. apply cong_refl. }
    destruct S as (r' & -> & Hr' & Cr'). cbn [bind]. destruct (Hmul base base Hb Hb) as (b' & -> & Hb' & Cb'). cbn [bind].
    pose proof (Z.div_mod e 2 ltac:(lia)) as E2. pose proof (Z.mod_pos_bound e 2 ltac:(lia)) as R2. assert (0 <= e / 2) by (apply Z.div_pos; lia).
    assert (Hf' : (0 < fuel)%nat). { destruct fuel; [|lia]. change (Z.of_nat 1 - 1) with 0 in He. change (2 ^ 0) with 1 in He. lia. }
    assert (He' : 0 <= e / 2 < 2 ^ (Z.of_nat fuel - 1)).
    { split; [lia|]. apply Z.div_lt_upper_bound; [lia|]. rewrite <- Z.pow_succ_r by lia. replace (Z.succ (Z.of_nat fuel - 1)) with (Z.of_nat (S fuel) - 1) by lia. lia. }
    destruct (IH r' b' (e / 2) Hr' Hb' He' Hf') as (z & -> & Hz & Cz). exists z. split; [reflexivity|]. split; [exact Hz|].
    eapply cong_trans; [exact Cz|]. eapply cong_trans; [apply cong_mul; [exact Cr'|apply cong_pow; exact Cb']|]. apply cong_of_eq.
    replace (val base ^ e) with (val base ^ (e mod 2 + 2 * (e / 2))) by (f_equal; lia). rewrite Z.pow_add_r, Z.pow_mul_r by lia.
    replace (val base * val base) with (val base ^ 2) by ring. ring.
Qed.

(** ** Baby Bear *)
Lemma tm_small x : 0 <= x < BP -> from_monty (to_monty x) = Some x.
Proof. apply from_to_monty. Qed.
Lemma tm_mod x : from_monty (to_monty x) = Some (x mod BP).
Proof.
  rewrite (to_monty_cong x (x mod BP)) by (apply cong_sym, cong_mod; discriminate). apply tm_small. apply Z.mod_pos_bound. reflexivity.
Qed.
Lemma BP_lt : BP < 2 ^ 31. Proof. reflexivity. Qed.
Lemma uc32 x : 0 <= x < BP -> ucast 32 x = x.
Proof. intros H. unfold ucast. apply Z.mod_small. pose proof BP_lt. change (2 ^ 32) with (2 * 2 ^ 31). lia. Qed.
Lemma urem_BP s : urem s BP = Some (s mod BP). Proof. reflexivity. Qed.
Lemma mod_BP s : 0 <= s mod BP < BP. Proof. apply Z.mod_pos_bound. reflexivity. Qed.

Lemma bb_plain_dot_ok xs ys : Forall (fun x => 0 <= x < BP) xs -> Forall (fun x => 0 <= x < BP) ys ->
  bb_plain_dot xs ys = Some (dotz xs ys mod BP).
Proof.
  intros Hx Hy. unfold bb_plain_dot. replace (dotz xs ys mod BP) with ((0 + dotz xs ys) mod BP) by reflexivity.
  pose proof BP_lt as L. assert (H0 : 0 <= 0 < BP) by (split; [discriminate|reflexivity]).
  match goal with |- foldM ?f _ _ = _ => set (F := f) end.
  enough (G : forall acc, 0 <= acc < BP -> foldM F acc (combine xs ys) = Some ((acc + dotz xs ys) mod BP)) by (apply G; exact H0).
  clear H0. revert ys Hy. unfold F. clear F.
  induction Hx as [|x xs Hx _ IH]; intros [|y ys] Hy acc Hacc; cbn [combine foldM dotz]; try (rewrite Z.add_0_r, Z.mod_small by lia; reflexivity).
  inversion_clear Hy as [|? ? Hy0 Hys]. cbn [fst snd].
  rewrite umul_some by (change (2 ^ 64) with (4 * (2 ^ 31 * 2 ^ 31)); nia). cbn [bind]. rewrite urem_BP. cbn [bind].
  pose proof (mod_BP (x * y)) as M1. rewrite uc32 by exact M1. rewrite uadd_some by (change (2 ^ 64) with (2 ^ 31 * 2 ^ 31 * 4); lia). cbn [bind]. rewrite urem_BP. cbn [bind].
  pose proof (mod_BP (acc + (x * y) mod BP)) as M2. rewrite uc32 by exact M2. rewrite IH by assumption.
  f_equal. rewrite Z.add_mod_idemp_l by discriminate. replace (acc + (x * y) mod BP + dotz xs ys) with (acc + dotz xs ys + (x * y) mod BP) by ring.
  rewrite Z.add_mod_idemp_r by discriminate. f_equal. ring.
Qed.

Ltac bb := cbn [bind]; rewrite ?assert_eq_refl; cbn [bind].
Lemma ut_bb_body_ok an bn xs ys : 0 <= an < BP -> 0 < bn < BP -> length xs = length ys ->
  Forall (fun x => 0 <= x < BP) xs -> Forall (fun x => 0 <= x < BP) ys -> ut_bb_body an bn xs ys = Some tt.
Proof.
  intros Ha Hb Hl Hx Hy. unfold ut_bb_body. cbv zeta. pose proof BP_lt as L.
  rewrite tm_small by exact Ha. bb. destruct (bb_ops_spec an bn) as (O1 & O2 & O3 & O4). rewrite O1, O2, O3, O4.
  rewrite uadd_some by (change (2 ^ 64) with (2 ^ 31 * 2 ^ 31 * 4); lia). bb. rewrite urem_BP. bb. rewrite tm_mod, uc32 by apply mod_BP. bb.
  rewrite uadd_some by (change (2 ^ 64) with (2 ^ 31 * 2 ^ 31 * 4); lia). bb. rewrite usub_some by lia. bb. rewrite urem_BP. bb. rewrite tm_mod, uc32 by apply mod_BP. bb.
  replace (BP + an - bn) with (an - bn + 1 * BP) by ring. rewrite Z.mod_add by discriminate. bb.
  rewrite usub_some by lia. bb. rewrite urem_BP. bb. rewrite tm_mod, uc32 by apply mod_BP. bb.
  replace (BP - an) with (- an + 1 * BP) by ring. rewrite Z.mod_add by discriminate. bb.
  rewrite umul_some by (change (2 ^ 64) with (2 ^ 31 * 2 ^ 31 * 4); nia). bb. rewrite urem_BP. bb. rewrite tm_mod, uc32 by apply mod_BP. bb.
  assert (Nb : bn mod 2013265921 <> 0). { change 2013265921 with BP. rewrite Z.mod_small by lia. lia. }
  destruct (proj1 (bb_inverse_spec bn) Nb) as (w & _ & Iw & Ew). rewrite Iw. bb.
  destruct (bb_ops_spec bn w) as (_ & _ & _ & Q1). rewrite Q1. bb. rewrite tm_mod. bb.
  change 2013265921 with BP in Ew. rewrite (Z.mul_comm bn w), Ew. bb.
  unfold bb_div. rewrite Iw. bb. destruct (bb_ops_spec an w) as (_ & _ & _ & Q2). rewrite Q2. bb. rewrite !tm_mod. bb.
  pose proof (mod_BP w) as Mw. rewrite umul_some by (change (2 ^ 64) with (2 ^ 31 * 2 ^ 31 * 4); nia). bb. rewrite urem_BP. bb. rewrite uc32 by apply mod_BP.
  rewrite Z.mul_mod_idemp_r by discriminate. bb.
  change (bb_exp 32 (to_monty an) 0) with (Some 1). bb.
  rewrite (bb_exp_spec 32 an 1) by lia. rewrite Z.pow_1_r. bb.
  assert (Tb : 0 < to_monty bn < BP).
  { destruct (to_monty_correct bn) as (K & _). unfold bb_ok in K. assert (to_monty bn <> 0) by (rewrite tm_zero; exact Nb). lia. }
  rewrite (bb_exp_spec 32 an (to_monty bn)) by lia. bb.
  destruct (pow_loop_ok BP bb_mul bb_ok bb_val bb_mul_ok 33 MONTY_ONE (to_monty an) (to_monty bn)) as (z & Ez & Hz & Cz).
  { apply to_monty_correct. } { apply to_monty_correct. } { change (Z.of_nat 33 - 1) with 32. change (2 ^ 32) with (2 * 2 ^ 31). lia. } { lia. }
  rewrite Ez. bb. replace z with (to_monty (an ^ to_monty bn)).
  2:{ symmetry. apply bb_unique; [exact Hz|]. eapply cong_trans; [exact Cz|]. rewrite <- (Z.mul_1_l (an ^ _)). apply cong_mul; [apply tm_val|]. apply cong_pow, tm_val. }
  bb. rewrite bb_plain_dot_ok by assumption. bb. rewrite bb_dot_spec by exact Hl. bb. rewrite tm_mod. bb. reflexivity.
Qed.
Lemma ut_baby_bear_ok an bs xs ys : 0 <= an < BP -> canonical BP bs -> length xs = length ys ->
  Forall (fun x => 0 <= x < BP) xs -> Forall (fun x => 0 <= x < BP) ys ->
  ut_baby_bear an bs xs ys <> Panicked /\ (ut_baby_bear an bs xs ys = Got tt <-> Exists (fun b => b <> 0) bs).
Proof.
  intros Ha Hbs Hl Hx Hy. unfold ut_baby_bear. pose proof (first_nonzero_ok BP bs Hbs) as F. destruct (first_nonzero bs) as [| |b] eqn:E; cbn [dbind].
  - split; [discriminate|]. split; [discriminate|]. intros X. apply Exists_exists in X as (b & Hb & N). rewrite Forall_forall in F. elim N. exact (F b Hb).
  - contradiction.
  - rewrite ut_bb_body_ok by assumption. cbn [dlift]. split; [discriminate|]. split; [|reflexivity]. intros _.
    clear -E. induction bs as [|x bs IH]; [discriminate|]. cbn [first_nonzero] in E. destruct (Z.eqb_spec x 0); [right; auto|left; assumption].
Qed.

(** ** Goldilocks *)
Lemma GPv : GP = 18446744069414584321. Proof. reflexivity. Qed.
Lemma canon_of z v : word64 z -> cong GP z v -> to_canonical z = Some (v mod GP).
Proof. intros Hz C. rewrite to_canonical_correct by exact Hz. f_equal. apply cong_iff; [reflexivity|exact C]. Qed.
Lemma uc64 x : ucast 64 (x mod GP) = x mod GP.
Proof. unfold ucast. apply Z.mod_small. pose proof (Z.mod_pos_bound x GP ltac:(reflexivity)). rewrite GPv in *. lia. Qed.
Lemma urem_GP s : urem s GP = Some (s mod GP). Proof. reflexivity. Qed.
Definition is_word (x : Z) : Prop := 0 <= x < GP.
Lemma is_word64 x : is_word x -> word64 x.
Proof. unfold is_word, word64. rewrite GPv. lia. Qed.

Ltac gl := cbn [bind]; rewrite ?urem_GP, ?uc64, ?assert_eq_refl; cbn [bind].
Lemma ut_gl_body_iff a b xs ys : is_word a -> 0 < b < GP -> length xs = length ys -> Forall is_word xs -> Forall is_word ys ->
  exists r d, pow_loop gl_mul 65 1 a b = Some r /\ gl_dot xs ys = Some d /\ (ut_gl_body a b xs ys = Some tt <-> r < GP /\ d < GP).
Proof.
  intros Ha Hb Hl Hx Hy. assert (Wa : word64 a) by (apply is_word64, Ha). assert (Wb : word64 b) by (apply is_word64; unfold is_word; lia).
  destruct (pow_loop_ok GP gl_mul word64 (fun x => x) gl_mul_ok 65 1 a b) as (r & Er & Wr & Cr).
  { unfold word64. lia. } { exact Wa. } { change (Z.of_nat 65 - 1) with 64. unfold word64 in Wb. lia. } { lia. }
  destruct (gl_dot_spec xs ys Hl) as (d & Ed & Wd & Cd).
  { eapply Forall_impl; [|exact Hx]. intros x. apply is_word64. } { eapply Forall_impl; [|exact Hy]. intros x. apply is_word64. }
  exists r, d. split; [exact Er|]. split; [exact Ed|]. unfold ut_gl_body, is_word in *. pose proof GPv as G.
  destruct (gl_add_correct a b Wa Wb) as (z1 & -> & W1 & C1). gl. rewrite (canon_of z1 (a + b) W1 C1). gl.
  rewrite uadd_some by (change (2 ^ 128) with (2 ^ 64 * 2 ^ 64); lia). gl.
  destruct (gl_sub_correct a b Wa Wb) as (z2 & -> & W2 & C2). gl. rewrite (canon_of z2 (a - b) W2 C2). gl.
  rewrite uadd_some by (change (2 ^ 128) with (2 ^ 64 * 2 ^ 64); lia). gl. rewrite usub_some by lia. gl.
  replace (GP + a - b) with (a - b + 1 * GP) by ring. rewrite Z.mod_add by discriminate. gl.
  destruct (gl_neg_correct a ltac:(lia)) as (z3 & -> & W3 & C3). gl. rewrite (canon_of z3 (- a) ltac:(unfold word64; lia) C3). gl.
  rewrite usub_some by lia. gl. replace (GP - a) with (- a + 1 * GP) by ring. rewrite Z.mod_add by discriminate. gl.
  destruct (gl_mul_ok a b Wa Wb) as (z4 & -> & W4 & C4). gl. rewrite (canon_of z4 (a * b) W4 C4). gl.
  rewrite umul_some by (change (2 ^ 128) with (2 ^ 64 * 2 ^ 64); nia). gl.
  assert (Db : ~ (GP | b)). { intros D. apply Z.divide_pos_le in D; lia. }
  destruct (gl_try_inverse_correct b Wb Db) as (i & Ei & Wi & Ci). unfold gl_div, gl_inv. rewrite Ei. gl.
  destruct (gl_mul_ok b i Wb Wi) as (z5 & -> & W5 & C5). gl. rewrite (canon_of z5 1 W5).
  2:{ eapply cong_trans; [exact C5|]. rewrite Z.mul_comm. exact Ci. }
  change (1 mod GP) with 1. gl.
  destruct (gl_mul_ok a i Wa Wi) as (z6 & -> & W6 & C6). gl. rewrite !(canon_of z6 (a * i) W6 C6). gl.
  change (gl_exp 64 a 0) with (Some 1). gl. change (to_canonical 1) with (Some 1). gl.
  destruct (gl_exp_correct 64 a 1 ltac:(lia) ltac:(lia) ltac:(lia)) as (z7 & -> & W7 & C7). gl. rewrite (canon_of z7 (a ^ 1) W7 C7). gl.
  rewrite Z.pow_1_r, (Z.mod_small a) by lia. gl.
  destruct (gl_exp_correct 64 a b ltac:(lia) ltac:(lia) ltac:(lia)) as (z8 & -> & W8 & C8). gl. rewrite (canon_of z8 (a ^ b) W8 C8). gl. rewrite Er. gl.
  assert (Cr' : cong GP r (a ^ b)) by (eapply cong_trans; [exact Cr|]; rewrite Z.mul_1_l; apply cong_refl).
  assert (Q1 : assert_eq (a ^ b mod GP) r = Some tt <-> r < GP).
  { rewrite assert_eq_iff. apply (cong_iff GP) in Cr'; [|reflexivity]. rewrite <- Cr'. unfold word64 in Wr. pose proof (Z.mod_pos_bound r GP ltac:(reflexivity)).
    split; [lia|]. intros H0. apply Z.mod_small. lia. }
  assert (Ed' : gl_plain_dot xs ys = Some d).
  { unfold gl_dot in Ed. rewrite (proj2 (Nat.eqb_eq _ _) Hl) in Ed. cbn [assert bind] in Ed. exact Ed. }
  rewrite Ed', Ed. gl. rewrite (canon_of d d Wd (cong_refl _ _)). gl.
  assert (Q2 : assert_eq (d mod GP) d = Some tt <-> d < GP).
  { rewrite assert_eq_iff. unfold word64 in Wd. pose proof (Z.mod_pos_bound d GP ltac:(reflexivity)). split; [lia|]. intros H0. apply Z.mod_small. lia. }
  rewrite <- Q1, <- Q2. destruct (assert_eq (a ^ b mod GP) r) as [[]|]; cbn [bind]; [tauto|]. split; [discriminate|]. intros (X & _). discriminate X.
Qed.
(** The test fails for these draws: the reference sum of products is P itself. *)
Lemma ut_goldilocks_fails : ut_goldilocks 5 [7] [GP - 1; 1; 0; 0; 0] [1; 1; 0; 0; 0] = Panicked.
Proof. vm_compute. reflexivity. Qed.

(** ** Blocks and the generator *)
Lemma of_u128_bytes x : bytes 16 (of_u128 x). Proof. apply le_bytes_bytes. Qed.
Lemma slice_block_ok b : bytes 16 b -> slice_block b = Some b.
Proof. intros (L & _). unfold slice_block. rewrite try_from_slice_ok, L. reflexivity. Qed.
Lemma assert_blocks_eq a b : bytes 16 a -> a = b -> assert_blocks a b = Some tt.
Proof. intros H <-. unfold assert_blocks. rewrite (proj2 (block_eq_iff a a H H) eq_refl). reflexivity. Qed.
Lemma ut_block_types_ok bs x y w : 0 <= x < 2 ^ 64 -> 0 <= y < 2 ^ 64 -> 0 <= w < 2 ^ 128 -> ut_block_types bs x y w = Some tt.
Proof.
  intros Hx Hy Hw. unfold ut_block_types. change (to_u8s (of_u8s bs)) with bs. destruct (list_eq_dec Z.eq_dec bs bs) as [_|N]; [|contradiction]. cbn [assert bind].
  rewrite block_u64s by assumption. rewrite !Z.eqb_refl. cbn [andb assert bind]. rewrite block_u128, assert_eq_refl by exact Hw. cbn [bind].
  rewrite slice_block_ok by apply of_u128_bytes. cbn [bind]. apply assert_blocks_eq; [apply of_u128_bytes|reflexivity].
Qed.
Lemma ut_block_bits_ok x y : ut_block_bits x y = Some tt.
Proof.
  unfold ut_block_bits. pose proof (of_u128_bytes x) as Hx. pose proof (of_u128_bytes y) as Hy. cbv zeta.
  destruct (block_xor_ok _ _ Hx Hy) as (X1 & X2). destruct (block_or_ok _ _ Hx Hy) as (O1 & O2). destruct (block_and_ok _ _ Hx Hy) as (A1 & A2).
  rewrite <- X2, <- O2, <- A2, !u128_block by assumption. rewrite !assert_blocks_eq by (assumption || reflexivity). reflexivity.
Qed.
Lemma ut_block_bytes_ok x y : ut_block_bytes x y = Some tt.
Proof.
  unfold ut_block_bytes. rewrite !slice_block_ok by apply of_u128_bytes. cbn [bind]. rewrite assert_blocks_eq by (apply of_u128_bytes || reflexivity). cbn [bind].
  apply assert_blocks_eq; [apply of_u128_bytes|reflexivity].
Qed.
Lemma ut_prg_ok A seed : bytes 16 seed -> ut_prg A seed = Some tt.
Proof.
  intros Hs. pose proof (prg_history A seed [RandomBlocks 2] Hs) as H.
  assert (C : costs [RandomBlocks 2] <=? capacity = true) by reflexivity. rewrite C in H.
  pose proof (prg_no_repeat A seed [RandomBlocks 2] _ Hs ltac:(repeat constructor) H) as N. unfold ut_prg.
  destruct (prg_from_seed A seed) as [g|]; [|discriminate]. cbn [bind prg_run prg_do] in H |- *.
  destruct (random_blocks A 2 g) as [(x, g')|]; [|discriminate]. cbn [bind] in H |- *. injection H as H. cbn [answers answer] in N, H.
  assert (EX : x = stream seed 0 32) by exact H. clear H. cbn [concat] in N. rewrite app_nil_r in N.
  change (stream seed (4 * 0) (16 * 2)) with (stream seed 0 32) in N. rewrite <- EX in N.
  assert (Bx : bytes 32 x) by (rewrite EX; apply stream_bytes; exact Hs).
  assert (EC : cut x = [firstn 16 x; skipn 16 x]).
  { unfold cut. destruct Bx as (L & _). rewrite L. change (32 / 16)%nat with 2%nat. cbn [seq map Nat.mul Nat.add]. change (skipn 0 x) with x. f_equal. f_equal. apply firstn_all2. rewrite skipn_length, L. lia. }
  rewrite EC in N. inversion_clear N as [|? ? N1 _].
  assert (B1 : bytes 16 (firstn 16 x)). { destruct Bx as (L & F). split; [rewrite firstn_length, L; reflexivity|]. rewrite <- (firstn_skipn 16 x) in F. apply Forall_app in F. apply F. }
  assert (B2 : bytes 16 (skipn 16 x)). { destruct Bx as (L & F). split; [rewrite skipn_length, L; reflexivity|]. rewrite <- (firstn_skipn 16 x) in F. apply Forall_app in F. apply F. }
  destruct (block_eq (firstn 16 x) (skipn 16 x)) eqn:E; [|reflexivity]. exfalso. apply N1. left. symmetry. apply block_eq_iff in E; auto.
Qed.

(** ** A derived field *)
Section Fp.
  Variables (F : field) (p : Z).
  Hypothesis Hok : fok F.
  Hypothesis Ep : fp F = p.
  Hypothesis Hp : prime p.
  Hypothesis H3 : 3 <= p.
  Hypothesis Hnew : barrett_new (fw F) p = Some (fmod F).
  Let B := fw F.

  Lemma fp_word : 4 <= B /\ 4 * p < 2 ^ B.
  Proof. split; [exact (B4 F Hok)|]. rewrite <- Ep. apply (fp_range F Hok). Qed.
  Lemma new_small x : 0 <= x < p -> f_new F x = Some x.
  Proof. intros H. unfold f_new. rewrite Ep. replace (x <? p) with true by lia. reflexivity. Qed.
  Lemma mod_p x : 0 <= x mod p < p. Proof. apply Z.mod_pos_bound. lia. Qed.
  Lemma add_p a b : 0 <= a < p -> 0 <= b < p -> f_add F a b = Some ((a + b) mod p).
  Proof. rewrite <- Ep. apply f_add_correct. exact Hok. Qed.
  Lemma mul_p a b : 0 <= a < p -> 0 <= b < p -> f_mul F a b = Some ((a * b) mod p).
  Proof. intros Ha Hb. pose proof fp_word. rewrite <- Ep. apply f_mul_correct; [exact Hok|fold B; lia..]. Qed.
  Lemma ucp x : ucast B (x mod p) = x mod p.
  Proof. unfold ucast. apply Z.mod_small. pose proof (mod_p x). pose proof fp_word. lia. Qed.
  Lemma exp_p a : 0 <= a < p -> bexp B B (fmod F) a (p - 2) = Some (a ^ (p - 2) mod p).
  Proof.
    intros Ha. destruct Hok as (HB & Hb). pose proof fp_word. rewrite (bexp_correct B (fmod F) HB Hb B a (p - 2)); [|lia|unfold fp in Ep; rewrite Ep; exact Ha|lia].
    unfold fp in Ep. rewrite Ep. reflexivity.
  Qed.

  Lemma fp_add_ok a b : 0 <= a < p -> 0 <= b < p -> fp_add F p a b = Some tt.
  Proof.
    intros Ha Hb. unfold fp_add. pose proof fp_word as W. fold B. rewrite uadd_some by lia. cbn [bind]. rewrite urem_some by lia. cbn [bind].
    rewrite !new_small by (assumption || apply mod_p). cbn [bind]. rewrite add_p by assumption. apply assert_eq_refl.
  Qed.
  Lemma fp_sub_ok a b : 0 <= a < p -> 0 <= b <= a -> fp_sub F p a b = Some tt.
  Proof.
    intros Ha Hb. unfold fp_sub. rewrite usub_some by lia. cbn [bind]. rewrite urem_some by lia. cbn [bind].
    rewrite !new_small by (lia || apply mod_p). cbn [bind]. rewrite f_sub_correct, f_sub_assign_correct by (exact Hok || (rewrite Ep; lia)). rewrite Ep. cbn [bind].
    rewrite assert_eq_refl. reflexivity.
  Qed.
  Lemma fp_mul_ok a b : 0 <= a < p -> 0 <= b < p -> fp_mul F p a b = Some tt.
  Proof.
    intros Ha Hb. unfold fp_mul. pose proof fp_word as W. fold B. assert (P : 2 ^ (2 * B) = 2 ^ B * 2 ^ B) by (apply pow2_double; lia).
    rewrite umul_some by nia. cbn [bind]. rewrite urem_some by lia. cbn [bind]. rewrite ucp.
    rewrite !new_small by (assumption || apply mod_p). cbn [bind]. rewrite mul_p by assumption. apply assert_eq_refl.
  Qed.
  Lemma fermat_inv b : 0 < b < p -> cong p (b ^ (p - 2) * b) 1.
  Proof.
    intros Hb. replace (b ^ (p - 2) * b) with (b ^ (p - 1)). 2:{ replace (p - 1) with (Z.succ (p - 2)) by lia. rewrite Z.pow_succ_r by lia. ring. }
    apply fermat; [exact Hp|apply prime_small_nz; exact Hb].
  Qed.
  Lemma fp_div_iff a b : 0 <= a < p -> 0 <= b < p -> (fp_div F p a b = Some tt <-> b <> 0).
  Proof.
    intros Ha Hb. unfold fp_div. pose proof fp_word as W. rewrite Hnew. cbn [bind]. rewrite usub_some by lia. cbn [bind]. fold B.
    rewrite exp_p by exact Hb. cbn [bind]. assert (P : 2 ^ (2 * B) = 2 ^ B * 2 ^ B) by (apply pow2_double; lia). pose proof (mod_p (b ^ (p - 2))) as M.
    rewrite umul_some by nia. cbn [bind]. rewrite urem_some by lia. cbn [bind]. rewrite ucp. rewrite !new_small by (assumption || apply mod_p). cbn [bind].
    destruct (Z.eq_dec b 0) as [->|N]; [rewrite f_div_zero by exact Hok; split; [discriminate|tauto]|]. split; [auto|]. intros _.
    destruct (f_div_correct F Hok a b ltac:(rewrite Ep; exact Hp) ltac:(rewrite Ep; exact Ha) ltac:(rewrite Ep; lia)) as (r & -> & Hr & Er). rewrite Ep in *. cbn [bind].
    rewrite assert_eq_iff. apply (cong_small p); [exact Hr|apply mod_p|]. apply cong_sym. eapply cong_trans; [apply cong_mod; lia|].
    eapply cong_trans; [apply cong_mul; [apply cong_refl|apply cong_mod; lia]|].
    assert (Cr : cong p (r * b) a). { apply cong_iff; [lia|]. rewrite Er. rewrite Z.mod_small; lia. }
    eapply cong_trans; [apply cong_mul; [apply cong_sym; exact Cr|apply cong_refl]|].
    replace (r * b * b ^ (p - 2)) with (r * (b ^ (p - 2) * b)) by ring. rewrite <- (Z.mul_1_r r) at 2. apply cong_mul; [apply cong_refl|]. apply fermat_inv. lia.
  Qed.
  Lemma fp_neg_ok a : 0 <= a < p -> fp_neg F a = Some tt.
  Proof.
    intros Ha. unfold fp_neg. rewrite new_small by exact Ha. cbn [bind]. rewrite f_neg_correct by (exact Hok || (rewrite Ep; exact Ha)). rewrite Ep. cbn [bind].
    rewrite add_p by (assumption || apply mod_p). cbn [bind]. rewrite Z.add_mod_idemp_r, Z.add_opp_diag_r, Z.mod_0_l by lia. rewrite assert_eq_refl. cbn [bind].
    rewrite f_neg_correct by (exact Hok || (rewrite Ep; lia)). cbn [bind Z.opp]. rewrite Ep, Z.mod_0_l by lia. apply assert_eq_refl.
  Qed.
  Lemma fp_inv_iff a : 0 <= a < p -> (fp_inv F p a = Some tt <-> a <> 0).
  Proof.
    intros Ha. unfold fp_inv. rewrite Hnew. cbn [bind]. rewrite usub_some by lia. cbn [bind]. fold B. rewrite exp_p by exact Ha. cbn [bind].
    rewrite !new_small by (assumption || apply mod_p). cbn [bind]. unfold f_inv. rewrite Ep. rewrite usub_some by lia. cbn [bind].
    unfold f_pow. fold B. rewrite exp_p by exact Ha. cbn [bind]. rewrite assert_eq_refl. cbn [bind].
    rewrite mul_p by (assumption || apply mod_p). cbn [bind]. rewrite Z.mul_mod_idemp_r by lia. rewrite assert_eq_iff. split.
    - intros E ->. rewrite Z.mul_0_l, Z.mod_0_l in E by lia. discriminate.
    - intros N. pose proof (fermat_inv a ltac:(lia)) as C. rewrite Z.mul_comm in C. apply cong_iff in C; [|lia]. rewrite (Z.mod_small 1) in C by lia. exact C.
  Qed.
  Lemma fp_laws_ok a b c a' b' u a'' b'' c'' : Forall (fun x => 0 <= x < p) [a; b; c; a'; b'; u; a''; b''; c''] ->
    fp_laws F a b c a' b' u a'' b'' c'' = Some tt.
  Proof.
    intros H. repeat match goal with H : Forall _ (_ :: _) |- _ => inversion_clear H end. unfold fp_laws.
    rewrite !new_small by (assumption || lia). cbn [bind].
    repeat (first [rewrite add_p by (assumption || apply mod_p || lia) | rewrite mul_p by (assumption || apply mod_p || lia)]; cbn [bind]).
    repeat match goal with |- context [assert_eq ?x ?y] => replace x with y; [rewrite assert_eq_refl; cbn [bind]|] end; [reflexivity|..].
    all: rewrite ?Z.add_0_r, ?Z.mul_1_r; try (symmetry; apply Z.mod_small; assumption).
    all: rewrite ?Z.add_mod_idemp_l, ?Z.add_mod_idemp_r, ?Z.mul_mod_idemp_l, ?Z.mul_mod_idemp_r by lia; try (f_equal; ring).
    all: rewrite ?Z.add_mod_idemp_l, ?Z.add_mod_idemp_r, ?Z.mul_mod_idemp_l, ?Z.mul_mod_idemp_r by lia; try (f_equal; ring).
  Qed.
End Fp.

Lemma ut_fp_iff B p F draw d : wwidth B -> prime p -> 3 <= p -> derive_field B p = Some F -> (64 <= p -> forall i, 3 <= draw i <= p - 1) ->
  length d = 19%nat -> Forall (fun x => 0 <= x < p) d -> nth 3 d 0 <= nth 2 d 0 ->
  (ut_fp F p draw d = Some tt <-> nth 7 d 0 <> 0 /\ nth 9 d 0 <> 0).
Proof.
  intros HB Hp H3 HF Hd L H Hle. destruct (derive_field_ok B p F HB ltac:(lia) HF) as (Hok & Ew & Ep).
  assert (Hnew : barrett_new (fw F) p = Some (fmod F)).
  { unfold derive_field in HF. destruct (2 <=? leading_zeros B p); [|discriminate]. cbn [assert bind] in HF. destruct (barrett_new B p) as [m|] eqn:E; [|discriminate].
    cbn [bind] in HF. injection HF as <-. exact E. }
  do 19 (destruct d as [|? d]; [discriminate L|]). destruct d; [|discriminate L]. cbn [nth] in *.
  repeat match goal with H : Forall _ (_ :: _) |- _ => inversion_clear H end. unfold ut_fp.
  assert (PP : probably_prime (fw F) (fmod F) 20 draw = Some true).
  { destruct (Z_lt_dec p 64) as [S|S].
    - rewrite Ew in *. destruct (probably_prime_small B p (fmod F) 20 draw HB Hnew ltac:(lia)) as (b & Eb & Hb). rewrite Eb. f_equal. apply Hb. exact Hp.
    - destruct Hok as (W & K). unfold fp in Ep. apply probably_prime_prime; rewrite ?Ep; auto. apply Hd. lia. }
  rewrite PP. cbn [bind assert]. rewrite fp_add_ok by assumption. cbn [bind]. rewrite fp_sub_ok by (assumption || lia). cbn [bind]. rewrite fp_mul_ok by assumption. cbn [bind].
  match goal with |- context [fp_div F p ?a ?b] => pose proof (fp_div_iff F p Hok Ep Hp H3 Hnew a b ltac:(assumption) ltac:(assumption)) as Q1; destruct (fp_div F p a b) as [[]|] end; cbn [bind];
    [|split; [discriminate|intros (N & _); apply Q1 in N; discriminate N]].
  rewrite fp_neg_ok with (p := p) by assumption. cbn [bind].
  match goal with |- context [fp_inv F p ?a] => pose proof (fp_inv_iff F p Hok Ep Hp H3 Hnew a ltac:(assumption)) as Q2; destruct (fp_inv F p a) as [[]|] end; cbn [bind];
    [|split; [discriminate|intros (_ & N); apply Q2 in N; discriminate N]].
  rewrite fp_laws_ok with (p := p) by (assumption || (repeat apply Forall_cons; [assumption..|apply Forall_nil])). tauto.
Qed.

(** Decomposition: the digits recompose through the field. *)
Lemma compose_ok F p bits ds : fok F -> fp F = p -> 0 <= bits -> Forall (fun x => 0 <= x < 2 ^ bits) ds -> 2 ^ bits <= 2 ^ fw F ->
  forall i acc, 0 <= acc < p -> 2 ^ (bits * (Z.of_nat i + Z.of_nat (length ds) - 1)) < 2 ^ fw F \/ ds = [] ->
  foldM (fun acc id => let* w := upow (fw F) (2 ^ bits) (fst id) in let* k := f_new F w in let* t := f_mul F (snd id) k in f_add F acc t) acc (combine (seq i (length ds)) ds)
  = Some ((acc + 2 ^ (bits * Z.of_nat i) * digits_value (2 ^ bits) ds) mod p).
Proof.
  intros Hok Ep Hb Hds Hbw. pose proof (fp_range F Hok) as R. rewrite Ep in R. induction Hds as [|x ds Hx Hds IH]; intros i acc Ha Hl.
  - cbn [length seq combine foldM digits_value]. rewrite Z.mul_0_r, Z.add_0_r, Z.mod_small by exact Ha. reflexivity.
  - cbn [length seq combine foldM fst snd digits_value]. destruct Hl as [Hl|]; [|discriminate]. cbn [length] in Hl.
    assert (PW : (2 ^ bits) ^ Z.of_nat i = 2 ^ (bits * Z.of_nat i)) by (rewrite Z.pow_mul_r by lia; reflexivity).
    assert (Hi : 2 ^ (bits * Z.of_nat i) < 2 ^ fw F) by (eapply Z.le_lt_trans; [|exact Hl]; apply Z.pow_le_mono_r; [lia|apply Z.mul_le_mono_nonneg_l; lia]).
    assert (P0 : 0 < 2 ^ (bits * Z.of_nat i)) by (apply Z.pow_pos_nonneg; nia).
    unfold upow. rewrite PW. replace (_ <? _) with true by lia. cbn [bind]. rewrite f_new_correct by (assumption || lia). rewrite Ep. cbn [bind].
    pose proof (Z.mod_pos_bound (2 ^ (bits * Z.of_nat i)) p ltac:(lia)) as M1.
    rewrite f_mul_correct by (assumption || lia). rewrite Ep. cbn [bind]. rewrite Z.mul_mod_idemp_r by lia.
    pose proof (Z.mod_pos_bound (x * 2 ^ (bits * Z.of_nat i)) p ltac:(lia)) as M2.
    rewrite f_add_correct by (rewrite ?Ep; assumption || lia). rewrite Ep. cbn [bind]. pose proof (Z.mod_pos_bound (acc + (x * 2 ^ (bits * Z.of_nat i)) mod p) p ltac:(lia)) as M3.
    rewrite IH; [|lia|].
    + f_equal. rewrite Z.add_mod_idemp_r by lia. rewrite Z.add_mod_idemp_l by lia. f_equal. rewrite Nat2Z.inj_succ, Z.mul_succ_r, Z.pow_add_r by nia. ring.
    + destruct ds; [right; reflexivity|left]. eapply Z.le_lt_trans; [|exact Hl]. apply Z.pow_le_mono_r; [lia|]. apply Z.mul_le_mono_nonneg_l; lia.
Qed.
Lemma ut_decompose_ok B p bits F a : wwidth B -> 0 <= p -> derive_field B p = Some F -> 1 <= bits <= bit_len p -> 0 <= a < p -> ut_decompose F bits a = Some tt.
Proof.
  intros HB Hp HF Hbits Ha. destruct (derive_field_ok B p F HB Hp HF) as (Hok & Ew & Ep). unfold ut_decompose.
  destruct (proj2 (basis_new_iff F bits Hok ltac:(lia)) ltac:(rewrite Ep; exact Hbits)) as (b & Eb). rewrite Eb. cbn [bind].
  destruct (decompose_full F bits b a Hok Eb ltac:(lia) ltac:(rewrite Ep; exact Ha)) as (ds & -> & L & R & V & _). cbn [bind].
  pose proof (fp_range F Hok) as RP. rewrite Ep in RP.
  destruct (basis_bits F bits b Hok Eb ltac:(lia)) as (_ & _ & _ & _ & Hbf).
  assert (HL : bits * (Z.of_nat (length ds) - 1) < fw F).
  { destruct (basis_new_correct F Hok bits ltac:(rewrite Ep; exact Hbits)) as (b' & E' & _ & _ & _ & E4). rewrite Eb in E'. injection E' as <-.
    rewrite L, E4. pose proof (eff_bits_pos F Hok). pose proof (Z.mul_div_le (eff_bits F + bits - 1) bits ltac:(lia)). lia. }
  rewrite (compose_ok F p bits ds Hok Ep ltac:(lia) R ltac:(apply Z.pow_le_mono_r; lia) 0%nat 0 ltac:(lia)).
  2:{ left. cbn [Z.of_nat]. rewrite Z.add_0_l. destruct (Z_le_gt_dec 0 (bits * (Z.of_nat (length ds) - 1))); [apply Z.pow_lt_mono_r; lia|].
      rewrite Z.pow_neg_r by lia. lia. }
  cbn [bind Z.of_nat]. rewrite Z.mul_0_r. change (2 ^ 0) with 1. rewrite Z.mul_1_l, Z.add_0_l, V, Z.mod_small by exact Ha. apply assert_eq_refl.
Qed.

(** ** The whole Goldilocks test, and the assertions *)
Lemma ut_goldilocks_iff (a b : Z) (zeros : nat) (more xs ys : list Z) : 0 <= a < 2 ^ 64 - 2 ^ 32 + 1 -> 0 < b < 2 ^ 64 - 2 ^ 32 + 1 ->
  length xs = length ys -> canonical (2 ^ 64 - 2 ^ 32 + 1) xs -> canonical (2 ^ 64 - 2 ^ 32 + 1) ys ->
  exists r d, pow_loop gl_mul 65 1 a b = Some r /\ gl_dot xs ys = Some d /\
    (ut_goldilocks a (repeat 0 zeros ++ b :: more) xs ys = Got tt <-> r < 2 ^ 64 - 2 ^ 32 + 1 /\ d < 2 ^ 64 - 2 ^ 32 + 1).
Proof.
  intros Ha Hb Hl Hx Hy. destruct (ut_gl_body_iff a b xs ys Ha Hb Hl Hx Hy) as (r & d & Er & Ed & I). exists r, d. split; [exact Er|]. split; [exact Ed|].
  rewrite <- I. unfold ut_goldilocks. replace (Example.first_nonzero (repeat 0 zeros ++ b :: more)) with (Got b).
  - cbn [Sampled.dbind]. destruct (ut_gl_body a b xs ys) as [[]|]; cbn; split; congruence.
  - induction zeros as [|k IH]; cbn [repeat app Example.first_nonzero]; [destruct (Z.eqb_spec b 0); [lia|reflexivity]|exact IH].
Qed.
Lemma unit_assertions : (forall x y, assert_eq x y = Some tt <-> x = y) /\
  (forall x y, bytes 16 x -> bytes 16 y -> (assert_blocks x y = Some tt <-> x = y)).
Proof.
  split.
  - intros x y. unfold assert_eq. destruct (Z.eqb_spec x y); cbn; split; congruence.
  - intros x y Hx Hy. rewrite <- (block_eq_iff x y Hx Hy). unfold assert_blocks. destruct (block_eq x y); cbn; split; congruence.
Qed.
