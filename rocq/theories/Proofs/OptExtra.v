(** What the optimised build computes on inputs the checked build refuses; used for C77. *)
From Coq Require Import ZArith Znumtheory List Bool Arith Lia.
From Verif Require Import Spec.Basic Spec.Poly Spec.Ring Spec.Profiles.
From Verif Require Import Model.Base Model.Reduce Model.Barrett Model.PowOf2 Model.Goldilocks Model.Field Model.NTT Model.Concrete Model.Poly Model.Plaintext Model.Lwe Model.Rlwe Model.Gadget.
From Verif Require Import Model.OptArith Model.OptRing.
From Verif Require Import Proofs.Arith Proofs.ReduceProofs Proofs.BarrettProofs Proofs.PowOf2Proofs Proofs.GoldilocksProofs Proofs.FieldProofs Proofs.NTTProofs Proofs.NTTTableProofs
  Proofs.PolyMath Proofs.PolyProofs Proofs.GadgetProofs Proofs.RgswProofs Proofs.SampleProofs Proofs.Refine Proofs.OptArithProofs Proofs.OptRingProofs.
Import ListNotations.
Local Open Scope Z_scope.

(** * Powers of unreduced bases *)
Lemma iterM_snoc {A : Type} (f : A -> option A) n : forall s, iterM (S n) f s = bind (iterM n f s) f.
Proof.
  induction n as [|n IH]; intros s.
  - cbn [iterM bind]. destruct (f s); reflexivity.
  - change (iterM (S (S n)) f s) with (let* y := f s in iterM (S n) f y).
    change (iterM (S n) f s) with (let* y := f s in iterM n f y). destruct (f s) as [y|]; cbn [bind]; [apply IH|reflexivity].
Qed.

(** After [n] steps the exponent has been halved [n] times. *)
Lemma exp_iter_e mul n : forall e p r e' p' r', 0 <= e -> iterM n (exp_step mul) (e, p, r) = Some (e', p', r') -> e' = e / 2 ^ Z.of_nat n.
Proof.
  induction n as [|n IH]; intros e p r e' p' r' He E.
  - cbn [iterM] in E. injection E as -> _ _. rewrite Z.div_1_r. reflexivity.
  - cbn [iterM] in E. destruct (exp_step mul (e, p, r)) as [[[e1 p1] r1]|] eqn:E1; [|discriminate]. cbn [bind] in E.
    unfold exp_step in E1. destruct (mul p p) as [pp|]; [|discriminate]. cbn [bind] in E1.
    destruct (if Z.odd (e / 2) then mul r pp else Some r) as [rr|]; [|discriminate]. cbn [bind] in E1. injection E1 as <- <- <-.
    apply IH in E; [|apply Z.div_pos; lia]. rewrite E, Z.div_div by lia. f_equal. rewrite Nat2Z.inj_succ, Z.pow_succ_r by lia. reflexivity.
Qed.

Lemma exp_image EB mul one b a e r : 0 <= EB -> 1 < e -> exp_generic EB mul one b a e = Some r -> exists x y, mul x y = Some r.
Proof.
  intros HEB He E. unfold exp_generic in E. destruct (Z.eqb_spec e 0); [lia|]. destruct b; [|discriminate]. cbn [assert bind] in E.
  destruct (tz_spec EB e ltac:(lia)) as (o & Ho & Hodd & Hpos). pose proof (tz_nonneg EB e HEB) as Htz. set (tz := trailing_zeros EB e) in *.
  destruct (iterM (Z.to_nat tz) (fun x => mul x x) a) as [p|] eqn:Ep; [|discriminate]. cbn [bind] in E.
  assert (Hd : e / 2 ^ tz = o) by (rewrite Ho; apply Z.div_mul; pose proof (pow2_pos tz); lia). rewrite Hd in E. clear Hd.
  destruct (Z.eqb_spec o 1) as [Eo|No].
  - injection E as <-. rewrite Eo in Ho. destruct (Z.to_nat tz) as [|t] eqn:Et.
    { assert (tz = 0) by lia. rewrite H in Ho. cbn in Ho. lia. }
    rewrite iterM_snoc in Ep. destruct (iterM t _ a) as [y|]; [|discriminate]. exists y, y. exact Ep.
  - pose proof (bit_len_bounds o Hpos) as Hb.
    assert (H2 : 2 <= bit_len o).
    { destruct (Z.le_gt_cases 2 (bit_len o)) as [|L]; [assumption|]. exfalso.
      assert (2 ^ bit_len o <= 2 ^ 1) by (apply Z.pow_le_mono_r; lia). lia. }
    destruct (Z.to_nat (bit_len o - 1)) as [|t] eqn:Et; [lia|]. rewrite iterM_snoc in E.
    destruct (iterM t (exp_step mul) (o, p, p)) as [[[e1 p1] r1]|] eqn:E1; [|discriminate]. cbn [bind] in E.
    apply exp_iter_e in E1; [|lia].
    assert (Hl : e1 / 2 = 1).
    { rewrite E1, Z.div_div by (try lia; pose proof (pow2_pos (Z.of_nat t)); lia).
      replace (2 ^ Z.of_nat t * 2) with (2 ^ (bit_len o - 1)).
      2:{ replace (bit_len o - 1) with (Z.succ (Z.of_nat t)) by lia. rewrite Z.pow_succ_r by lia. ring. }
      pose proof (pow2_pos (bit_len o - 1) ltac:(lia)).
      symmetry. apply Z.div_unique with (r := o - 2 ^ (bit_len o - 1)); [|ring]. left.
      assert (2 ^ bit_len o = 2 * 2 ^ (bit_len o - 1)) by (rewrite <- Z.pow_succ_r by lia; f_equal; lia). lia. }
    unfold exp_step in E. rewrite Hl in E. destruct (mul p1 p1) as [p2|]; [|discriminate]. cbn [bind Z.odd] in E.
    destruct (mul r1 p2) as [r2|] eqn:E2; [|discriminate]. cbn [bind] in E. injection E as <-. exists r1, p2. exact E2.
Qed.

(** The optimised loop does not look at the condition on the base. *)
Lemma exp_o EB mul mul' one b a e r : (forall x y, le (mul x y) (mul' x y)) -> exp_generic EB mul one true a e = Some r -> exp_generic_o EB mul' one b a e = Some r.
Proof. intros H E. change (exp_generic_o EB mul' one b a e) with (exp_generic_o EB mul' one true a e). apply (ref_exp_generic EB mul mul' one true a e H), E. Qed.

Lemma exp_o_one EB mul one b a : exp_generic_o EB mul one b a 1 = Some a.
Proof.
  unfold exp_generic_o. cbn [Z.eqb debug_assert_o bind]. assert (T : trailing_zeros EB 1 = 0) by reflexivity. rewrite T.
  cbn [Z.to_nat iterM bind]. rewrite Z.pow_0_r, Z.div_1_r. reflexivity.
Qed.

Section Barrett.
Variables (B : Z) (m : barrett).
Hypotheses (HB : wwidth B) (Hm : barrett_ok B m).
Local Notation v := (bval m).

(** Multiplication restricted to words. *)
Definition wmulb (x y : Z) : option Z := if (0 <=? x) && (x <? 2 ^ B) && (0 <=? y) && (y <? 2 ^ B) then bmul B m x y else None.
Lemma wmulb_le x y : le (wmulb x y) (bmul_o B m x y).
Proof. intros r. unfold wmulb. destruct (_ && _); [apply ref_bmul|discriminate]. Qed.
Lemma vw : 2 <= v < 2 ^ B. Proof. pose proof (v_range B m HB Hm). lia. Qed.
Lemma wmulb_in x y r : wmulb x y = Some r -> 0 <= r < v.
Proof.
  unfold wmulb. destruct ((0 <=? x) && (x <? 2 ^ B) && (0 <=? y) && (y <? 2 ^ B)) eqn:C; [|discriminate].
  repeat (apply andb_prop in C; destruct C as [C ?]). apply Z.leb_le in C, H0. apply Z.ltb_lt in H, H1.
  rewrite (bmul_correct B m HB Hm) by lia. intros E. injection E as <-. apply Z.mod_pos_bound. pose proof vw. lia.
Qed.
Lemma wmulb_ok x y : 0 <= x < 2 ^ B -> 0 <= y < 2 ^ B -> exists z, wmulb x y = Some z /\ 0 <= z < 2 ^ B /\ cong v z (x * y).
Proof.
  intros Hx Hy. pose proof vw. assert (E : wmulb x y = Some ((x * y) mod v)).
  { unfold wmulb. rewrite (proj2 (Z.leb_le 0 x)), (proj2 (Z.leb_le 0 y)), (proj2 (Z.ltb_lt x _)), (proj2 (Z.ltb_lt y _)) by lia. cbn [andb].
    apply (bmul_correct B m HB Hm); lia. }
  eexists. split; [exact E|]. pose proof (Z.mod_pos_bound (x * y) v ltac:(lia)). split; [lia|apply cong_mod; lia].
Qed.

Lemma bexp_o_any EB a e : 0 <= EB -> 0 <= a < 2 ^ B -> 0 <= e -> bexp_o B EB m a e = Some (if e =? 1 then a else a ^ e mod v).
Proof.
  intros HEB Ha He. unfold bexp_o. pose proof vw. destruct (Z.eqb_spec e 1) as [->|N]; [apply exp_o_one|]. destruct (Z.eq_dec e 0) as [->|].
  - unfold exp_generic_o. cbn [Z.eqb]. rewrite Z.pow_0_r, Z.mod_small by lia. reflexivity.
  - destruct (exp_generic_correct v wmulb (fun x => 0 <= x < 2 ^ B) (fun x => x) wmulb_ok EB 1 true a e HEB ltac:(lia) Ha eq_refl) as (r & E & Hr & Hc).
    rewrite (exp_o EB wmulb (bmul_o B m) 1 _ a e r wmulb_le E). f_equal. apply cong_eq_mod; [|exact Hc].
    destruct (exp_image EB wmulb 1 true a e r HEB ltac:(lia) E) as (x & y & M). exact (wmulb_in x y r M).
Qed.
End Barrett.

(** Powers of two. *)
Lemma p2_exp_o_any B EB k a e : 1 <= k <= B -> 0 <= EB -> 0 <= a < 2 ^ B -> 0 <= e ->
  p2_exp_o B EB (2 ^ k - 1) a e = Some (if e =? 1 then a else a ^ e mod 2 ^ k).
Proof.
  intros Hk HEB Ha He. unfold p2_exp_o. pose proof (pow2_pos k ltac:(lia)) as Hq.
  assert (H2 : 2 <= 2 ^ k) by (change 2 with (2 ^ 1) at 1; apply Z.pow_le_mono_r; lia).
  destruct (Z.eqb_spec e 1) as [->|N]; [apply exp_o_one|]. destruct (Z.eq_dec e 0) as [->|].
  - unfold exp_generic_o. cbn [Z.eqb]. rewrite Z.pow_0_r, Z.mod_small by lia. reflexivity.
  - set (mul := fun x y => Some (p2_mul B (2 ^ k - 1) x y)).
    destruct (exp_generic_correct (2 ^ k) mul (fun x => 0 <= x) (fun x => x)) with (EB := EB) (one := 1) (b := true) (a := a) (e := e) as (r & E & Hr & Hc).
    + intros x y Hx Hy. unfold mul. rewrite (proj2 (proj2 (proj2 (proj2 (p2_ops_correct B k _ _ Hk))))). eexists. split; [reflexivity|].
      split; [apply Z.mod_pos_bound; lia|apply cong_mod; lia].
    + exact HEB.
    + lia.
    + lia.
    + reflexivity.
    + rewrite (exp_o EB mul mul 1 _ a e r (fun x y => le_refl _) E). f_equal. apply cong_eq_mod; [|exact Hc].
      destruct (exp_image EB mul 1 true a e r HEB ltac:(lia) E) as (x & y & M). unfold mul in M. injection M as <-.
      rewrite (proj2 (proj2 (proj2 (proj2 (p2_ops_correct B k _ _ Hk))))). apply Z.mod_pos_bound. lia.
Qed.

(** Goldilocks. *)
Lemma gl_exp_o_any EB a e : 0 <= EB -> word64 a -> 0 <= e -> exists z, gl_exp_o EB a e = Some z /\ word64 z /\ cong GP z (a ^ e).
Proof.
  intros HEB Ha He. unfold gl_exp_o. destruct (Z.eq_dec e 0) as [->|].
  - exists 1. unfold exp_generic_o. cbn [Z.eqb]. split; [reflexivity|]. split; [unfold word64; split; [lia|reflexivity]|]. exists 0. reflexivity.
  - destruct (exp_generic_correct GP gl_mul word64 (fun x => x) gl_mul_ok EB 1 true a e HEB ltac:(lia) Ha eq_refl) as (r & E & Hr & Hc).
    exists r. split; [apply (exp_o EB gl_mul gl_mul_o 1 _ a e r ref_gl_mul E)|]. split; assumption.
Qed.

Lemma gl_neg_o_any a : word64 a ->
  exists z, gl_neg_o a = Some z /\ word64 z /\ cong (2 ^ 64 - 2 ^ 32 + 1) z (- a + (if a <=? 2 ^ 64 - 2 ^ 32 + 1 then 0 else 2 ^ 32 - 1)) /\
    (cong (2 ^ 64 - 2 ^ 32 + 1) z (- a) <-> a <= 2 ^ 64 - 2 ^ 32 + 1).
Proof.
  unfold word64, gl_neg_o, usub_o. intros Ha. change (2 ^ 64) with 18446744073709551616 in *. change (2 ^ 32) with 4294967296.
  unfold GP. change (2 ^ 64) with 18446744073709551616. change (2 ^ 32) with 4294967296.
  change (18446744073709551616 - 4294967296 + 1) with 18446744069414584321. remember 18446744069414584321 as q eqn:Eq.
  destruct (Z.eqb_spec a 0) as [->|N].
  { exists 0. rewrite (proj2 (Z.leb_le 0 q)) by lia. split; [reflexivity|]. split; [lia|]. split; [exists 0; reflexivity|]. split; [lia|]. intros _. exists 0. reflexivity. }
  destruct (Z.leb_spec a q) as [L|L].
  - exists (q - a). split; [reflexivity|]. split; [lia|]. split; [exists 1; ring|]. split; [lia|]. intros _. exists 1. ring.
  - assert (E : (q - a) mod 18446744073709551616 = q - a + 18446744073709551616).
    { symmetry. apply Z.mod_unique with (q := -1); lia. }
    rewrite E. eexists. split; [reflexivity|]. split; [lia|]. split; [exists 2; lia|]. split; [|lia]. intros (z & Hz). exfalso. lia.
Qed.

(** * Operands of different lengths *)
Lemma mapM2_at f g (P : Z -> Prop) : (forall x y, P x -> P y -> f x y = Some (g x y)) -> forall a b, Forall P a -> Forall P b ->
  exists r, mapM2 f a b = Some r /\ length r = Nat.min (length a) (length b) /\
    forall i, (i < Nat.min (length a) (length b))%nat -> nth i r 0 = g (nth i a 0) (nth i b 0).
Proof.
  intros H. induction a as [|x a IH]; intros b Ha Hb; [exists []; cbn; repeat split; intros; lia|].
  destruct b as [|y b]; [exists []; cbn; repeat split; intros; lia|]. inversion Ha as [|? ? Px Pa]; inversion Hb as [|? ? Py Pb]; subst.
  destruct (IH b Pa Pb) as (r & E & L & N). exists (g x y :: r). cbn [mapM2]. rewrite (H x y Px Py). cbn [bind]. rewrite E. cbn [bind].
  split; [reflexivity|]. cbn [length Nat.min]. split; [rewrite L; reflexivity|]. intros [|i] Hi; [reflexivity|]. cbn [nth]. apply N. lia.
Qed.
Lemma zipA_at f g (P : Z -> Prop) : (forall x y, P x -> P y -> f x y = Some (g x y)) -> forall a b, Forall P a -> Forall P b ->
  exists r, zipA f a b = Some r /\ length r = length a /\
    (forall i, (i < Nat.min (length a) (length b))%nat -> nth i r 0 = g (nth i a 0) (nth i b 0)) /\
    (forall i, (length b <= i)%nat -> nth i r 0 = nth i a 0).
Proof.
  intros H. induction a as [|x a IH]; intros b Ha Hb; [exists []; cbn; repeat split; intros; lia|].
  destruct b as [|y b]; [exists (x :: a); cbn; repeat split; intros; lia|]. inversion Ha as [|? ? Px Pa]; inversion Hb as [|? ? Py Pb]; subst.
  destruct (IH b Pa Pb) as (r & E & L & N & T). exists (g x y :: r). cbn [zipA]. rewrite (H x y Px Py). cbn [bind]. rewrite E. cbn [bind].
  split; [reflexivity|]. cbn [length Nat.min]. split; [rewrite L; reflexivity|]. split.
  - intros [|i] Hi; [reflexivity|]. cbn [nth]. apply N. lia.
  - intros [|i] Hi; [lia|]. cbn [nth]. apply T. lia.
Qed.

(** * Equal moduli *)
Lemma decode_o_equal M c j : 0 <= j < 64 -> 0 <= c < 2 ^ j -> decode_o M c (2 ^ j) (2 ^ j) = Some 0.
Proof.
  intros Hj Hc. unfold decode_o. cbn [debug_assert_o bind]. pose proof (pow2_pos j ltac:(lia)). unfold udiv.
  destruct (Z.eqb_spec (2 ^ j) 0); [lia|]. cbn [bind]. rewrite Z.div_same by lia.
  assert (T : trailing_zeros 64 1 = 0) by reflexivity. rewrite T. unfold usub_o at 1. cbn [Z.leb Z.compare].
  change ((0 - 1) mod 2 ^ 32) with 4294967295. cbn [bind]. unfold ushr_o. change (4294967295 <? 64) with false. cbv iota.
  change (4294967295 mod 64) with 63. cbn [bind].
  assert (2 ^ j <= 2 ^ 63) by (apply Z.pow_le_mono_r; lia). rewrite (Z.div_small c (2 ^ 63)) by lia.
  change (Z.land 0 1) with 0. change (0 / 2) with 0. change (uadd_o 64 0 0) with (Some 0). cbn [bind].
  unfold usub_o. cbn [bind]. rewrite Z.land_0_l. destruct M; reflexivity.
Qed.

Lemma decrypt_o_equal M B j s x : 1 <= j <= B -> j < 64 -> decrypt_o M B (2 ^ j) (2 ^ j) s x = Some 0.
Proof.
  intros Hj H64. unfold decrypt_o. assert (E : p2_new (2 ^ j) = Some (2 ^ j - 1)) by (apply p2_new_correct; [pose proof (pow2_pos j); lia|exists j; auto with zarith]).
  rewrite E. cbn [bind]. unfold p2_dot_o. cbn [debug_assert_o bind]. apply decode_o_equal; [lia|].
  rewrite (proj1 (proj2 (proj2 (p2_ops_correct B j _ _ Hj)))). apply Z.mod_pos_bound. pose proof (pow2_pos j); lia.
Qed.

Lemma decrypt_o_prefix M B t q s x : let l := Nat.min (length s) (length (la x)) in
  decrypt_o M B t q s x = decrypt_o M B t q (firstn l s) (mk_lwe (firstn l (la x)) (lb x)).
Proof.
  intros l. unfold decrypt_o. destruct (p2_new q) as [mask|]; [|reflexivity]. cbn [bind la lb].
  assert (C : combine (la x) s = combine (firstn l (la x)) (firstn l s)).
  { subst l. generalize (la x) as u. clear. induction s as [|a s IH]; intros [|b u]; cbn [combine firstn length Nat.min]; try reflexivity. rewrite <- IH. reflexivity. }
  unfold p2_dot_o. cbn [debug_assert_o bind]. rewrite <- C. reflexivity.
Qed.

(** * Gadget samples in coefficient form *)
Section Samples.
Variable F : field.
Hypothesis Hok : fok F.
Local Notation p := (fp F).
Hypothesis Hp : prime p.
Variables (tbl : tables) (k : nat) (w : Z).
Hypothesis C : ctx F tbl k w.
Hypothesis Hk : (0 < k)%nat.
Local Notation n := (2 ^ k)%nat.
Local Notation ntt := (ntt_of F w k).
Variable s : list Z.
Hypothesis Ls : length s = n.
Variables (b : basis) (bits : Z).
Hypothesis Hb : basis_new F bits = Some b.
Hypothesis Hbits : 0 <= bits.
Local Notation base := (2 ^ bits).

Lemma power_rows_o_ok m row row' rnd c : row_ok F k s m row -> (forall c a e, le (row c a e) (row' c a e)) -> rnd_ok F k rnd -> powers_ok F bits c (length rnd) ->
  exists rows, power_rows_o F row' base c rnd = Some rows /\ Forall (rlwe_wf p n) rows /\ genc p n s base c m rows (map snd rnd).
Proof.
  intros Hr Hle Hrnd. revert c. induction Hrnd as [|[a e] rnd (Wa & We) Hrnd IH]; intros c Hc; [exists []; repeat split; constructor|].
  cbn [length] in *. destruct (powers_S F tbl k w C Hk s Ls bits Hbits _ _ Hc) as (Hc0 & Hc1). cbn [fst snd] in *.
  destruct (Hr c a e Hc0 Wa We) as (r & E & Wr & Pr). cbn [power_rows_o]. rewrite (Hle c a e r E). cbn [bind].
  destruct rnd as [|ae rnd].
  - unfold umul_o. cbn [bind power_rows_o]. eexists. split; [reflexivity|]. split; [constructor; [assumption|constructor]|].
    cbn [genc map snd]. split; [exact (proj1 We)|]. split; [assumption|exact I].
  - assert (Hw : c * base < 2 ^ fw F).
    { pose proof (powers_word F Hok k Hk s Ls bits Hbits _ _ Hc1 0%nat ltac:(cbn [length]; lia)) as P. cbn [Z.of_nat] in P. rewrite Z.pow_0_r, Z.mul_1_r in P. exact P. }
    unfold umul_o. rewrite (proj2 (Z.ltb_lt _ _) Hw). cbn [bind].
    destruct (IH (c * base) Hc1) as (rows & E' & W' & G'). rewrite E'. cbn [bind].
    eexists. split; [reflexivity|]. split; [constructor; assumption|]. cbn [genc map snd]. split; [exact (proj1 We)|]. split; assumption.
Qed.

Lemma one_row_le c a e : le (g_one_row F tbl k w s c a e) (let* r := rlwe_zero_sample_o F tbl (ntt s) a e in let* b0 := add_at_0_o F (rb r) c in Some (mk_rlwe (ra r) b0)).
Proof. unfold g_one_row. ro. Qed.
Lemma neg_row_le c a e : le (g_neg_row F tbl k w s c a e) (let* r := rlwe_zero_sample_o F tbl (ntt s) a e in let* a0 := add_at_0_o F (ra r) c in Some (mk_rlwe a0 (rb r))).
Proof. unfold g_neg_row. ro. Qed.

Section Rnd.
Variable rnd : list (list Z * list Z).
Hypothesis Hrnd : rnd_ok F k rnd.
Hypothesis Lrnd : length rnd = bs_len b.

Lemma g_one_sample_o_main : exists G, g_one_sample_o F tbl (ntt s) b rnd = Some G /\ gadget_wf p n b G /\ gadget_encrypts p n s base (one n) (gd G) (map snd rnd).
Proof.
  unfold g_one_sample_o. rewrite (base_eq' F Hok b bits Hb Hbits), <- Lrnd, firstn_all.
  destruct (power_rows_o_ok (one n) (g_one_row F tbl k w s) _ rnd 1 (g_one_row_ok F Hok Hp tbl k w C Hk s Ls) one_row_le Hrnd) as (rows & E & W & G).
  - apply (powers_basis F Hok Hp tbl k w C Hk s Ls b bits Hb Hbits). rewrite Lrnd. lia.
  - rewrite E. cbn [bind]. eexists. split; [reflexivity|]. apply (wrap F k s b bits rnd Lrnd); assumption.
Qed.
Lemma g_neg_sample_o_main : exists G, g_neg_secret_sample_o F tbl (ntt s) b rnd = Some G /\ gadget_wf p n b G /\ gadget_encrypts p n s base (pneg s) (gd G) (map snd rnd).
Proof.
  unfold g_neg_secret_sample_o. rewrite (base_eq' F Hok b bits Hb Hbits), <- Lrnd, firstn_all.
  destruct (power_rows_o_ok (pneg s) (g_neg_row F tbl k w s) _ rnd 1 (g_neg_row_ok F Hok Hp tbl k w C Hk s Ls) neg_row_le Hrnd) as (rows & E & W & G).
  - apply (powers_basis F Hok Hp tbl k w C Hk s Ls b bits Hb Hbits). rewrite Lrnd. lia.
  - rewrite E. cbn [bind]. eexists. split; [reflexivity|]. apply (wrap F k s b bits rnd Lrnd); assumption.
Qed.
End Rnd.

Lemma rgsw_one_o_main r0 r1 : rnd_ok F k r0 -> length r0 = bs_len b -> rnd_ok F k r1 -> length r1 = bs_len b ->
  exists R, rgsw_one_sample_o F tbl (ntt s) b r0 r1 = Some R /\ rgsw_wf p n b R /\ rgsw_encrypts p n s base (one n) R (map snd r0) (map snd r1).
Proof.
  intros H0 L0 H1 L1.
  destruct (g_neg_sample_o_main r0 H0 L0) as (G0 & E0 & W0 & P0). destruct (g_one_sample_o_main r1 H1 L1) as (G1 & E1 & W1 & P1).
  unfold rgsw_one_sample_o. rewrite E0. cbn [bind]. rewrite E1. cbn [bind]. eexists. split; [reflexivity|].
  split; [split; assumption|]. split; cbn [c_neg c_m]; [eapply enc_cong; [apply (neg_one_s F Hp tbl k w C Hk s Ls)|exact P0]|exact P1].
Qed.
End Samples.
