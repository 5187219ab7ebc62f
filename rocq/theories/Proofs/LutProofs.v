(** Boolean look-up tables. *)
From Coq Require Import ZArith List Bool Arith Lia.
From Verif Require Import Spec.Basic Spec.Poly Spec.Blind Spec.Gates Model.Base Model.Field Model.Boolean.
From Verif Require Import Proofs.Arith Proofs.PolyMath Proofs.FieldProofs Proofs.RlweProofs Proofs.BlindProofs.
Import ListNotations.
Local Open Scope Z_scope.

Lemma const_rotate n t lut : (0 < n)%nat -> length lut = n -> 0 <= t < 2 * Z.of_nat n ->
  nth 0 (negacyclic n (xpow n (- t)) lut) 0 =
  if t <? Z.of_nat n then nth (Z.to_nat t) lut 0 else - nth (Z.to_nat (t - Z.of_nat n)) lut 0.
Proof.
  intros Hn L Ht. destruct (Z.eqb_spec t 0) as [->|H0].
  - unfold xpow. rewrite Zmod_0_l. change (Z.to_nat 0) with 0%nat. rewrite <- (rot_low n 0 lut Hn L ltac:(lia)).
    unfold rot. rewrite Nat.sub_0_r, L. rewrite (skipn_all2 lut) by lia. cbn [pneg map app]. rewrite firstn_all2 by lia.
    destruct (Z.ltb_spec 0 (Z.of_nat n)); [reflexivity|lia].
  - replace (xpow n (- t)) with (monomial n 1 (Z.to_nat (2 * Z.of_nat n - t))).
    2:{ unfold xpow. do 2 f_equal. apply (Z.mod_unique _ _ (-1)); lia. }
    set (r := Z.to_nat (2 * Z.of_nat n - t)). assert (Hr : (0 < r < 2 * n)%nat) by lia.
    destruct (Z.ltb_spec t (Z.of_nat n)).
    + pose proof (rot_high n (r - n) lut Hn L ltac:(lia)) as RH. replace (n + (r - n))%nat with r in RH by lia. rewrite <- RH.
      unfold rot. rewrite L. rewrite app_nth1 by (rewrite skipn_length; lia). rewrite nth_skipn_. f_equal. lia.
    + rewrite <- (rot_low n r lut Hn L ltac:(lia)). unfold rot. rewrite L.
      rewrite app_nth1 by (rewrite pneg_length, skipn_length; lia). rewrite nth_pneg, nth_skipn_. do 2 f_equal. lia.
Qed.

Lemma step_fill_len st c v l : length (step_fill st c v l) = length l.
Proof. revert c. induction l as [|x l IH]; intros c; [reflexivity|]. destruct c; cbn; rewrite IH; reflexivity. Qed.
Lemma step_fill_nth st v l : (0 < st)%nat -> forall c i, (i < length l)%nat ->
  (exists m, i = c + m * st)%nat -> nth i (step_fill st c v l) 0 = v.
Proof.
  intros Hs. induction l as [|x l IH]; intros c i Hi (m & Em); [cbn in Hi; lia|].
  destruct c as [|c]; cbn [step_fill].
  - destruct i as [|i]; [reflexivity|]. cbn [nth]. apply IH; [cbn in Hi; lia|]. destruct m as [|m]; [cbn in Em; lia|]. exists m. cbn in Em. nia.
  - destruct i as [|i]; [lia|]. cbn [nth]. apply IH; [cbn in Hi; lia|]. exists m. lia.
Qed.
Lemma step_fill_all (P : Z -> Prop) st v l : P v -> Forall P l -> forall c, Forall P (step_fill st c v l).
Proof.
  intros Hv Hl. induction Hl as [|x l Hx Hl IH]; intros c; [constructor|]. destruct c; constructor; auto.
Qed.

Lemma two_part_correct N mid st lo hi p : 0 < N -> 0 <= mid <= N -> 0 < st -> (st | mid) -> 0 <= lo < p -> 0 <= hi < p ->
  exists lut, two_part_lut N mid st lo hi = Some lut /\ length lut = Z.to_nat N /\ canonical p lut /\
    forall i, 0 <= i < N -> (st | i) -> nth (Z.to_nat i) lut 0 = if i <? mid then lo else hi.
Proof.
  intros HN Hm Hs (c & Ec) Hlo Hhi. unfold two_part_lut.
  replace (st =? 0) with false by (symmetry; apply Z.eqb_neq; lia). cbn [negb assert bind].
  replace (mid <=? N) with true by (symmetry; apply Z.leb_le; lia). cbn [assert bind]. eexists. split; [reflexivity|].
  assert (L1 : length (firstn (Z.to_nat mid) (repeat 0 (Z.to_nat N))) = Z.to_nat mid) by (rewrite firstn_length, repeat_length; lia).
  assert (L2 : length (skipn (Z.to_nat mid) (repeat 0 (Z.to_nat N))) = (Z.to_nat N - Z.to_nat mid)%nat) by (rewrite skipn_length, repeat_length; lia).
  assert (Z0 : Forall (fun x => 0 <= x < p) (repeat 0 (Z.to_nat N))) by (apply Forall_forall; intros x Hx; apply repeat_spec in Hx; lia).
  split; [rewrite app_length, !step_fill_len, L1, L2; lia|]. split.
  - apply Forall_app. split; apply step_fill_all; try assumption.
    + apply canonical_firstn. exact Z0.
    + apply canonical_skipn. exact Z0.
  - intros i Hi (d & Ed). destruct (Z.ltb_spec i mid).
    + rewrite app_nth1 by (rewrite step_fill_len, L1; lia). apply step_fill_nth; [lia|rewrite L1; lia|].
      exists (Z.to_nat d). assert (0 <= d) by nia. apply Nat2Z.inj. rewrite Nat2Z.inj_add, Nat2Z.inj_mul, !Z2Nat.id by lia. lia.
    + rewrite app_nth2 by (rewrite step_fill_len, L1; lia). rewrite step_fill_len, L1. apply step_fill_nth; [lia|rewrite L2; lia|].
      exists (Z.to_nat (d - c)). assert (0 <= d - c) by nia. apply Nat2Z.inj.
      rewrite Nat2Z.inj_add, Nat2Z.inj_mul, Nat2Z.inj_sub, !Z2Nat.id by lia. cbn [Z.of_nat]. lia.
Qed.

Lemma lut_step_correct k j : 0 <= k < 63 -> 0 <= j -> lut_step (2 ^ k) (2 ^ j) = Some (2 ^ Z.max 0 (k + 1 - j)).
Proof.
  intros Hk Hj. unfold lut_step, ushl, urem, udiv. change (1 <? 64) with true. cbn [bind].
  change (2 ^ 1) with 2. assert (E1 : 2 ^ k * 2 = 2 ^ (k + 1)) by (rewrite Z.pow_add_r by lia; reflexivity).
  assert (2 ^ (k + 1) < 2 ^ 64) by (apply Z.pow_lt_mono_r; lia).
  assert (0 < 2 ^ (k + 1)) by (apply Z.pow_pos_nonneg; lia). assert (0 < 2 ^ j) by (apply Z.pow_pos_nonneg; lia).
  rewrite E1, (Z.mod_small (2 ^ (k + 1)) (2 ^ 64)) by lia.
  replace (2 ^ j =? 0) with false by (symmetry; apply Z.eqb_neq; lia). cbn [bind].
  replace (2 ^ (k + 1) =? 0) with false by (symmetry; apply Z.eqb_neq; lia). cbn [bind].
  destruct (Z_le_gt_dec j (k + 1)) as [H2|H2].
  - replace (2 ^ (k + 1)) with (2 ^ (k + 1 - j) * 2 ^ j) by (rewrite <- Z.pow_add_r by lia; f_equal; lia).
    rewrite Z.mod_mul by lia. cbn [Z.eqb]. rewrite Z.div_mul by lia. do 2 f_equal. lia.
  - rewrite Z.mod_small by (split; [lia|apply Z.pow_lt_mono_r; lia]).
    replace (2 ^ (k + 1) =? 0) with false by (symmetry; apply Z.eqb_neq; lia).
    replace (2 ^ j) with (2 ^ (j - (k + 1)) * 2 ^ (k + 1)) by (rewrite <- Z.pow_add_r by lia; f_equal; lia).
    rewrite Z.mod_mul by lia. cbn [Z.eqb]. replace (Z.max 0 (k + 1 - j)) with 0 by lia. reflexivity.
Qed.

Section Lut.
Variable F : field.
Hypothesis Hok : fok F.
Notation p := (fp F).

Lemma eighths_correct : exists e ne, eighths F = Some (e, ne) /\ e = p / 8 /\ cong p ne (- e) /\ 0 <= e < p /\ 0 <= ne < p.
Proof.
  pose proof (fp_range F Hok) as R. unfold eighths, ushr.
  assert (B4 : 3 < fw F) by (destruct Hok as ((h & H1 & H2) & _); lia).
  replace (3 <? fw F) with true by (symmetry; apply Z.ltb_lt; lia). cbn [bind]. change (2 ^ 3) with 8.
  assert (H8 : 0 <= p / 8 < p) by (split; [apply Z.div_pos; lia|apply Z.div_lt; lia]).
  rewrite (f_new_correct F Hok) by lia. cbn [bind]. rewrite Z.mod_small by lia.
  unfold usub. replace (p / 8 <=? p) with true by (symmetry; apply Z.leb_le; lia). cbn [bind].
  rewrite (f_new_correct F Hok) by lia. cbn [bind]. eexists. eexists. split; [reflexivity|]. split; [reflexivity|].
  split; [|split; [lia|apply Z.mod_pos_bound; lia]].
  assert (C : cong p ((p - p / 8) mod p) (p - p / 8)) by (apply cong_mod; lia). rewrite C. exists 1. ring.
Qed.

(** A table with [lo] below [mid] and [hi] above; which of the two is +p/8 decides the half circle. *)
Lemma table_correct N mid st lo hi lut (e := p / 8) :
  0 < N -> 0 < mid < N -> 0 < st -> length lut = Z.to_nat N -> canonical p lut -> (st | N) ->
  (forall i, 0 <= i < N -> (st | i) -> nth (Z.to_nat i) lut 0 = if i <? mid then lo else hi) ->
  (cong p lo e -> cong p hi (- e) -> half_circle_table p (Z.to_nat N) st (mid - N) lut) /\
  (cong p lo (- e) -> cong p hi e -> half_circle_table p (Z.to_nat N) st mid lut).
Proof.
  intros HN Hm Hs L C HsN Hnth. pose proof (fp_range F Hok) as R.
  assert (He : 0 <= 2 * e < p) by (unfold e; pose proof (Z.mul_div_le p 8 ltac:(lia)); pose proof (Z.div_pos p 8 ltac:(lia) ltac:(lia)); lia).
  assert (V : forall v x, cong p v x -> 0 <= x + e < p -> (v + e) mod p = x + e).
  { intros v x Hv Hx. assert (E : cong p (v + e) (x + e)) by (rewrite Hv; reflexivity).
    apply cong_iff in E; [|lia]. rewrite E. apply Z.mod_small. exact Hx. }
  assert (Q : forall a b, a < b -> (a <? b) = true) by (intros; apply Z.ltb_lt; assumption).
  assert (Q' : forall a b, b <= a -> (a <? b) = false) by (intros; apply Z.ltb_ge; assumption).
  split; intros Clo Chi; (split; [exact L|]; split; [exact C|]); intros t Ht Hst;
    rewrite const_rotate by (try exact L; lia); rewrite Z2Nat.id in * by lia; fold e; destruct (Z.ltb_spec t N) as [H1|H1].
  - rewrite Hnth by (try exact Hst; lia). destruct (Z.ltb_spec t mid).
    + replace ((t - (mid - N)) mod (2 * N)) with (t - mid + N) by (rewrite Z.mod_small; lia). rewrite Q by lia. rewrite (V _ _ Clo) by lia. ring.
    + replace ((t - (mid - N)) mod (2 * N)) with (t - mid + N) by (rewrite Z.mod_small; lia). rewrite Q' by lia. rewrite (V _ _ Chi) by lia. ring.
  - rewrite Hnth by (try (apply Z.divide_sub_r; assumption); lia). destruct (Z.ltb_spec (t - N) mid).
    + replace ((t - (mid - N)) mod (2 * N)) with (t - mid + N) by (rewrite Z.mod_small; lia). rewrite Q' by lia.
      rewrite (V _ (- e)) by (try (rewrite Clo; reflexivity); lia). ring.
    + replace ((t - (mid - N)) mod (2 * N)) with (t - mid - N) by (apply (Z.mod_unique _ _ 1); lia). rewrite Q by lia.
      rewrite (V _ e) by (try (rewrite Chi; apply cong_of_eq; ring); lia). ring.
  - rewrite Hnth by (try exact Hst; lia). destruct (Z.ltb_spec t mid).
    + replace ((t - mid) mod (2 * N)) with (t - mid + 2 * N) by (apply (Z.mod_unique _ _ (-1)); lia). rewrite Q' by lia. rewrite (V _ _ Clo) by lia. ring.
    + replace ((t - mid) mod (2 * N)) with (t - mid) by (rewrite Z.mod_small; lia). rewrite Q by lia. rewrite (V _ _ Chi) by lia. ring.
  - rewrite Hnth by (try (apply Z.divide_sub_r; assumption); lia). destruct (Z.ltb_spec (t - N) mid).
    + replace ((t - mid) mod (2 * N)) with (t - mid) by (rewrite Z.mod_small; lia). rewrite Q by lia.
      rewrite (V _ e) by (try (rewrite Clo; apply cong_of_eq; ring); lia). ring.
    + replace ((t - mid) mod (2 * N)) with (t - mid) by (rewrite Z.mod_small; lia). rewrite Q' by lia.
      rewrite (V _ (- e)) by (try (rewrite Chi; reflexivity); lia). ring.
Qed.

Lemma tables_correct k j st : 2 <= k < 63 -> 3 <= j -> st = 2 ^ Z.max 0 (k + 1 - j) ->
  let N := 2 ^ k in
  (exists lut, init_nand_lut F N st = Some lut /\ half_circle_table p (Z.to_nat N) st (- (N / 4)) lut) /\
  (exists lut, init_and_majority_lut F N st = Some lut /\ half_circle_table p (Z.to_nat N) st (3 * (N / 4)) lut) /\
  (exists lut, init_or_lut F N st = Some lut /\ half_circle_table p (Z.to_nat N) st (N / 4) lut) /\
  (exists lut, init_nor_lut F N st = Some lut /\ half_circle_table p (Z.to_nat N) st (- (3 * (N / 4))) lut) /\
  (exists lut, init_xor_lut F N st = Some lut /\ half_circle_table p (Z.to_nat N) st (N / 2) lut) /\
  (exists lut, init_xnor_lut F N st = Some lut /\ half_circle_table p (Z.to_nat N) st (- (N / 2)) lut).
Proof.
  intros Hk Hj Es N. set (M := 2 ^ (k - 2)).
  assert (EN : N = 4 * M) by (unfold N, M; replace k with (2 + (k - 2)) at 1 by lia; rewrite Z.pow_add_r by lia; reflexivity).
  assert (HM : 0 < M) by (apply Z.pow_pos_nonneg; lia).
  assert (HB : N < 2 ^ 63) by (apply Z.pow_lt_mono_r; lia).
  assert (H4 : N / 4 = M) by (rewrite EN, Z.mul_comm, Z.div_mul; lia).
  assert (H2 : N / 2 = 2 * M) by (rewrite EN; replace (4 * M) with (2 * M * 2) by ring; rewrite Z.div_mul; lia).
  assert (Hs : 0 < st) by (subst st; apply Z.pow_pos_nonneg; lia).
  assert (Ds : (st | M)).
  { subst st. unfold M. exists (2 ^ (k - 2 - Z.max 0 (k + 1 - j))). rewrite <- Z.pow_add_r by lia. f_equal. lia. }
  assert (DN : (st | N)) by (rewrite EN; apply Z.divide_mul_r; exact Ds).
  destruct eighths_correct as (e & ne & EE & Ee & Cn & Re & Rn). pose proof Re as Re'. pose proof Rn as Rn'.
  assert (Ce : cong p e (p / 8)) by (rewrite Ee; reflexivity). rewrite Ee in Cn.
  assert (T : forall mid lo hi start start', 0 < mid < N -> (st | mid) -> 0 <= lo < p -> 0 <= hi < p ->
     mid = start -> mid - N = start' ->
     exists lut, two_part_lut N mid st lo hi = Some lut /\
       (cong p lo (p / 8) -> cong p hi (- (p / 8)) -> half_circle_table p (Z.to_nat N) st start' lut) /\
       (cong p lo (- (p / 8)) -> cong p hi (p / 8) -> half_circle_table p (Z.to_nat N) st start lut)).
  { intros mid lo hi start start' Hmid Dm Hlo Hhi E1 E2.
    destruct (two_part_correct N mid st lo hi p ltac:(lia) ltac:(lia) Hs Dm Hlo Hhi) as (lut & El & Ll & Cl & Hl).
    exists lut. split; [exact El|]. subst start start'. apply (table_correct N mid st lo hi lut); try assumption; lia. }
  rewrite H4, H2. unfold init_nand_lut, init_and_majority_lut, init_or_lut, init_nor_lut, init_xor_lut, init_xnor_lut,
    init_nand_and_majority_lut, init_or_nor_lut, init_xor_xnor_lut. rewrite EE, H4, H2. cbn [bind].
  rewrite uadd_some by lia. cbn [bind].
  assert (D2 : (st | 2 * M)) by (apply Z.divide_mul_r; exact Ds).
  assert (D3 : (st | 2 * M + M)) by (apply Z.divide_add_r; assumption).
  split; [|split; [|split; [|split; [|split]]]].
  - destruct (T (2 * M + M) e ne (3 * M) (- M)) as (lut & El & T1 & _); try assumption; try lia. exists lut. split; [exact El|]. apply T1; assumption.
  - destruct (T (2 * M + M) ne e (3 * M) (- M)) as (lut & El & _ & T2); try assumption; try lia. exists lut. split; [exact El|]. apply T2; assumption.
  - destruct (T M ne e M (- (3 * M))) as (lut & El & _ & T2); try assumption; try lia. exists lut. split; [exact El|]. apply T2; assumption.
  - destruct (T M e ne M (- (3 * M))) as (lut & El & T1 & _); try assumption; try lia. exists lut. split; [exact El|]. apply T1; assumption.
  - destruct (T (2 * M) ne e (2 * M) (- (2 * M))) as (lut & El & _ & T2); try assumption; try lia. exists lut. split; [exact El|]. apply T2; assumption.
  - destruct (T (2 * M) e ne (2 * M) (- (2 * M))) as (lut & El & T1 & _); try assumption; try lia. exists lut. split; [exact El|]. apply T1; assumption.
Qed.
End Lut.
