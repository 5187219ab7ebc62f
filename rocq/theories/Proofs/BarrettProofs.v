(** Barrett modulus: reciprocal, reductions, multiplication, exponentiation, dot product. *)
From Coq Require Import ZArith List Bool Lia.
From Verif Require Import Spec.Basic Model.Base Model.Reduce Model.Gcd Model.Barrett
  Proofs.Arith Proofs.ReduceProofs.
Import ListNotations.
Local Open Scope Z_scope.

(** A modulus as [barrett_new] builds it. *)
Definition barrett_ok (B : Z) (m : barrett) : Prop :=
  2 <= bval m < 2 ^ (B - 2) /\ 0 <= br0 m < 2 ^ B /\ 0 <= br1 m < 2 ^ B /\
  br0 m + br1 m * 2 ^ B = 2 ^ (2 * B) / bval m.

Lemma pow2_m2 B : 2 <= B -> 2 ^ B = 4 * 2 ^ (B - 2).
Proof.
  intros. replace B with (2 + (B - 2)) at 1 by ring. rewrite Z.pow_add_r by lia. reflexivity.
Qed.

(** Long division, two digits at a time. *)
Lemma long_div b v : 0 < b -> 0 < v ->
  (b * b) / v = (b / v) * b + ((b mod v) * b) / v.
Proof.
  intros Hb Hv.
  pose proof (Z.div_mod b v ltac:(lia)) as E.
  replace (b * b) with ((b / v * b) * v + (b mod v) * b) by (transitivity ((v * (b / v) + b mod v) * b); [ring|rewrite <- E; reflexivity]).
  rewrite Z.div_add_l by lia. reflexivity.
Qed.

Lemma long_div_gen r b v : 0 < v ->
  (r * (b * b)) / v = ((r * b) / v) * b + (((r * b) mod v) * b) / v /\
  (r * (b * b)) mod v = (((r * b) mod v) * b) mod v.
Proof.
  intros Hv.
  pose proof (Z.div_mod (r * b) v ltac:(lia)) as E.
  replace (r * (b * b)) with ((r * b / v * b) * v + ((r * b) mod v) * b)
    by (transitivity ((v * (r * b / v) + (r * b) mod v) * b); [ring|rewrite <- E; ring]).
  split.
  - rewrite Z.div_add_l by lia. reflexivity.
  - rewrite Z.add_comm, Z.mod_add by lia. reflexivity.
Qed.

Lemma div_half_correct h r v :
  2 <= h -> 0 < v < 2 ^ h -> 0 <= r < v ->
  div_half (2 * h) r v = Some ((r * 2 ^ (2 * h)) / v, (r * 2 ^ (2 * h)) mod v).
Proof.
  intros Hh Hv Hr. unfold div_half.
  replace (2 * h / 2) with h by (rewrite Z.mul_comm, Z.div_mul; lia).
  pose proof (pow2_pos h ltac:(lia)) as Hp. rewrite (pow2_double h) by lia.
  assert (Hsh : forall x, 0 <= x < 2 ^ h -> ushl (2 * h) x h = Some (x * 2 ^ h)).
  { intros x Hx. apply ushl_some; [lia|lia|]. rewrite pow2_double by lia. nia. }
  rewrite Hsh by lia. cbn [bind]. rewrite udiv_some, urem_some by lia. cbn [bind].
  pose proof (Z.mod_pos_bound (r * 2 ^ h) v ltac:(lia)) as Hm.
  rewrite Hsh by lia. cbn [bind]. rewrite udiv_some, urem_some by lia. cbn [bind].
  assert (Hq : 0 <= r * 2 ^ h / v < 2 ^ h).
  { split; [apply Z.div_pos; nia|]. apply Z.div_lt_upper_bound; nia. }
  assert (Hl : 0 <= (r * 2 ^ h) mod v * 2 ^ h / v < 2 ^ h).
  { split; [apply Z.div_pos; nia|]. apply Z.div_lt_upper_bound; nia. }
  rewrite Hsh by lia. cbn [bind].
  rewrite lor_add by lia. destruct (long_div_gen r (2 ^ h) v ltac:(lia)) as [E1 E2].
  rewrite E1, E2. reflexivity.
Qed.

Lemma div_wide_correct B r v :
  0 < B -> 0 < v <= 2 ^ B -> 0 <= r < v ->
  div_wide B r v = Some ((r * 2 ^ B) / v, (r * 2 ^ B) mod v).
Proof.
  intros HB Hv Hr. unfold div_wide. pose proof (pow2_pos B ltac:(lia)) as Hp.
  rewrite ushl_some; [|lia|lia|rewrite pow2_double by lia; nia].
  cbn [bind]. rewrite udiv_some, urem_some by lia. cbn [bind].
  unfold ucast. pose proof (Z.mod_pos_bound (r * 2 ^ B) v ltac:(lia)) as Hm.
  rewrite (Z.mod_small ((r * 2 ^ B) mod v)) by lia.
  rewrite Z.mod_small; [reflexivity|].
  split; [apply Z.div_pos; nia|]. apply Z.div_lt_upper_bound; nia.
Qed.

Lemma div_inplace_correct B v : wwidth B -> 2 <= v < 2 ^ B ->
  div_inplace B v = Some (((2 ^ B mod v) * 2 ^ B) / v, 2 ^ B / v).
Proof.
  intros (h & Hh & ->) Hv. unfold div_inplace.
  pose proof (pow2_pos h ltac:(lia)) as Hp.
  assert (Hhalf : (2 ^ (2 * h) - 1) / 2 ^ (2 * h / 2) = 2 ^ h - 1).
  { replace (2 * h / 2) with h by (rewrite Z.mul_comm, Z.div_mul; lia).
    rewrite pow2_double by lia.
    symmetry. apply Z.div_unique with (2 ^ h - 1); [lia|ring]. }
  rewrite Hhalf. destruct (Z.leb_spec v (2 ^ h - 1)).
  - rewrite div_half_correct by lia. cbn [bind]. rewrite Z.mul_1_l.
    rewrite div_half_correct; [|lia|lia|apply Z.mod_pos_bound; lia]. reflexivity.
  - rewrite div_wide_correct by lia. cbn [bind]. rewrite Z.mul_1_l.
    rewrite div_wide_correct; [|lia|lia|apply Z.mod_pos_bound; lia]. reflexivity.
Qed.

Theorem barrett_new_correct B v : wwidth B -> 2 <= v < 2 ^ (B - 2) ->
  exists m, barrett_new B v = Some m /\ bval m = v /\ barrett_ok B m.
Proof.
  intros HB Hv. assert (HB4 : 4 <= B) by (destruct HB as (h & ? & ?); lia).
  pose proof (pow2_m2 B ltac:(lia)) as HP.
  unfold barrett_new.
  destruct (Z.eqb_spec v 0); [lia|]. destruct (Z.eqb_spec v 1); [lia|]. cbn [orb].
  rewrite assert_true.
  2:{ apply Z.ltb_lt. assert (bit_len v <= B - 2) by (apply bit_len_lt; lia). lia. }
  cbn [bind]. rewrite div_inplace_correct by (try assumption; lia). cbn [bind].
  eexists. split; [reflexivity|]. cbn. split; [reflexivity|].
  pose proof (Z.mod_pos_bound (2 ^ B) v ltac:(lia)) as Hm.
  assert (0 <= (2 ^ B mod v) * 2 ^ B / v < 2 ^ B).
  { split; [apply Z.div_pos; nia|apply Z.div_lt_upper_bound; nia]. }
  assert (0 <= 2 ^ B / v < 2 ^ B).
  { split; [apply Z.div_pos; lia|apply Z.div_lt_upper_bound; nia]. }
  unfold barrett_ok. cbn [bval br0 br1]. split; [lia|]. split; [lia|]. split; [lia|].
  rewrite pow2_double by lia. rewrite long_div by lia. ring.
Qed.

Lemma barrett_new_inv B v m : wwidth B -> 0 <= v -> barrett_new B v = Some m ->
  2 <= v < 2 ^ (B - 2) /\ bval m = v /\ barrett_ok B m.
Proof.
  intros HB H0 H. assert (HB4 : 4 <= B) by (destruct HB as (h & ? & ?); lia).
  assert (Hr : 2 <= v < 2 ^ (B - 2)).
  { unfold barrett_new in H.
    destruct (Z.eqb_spec v 0); [discriminate|]. destruct (Z.eqb_spec v 1); [discriminate|].
    cbn [orb] in H. destruct (Z.ltb_spec (bit_len v) (B - 1)); [|discriminate].
    split; [lia|]. apply bit_len_lt; lia. }
  destruct (barrett_new_correct B v HB Hr) as (m' & E & Hv & Hok).
  rewrite E in H. injection H as <-. auto.
Qed.

Section Red.
  Variables (B : Z) (m : barrett).
  Hypothesis HB : wwidth B.
  Hypothesis Hok : barrett_ok B m.
  Let b := 2 ^ B.
  Let v := bval m.
  Let r := br0 m + br1 m * b.

  Lemma width4 : 4 <= B.
  Proof. destruct HB as (h & ? & ?); lia. Qed.

  Lemma v_range : 2 <= v /\ 4 * v < b.
  Proof.
    destruct Hok as (Hv & _). unfold v, b. pose proof width4.
    rewrite (pow2_m2 B) by lia. lia.
  Qed.

  Lemma ratio_spec : v * r <= b * b < v * r + v.
  Proof.
    destruct Hok as (Hv & _ & _ & E). unfold r, v, b. rewrite E.
    pose proof width4. rewrite pow2_double by lia.
    pose proof (Z.div_mod (2 ^ B * 2 ^ B) (bval m) ltac:(lia)) as D.
    pose proof (Z.mod_pos_bound (2 ^ B * 2 ^ B) (bval m) ltac:(lia)). lia.
  Qed.

  Lemma ratio_words_sum : br0 m + br1 m <= b - 1.
  Proof.
    destruct Hok as (_ & H0 & H1 & _). pose proof ratio_spec. pose proof v_range.
    unfold r in *.
    (* v*(r0 + r1 b) <= b^2 < v*(r0 + r1 b) + v *)
    assert (Hc : v * br1 m <= b) by nia.
    assert (Hc2 : b - v * br1 m <= v - 1) by nia.
    destruct (Z.leb_spec (br0 m + br1 m) (b - 1)); [assumption|exfalso].
    assert (v * (br0 m + br1 m) >= v * b) by nia.
    assert (v * br0 m <= (b - v * br1 m) * b) by nia. nia.
  Qed.

  Lemma quotient_range x q rho : 0 <= x < b * b -> x * r = q * (b * b) + rho ->
    0 <= rho < b * b -> 0 <= x - q * v < 2 * v.
  Proof.
    intros Hx E Hr. pose proof ratio_spec. pose proof v_range.
    assert (0 < b * b) by nia.
    split.
    - assert (q * v * (b * b) <= x * (b * b)); [|nia].
      replace (q * v * (b * b)) with (v * (q * (b * b))) by ring.
      replace (q * (b * b)) with (x * r - rho) by lia. nia.
    - assert ((x - q * v) * (b * b) < 2 * v * (b * b)); [|nia].
      replace ((x - q * v) * (b * b)) with (x * (b * b) - v * (q * (b * b))) by ring.
      replace (q * (b * b)) with (x * r - rho) by lia.
      replace (x * (b * b) - v * (x * r - rho)) with (x * (b * b - v * r) + v * rho) by ring.
      assert (x * (b * b - v * r) <= x * v) by (apply Z.mul_le_mono_nonneg_l; lia).
      assert (v * rho < v * (b * b)) by nia.
      assert (x * v < v * (b * b)) by nia. lia.
  Qed.

  Lemma lazy_reduce1_correct x : 0 <= x < b ->
    0 <= lazy_reduce1 B m x < 2 * v /\ cong v (lazy_reduce1 B m x) x.
  Proof.
    intros Hx. unfold lazy_reduce1, widening_mul_hw, carrying_mul_hw, wsub, wmul.
    fold b v. pose proof v_range as Hv.
    set (t := x * br0 m / b). set (q := (x * br1 m + t) / b).
    assert (E1 : x * br0 m = b * t + (x * br0 m) mod b) by (apply Z.div_mod; lia).
    assert (E2 : x * br1 m + t = b * q + (x * br1 m + t) mod b) by (apply Z.div_mod; lia).
    pose proof (Z.mod_pos_bound (x * br0 m) b ltac:(lia)) as R1.
    pose proof (Z.mod_pos_bound (x * br1 m + t) b ltac:(lia)) as R2.
    assert (Hq : 0 <= x - q * v < 2 * v).
    { apply quotient_range with ((x * br1 m + t) mod b * b + (x * br0 m) mod b).
      - nia.
      - unfold r. nia.
      - nia. }
    rewrite Zminus_mod_idemp_r. rewrite Z.mod_small by lia.
    split; [exact Hq|]. exists (- q). ring.
  Qed.

  Lemma reduce1_correct x : 0 <= x < b -> reduce1 B m x = Some (x mod v).
  Proof.
    intros Hx. destruct (lazy_reduce1_correct x Hx) as [Hr Hc].
    pose proof v_range. unfold reduce1, final_sub. fold v.
    destruct (Z.leb_spec v (lazy_reduce1 B m x)).
    - rewrite usub_some by lia. f_equal. apply cong_eq_mod; [lia|].
      eapply cong_trans; [|exact Hc]. exists (-1). ring.
    - f_equal. apply cong_eq_mod; [lia|exact Hc].
  Qed.

  Lemma lazy_reduce2_correct x0 x1 : 0 <= x0 < b -> 0 <= x1 < b ->
    exists y, lazy_reduce2 B m (x0, x1) = Some y /\ 0 <= y < 2 * v /\ cong v y (x0 + x1 * b).
  Proof.
    intros Hx0 Hx1. unfold lazy_reduce2, widening_mul_hw, carrying_mul, widening_mul.
    cbn [overflowing_add snd]. unfold wmul, wadd, wsub. fold b v.
    pose proof v_range as Hv. pose proof ratio_words_sum as Hsum.
    assert (Hr0 : 0 <= br0 m < b) by (destruct Hok as (_ & ? & _); assumption).
    assert (Hr1 : 0 <= br1 m < b) by (destruct Hok as (_ & _ & ? & _); assumption).
    set (r0 := br0 m) in *. set (r1 := br1 m) in *.
    set (ah := x0 * r0 / b).
    assert (Ea : x0 * r0 = b * ah + (x0 * r0) mod b) by (apply Z.div_mod; lia).
    pose proof (Z.mod_pos_bound (x0 * r0) b ltac:(lia)) as Ra.
    set (al := (x0 * r0) mod b) in *.
    set (b1 := (x0 * r1 + ah) / b).
    assert (Eb : x0 * r1 + ah = b * b1 + (x0 * r1 + ah) mod b) by (apply Z.div_mod; lia).
    pose proof (Z.mod_pos_bound (x0 * r1 + ah) b ltac:(lia)) as Rb.
    set (b0 := (x0 * r1 + ah) mod b) in *.
    set (c1 := x1 * r0 / b).
    assert (Ec : x1 * r0 = b * c1 + (x1 * r0) mod b) by (apply Z.div_mod; lia).
    pose proof (Z.mod_pos_bound (x1 * r0) b ltac:(lia)) as Rc.
    set (c0 := (x1 * r0) mod b) in *.
    assert (Hah : 0 <= ah).
    { unfold ah. apply Z.div_pos; nia. }
    assert (Hahr : ah <= r0) by nia.
    assert (Hb1 : 0 <= b1) by (unfold b1; apply Z.div_pos; nia).
    assert (Hc1 : 0 <= c1) by (unfold c1; apply Z.div_pos; nia).
    set (cy := b2z (b <=? b0 + c0)).
    assert (Hcy : 0 <= cy <= 1 /\ 0 <= b0 + c0 - cy * b < b).
    { unfold cy, b2z. destruct (Z.leb_spec b (b0 + c0)); lia. }
    assert (Htot : b * (b1 + c1 + cy) + (b0 + c0 - cy * b) = x0 * r1 + ah + x1 * r0) by lia.
    assert (Hub : x0 * r1 + ah + x1 * r0 <= b * (r0 + r1)).
    { assert (x0 * r1 <= b * r1) by (apply Z.mul_le_mono_nonneg_r; lia).
      assert (x1 * r0 <= (b - 1) * r0) by (apply Z.mul_le_mono_nonneg_r; lia). lia. }
    assert (Hbch : b1 + c1 + cy <= b - 1).
    { assert (b * (r0 + r1) <= b * (b - 1)) by (apply Z.mul_le_mono_nonneg_l; lia).
      apply Zmult_le_reg_r with b; lia. }
    rewrite uadd_some by (fold b; lia). cbn [bind].
    rewrite uadd_some by (fold b; lia). cbn [bind].
    eexists. split; [reflexivity|].
    set (q := x1 * r1 + (b1 + c1 + cy)).
    assert (Hq : 0 <= x0 + x1 * b - q * v < 2 * v).
    { apply quotient_range with ((b0 + c0 - cy * b) * b + al).
      - assert (0 <= x1 * b <= (b - 1) * b)
          by (split; [apply Z.mul_nonneg_nonneg; lia|apply Z.mul_le_mono_nonneg_r; lia]). lia.
      - unfold r. fold r0 r1. unfold q.
        replace ((x0 + x1 * b) * (r0 + r1 * b))
          with (x0 * r0 + (x0 * r1 + x1 * r0) * b + x1 * r1 * (b * b)) by ring.
        rewrite Ea.
        replace (x0 * r1 + x1 * r0) with (b * (b1 + c1 + cy) + (b0 + c0 - cy * b) - ah) by lia.
        ring.
      - set (z := b0 + c0 - cy * b) in *.
        assert (0 <= z * b <= (b - 1) * b)
          by (split; [apply Z.mul_nonneg_nonneg; lia|apply Z.mul_le_mono_nonneg_r; lia]). lia. }
    assert (E : (x0 - ((x1 * r1) mod b + (b1 + c1 + cy)) mod b * v mod b) mod b
                = x0 + x1 * b - q * v).
    { rewrite Zminus_mod_idemp_r. rewrite Zplus_mod_idemp_l. fold q.
      symmetry. apply cong_eq_mod; [lia|].
      apply cong_trans with (x0 - q * v).
      - exists x1. ring.
      - apply cong_sub; [reflexivity|]. apply cong_mul; [|reflexivity].
        symmetry. apply cong_mod. lia. }
    rewrite E. split; [exact Hq|]. exists (- q). ring.
  Qed.

  Lemma reduce2_correct x0 x1 : 0 <= x0 < b -> 0 <= x1 < b ->
    reduce2 B m (x0, x1) = Some ((x0 + x1 * b) mod v).
  Proof.
    intros H0 H1. destruct (lazy_reduce2_correct x0 x1 H0 H1) as (y & E & Hr & Hc).
    pose proof v_range. unfold reduce2. rewrite E. cbn [bind]. unfold final_sub. fold v.
    destruct (Z.leb_spec v y).
    - rewrite usub_some by lia. f_equal. apply cong_eq_mod; [lia|].
      eapply cong_trans; [|exact Hc]. exists (-1). ring.
    - f_equal. apply cong_eq_mod; [lia|exact Hc].
  Qed.

  Lemma rfold_spec (f : Z -> Z -> option Z) l :
    (forall acc x, 0 <= acc < b -> 0 <= x < b ->
       exists y, f acc x = Some y /\ 0 <= y < 2 * v /\ cong v y (x + b * acc)) ->
    Forall (fun x => 0 <= x < b) l -> l <> [] ->
    exists y, rfold_last f l = Some y /\ 0 <= y < b /\ cong v y (words_value B l) /\
      ((2 <= length l)%nat -> 0 <= y < 2 * v).
  Proof.
    intros Hf. pose proof v_range as Hv. induction l as [|x l IH]; intros Hall Hne; [congruence|].
    inversion Hall; subst. destruct l as [|x' l'].
    - exists x. cbn. repeat split; try lia. apply cong_of_eq; ring.
    - destruct IH as (y & E & Hy & Hc & _); [assumption|congruence|].
      change (rfold_last f (x :: x' :: l')) with
        (let* acc := rfold_last f (x' :: l') in f acc x).
      rewrite E. cbn [bind].
      destruct (Hf y x Hy) as (z & Ez & Hz & Hcz); [assumption|].
      exists z. split; [exact Ez|]. split; [lia|]. split; [|intros; exact Hz].
      change (words_value B (x :: x' :: l')) with (x + b * words_value B (x' :: l')).
      rewrite Hcz, Hc. reflexivity.
  Qed.

  Lemma reduce_slice_correct l : Forall (fun x => 0 <= x < b) l -> l <> [] ->
    reduce_slice B m l = Some (words_value B l mod v).
  Proof.
    intros Hall Hne. pose proof v_range as Hv.
    destruct l as [|x [|x' l']]; [congruence| |].
    - cbn [lazy_reduce_slice reduce_slice words_value]. inversion Hall; subst. fold v. destruct (Z.ltb_spec x v).
      + rewrite Z.mul_0_r, Z.add_0_r, Z.mod_small by lia. reflexivity.
      + rewrite reduce1_correct by assumption. f_equal. f_equal. ring.
    - unfold reduce_slice.
      inversion Hall as [|? ? Hx Hrest]; subst.
      destruct (rfold_spec (fun acc x0 => reduce2 B m (x0, acc)) (x' :: l')) as (y & E & Hy & Hc & _).
      + intros acc z Ha Hz. rewrite reduce2_correct by assumption.
        eexists. split; [reflexivity|].
        pose proof (Z.mod_pos_bound (z + acc * b) v ltac:(lia)).
        split; [lia|]. rewrite cong_mod by lia. apply cong_of_eq; ring.
      + assumption.
      + congruence.
      + change (rfold_last (fun acc x0 => reduce2 B m (x0, acc)) (x :: x' :: l'))
          with (let* acc := rfold_last (fun acc x0 => reduce2 B m (x0, acc)) (x' :: l') in
                reduce2 B m (x, acc)).
        rewrite E. cbn [bind]. rewrite reduce2_correct by assumption. f_equal.
        apply cong_iff; [lia|].
        change (words_value B (x :: x' :: l')) with (x + b * words_value B (x' :: l')).
        rewrite Hc. apply cong_of_eq; ring.
  Qed.

  Lemma lazy_reduce_slice_correct l : Forall (fun x => 0 <= x < b) l -> l <> [] ->
    exists y, lazy_reduce_slice B m l = Some y /\ 0 <= y < 2 * v /\ cong v y (words_value B l).
  Proof.
    intros Hall Hne. pose proof v_range as Hv.
    destruct l as [|x [|x' l']]; [congruence| |].
    - cbn [lazy_reduce_slice reduce_slice words_value]. inversion Hall; subst. fold v. destruct (Z.ltb_spec x v).
      + exists x. split; [reflexivity|]. split; [lia|]. apply cong_of_eq; ring.
      + eexists. split; [reflexivity|].
        destruct (lazy_reduce1_correct x) as [Hr Hc]; [assumption|].
        split; [exact Hr|]. rewrite Hc. apply cong_of_eq; ring.
    - unfold lazy_reduce_slice.
      destruct (rfold_spec (fun acc x0 => lazy_reduce2 B m (x0, acc)) (x :: x' :: l'))
        as (y & E & Hy & Hc & Hl).
      + intros acc z Ha Hz. destruct (lazy_reduce2_correct z acc Hz Ha) as (y & E & Hy & Hc).
        exists y. split; [exact E|]. split; [exact Hy|]. rewrite Hc. apply cong_of_eq; ring.
      + assumption.
      + congruence.
      + exists y. split; [exact E|]. split; [apply Hl; cbn; lia|exact Hc].
  Qed.

  Lemma widening_mul_correct x y : 0 <= x < b -> 0 <= y < b ->
    let '(lo, hi) := widening_mul B x y in
    0 <= lo < b /\ 0 <= hi < b /\ lo + hi * b = x * y.
  Proof.
    intros Hx Hy. unfold widening_mul. fold b. pose proof v_range as Hv.
    pose proof (Z.mod_pos_bound (x * y) b ltac:(lia)).
    pose proof (Z.div_mod (x * y) b ltac:(lia)).
    split; [lia|]. split; [|lia].
    split; [apply Z.div_pos; nia|apply Z.div_lt_upper_bound; nia].
  Qed.

  Lemma carrying_mul_correct x y c : 0 <= x < b -> 0 <= y < b -> 0 <= c < b ->
    let '(lo, hi) := carrying_mul B x y c in
    0 <= lo < b /\ 0 <= hi < b /\ lo + hi * b = x * y + c.
  Proof.
    intros Hx Hy Hc. unfold carrying_mul. fold b. pose proof v_range as Hv.
    pose proof (Z.mod_pos_bound (x * y + c) b ltac:(lia)).
    pose proof (Z.div_mod (x * y + c) b ltac:(lia)).
    split; [lia|]. split; [|lia].
    split; [apply Z.div_pos; nia|apply Z.div_lt_upper_bound; nia].
  Qed.

  Lemma bmul_correct x y : 0 <= x < b -> 0 <= y < b -> bmul B m x y = Some ((x * y) mod v).
  Proof.
    intros Hx Hy. unfold bmul. pose proof (widening_mul_correct x y Hx Hy) as H.
    destruct (widening_mul B x y) as [lo hi]. destruct H as (Hl & Hh & E).
    rewrite reduce2_correct by assumption. rewrite E. reflexivity.
  Qed.

  Lemma lazy_bmul_correct x y : 0 <= x < b -> 0 <= y < b ->
    exists z, lazy_bmul B m x y = Some z /\ 0 <= z < 2 * v /\ cong v z (x * y).
  Proof.
    intros Hx Hy. unfold lazy_bmul. pose proof (widening_mul_correct x y Hx Hy) as H.
    destruct (widening_mul B x y) as [lo hi]. destruct H as (Hl & Hh & E).
    rewrite <- E. apply lazy_reduce2_correct; assumption.
  Qed.

  Lemma badd_correct x y : 0 <= x < v -> 0 <= y < v -> badd B m x y = Some ((x + y) mod v).
  Proof.
    intros Hx Hy. pose proof v_range. apply add_reduce_correct; fold v b; lia.
  Qed.
  Lemma bsub_correct x y : 0 <= x < v -> 0 <= y < v -> bsub B m x y = Some ((x - y) mod v).
  Proof.
    intros Hx Hy. pose proof v_range. apply sub_reduce_correct; fold v b; lia.
  Qed.
  Lemma bneg_correct x : 0 <= x < v -> bneg m x = Some ((- x) mod v).
  Proof. intros Hx. apply neg_reduce_correct. exact Hx. Qed.

  Lemma bexp_correct EB a e : 0 <= EB -> 0 <= a < v -> 0 <= e -> bexp B EB m a e = Some (a ^ e mod v).
  Proof.
    intros HEB Ha He. pose proof v_range as Hv. unfold bexp.
    destruct (Z.eq_dec e 0) as [->|].
    - unfold exp_generic. cbn [Z.eqb]. rewrite Z.pow_0_r, Z.mod_small by lia. reflexivity.
    - destruct (exp_generic_correct v (bmul B m) (fun x => 0 <= x < v) (fun x => x))
        with (EB := EB) (one := 1) (b := a <? v) (a := a) (e := e) as (r' & E & Hr & Hc).
      + intros x y Hx Hy. rewrite bmul_correct by lia. eexists. split; [reflexivity|].
        split; [apply Z.mod_pos_bound; lia|]. apply cong_mod; lia.
      + lia.
      + lia.
      + exact Ha.
      + apply Z.ltb_lt; lia.
      + fold v. rewrite E. f_equal. apply cong_eq_mod; assumption.
  Qed.

  Lemma bexp_pow2_correct a k : 0 <= a < v -> 0 <= k ->
    bexp_pow2 B m a k = Some (a ^ (2 ^ k) mod v).
  Proof.
    intros Ha Hk. pose proof v_range as Hv. unfold bexp_pow2.
    destruct (exp_pow2_generic_correct v (bmul B m) (fun x => 0 <= x < v) (fun x => x))
      with (a := a) (k := k) as (r' & E & Hr & Hc).
    + intros x y Hx Hy. rewrite bmul_correct by lia. eexists. split; [reflexivity|].
      split; [apply Z.mod_pos_bound; lia|]. apply cong_mod; lia.
    + lia.
    + exact Ha.
    + rewrite E. f_equal. apply cong_eq_mod; assumption.
  Qed.

  Lemma multiply_add_correct c0 c1 x y :
    0 <= c0 < b -> 0 <= c1 < b -> 0 <= x < b -> 0 <= y < b ->
    c0 + c1 * b + x * y < b * b ->
    let '(d0, d1) := multiply_add B (c0, c1) x y in
    0 <= d0 < b /\ 0 <= d1 < b /\ d0 + d1 * b = c0 + c1 * b + x * y.
  Proof.
    intros H0 H1 Hx Hy Hlt. unfold multiply_add.
    pose proof (widening_mul_correct x y Hx Hy) as H.
    destruct (widening_mul B x y) as [lo hi]. destruct H as (Hl & Hh & E).
    cbn [fst snd]. unfold overflowing_add, carrying_add, overflowing_add, wadd. fold b.
    pose proof v_range as Hv.
    set (cy := b2z (b <=? c0 + lo)).
    assert (Hcy : 0 <= cy <= 1 /\ (c0 + lo) mod b = c0 + lo - cy * b).
    { unfold cy, b2z. destruct (Z.leb_spec b (c0 + lo)); split; try lia.
      - symmetry. apply cong_eq_mod; [lia|]. exists (-1); ring.
      - rewrite Z.mod_small; lia. }
    pose proof (Z.mod_pos_bound (c0 + lo) b ltac:(lia)) as Hm0.
    assert (Hs : c1 + hi + cy < b) by nia.
    rewrite Zplus_mod_idemp_l. rewrite (Z.mod_small (c1 + hi + cy)) by lia.
    destruct Hcy as [Hcy0 Hcy1]. split; [lia|]. split; [lia|]. rewrite Hcy1. lia.
  Qed.

  Lemma dot_fold_correct : forall l c0 c1,
    0 <= c0 < b -> 0 <= c1 < b ->
    Forall (fun xy => 0 <= fst xy < v /\ 0 <= snd xy < v) l ->
    c0 + c1 * b + Z.of_nat (length l) * (v * v) < b * b ->
    let '(d0, d1) := fold_left (fun c ab => multiply_add B c (fst ab) (snd ab)) l (c0, c1) in
    0 <= d0 < b /\ 0 <= d1 < b /\
    d0 + d1 * b = c0 + c1 * b + fold_right (fun xy s => fst xy * snd xy + s) 0 l.
  Proof.
    pose proof v_range as Hv.
    induction l as [|[x y] l IH]; intros c0 c1 H0 H1 Hall Hlt.
    - cbn. repeat split; lia.
    - cbn [fold_left fst snd fold_right].
      inversion Hall as [|? ? Hxy Hrest]; subst. cbn [fst snd] in *. destruct Hxy as [Hx Hy].
      cbn [length] in Hlt. rewrite Nat2Z.inj_succ in Hlt.
      assert (x * y <= v * v) by nia.
      pose proof (multiply_add_correct c0 c1 x y H0 H1 ltac:(lia) ltac:(lia)) as HM.
      assert (0 <= Z.of_nat (length l) * (v * v)) by nia.
      specialize (HM ltac:(nia)).
      destruct (multiply_add B (c0, c1) x y) as [d0 d1]. destruct HM as (Hd0 & Hd1 & E).
      specialize (IH d0 d1 Hd0 Hd1 Hrest ltac:(nia)).
      destruct (fold_left _ l (d0, d1)) as [e0 e1]. destruct IH as (He0 & He1 & E').
      repeat split; try lia.
  Qed.

  Lemma fold_combine_dotz : forall x y,
    fold_right (fun xy s => fst xy * snd xy + s) 0 (combine x y) = dotz x y.
  Proof. induction x as [|a x IH]; intros [|c y]; cbn; try reflexivity. rewrite IH. reflexivity. Qed.

  Lemma combine_forall : forall x y,
    Forall (fun a => 0 <= a < v) x -> Forall (fun a => 0 <= a < v) y ->
    Forall (fun xy => 0 <= fst xy < v /\ 0 <= snd xy < v) (combine x y).
  Proof.
    induction x as [|a x IH]; intros [|c y] Hx Hy; cbn; constructor; inv Hx; inv Hy; auto.
  Qed.

  Lemma dot_chunk_correct x y :
    length x = 16%nat -> length y = 16%nat ->
    Forall (fun a => 0 <= a < v) x -> Forall (fun a => 0 <= a < v) y ->
    dot_chunk B m x y = Some (dotz x y mod v).
  Proof.
    intros Lx Ly Hx Hy. unfold dot_chunk. pose proof v_range as Hv.
    pose proof (dot_fold_correct (combine x y) 0 0 ltac:(lia) ltac:(lia) (combine_forall x y Hx Hy)) as H.
    rewrite combine_length, Lx, Ly in H. cbn [Nat.min] in H.
    change (Z.of_nat 16) with 16 in H.
    assert (0 + 0 * b + 16 * (v * v) < b * b) by nia.
    specialize (H H0).
    destruct (fold_left _ (combine x y) (0, 0)) as [d0 d1]. destruct H as (Hd0 & Hd1 & E).
    rewrite reduce2_correct by assumption. rewrite E, fold_combine_dotz. reflexivity.
  Qed.

  Lemma dotz_split n : forall x y,
    dotz x y = dotz (firstn n x) (firstn n y) + dotz (skipn n x) (skipn n y).
  Proof.
    induction n as [|n IH]; intros x y; [reflexivity|].
    destruct x as [|a x]; destruct y as [|c y]; cbn; try reflexivity.
    - destruct (skipn n x); reflexivity.
    - rewrite (IH x y). ring.
  Qed.

  Lemma dot_chunks_correct n : forall x y acc,
    length x = (16 * n)%nat -> length y = (16 * n)%nat ->
    Forall (fun a => 0 <= a < v) x -> Forall (fun a => 0 <= a < v) y -> 0 <= acc < v ->
    dot_chunks B m n x y acc = Some ((acc + dotz x y) mod v).
  Proof.
    pose proof v_range as Hv.
    induction n as [|n IH]; intros x y acc Lx Ly Hx Hy Ha.
    - destruct x; [|discriminate]. cbn. rewrite Z.add_0_r, Z.mod_small by lia. reflexivity.
    - cbn [dot_chunks].
      assert (Fx : Forall (fun a => 0 <= a < v) (firstn 16 x) /\ Forall (fun a => 0 <= a < v) (skipn 16 x)).
      { rewrite <- (firstn_skipn 16 x) in Hx. apply Forall_app in Hx. exact Hx. }
      assert (Fy : Forall (fun a => 0 <= a < v) (firstn 16 y) /\ Forall (fun a => 0 <= a < v) (skipn 16 y)).
      { rewrite <- (firstn_skipn 16 y) in Hy. apply Forall_app in Hy. exact Hy. }
      rewrite dot_chunk_correct; try tauto.
      2:{ rewrite firstn_length. lia. } 2:{ rewrite firstn_length. lia. }
      cbn [bind]. rewrite badd_correct; [|assumption|apply Z.mod_pos_bound; lia].
      cbn [bind]. rewrite IH; try tauto.
      + f_equal. rewrite (dotz_split 16 x y).
        apply cong_iff; [lia|].
        rewrite (cong_mod v (acc + _)) by lia. rewrite (cong_mod v (dotz _ _)) by lia.
        apply cong_of_eq; ring.
      + rewrite skipn_length. lia.
      + rewrite skipn_length. lia.
      + apply Z.mod_pos_bound; lia.
  Qed.

  Lemma bdot_correct x y :
    length x = length y -> (length x mod 16 = 0)%nat ->
    Forall (fun a => 0 <= a < v) x -> Forall (fun a => 0 <= a < v) y ->
    bdot B m x y = Some (dotz x y mod v).
  Proof.
    intros L Hm Hx Hy. unfold bdot. pose proof v_range as Hv.
    rewrite assert_true by (apply Nat.eqb_eq; exact L). cbn [bind].
    rewrite <- L, Nat.min_id.
    assert (E : length x = (16 * (length x / 16))%nat).
    { pose proof (Nat.div_mod (length x) 16 ltac:(lia)). lia. }
    rewrite dot_chunks_correct; try assumption; try lia.
    f_equal.
  Qed.

  (** The general behaviour: only the whole chunks contribute. *)
  Lemma dot_chunks_firstn n : forall x y acc,
    (16 * n <= length x)%nat -> (16 * n <= length y)%nat ->
    dot_chunks B m n x y acc = dot_chunks B m n (firstn (16 * n) x) (firstn (16 * n) y) acc.
  Proof.
    induction n as [|n IH]; intros x y acc Lx Ly; [reflexivity|].
    cbn [dot_chunks]. rewrite !firstn_firstn.
    replace (Nat.min 16 (16 * S n)) with 16%nat by lia.
    destruct (dot_chunk _ _ _ _); [|reflexivity]. cbn [bind].
    destruct (badd _ _ _ _); [|reflexivity]. cbn [bind].
    rewrite !skipn_firstn_comm.
    replace (16 * S n - 16)%nat with (16 * n)%nat by lia.
    rewrite IH by (rewrite skipn_length; lia). reflexivity.
  Qed.

  Lemma Forall_firstn {A} (P : A -> Prop) n l : Forall P l -> Forall P (firstn n l).
  Proof.
    intros H. rewrite <- (firstn_skipn n l) in H. apply Forall_app in H. tauto.
  Qed.

  Lemma bdot_general x y :
    length x = length y ->
    Forall (fun a => 0 <= a < v) x -> Forall (fun a => 0 <= a < v) y ->
    let k := (16 * (length x / 16))%nat in
    bdot B m x y = Some (dotz (firstn k x) (firstn k y) mod v).
  Proof.
    intros L Hx Hy k. unfold bdot. pose proof v_range as Hv.
    rewrite assert_true by (apply Nat.eqb_eq; exact L). cbn [bind].
    rewrite <- L, Nat.min_id.
    pose proof (Nat.div_mod (length x) 16 ltac:(lia)) as E.
    rewrite dot_chunks_firstn by lia. fold k.
    rewrite dot_chunks_correct; try (rewrite firstn_length; lia); try (apply Forall_firstn; assumption); try lia.
    f_equal.
  Qed.
End Red.

Lemma barrett_new_full B v : wwidth B -> 0 <= v < 2 ^ B ->
  (2 <= v < 2 ^ (B - 2) ->
     exists m, barrett_new B v = Some m /\ bval m = v /\
       0 <= br0 m < 2 ^ B /\ 0 <= br1 m < 2 ^ B /\
       br0 m + br1 m * 2 ^ B = 2 ^ (2 * B) / v) /\
  (~ 2 <= v < 2 ^ (B - 2) -> barrett_new B v = None).
Proof.
  intros HB Hv. split; intros H.
  - destruct (barrett_new_correct B v HB H) as (m & E & Hm & H1 & H2 & H3 & H4).
    exists m. subst v. auto 10.
  - destruct (barrett_new B v) as [m|] eqn:E; [exfalso|reflexivity].
    apply barrett_new_inv in E; [tauto|assumption|lia].
Qed.

Lemma bit_count_correct B v m : wwidth B -> 0 <= v < 2 ^ B -> barrett_new B v = Some m -> 2 ^ (bit_count m - 1) <= v < 2 ^ bit_count m.
Proof.
  intros HB Hv E. destruct (barrett_new_full B v HB Hv) as (H1 & H2). destruct (Z_le_gt_dec 2 v) as [L|L].
  - destruct (Z_lt_le_dec v (2 ^ (B - 2))) as [L'|L'].
    + destruct (H1 (conj L L')) as (m' & E' & Ev & _). assert (m' = m) by congruence. subst m'. unfold bit_count. rewrite Ev.
      unfold bit_len. destruct (Z.eqb_spec v 0); [lia|]. pose proof (Z.log2_spec v ltac:(lia)) as (A & D).
      replace (Z.log2 v + 1 - 1) with (Z.log2 v) by ring. rewrite Z.add_1_r. split; assumption.
    + rewrite H2 in E by lia. discriminate.
  - rewrite H2 in E by lia. discriminate.
Qed.
