(** Correctly rounded multiplication, division and conversion, from the standard library's
    executable [SpecFloat]. *)
From Coq Require Import ZArith List Bool Lia SpecFloat.
From Verif Require Import Model.ModSwitch.
Local Open Scope Z_scope.

(** [l] describes the position of [k/n] in [0,1). *)
Definition loc_ok (n k : Z) (l : location) : Prop :=
  0 <= k < n /\ l = (if k =? 0 then loc_Exact else loc_Inexact (2 * k ?= n)).

Lemma new_location_ok (n k : Z) : 0 <= k < n -> loc_ok n k (new_location n k).
Proof.
  intros H. split; [exact H|]. assert (EZ : Zeq_bool k 0 = (k =? 0)) by (unfold Zeq_bool; rewrite Z.eqb_compare; reflexivity).
  unfold new_location. destruct (Z.even n) eqn:E; [unfold new_location_even|unfold new_location_odd]; rewrite EZ; destruct (k =? 0); try reflexivity.
  f_equal. assert (Ho : Z.odd n = true) by (rewrite <- Z.negb_even, E; reflexivity).
  apply Z.odd_spec in Ho. destruct Ho as (h & ->).
  destruct (Z.compare_spec (2 * k + 1) (2 * h + 1)); destruct (Z.compare_spec (2 * k) (2 * h + 1)); try reflexivity; lia.
Qed.

Lemma shr_1_ok (n k : Z) (M : shr_record) : 0 <= shr_m M -> loc_ok n k (loc_of_shr_record M) ->
  shr_m (shr_1 M) = shr_m M / 2 /\ loc_ok (2 * n) (shr_m M mod 2 * n + k) (loc_of_shr_record (shr_1 M)).
Proof.
  intros Hm (Hk & HL).
  assert (Em : shr_m (shr_1 M) = shr_m M / 2 /\ loc_of_shr_record (shr_1 M) =
    (if (shr_m M mod 2 =? 0) then (if orb (shr_r M) (shr_s M) then loc_Inexact Lt else loc_Exact) else (if orb (shr_r M) (shr_s M) then loc_Inexact Gt else loc_Inexact Eq))).
  { destruct M as [m r s]. cbn [shr_m shr_r shr_s] in *. destruct m as [|[m|m|]|m]; try lia; cbn [shr_1].
    - destruct r, s; split; reflexivity.
    - replace (Z.pos m~1) with (1 + Z.pos m * 2) by lia. rewrite Z.div_add, Z.mod_add by lia. destruct r, s; split; reflexivity.
    - replace (Z.pos m~0) with (0 + Z.pos m * 2) by lia. rewrite Z.div_add, Z.mod_add by lia. destruct r, s; split; reflexivity.
    - destruct r, s; split; reflexivity. }
  destruct Em as (Em & El). split; [exact Em|]. pose proof (Z.mod_pos_bound (shr_m M) 2 ltac:(lia)) as B.
  assert (O : orb (shr_r M) (shr_s M) = negb (k =? 0)).
  { destruct M as [m r s]. cbn in *. destruct r, s, (k =? 0); try reflexivity; discriminate HL. }
  rewrite O in El. split; [nia|]. rewrite El. destruct (Z.eqb_spec k 0) as [->|K]; cbn [negb];
    destruct (Z.eqb_spec (shr_m M mod 2) 0) as [E|E].
  - rewrite E. reflexivity.
  - replace (shr_m M mod 2) with 1 by lia. rewrite Z.mul_1_l, Z.add_0_r. replace (n =? 0) with false by lia. rewrite Z.compare_refl. reflexivity.
  - rewrite E. rewrite Z.mul_0_l, Z.add_0_l. replace (k =? 0) with false by lia. f_equal. symmetry. apply Z.compare_lt_iff. lia.
  - replace (shr_m M mod 2) with 1 by lia. rewrite Z.mul_1_l. replace (n + k =? 0) with false by lia. f_equal. symmetry. apply Z.compare_gt_iff. lia.
Qed.

Lemma iter_plus {A} (f : A -> A) (a b : nat) (x : A) : Nat.iter (a + b) f x = Nat.iter a f (Nat.iter b f x).
Proof. induction a as [|a IH]; [reflexivity|]. cbn [Nat.add Nat.iter nat_rect]. f_equal. exact IH. Qed.
Lemma iter_pos_nat {A} (f : A -> A) (n : positive) (x : A) : iter_pos f n x = Nat.iter (Pos.to_nat n) f x.
Proof.
  revert x. induction n as [n IH|n IH|]; intros x; cbn [iter_pos].
  - rewrite !IH. replace (Pos.to_nat n~1) with (Pos.to_nat n + (Pos.to_nat n + 1))%nat by lia. rewrite !iter_plus. reflexivity.
  - rewrite !IH. replace (Pos.to_nat n~0) with (Pos.to_nat n + Pos.to_nat n)%nat by lia. rewrite iter_plus. reflexivity.
  - reflexivity.
Qed.

Lemma shr_nat (n k : Z) (M : shr_record) (j : nat) : 0 <= shr_m M -> loc_ok n k (loc_of_shr_record M) ->
  shr_m (Nat.iter j shr_1 M) = shr_m M / 2 ^ Z.of_nat j /\
  loc_ok (2 ^ Z.of_nat j * n) (shr_m M mod 2 ^ Z.of_nat j * n + k) (loc_of_shr_record (Nat.iter j shr_1 M)).
Proof.
  intros Hm HL. induction j as [|j (I1 & I2)].
  - cbn [Nat.iter nat_rect]. change (2 ^ Z.of_nat 0) with 1. rewrite Z.div_1_r, Z.mod_1_r, Z.mul_0_l, Z.mul_1_l, Z.add_0_l. split; [reflexivity|exact HL].
  - cbn [Nat.iter nat_rect]. fold (Nat.iter j shr_1 M). rewrite Nat2Z.inj_succ, Z.pow_succ_r by lia.
    pose proof (Z.pow_pos_nonneg 2 (Z.of_nat j) ltac:(lia) ltac:(lia)) as P. set (t := 2 ^ Z.of_nat j) in *.
    assert (N0 : 0 <= shr_m (Nat.iter j shr_1 M)) by (rewrite I1; apply Z.div_pos; lia).
    destruct (shr_1_ok _ _ _ N0 I2) as (J1 & J2). split.
    + rewrite J1, I1, (Z.mul_comm 2 t), Z.div_div by lia. reflexivity.
    + rewrite I1 in J2. rewrite (Z.mul_comm 2 t) at 2. rewrite Z.rem_mul_r by lia.
      replace (2 * t * n) with (2 * (t * n)) by ring.
      replace ((shr_m M mod t + t * ((shr_m M / t) mod 2)) * n + k) with ((shr_m M / t) mod 2 * (t * n) + (shr_m M mod t * n + k)) by ring.
      exact J2.
Qed.

Lemma shr_ok (n k m e j : Z) (l : location) : 0 <= m -> 0 <= j -> loc_ok n k l ->
  exists M, shr (shr_record_of_loc m l) e j = (M, e + j) /\ shr_m M = m / 2 ^ j /\ loc_ok (2 ^ j * n) (m mod 2 ^ j * n + k) (loc_of_shr_record M).
Proof.
  intros Hm Hj HL. set (M0 := shr_record_of_loc m l).
  assert (HM : shr_m M0 = m /\ loc_of_shr_record M0 = l) by (unfold M0; destruct l as [|[]]; split; reflexivity). destruct HM as (HM & HL0).
  rewrite <- HL0 in HL.
  destruct j as [|j|j]; [|..|lia].
  - exists M0. cbn [shr]. rewrite Z.add_0_r, HM. change (2 ^ 0) with 1. rewrite Z.div_1_r, Z.mod_1_r, Z.mul_0_l, Z.mul_1_l, Z.add_0_l. auto.
  - destruct (shr_nat n k M0 (Pos.to_nat j) ltac:(lia) HL) as (A & B0). exists (Nat.iter (Pos.to_nat j) shr_1 M0). cbn [shr].
    rewrite iter_pos_nat. rewrite HM, positive_nat_Z in *. auto.
Qed.

Lemma digits2_log2 (m : positive) : Zpos (digits2_pos m) = Z.log2 (Zpos m) + 1.
Proof.
  induction m as [m IH|m IH|]; cbn [digits2_pos].
  - rewrite Pos2Z.inj_succ, IH. replace (Z.pos m~1) with (2 * Z.pos m + 1) by lia. rewrite Z.log2_succ_double by lia. lia.
  - rewrite Pos2Z.inj_succ, IH. replace (Z.pos m~0) with (2 * Z.pos m) by lia. rewrite Z.log2_double by lia. lia.
  - reflexivity.
Qed.
Lemma Zdigits2_pos (m : Z) : 0 < m -> Zdigits2 m = Z.log2 m + 1.
Proof. intros H. destruct m as [|m|m]; try lia. apply digits2_log2. Qed.
Lemma Zdigits2_eq (m d : Z) : 0 < d -> 2 ^ (d - 1) <= m < 2 ^ d -> Zdigits2 m = d.
Proof.
  intros Hd Hm. pose proof (Z.pow_pos_nonneg 2 (d - 1) ltac:(lia) ltac:(lia)). rewrite Zdigits2_pos by lia.
  rewrite (Z.log2_unique m (d - 1)); [lia|lia|]. replace (Z.succ (d - 1)) with d by lia. exact Hm.
Qed.

Lemma rne_ok (n k m : Z) (l : location) : loc_ok n k l ->
  2 * Z.abs (round_nearest_even m l * n - (m * n + k)) <= n /\ m <= round_nearest_even m l <= m + 1.
Proof.
  intros (Hk & ->). unfold round_nearest_even. destruct (Z.eqb_spec k 0) as [->|K]; [split; lia|].
  destruct (Z.compare_spec (2 * k) n) as [E|E|E]; [destruct (Z.even m)|..]; split; lia.
Qed.

(** The rounding of [(m + k/n) * 2^e], for a mantissa of at least 53 bits and exponents away from the
    ends of the range: a 53-bit mantissa, off by at most half a unit in the last place [2^(e+j)]. *)
Lemma round_aux_ok (n k m e d : Z) (l : location) : 0 < n -> loc_ok n k l -> 53 <= d -> 2 ^ (d - 1) <= m < 2 ^ d ->
  -1000 <= e -> e + d <= 1000 ->
  exists mr er R, binary_round_aux 53 1024 false m e l = S754_finite false mr er /\
    2 ^ 52 <= Zpos mr < 2 ^ 53 /\ 2 ^ 52 <= R <= 2 ^ 53 /\ e + (d - 53) <= er <= e + (d - 53) + 1 /\
    Zpos mr * 2 ^ (er - (e + (d - 53))) = R /\
    2 * Z.abs (R * (2 ^ (d - 53) * n) - (m * n + k)) <= 2 ^ (d - 53) * n.
Proof.
  intros Hn HL Hd Hm He1 He2.
  pose proof (Z.pow_pos_nonneg 2 (d - 1) ltac:(lia) ltac:(lia)) as P1.
  pose proof (Z.pow_pos_nonneg 2 (d - 53) ltac:(lia) ltac:(lia)) as P2.
  assert (S1 : 2 ^ (d - 1) = 2 ^ (d - 53) * 2 ^ 52) by (rewrite <- Z.pow_add_r by lia; f_equal; lia).
  assert (S2 : 2 ^ d = 2 ^ (d - 53) * 2 ^ 53) by (rewrite <- Z.pow_add_r by lia; f_equal; lia).
  unfold binary_round_aux. unfold shr_fexp at 1. rewrite (Zdigits2_eq m d) by lia.
  replace (fexp 53 1024 (d + e) - e) with (d - 53) by (unfold fexp, emin; lia).
  destruct (shr_ok n k m e (d - 53) l ltac:(lia) ltac:(lia) HL) as (M & -> & EM & LM).
  destruct (rne_ok _ _ (shr_m M) _ LM) as (R1 & R2). set (R := round_nearest_even (shr_m M) (loc_of_shr_record M)) in *.
  rewrite EM in R1, R2.
  assert (Q1 : 2 ^ 52 <= m / 2 ^ (d - 53)) by (apply Z.div_le_lower_bound; lia).
  assert (Q2 : m / 2 ^ (d - 53) < 2 ^ 53) by (apply Z.div_lt_upper_bound; lia).
  assert (QM : m = 2 ^ (d - 53) * (m / 2 ^ (d - 53)) + m mod 2 ^ (d - 53)) by (apply Z.div_mod; lia).
  assert (RE : 2 * Z.abs (R * (2 ^ (d - 53) * n) - (m * n + k)) <= 2 ^ (d - 53) * n).
  { rewrite QM at 1. replace ((2 ^ (d - 53) * (m / 2 ^ (d - 53)) + m mod 2 ^ (d - 53)) * n + k) with (m / 2 ^ (d - 53) * (2 ^ (d - 53) * n) + (m mod 2 ^ (d - 53) * n + k)) by ring. exact R1. }
  clear R1 QM LM EM. unfold shr_fexp. destruct (Z.eq_dec R (2 ^ 53)) as [E|E].
  - rewrite E. rewrite (Zdigits2_eq (2 ^ 53) 54) by lia. replace (fexp 53 1024 (54 + (e + (d - 53))) - (e + (d - 53))) with 1 by (unfold fexp, emin; lia).
    change (shr (shr_record_of_loc (2 ^ 53) loc_Exact) (e + (d - 53)) 1) with (Build_shr_record (2 ^ 52) false false, e + (d - 53) + 1).
    cbn [shr_m]. change (2 ^ 52) with (Z.pos 4503599627370496) at 1. cbv iota.
    replace (e + (d - 53) + 1 <=? 1024 - 53) with true by lia.
    exists 4503599627370496%positive, (e + (d - 53) + 1), (2 ^ 53). split; [reflexivity|]. split; [lia|]. split; [lia|]. split; [lia|].
    split; [|rewrite <- E; exact RE]. replace (e + (d - 53) + 1 - (e + (d - 53))) with 1 by lia. reflexivity.
  - rewrite (Zdigits2_eq R 53) by lia. replace (fexp 53 1024 (53 + (e + (d - 53))) - (e + (d - 53))) with 0 by (unfold fexp, emin; lia).
    cbn [shr shr_record_of_loc shr_m]. destruct R as [|R'|R'] eqn:ER; try lia. cbv iota.
    replace (e + (d - 53) <=? 1024 - 53) with true by lia.
    exists R', (e + (d - 53)), (Z.pos R'). split; [reflexivity|]. split; [lia|]. split; [lia|]. split; [lia|].
    split; [|exact RE]. rewrite Z.sub_diag. apply Z.mul_1_r.
Qed.

(** Positive normal numbers with exponents in [lo, hi]; their value scaled by 2^300. *)
Definition nf (f : spec_float) (lo hi : Z) : Prop :=
  exists m e, f = S754_finite false m e /\ 2 ^ 52 <= Zpos m < 2 ^ 53 /\ lo <= e <= hi.
Definition sv (f : spec_float) : Z := match f with S754_finite _ m e => Zpos m * 2 ^ (e + 300) | _ => 0 end.
(** [f] is [N/D] rounded to 53 bits: a multiple of 2^u off by at most half of 2^u. *)
Definition rounded (f : spec_float) (N D : Z) : Prop :=
  exists u R, 0 <= u /\ sv f = R * 2 ^ u /\ 2 ^ 52 * (2 ^ u * D) <= N /\ 2 * Z.abs (sv f * D - N) <= 2 ^ u * D.

Lemma abs_scale (a b c : Z) : 0 <= c -> Z.abs (a * c - b * c) = Z.abs (a - b) * c.
Proof. intros H. rewrite <- Z.mul_sub_distr_r, Z.abs_mul, (Z.abs_eq c) by exact H. reflexivity. Qed.

Lemma f64_of_ok (v : Z) : 0 < v < 2 ^ 64 ->
  nf (f64_of v) (-52) 12 /\ rounded (f64_of v) (v * 2 ^ 300) 1 /\ (v < 2 ^ 53 -> sv (f64_of v) = v * 2 ^ 300).
Proof.
  intros Hv. destruct v as [|v|v]; try lia. unfold f64_of, binary_normalize, binary_round.
  set (d := Z.log2 (Z.pos v) + 1). rewrite digits2_log2. fold d. rewrite Z.add_0_r.
  assert (Hd : 2 ^ (d - 1) <= Z.pos v < 2 ^ d).
  { destruct (Z.log2_spec (Z.pos v) ltac:(lia)) as (A & B0). unfold d. replace (Z.log2 (Z.pos v) + 1 - 1) with (Z.log2 (Z.pos v)) by lia. rewrite <- Z.add_1_r in B0. split; assumption. }
  assert (D1 : 1 <= d) by (unfold d; pose proof (Z.log2_nonneg (Z.pos v)); lia).
  assert (D2 : d <= 64).
  { destruct (Z.le_gt_cases d 64) as [H|H]; [exact H|]. pose proof (Z.pow_le_mono_r 2 64 (d - 1) ltac:(lia) ltac:(lia)). lia. }
  replace (fexp 53 1024 d) with (d - 53) by (unfold fexp, emin; lia). clearbody d. unfold shl_align.
  destruct (Z.le_gt_cases 53 d) as [Ge|Lt].
  - replace (match d - 53 - 0 with Z.neg d0 => (shift_pos d0 v, d - 53) | _ => (v, 0) end) with (v, 0) by (destruct (d - 53 - 0) eqn:E; try reflexivity; lia).
    destruct (round_aux_ok 1 0 (Z.pos v) 0 d loc_Exact ltac:(lia)) as (mr & er & R & -> & M1 & R1 & E1 & MR & RE); try lia; [split; [lia|reflexivity]|].
    rewrite Z.add_0_l in *. assert (SV : Z.pos mr * 2 ^ (er + 300) = R * 2 ^ (d - 53 + 300)).
    { rewrite <- MR, <- Z.mul_assoc, <- Z.pow_add_r by lia. f_equal. f_equal. lia. }
    pose proof (Z.pow_pos_nonneg 2 (d - 53) ltac:(lia) ltac:(lia)) as P2.
    assert (S1 : 2 ^ (d - 1) = 2 ^ (d - 53) * 2 ^ 52) by (rewrite <- Z.pow_add_r by lia; f_equal; lia).
    assert (SP : 2 ^ (d - 53 + 300) = 2 ^ (d - 53) * 2 ^ 300) by (apply Z.pow_add_r; lia).
    assert (T0 : 0 < 2 ^ 300) by (apply Z.pow_pos_nonneg; lia). set (T := 2 ^ 300) in *.
    split; [exists mr, er; split; [reflexivity|split; lia]|]. split.
    + exists (d - 53 + 300), R. cbn [sv]. rewrite SV. split; [lia|]. split; [reflexivity|]. rewrite !Z.mul_1_r, SP.
      split; [nia|]. rewrite Z.mul_assoc, abs_scale by lia. rewrite !Z.mul_1_r, Z.add_0_r in RE. nia.
    + intros H53. assert (d = 53).
      { destruct (Z.eq_dec d 53) as [|N0]; [assumption|]. pose proof (Z.pow_le_mono_r 2 53 (d - 1) ltac:(lia) ltac:(lia)). lia. }
      subst d. cbn [sv]. rewrite SV, SP. change (2 ^ (53 - 53)) with 1 in *. rewrite Z.mul_1_l. f_equal. lia.
  - replace (match d - 53 - 0 with Z.neg d0 => (shift_pos d0 v, d - 53) | _ => (v, 0) end) with (shift_pos (Z.to_pos (53 - d)) v, d - 53) by (destruct (d - 53 - 0) eqn:E; try lia; do 3 f_equal; lia).
    assert (ES : Z.pos (shift_pos (Z.to_pos (53 - d)) v) = Z.pos v * 2 ^ (53 - d)).
    { rewrite shift_pos_correct, Zpower_pos_powerRZ || rewrite shift_pos_correct. rewrite Z.mul_comm. f_equal. change (Z.pow_pos 2 (Z.to_pos (53 - d))) with (2 ^ Z.pos (Z.to_pos (53 - d))). f_equal. lia. }
    rewrite ES. pose proof (Z.pow_pos_nonneg 2 (53 - d) ltac:(lia) ltac:(lia)) as P2.
    assert (S1 : 2 ^ 52 = 2 ^ (d - 1) * 2 ^ (53 - d)) by (rewrite <- Z.pow_add_r by lia; f_equal; lia).
    assert (S2 : 2 ^ 53 = 2 ^ d * 2 ^ (53 - d)) by (rewrite <- Z.pow_add_r by lia; f_equal; lia).
    destruct (round_aux_ok 1 0 (Z.pos v * 2 ^ (53 - d)) (d - 53) 53 loc_Exact ltac:(lia)) as (mr & er & R & -> & M1 & R1 & E1 & MR & RE); try lia; [split; [lia|reflexivity]|rewrite S2; change (53 - 1) with 52; rewrite S1; split; [nia|]; apply Z.mul_lt_mono_pos_r; lia|].
    change (53 - 53) with 0 in *. change (2 ^ 0) with 1 in RE.
    assert (ER : R = Z.pos v * 2 ^ (53 - d)) by lia. rewrite ER in MR.
    assert (SV : Z.pos mr * 2 ^ (er + 300) = Z.pos v * 2 ^ 300).
    { replace (er + 300) with (er - (d - 53 + 0) + (d - 53 + 300)) by lia. rewrite Z.pow_add_r, Z.mul_assoc, MR, <- Z.mul_assoc, <- Z.pow_add_r by lia. f_equal. f_equal. lia. }
    split; [exists mr, er; split; [reflexivity|split; lia]|]. split; [|intros _; exact SV].
    exists (d - 53 + 300), (Z.pos v * 2 ^ (53 - d)). cbn [sv]. split; [lia|]. split; [rewrite SV, <- Z.mul_assoc, <- Z.pow_add_r by lia; f_equal; f_equal; lia|].
    rewrite SV, !Z.mul_1_r, Z.sub_diag. split; [|apply Z.pow_nonneg; lia].
    replace (2 ^ 300) with (2 ^ (53 - d) * 2 ^ (d - 53 + 300)) by (rewrite <- Z.pow_add_r by lia; f_equal; lia). rewrite Z.mul_assoc. apply Z.mul_le_mono_nonneg_r; [apply Z.pow_nonneg; lia|]. rewrite S1. nia.
Qed.

Lemma f64_mul_ok (x y : spec_float) (l1 h1 l2 h2 : Z) : nf x l1 h1 -> nf y l2 h2 -> -200 <= l1 -> -200 <= l2 -> -300 <= l1 + l2 -> h1 <= 200 -> h2 <= 200 ->
  nf (f64_mul x y) (l1 + l2 + 52) (h1 + h2 + 54) /\ rounded (f64_mul x y) (sv x * sv y) (2 ^ 300).
Proof.
  intros (m1 & e1 & -> & M1 & E1) (m2 & e2 & -> & M2 & E2) B1 B2 B3 B4 B5. unfold f64_mul, SFmul. cbn [xorb].
  set (m := Z.pos (m1 * m2)). assert (Em : m = Z.pos m1 * Z.pos m2) by reflexivity.
  assert (Hd : exists d, 105 <= d <= 106 /\ 2 ^ (d - 1) <= m < 2 ^ d).
  { assert (Lo : 2 ^ 104 <= m) by (rewrite Em; change (2 ^ 104) with (2 ^ 52 * 2 ^ 52); apply Z.mul_le_mono_nonneg; lia).
    assert (Hi : m < 2 ^ 106) by (rewrite Em; change (2 ^ 106) with (2 ^ 53 * 2 ^ 53); apply Z.mul_lt_mono_nonneg; lia).
    destruct (Z.le_gt_cases (2 ^ 105) m); [exists 106|exists 105]; split; lia || (split; assumption). }
  destruct Hd as (d & D1 & D2).
  destruct (round_aux_ok 1 0 m (e1 + e2) d loc_Exact ltac:(lia)) as (mr & er & R & -> & MR & R1 & ER & MRE & RE); try lia; [split; [lia|reflexivity]|].
  split; [exists mr, er; split; [reflexivity|split; lia]|].
  exists (e1 + e2 + (d - 53) + 300), R. cbn [sv].
  assert (SV : Z.pos mr * 2 ^ (er + 300) = R * 2 ^ (e1 + e2 + (d - 53) + 300)).
  { rewrite <- MRE, <- Z.mul_assoc, <- Z.pow_add_r by lia. f_equal. f_equal. lia. }
  rewrite SV. split; [lia|]. split; [reflexivity|].
  set (c := 2 ^ (e1 + e2 + 600)). assert (C0 : 0 < c) by (apply Z.pow_pos_nonneg; lia).
  assert (EU : 2 ^ (e1 + e2 + (d - 53) + 300) * 2 ^ 300 = 2 ^ (d - 53) * c) by (unfold c; rewrite <- !Z.pow_add_r by lia; f_equal; lia).
  assert (EN : Z.pos m1 * 2 ^ (e1 + 300) * (Z.pos m2 * 2 ^ (e2 + 300)) = m * c).
  { rewrite Em. unfold c. replace (2 ^ (e1 + e2 + 600)) with (2 ^ (e1 + 300) * 2 ^ (e2 + 300)) by (rewrite <- Z.pow_add_r by lia; f_equal; lia). ring. }
  rewrite <- (Z.mul_assoc R), EU, EN, (Z.mul_assoc R), abs_scale by lia. rewrite !Z.mul_1_r, Z.add_0_r in RE.
  assert (S1 : 2 ^ (d - 1) = 2 ^ (d - 53) * 2 ^ 52) by (rewrite <- Z.pow_add_r by lia; f_equal; lia).
  split; [rewrite Z.mul_assoc; apply Z.mul_le_mono_nonneg_r; lia|]. rewrite Z.mul_assoc. apply Z.mul_le_mono_nonneg_r; lia.
Qed.

Lemma f64_div_ok (x y : spec_float) (l1 h1 l2 h2 : Z) : nf x l1 h1 -> nf y l2 h2 -> -300 <= l1 -> -300 <= l2 -> h1 <= 200 -> h2 <= 200 -> -240 <= l1 - h2 -> h1 - l2 <= 500 ->
  nf (f64_div x y) (l1 - h2 - 53) (h1 - l2 - 51) /\ rounded (f64_div x y) (sv x * 2 ^ 300) (sv y).
Proof.
  intros (m1 & e1 & -> & M1 & E1) (m2 & e2 & -> & M2 & E2) B1 B2 B3 B4 B5 B6. unfold f64_div, SFdiv, SFdiv_core_binary. cbn [xorb].
  rewrite (Zdigits2_eq (Z.pos m1) 53), (Zdigits2_eq (Z.pos m2) 53) by lia.
  replace (fexp 53 1024 (53 + e1 - (53 + e2))) with (e1 - e2 - 53) by (unfold fexp, emin; lia).
  rewrite Z.min_l by lia. replace (e1 - e2 - (e1 - e2 - 53)) with 53 by lia. rewrite Z.shiftl_mul_pow2 by lia.
  set (m' := Z.pos m1 * 2 ^ 53). cbv beta iota zeta.
  pose proof (Z.div_mod m' (Z.pos m2) ltac:(lia)) as DM. pose proof (Z.mod_pos_bound m' (Z.pos m2) ltac:(lia)) as MB.
  unfold Z.div, Z.modulo in DM, MB. destruct (Z.div_eucl m' (Z.pos m2)) as (q, r).
  assert (Lo : 2 ^ 52 <= q) by (unfold m' in DM; nia).
  assert (Hi : q < 2 ^ 54) by (unfold m' in DM; nia).
  assert (Hd : exists d, 53 <= d <= 54 /\ 2 ^ (d - 1) <= q < 2 ^ d).
  { destruct (Z.le_gt_cases (2 ^ 53) q); [exists 54|exists 53]; split; lia || (split; assumption). }
  destruct Hd as (d & D1 & D2).
  destruct (round_aux_ok (Z.pos m2) r q (e1 - e2 - 53) d (new_location (Z.pos m2) r) ltac:(lia)) as (mr & er & R & -> & MR & R1 & ER & MRE & RE); try lia; [apply new_location_ok; exact MB|].
  split; [exists mr, er; split; [reflexivity|split; lia]|].
  exists (e1 - e2 - 53 + (d - 53) + 300), R. cbn [sv].
  assert (SV : Z.pos mr * 2 ^ (er + 300) = R * 2 ^ (e1 - e2 - 53 + (d - 53) + 300)).
  { rewrite <- MRE, <- Z.mul_assoc, <- Z.pow_add_r by lia. f_equal. f_equal. lia. }
  rewrite SV. split; [lia|]. split; [reflexivity|].
  set (c := 2 ^ (e1 - 53 + 600)). assert (C0 : 0 < c) by (apply Z.pow_pos_nonneg; lia).
  assert (EU : 2 ^ (e1 - e2 - 53 + (d - 53) + 300) * (Z.pos m2 * 2 ^ (e2 + 300)) = 2 ^ (d - 53) * Z.pos m2 * c).
  { transitivity (Z.pos m2 * (2 ^ (e1 - e2 - 53 + (d - 53) + 300) * 2 ^ (e2 + 300))); [ring|]. unfold c. rewrite <- Z.pow_add_r by lia.
    transitivity (Z.pos m2 * (2 ^ (d - 53) * 2 ^ (e1 - 53 + 600))); [|ring]. rewrite <- Z.pow_add_r by lia. f_equal. f_equal. lia. }
  assert (EN : Z.pos m1 * 2 ^ (e1 + 300) * 2 ^ 300 = m' * c).
  { unfold m', c. rewrite <- !Z.mul_assoc, <- !Z.pow_add_r by lia. f_equal. f_equal. lia. }
  rewrite <- (Z.mul_assoc R), EU, EN, (Z.mul_assoc R), abs_scale by lia.
  assert (S1 : 2 ^ (d - 1) = 2 ^ (d - 53) * 2 ^ 52) by (rewrite <- Z.pow_add_r by lia; f_equal; lia).
  rewrite (Z.mul_comm q), <- DM in RE.
  split; [rewrite Z.mul_assoc; apply Z.mul_le_mono_nonneg_r; [lia|]; rewrite DM; nia|]. rewrite Z.mul_assoc. apply Z.mul_le_mono_nonneg_r; lia.
Qed.

Lemma f64_round_ok (B : Z) (f : spec_float) (l h : Z) : nf f l h -> -299 <= l ->
  f64_round_to B f = Z.min (2 ^ B - 1) ((2 * sv f + 2 ^ 300) / (2 * 2 ^ 300)).
Proof.
  intros (m & e & -> & M & E) Hl. cbn [f64_round_to sv]. f_equal. assert (T0 : 0 < 2 ^ 300) by (apply Z.pow_pos_nonneg; lia).
  destruct (Z.leb_spec 0 e) as [H|H].
  - rewrite Z.pow_add_r by lia. apply Z.div_unique with (r := 2 ^ 300); [lia|]. ring.
  - assert (X : 2 ^ 300 = 2 ^ (- e) * 2 ^ (e + 300)) by (rewrite <- Z.pow_add_r by lia; f_equal; lia).
    assert (Y : 2 ^ (- e) = 2 * 2 ^ (- e - 1)) by (rewrite <- Z.pow_succ_r by lia; f_equal; lia).
    assert (0 < 2 ^ (e + 300)) by (apply Z.pow_pos_nonneg; lia). assert (0 < 2 ^ (- e)) by (apply Z.pow_pos_nonneg; lia).
    set (t := 2 ^ (e + 300)) in *. replace (2 * (Z.pos m * t) + 2 ^ 300) with ((Z.pos m + 2 ^ (- e - 1)) * (2 * t)) by (rewrite X, Y; ring).
    replace (2 * 2 ^ 300) with (2 ^ (- e) * (2 * t)) by (rewrite X; ring). rewrite Z.div_mul_cancel_r by lia. reflexivity.
Qed.
