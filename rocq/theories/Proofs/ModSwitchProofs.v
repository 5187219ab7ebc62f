(** Modulus switching: the f64 computation and its effect on the phase. *)
From Coq Require Import ZArith List Bool Lia SpecFloat.
From Verif Require Import Spec.Basic Spec.Lattice Spec.Switch Model.Base Model.Poly Model.Lwe Model.ModSwitch.
From Verif Require Import Proofs.Arith Proofs.NumTheory Proofs.PolyMath Proofs.PolyProofs Proofs.FloatProofs.
Import ListNotations.
Local Open Scope Z_scope.

Definition ms_raw (B before after v : Z) : Z := f64_round_to B (f64_div (f64_mul (f64_of v) (f64_of after)) (f64_of before)).

Lemma ms_zero (B before after : Z) : 0 < before < 2 ^ 64 -> 0 < after < 2 ^ 64 -> ms_raw B before after 0 = 0.
Proof.
  intros Hb Ha. unfold ms_raw. destruct (f64_of_ok after Ha) as ((ma & ea & Ea & _) & _). destruct (f64_of_ok before Hb) as ((mb & eb & Eb & _) & _).
  rewrite Ea, Eb. reflexivity.
Qed.

(** The chain of four roundings. *)
Lemma ms_chain (before after v : Z) : 0 < before < 2 ^ 64 -> 0 < after < 2 ^ 64 -> 0 < v < 2 ^ 64 ->
  exists V A M P f, V = f64_of v /\ A = f64_of after /\ M = f64_of before /\ P = f64_mul V A /\ f = f64_div P M /\
    nf M (-52) 12 /\ nf f (-117) 79 /\ rounded P (sv V * sv A) (2 ^ 300) /\ rounded f (sv P * 2 ^ 300) (sv M).
Proof.
  intros Hb Ha Hv. exists (f64_of v), (f64_of after), (f64_of before), (f64_mul (f64_of v) (f64_of after)), (f64_div (f64_mul (f64_of v) (f64_of after)) (f64_of before)).
  destruct (f64_of_ok after Ha) as (NA & _). destruct (f64_of_ok before Hb) as (NB & _). destruct (f64_of_ok v Hv) as (NV & _).
  destruct (f64_mul_ok _ _ _ _ _ _ NV NA) as (NP & RP); try lia.
  destruct (f64_div_ok _ _ _ _ _ _ NP NB) as (NF & RF); try lia.
  do 5 (split; [reflexivity|]). split; [exact NB|]. split; [exact NF|]. split; assumption.
Qed.

Lemma sv_pos f l h : nf f l h -> -300 <= l -> 0 < sv f.
Proof. intros (m & e & -> & M & E) H. cbn [sv]. apply Z.mul_pos_pos; [lia|]. apply Z.pow_pos_nonneg; lia. Qed.

Lemma rounded_rel f N D : 0 < D -> rounded f N D -> 2 ^ 53 * Z.abs (sv f * D - N) <= N.
Proof. intros HD (u & R & Hu & E & L & A). pose proof (Z.pow_pos_nonneg 2 u ltac:(lia) Hu). replace (2 ^ 53) with (2 ^ 52 * 2) by reflexivity. nia. Qed.

(** An exactly representable quotient (half-integers below 2^52) is returned exactly. *)
Lemma rounded_half f N D c : 0 < D -> rounded f N D -> 2 * N = c * 2 ^ 300 * D -> 0 < c < 2 ^ 53 -> sv f * D = N.
Proof.
  intros HD (u & R & Hu & E & L & A) HN Hc.
  assert (U : u <= 299).
  { destruct (Z.le_gt_cases u 299) as [H|H]; [exact H|exfalso]. pose proof (Z.pow_le_mono_r 2 300 u ltac:(lia) ltac:(lia)) as P.
    assert (T0 : 0 < 2 ^ 300) by (apply Z.pow_pos_nonneg; lia). set (T := 2 ^ 300) in *. set (t := 2 ^ u) in *.
    assert (2 ^ 53 * (T * D) <= c * (T * D)) by nia. assert (0 < T * D) by nia. nia. }
  assert (EC : N = c * 2 ^ (299 - u) * 2 ^ u * D).
  { rewrite <- (Z.mul_assoc c), <- Z.pow_add_r by lia. replace (299 - u + u) with 299 by lia. change (2 ^ 300) with (2 * 2 ^ 299) in HN. set (t := 2 ^ 299) in *. nia. }
  pose proof (Z.pow_pos_nonneg 2 u ltac:(lia) Hu) as P. set (t := 2 ^ u) in *. set (z := c * 2 ^ (299 - u)) in *.
  rewrite E in *. rewrite EC in *. assert (X : R * t * D - z * t * D = (R - z) * (t * D)) by ring. rewrite X, Z.abs_mul, (Z.abs_eq (t * D)) in A by nia.
  assert (0 < t * D) by nia. assert (Z.abs (R - z) = 0) by nia. replace R with z by lia. reflexivity.
Qed.

Lemma ms_raw_exact (B before after v : Z) : 0 < B <= 64 -> 0 < before < 2 ^ 53 -> 0 < after < 2 ^ B -> 0 <= v < before -> v * after < 2 ^ 52 ->
  ms_raw B before after v = round_div (v * after) before.
Proof.
  intros HB Hb Ha Hv Hx. pose proof (Z.pow_le_mono_r 2 B 64 ltac:(lia) ltac:(lia)) as P64.
  destruct (Z.eq_dec v 0) as [->|V0]; [rewrite ms_zero by lia; unfold round_div; rewrite Z.mul_0_l; symmetry; apply Z.div_small; lia|].
  assert (V1 : v * 1 <= v * after) by (apply Z.mul_le_mono_nonneg_l; lia). assert (V2 : 1 * after <= v * after) by (apply Z.mul_le_mono_nonneg_r; lia).
  assert (Hv' : 0 < v < 2 ^ 53) by lia. assert (Ha' : 0 < after < 2 ^ 53) by lia.
  destruct (ms_chain before after v ltac:(lia) ltac:(lia) ltac:(lia)) as (V & A & M & P & f & EV & EA & EM & EP & Ef & NM & NF & RP & RF).
  assert (T0 : 0 < 2 ^ 300) by (apply Z.pow_pos_nonneg; lia).
  assert (SV : sv V = v * 2 ^ 300) by (subst V; apply (f64_of_ok v ltac:(lia)); lia).
  assert (SA : sv A = after * 2 ^ 300) by (subst A; apply (f64_of_ok after ltac:(lia)); lia).
  assert (SM : sv M = before * 2 ^ 300) by (subst M; apply (f64_of_ok before ltac:(lia)); lia).
  assert (SP : sv P = v * after * 2 ^ 300).
  { assert (Q : sv P * 2 ^ 300 = sv V * sv A) by (apply (rounded_half P (sv V * sv A) (2 ^ 300) (2 * (v * after)) T0 RP); [rewrite SV, SA; ring|nia]).
    rewrite SV, SA in Q. apply Z.mul_reg_r with (2 ^ 300); [lia|]. rewrite Q. ring. }
  unfold ms_raw. rewrite <- EV, <- EA, <- EM, <- EP, <- Ef. rewrite (f64_round_ok B f _ _ NF) by lia.
  rewrite SP, SM in RF. set (X := v * after) in *. assert (X0 : 0 < X) by nia. set (T := 2 ^ 300) in *.
  assert (BT : 0 < before * T) by (apply Z.mul_pos_pos; lia).
  pose proof (rounded_rel _ _ _ BT RF) as RR.
  assert (RR' : 2 ^ 53 * Z.abs (sv f * before - X * T) <= X * T).
  { replace (sv f * (before * T) - X * T * T) with ((sv f * before - X * T) * T) in RR by ring. rewrite Z.abs_mul, (Z.abs_eq T) in RR by lia. nia. }
  assert (TIE : forall r, 2 * X + before = 2 * before * r -> sv f * before = X * T).
  { intros r Er. assert (Q : sv f * (before * T) = X * T * T).
    { apply (rounded_half f _ _ (2 * r - 1) BT RF).
      - fold T. replace (2 * (X * T * T)) with (2 * X * (T * T)) by ring. replace (2 * X) with ((2 * r - 1) * before) by lia. ring.
      - split; [nia|]. assert (2 * r - 1 <= 2 * X) by nia. lia. }
    apply Z.mul_reg_r with T; [lia|]. rewrite <- Q. ring. }
  assert (R0 : (2 * sv f + T) / (2 * T) = round_div X before).
  { unfold round_div. set (r := (2 * X + before) / (2 * before)).
    pose proof (Z.mul_div_le (2 * X + before) (2 * before) ltac:(lia)) as L1. pose proof (Z.mul_succ_div_gt (2 * X + before) (2 * before) ltac:(lia)) as L2. fold r in L1, L2.
    symmetry. apply Z.div_unique_pos with (r := 2 * sv f + T - 2 * T * r); [|ring].
    assert (G : 2 ^ 53 * Z.abs (sv f * before - X * T) < 2 ^ 52 * T) by nia.
    assert (G1 : 2 * (sv f * before) < 2 * (X * T) + T) by lia. assert (G2 : 2 * (X * T) - T < 2 * (sv f * before)) by lia.
    split.
    - destruct (Z.eq_dec (2 * X + before) (2 * before * r)) as [E|N].
      + pose proof (TIE r E) as Q. apply Z.mul_nonneg_cancel_l with (n := before); [lia|]. nia.
      + assert (0 < before * (2 * sv f + T - 2 * T * r)); [|nia]. assert (2 * before * r + 1 <= 2 * X + before) by lia. nia.
    - assert (0 < before * (2 * T - (2 * sv f + T - 2 * T * r))); [|nia]. assert (2 * X + before + 1 <= 2 * before * (r + 1)) by lia. nia. }
  rewrite R0. apply Z.min_r. unfold round_div. assert ((2 * X + before) / (2 * before) < after + 1); [|lia].
  apply Z.div_lt_upper_bound; [lia|]. unfold X. nia.
Qed.

Lemma ms_reduce_ok (after r : Z) : 0 < after -> 0 <= r <= after -> ms_reduce after r = Some (r mod after).
Proof.
  intros Ha Hr. unfold ms_reduce. destruct (Z.ltb_spec r after) as [H|H]; [rewrite Z.mod_small by lia; reflexivity|].
  replace r with after by lia. rewrite usub_some by lia. rewrite Z.sub_diag, Z.mod_same by lia. reflexivity.
Qed.

Lemma round_div_bounds x y : 0 <= x -> 0 < y -> 0 <= round_div x y /\ Z.abs (2 * y * round_div x y - 2 * x) <= y.
Proof.
  intros Hx Hy. unfold round_div. split; [apply Z.div_pos; lia|].
  pose proof (Z.mul_div_le (2 * x + y) (2 * y) ltac:(lia)) as L1. pose proof (Z.mul_succ_div_gt (2 * x + y) (2 * y) ltac:(lia)) as L2. lia.
Qed.

Lemma round_div_le v after before : 0 <= v < before -> 0 < after -> round_div (v * after) before <= after.
Proof. intros Hv Ha. assert ((2 * (v * after) + before) / (2 * before) < after + 1); [|unfold round_div; lia]. apply Z.div_lt_upper_bound; nia. Qed.

Lemma ms_raw_big (B before after v : Z) : 0 < B <= 64 -> 2 ^ 53 <= before < 2 ^ 64 -> 0 < after < 2 ^ B -> 0 <= v < before -> v * after < 2 ^ 52 ->
  ms_raw B before after v = 0.
Proof.
  intros HB Hb Ha Hv Hx. pose proof (Z.pow_le_mono_r 2 B 64 ltac:(lia) ltac:(lia)) as P64.
  destruct (Z.eq_dec v 0) as [->|V0]; [apply ms_zero; lia|].
  assert (V1 : v * 1 <= v * after) by (apply Z.mul_le_mono_nonneg_l; lia). assert (V2 : 1 * after <= v * after) by (apply Z.mul_le_mono_nonneg_r; lia).
  destruct (ms_chain before after v ltac:(lia) ltac:(lia) ltac:(lia)) as (V & A & M & P & f & EV & EA & EM & EP & Ef & NM & NF & RP & RF).
  assert (T0 : 0 < 2 ^ 300) by (apply Z.pow_pos_nonneg; lia).
  assert (SV : sv V = v * 2 ^ 300) by (subst V; apply (f64_of_ok v ltac:(lia)); lia).
  assert (SA : sv A = after * 2 ^ 300) by (subst A; apply (f64_of_ok after ltac:(lia)); lia).
  assert (RM : rounded M (before * 2 ^ 300) 1) by (subst M; apply f64_of_ok; lia).
  assert (SP : sv P = v * after * 2 ^ 300).
  { assert (Q : sv P * 2 ^ 300 = sv V * sv A) by (apply (rounded_half P (sv V * sv A) (2 ^ 300) (2 * (v * after)) T0 RP); [rewrite SV, SA; ring|lia]).
    rewrite SV, SA in Q. apply Z.mul_reg_r with (2 ^ 300); [lia|]. rewrite Q. ring. }
  pose proof (sv_pos _ _ _ NM ltac:(lia)) as M0. pose proof (sv_pos _ _ _ NF ltac:(lia)) as F0.
  unfold ms_raw. rewrite <- EV, <- EA, <- EM, <- EP, <- Ef. rewrite (f64_round_ok B f _ _ NF) by lia.
  apply rounded_rel in RM; [|lia]. apply rounded_rel in RF; [|exact M0]. rewrite Z.mul_1_r in RM. rewrite SP in RF.
  clear NF NM EV EA EM EP Ef RP SV SA SP V1 V2. set (X := v * after) in *. set (T := 2 ^ 300) in *. set (sM := sv M) in *. set (sf := sv f) in *. clearbody T X sM sf. clear P V A M f.
  assert (A1 : 2 ^ 53 * (sf * sM) <= (2 ^ 53 + 1) * (X * T * T)) by lia.
  assert (A2 : (2 ^ 53 - 1) * T <= sM).
  { apply Z.mul_le_mono_pos_l with (2 ^ 53); [lia|]. transitivity ((2 ^ 53 - 1) * (before * T)); [|lia]. assert (2 ^ 53 * T <= before * T) by (apply Z.mul_le_mono_nonneg_r; lia). lia. }
  assert (A3 : sf * ((2 ^ 53 - 1) * T) <= sf * sM) by (apply Z.mul_le_mono_nonneg_l; lia).
  assert (A4 : 2 ^ 53 * (2 ^ 53 - 1) * sf * T <= (2 ^ 53 + 1) * (X * T) * T) by lia.
  assert (A5 : 2 ^ 53 * (2 ^ 53 - 1) * sf <= (2 ^ 53 + 1) * (X * T)) by (apply Z.mul_le_mono_pos_r with T; assumption).
  assert (A6 : X * T <= (2 ^ 52 - 1) * T) by (apply Z.mul_le_mono_nonneg_r; lia).
  rewrite (Z.div_small (2 * sf + T)) by lia. apply Z.min_r. pose proof (Z.pow_pos_nonneg 2 B ltac:(lia) ltac:(lia)). lia.
Qed.

Lemma ms_switch_exact (B before after v : Z) : 0 < B <= 64 -> 0 < before < 2 ^ 64 -> 0 < after < 2 ^ B -> 0 <= v < before -> v * after < 2 ^ 52 ->
  ms_switch B before after v = Some (round_div (v * after) before mod after).
Proof.
  intros HB Hb Ha Hv Hx. unfold ms_switch. fold (ms_raw B before after v).
  assert (E : ms_raw B before after v = round_div (v * after) before).
  { destruct (Z.lt_ge_cases before (2 ^ 53)) as [L|G]; [apply ms_raw_exact; lia|]. rewrite ms_raw_big by lia.
    unfold round_div. symmetry. apply Z.div_small. split; [nia|lia]. }
  rewrite E. apply ms_reduce_ok; [lia|]. split; [apply round_div_bounds; nia|apply round_div_le; lia].
Qed.

(** Beyond the exact range: at most 2^-50 relative error on top of the rounding. *)
Lemma ms_raw_general (B before after v : Z) : 0 < B <= 64 -> 0 < before < 2 ^ 64 -> 0 < after < 2 ^ B -> after < 2 ^ 49 -> 0 <= v < before ->
  0 <= ms_raw B before after v <= after /\
  2 ^ 50 * Z.abs (2 * before * ms_raw B before after v - 2 * (v * after)) <= 2 ^ 50 * before + 2 * (v * after).
Proof.
  intros HB Hb Ha Ha49 Hv. pose proof (Z.pow_le_mono_r 2 B 64 ltac:(lia) ltac:(lia)) as P64.
  destruct (Z.eq_dec v 0) as [->|V0]; [rewrite ms_zero by lia; lia|].
  destruct (ms_chain before after v ltac:(lia) ltac:(lia) ltac:(lia)) as (V & A & M & P & f & EV & EA & EM & EP & Ef & NM & NF & RP & RF).
  assert (T0 : 0 < 2 ^ 300) by (apply Z.pow_pos_nonneg; lia).
  assert (SA : sv A = after * 2 ^ 300) by (subst A; apply (f64_of_ok after ltac:(lia)); lia).
  assert (RV : rounded V (v * 2 ^ 300) 1) by (subst V; apply f64_of_ok; lia).
  assert (RM : rounded M (before * 2 ^ 300) 1) by (subst M; apply f64_of_ok; lia).
  pose proof (sv_pos _ _ _ NM ltac:(lia)) as M0. pose proof (sv_pos _ _ _ NF ltac:(lia)) as F0.
  unfold ms_raw. rewrite <- EV, <- EA, <- EM, <- EP, <- Ef. rewrite (f64_round_ok B f _ _ NF) by lia.
  apply rounded_rel in RV; [|lia]. apply rounded_rel in RM; [|lia]. apply rounded_rel in RP; [|lia]. apply rounded_rel in RF; [|lia].
  rewrite Z.mul_1_r in RV, RM. rewrite SA in RP. set (T := 2 ^ 300) in *. set (c := 2 ^ 53) in *.
  set (sV := sv V) in *. set (sP := sv P) in *. set (sM := sv M) in *. set (sf := sv f) in *.
  assert (RP' : c * Z.abs (sP - sV * after) <= sV * after).
  { replace (sP * T - sV * (after * T)) with ((sP - sV * after) * T) in RP by ring. rewrite Z.abs_mul, (Z.abs_eq T) in RP by lia. nia. }
  set (X := v * after). assert (X0 : 0 < X) by (unfold X; nia).
  assert (C0 : 2 ^ 53 <= c) by (unfold c; lia).
  assert (SV0 : 0 < sV) by nia. assert (SP0 : 0 < sP) by nia.
  assert (U : c ^ 2 * (c - 1) * (sf * before) <= (c + 1) ^ 3 * (X * T)).
  { assert (A1 : c * (sf * sM) <= (c + 1) * (sP * T)) by lia.
    assert (A2 : c * sP <= (c + 1) * (sV * after)) by lia.
    assert (A3 : c * sV <= (c + 1) * (v * T)) by lia.
    assert (A4 : (c - 1) * (before * T) <= c * sM) by lia.
    assert (B1 : c * (sf * ((c - 1) * (before * T))) <= c * ((c + 1) * (sP * T))) by (transitivity (c * (sf * (c * sM))); [nia|nia]).
    assert (B2 : c * ((c + 1) * (sP * T)) <= (c + 1) ^ 2 * (sV * after) * T) by (replace (c * ((c + 1) * (sP * T))) with ((c + 1) * T * (c * sP)) by ring; replace ((c + 1) ^ 2 * (sV * after) * T) with ((c + 1) * T * ((c + 1) * (sV * after))) by ring; apply Z.mul_le_mono_nonneg_l; nia).
    assert (B3 : c * ((c + 1) ^ 2 * (sV * after) * T) <= (c + 1) ^ 3 * (X * T) * T).
    { replace (c * ((c + 1) ^ 2 * (sV * after) * T)) with ((c + 1) ^ 2 * after * T * (c * sV)) by ring. replace ((c + 1) ^ 3 * (X * T) * T) with ((c + 1) ^ 2 * after * T * ((c + 1) * (v * T))) by (unfold X; ring).
      apply Z.mul_le_mono_nonneg_l; [nia|exact A3]. }
    assert (B4 : c * (c * (sf * ((c - 1) * (before * T)))) <= (c + 1) ^ 3 * (X * T) * T) by (etransitivity; [|exact B3]; apply Z.mul_le_mono_nonneg_l; lia).
    replace (c * (c * (sf * ((c - 1) * (before * T))))) with (c ^ 2 * (c - 1) * (sf * before) * T) in B4 by ring. apply Z.mul_le_mono_pos_r with T; assumption. }
  assert (L : (c - 1) ^ 3 * (X * T) <= c ^ 2 * (c + 1) * (sf * before)).
  { assert (A1 : (c - 1) * (sP * T) <= c * (sf * sM)) by lia.
    assert (A2 : (c - 1) * (sV * after) <= c * sP) by lia.
    assert (A3 : (c - 1) * (v * T) <= c * sV) by lia.
    assert (A4 : c * sM <= (c + 1) * (before * T)) by lia.
    assert (B1 : c * ((c - 1) * (sP * T)) <= c * (sf * ((c + 1) * (before * T)))) by (transitivity (c * (sf * (c * sM))); [nia|nia]).
    assert (B2 : (c - 1) ^ 2 * (sV * after) * T <= c * ((c - 1) * (sP * T))) by (replace (c * ((c - 1) * (sP * T))) with ((c - 1) * T * (c * sP)) by ring; replace ((c - 1) ^ 2 * (sV * after) * T) with ((c - 1) * T * ((c - 1) * (sV * after))) by ring; apply Z.mul_le_mono_nonneg_l; nia).
    assert (B3 : (c - 1) ^ 3 * (X * T) * T <= c * ((c - 1) ^ 2 * (sV * after) * T)).
    { replace (c * ((c - 1) ^ 2 * (sV * after) * T)) with ((c - 1) ^ 2 * after * T * (c * sV)) by ring. replace ((c - 1) ^ 3 * (X * T) * T) with ((c - 1) ^ 2 * after * T * ((c - 1) * (v * T))) by (unfold X; ring).
      apply Z.mul_le_mono_nonneg_l; [nia|exact A3]. }
    assert (B4 : (c - 1) ^ 3 * (X * T) * T <= c * (c * (sf * ((c + 1) * (before * T))))) by (etransitivity; [exact B3|]; apply Z.mul_le_mono_nonneg_l; lia).
    replace (c * (c * (sf * ((c + 1) * (before * T))))) with (c ^ 2 * (c + 1) * (sf * before) * T) in B4 by ring. apply Z.mul_le_mono_pos_r with T; assumption. }
  assert (W : 2 ^ 50 * Z.abs (sf * before - X * T) <= X * T).
  { assert (W1 : 2 ^ 50 * (sf * before) <= (2 ^ 50 + 1) * (X * T)).
    { apply Z.mul_le_mono_pos_l with (c ^ 2 * (c - 1)); [unfold c; lia|]. transitivity (2 ^ 50 * ((c + 1) ^ 3 * (X * T))); [nia|].
      rewrite !Z.mul_assoc. rewrite <- !(Z.mul_assoc _ X T). apply Z.mul_le_mono_nonneg_r; [nia|]. unfold c. vm_compute. discriminate. }
    assert (W2 : (2 ^ 50 - 1) * (X * T) <= 2 ^ 50 * (sf * before)).
    { apply Z.mul_le_mono_pos_l with (c ^ 2 * (c + 1)); [unfold c; lia|]. transitivity (2 ^ 50 * ((c - 1) ^ 3 * (X * T))); [|nia].
      rewrite !Z.mul_assoc. rewrite <- !(Z.mul_assoc _ X T). apply Z.mul_le_mono_nonneg_r; [nia|]. unfold c. vm_compute. discriminate. }
    lia. }
  set (r := (2 * sf + T) / (2 * T)).
  pose proof (Z.mul_div_le (2 * sf + T) (2 * T) ltac:(lia)) as L1. pose proof (Z.mul_succ_div_gt (2 * sf + T) (2 * T) ltac:(lia)) as L2. fold r in L1, L2.
  assert (R0 : 0 <= r) by (apply Z.div_pos; lia).
  assert (ER : 2 ^ 50 * Z.abs (2 * before * r - 2 * X) <= 2 ^ 50 * before + 2 * X).
  { apply Z.mul_le_mono_pos_r with T; [lia|]. rewrite <- Z.mul_assoc. replace (Z.abs (2 * before * r - 2 * X) * T) with (Z.abs ((2 * before * r - 2 * X) * T)) by (rewrite Z.abs_mul, (Z.abs_eq T); lia).
    assert (D1 : Z.abs (before * (2 * T * r - 2 * sf)) <= before * T) by (rewrite Z.abs_mul, (Z.abs_eq before) by lia; apply Z.mul_le_mono_nonneg_l; lia).
    replace ((2 * before * r - 2 * X) * T) with (before * (2 * T * r - 2 * sf) + 2 * (sf * before - X * T)) by ring.
    pose proof (Z.abs_triangle (before * (2 * T * r - 2 * sf)) (2 * (sf * before - X * T))) as TR. rewrite (Z.abs_mul 2), (Z.abs_eq 2) in TR by lia. lia. }
  assert (RA : r <= after).
  { destruct (Z.le_gt_cases r after) as [H|H]; [exact H|exfalso]. assert (X1 : X <= (before - 1) * after) by (apply Z.mul_le_mono_nonneg_r; lia).
    assert (X2 : 2 * before * (after + 1) <= 2 * before * r) by (apply Z.mul_le_mono_nonneg_l; lia).
    assert (XB : before * after <= before * 2 ^ 49) by (apply Z.mul_le_mono_nonneg_l; lia).
    replace ((before - 1) * after) with (before * after - after) in X1 by ring. replace (2 * before * (after + 1)) with (2 * (before * after) + 2 * before) in X2 by ring.
    clear - X1 X2 XB ER Ha Hb. lia. }
  rewrite Z.min_r by lia. split; [lia|exact ER].
Qed.

(** What a value-level rounding with error [d/2] does to a ciphertext. *)
Lemma norm1_nonneg s : 0 <= norm1 s.
Proof. induction s as [|x s IH]; cbn [norm1]; lia. Qed.

Lemma dotz_switch (before after d : Z) (f : Z -> Z) (a s : list Z) : 0 <= d ->
  (forall v, In v a -> Z.abs (2 * before * f v - 2 * (v * after)) <= d) ->
  Z.abs (2 * before * dotz (map f a) s - 2 * (after * dotz a s)) <= d * norm1 s.
Proof.
  intros Hd. revert s. induction a as [|x a IH]; intros [|y s] H; cbn [map dotz].
  1-3: apply Z.le_trans with 0; [lia|apply Z.mul_nonneg_nonneg; [exact Hd|apply norm1_nonneg]].
  cbn [norm1].
  specialize (IH s (fun v Hv => H v (or_intror Hv))). specialize (H x (or_introl eq_refl)).
  replace (2 * before * (f x * y + dotz (map f a) s) - 2 * (after * (x * y + dotz a s))) with ((2 * before * f x - 2 * (x * after)) * y + (2 * before * dotz (map f a) s - 2 * (after * dotz a s))) by ring.
  pose proof (Z.abs_triangle ((2 * before * f x - 2 * (x * after)) * y) (2 * before * dotz (map f a) s - 2 * (after * dotz a s))) as TR.
  rewrite (Z.abs_mul (2 * before * f x - 2 * (x * after)) y) in TR. assert (Z.abs (2 * before * f x - 2 * (x * after)) * Z.abs y <= d * Z.abs y) by (apply Z.mul_le_mono_nonneg_r; lia). nia.
Qed.

Section Ct.
Variables (B before after d : Z) (f : Z -> Z).
Hypothesis Hb : 0 < before.
Hypothesis Ha : 0 < after.
Hypothesis Hd : 0 <= d.

Definition good v := 0 <= f v <= after /\ Z.abs (2 * before * f v - 2 * (v * after)) <= d /\ ms_switch B before after v = Some (f v mod after).
Definition sw (x : lwe) := mk_lwe (map (fun v => f v mod after) (la x)) (f (lb x) mod after).

Lemma sw_wf n x : length (la x) = n -> lwe_wf after n (sw x).
Proof.
  intros L. split; [cbn [sw la]; rewrite map_length; exact L|]. split; [|apply Z.mod_pos_bound; exact Ha].
  cbn [sw la]. apply Forall_map. apply Forall_forall. intros v _. apply Z.mod_pos_bound. exact Ha.
Qed.

Lemma dotz_mod m g (a s : list Z) : m <> 0 -> cong m (dotz (map (fun v => g v mod m) a) s) (dotz (map g a) s).
Proof.
  intros Hm. revert s. induction a as [|x a IH]; intros [|y s]; cbn [map dotz]; try reflexivity.
  rewrite (IH s). rewrite (cong_mod m (g x) Hm). reflexivity.
Qed.

Lemma sw_rescaled s x : good (lb x) -> (forall v, In v (la x) -> good v) -> rescaled before after s d x (sw x).
Proof.
  intros Gb Ga. set (I := 2 * before * (f (lb x) - dotz (map f (la x)) s)). set (J := 2 * (after * (lb x - dotz (la x) s))).
  set (e := before * (f (lb x) - dotz (map f (la x)) s) - after * (lb x - dotz (la x) s)).
  exists e. split.
  - replace (2 * Z.abs e) with (Z.abs (2 * e)) by lia. unfold e.
    replace (2 * (before * (f (lb x) - dotz (map f (la x)) s) - after * (lb x - dotz (la x) s))) with
      ((2 * before * f (lb x) - 2 * (lb x * after)) - (2 * before * dotz (map f (la x)) s - 2 * (after * dotz (la x) s))) by ring.
    destruct Gb as (_ & Gb & _). pose proof (dotz_switch before after d f (la x) s Hd (fun v Hv => proj1 (proj2 (Ga v Hv)))) as D.
    set (u := 2 * before * f (lb x) - 2 * (lb x * after)) in *. set (w := 2 * before * dotz (map f (la x)) s - 2 * (after * dotz (la x) s)) in *. lia.
  - apply cong_iff; [nia|]. unfold phase. cbn [sw la lb].
    assert (E1 : cong (before * after) (before * ((f (lb x) mod after - dotz (map (fun v => f v mod after) (la x)) s) mod after)) (before * (f (lb x) - dotz (map f (la x)) s))).
    { assert (C : cong after ((f (lb x) mod after - dotz (map (fun v => f v mod after) (la x)) s) mod after) (f (lb x) - dotz (map f (la x)) s)).
      { rewrite (cong_mod after (_ - _)) by lia. rewrite (dotz_mod after f (la x) s) by lia. rewrite (cong_mod after (f (lb x))) by lia. reflexivity. }
      destruct C as (z & C). exists z. rewrite <- Z.mul_sub_distr_l, C. ring. }
    assert (E2 : cong (before * after) (after * ((lb x - dotz (la x) s) mod before)) (after * (lb x - dotz (la x) s))).
    { destruct (cong_mod before (lb x - dotz (la x) s) ltac:(lia)) as (z & C). exists z. rewrite <- Z.mul_sub_distr_l, C. ring. }
    rewrite E1, E2. unfold e. apply cong_of_eq. ring.
Qed.

Lemma sw_run x : good (lb x) -> (forall v, In v (la x) -> good v) -> lwe_modulus_switch B before after x = Some (sw x).
Proof.
  intros Gb Ga. unfold lwe_modulus_switch. rewrite (mapM_some _ (fun v => f v mod after)) by (intros v Hv; apply Ga; exact Hv).
  cbn [bind]. destruct Gb as (_ & _ & ->). reflexivity.
Qed.

Lemma sw_run_inplace x dst : good (lb x) -> (forall v, In v (la x) -> good v) -> length (la dst) = length (la x) ->
  lwe_modulus_switch_inplace B before after x dst = Some (sw x).
Proof.
  intros Gb Ga L. unfold lwe_modulus_switch_inplace.
  assert (E : zipA (fun _ v => ms_switch B before after v) (la dst) (la x) = Some (map (fun v => f v mod after) (la x))).
  { revert L Ga. generalize (la x) as a. generalize (la dst) as b. induction b as [|y b IH]; intros [|x0 a] L Ga; try discriminate L; [reflexivity|].
    cbn [zipA map]. destruct (Ga x0 (or_introl eq_refl)) as (_ & _ & ->). cbn [bind]. rewrite (IH a); [reflexivity|injection L as L; exact L|intros v Hv; apply Ga; right; exact Hv]. }
  rewrite E. cbn [bind]. destruct Gb as (_ & _ & ->). reflexivity.
Qed.
End Ct.

Lemma good_exact (B before after v : Z) : 0 < B <= 64 -> 0 < before < 2 ^ 64 -> 0 < after < 2 ^ B -> (before - 1) * after < 2 ^ 52 -> 0 <= v < before ->
  good B before after before (fun v => round_div (v * after) before) v.
Proof.
  intros HB Hb Ha Hx Hv. assert (v * after <= (before - 1) * after) by (apply Z.mul_le_mono_nonneg_r; lia). assert (0 <= v * after) by (apply Z.mul_nonneg_nonneg; lia).
  split; [split; [apply round_div_bounds; lia|apply round_div_le; lia]|]. split; [apply round_div_bounds; lia|apply ms_switch_exact; lia].
Qed.

(** The rounding bound outside the exact range. *)
Definition ms_slack (before after : Z) : Z := before + (before * after) / 2 ^ 49 + 1.
Lemma good_general (B before after v : Z) : 0 < B <= 64 -> 0 < before < 2 ^ 64 -> 0 < after < 2 ^ B -> after < 2 ^ 49 -> 0 <= v < before ->
  good B before after (ms_slack before after) (ms_raw B before after) v.
Proof.
  intros HB Hb Ha H49 Hv. destruct (ms_raw_general B before after v HB Hb Ha H49 Hv) as (R & E). split; [exact R|]. split; [|apply ms_reduce_ok; lia].
  assert (X1 : v * after <= before * after) by (apply Z.mul_le_mono_nonneg_r; lia). unfold ms_slack.
  pose proof (Z.mul_succ_div_gt (before * after) (2 ^ 49) ltac:(lia)) as D. set (w := before * after / 2 ^ 49) in *.
  set (y := Z.abs (2 * before * ms_raw B before after v - 2 * (v * after))) in *. set (z := v * after) in *. clearbody y z w. set (q := before * after) in *. clearbody q. clear - E X1 D. lia.
Qed.
