(** The reference primality test of the unit tests: trial division up to a square root in floating point. *)
From Coq Require Import ZArith Znumtheory List Bool Lia SpecFloat.
From Verif Require Import Spec.Basic Model.Base Model.Barrett Model.Prime Model.ModSwitch Model.UnitTests.
From Verif Require Import Proofs.Arith Proofs.BarrettProofs Proofs.PrimeProofs Proofs.PrimeChanceProofs Proofs.FloatProofs Proofs.NumTheory Proofs.UnitTestProofs.
Import ListNotations.
Local Open Scope Z_scope.

(** The square root of a number with 53 bits: some [R / T] with [(R-1)^2 <= m * 2^s < (R+1)^2]. *)
Lemma sqrt_ok (f : spec_float) (v : Z) : nf f (-52) 12 -> 2 ^ 53 * Z.abs (sv f - v * 2 ^ 300) <= v * 2 ^ 300 -> 0 < v ->
  exists mr er R t, SFsqrt 53 1024 f = S754_finite false mr er /\ 20 <= t <= 52 /\ er < 0 /\
    Zpos mr * 2 ^ t = R * 2 ^ (- er) /\ 0 < R /\
    2 ^ 53 * (R - 1) ^ 2 <= (2 ^ 53 + 1) * v * 2 ^ (2 * t) /\ (2 ^ 53 - 1) * v * 2 ^ (2 * t) < 2 ^ 53 * (R + 1) ^ 2.
Proof.
  intros (m & e & -> & Hm & He) Hs Hv. cbn [sv] in Hs. unfold SFsqrt, SFsqrt_core_binary.
  rewrite (Zdigits2_eq (Zpos m) 53) by lia. set (k := Z.div2 e).
  assert (Ek : e = 2 * k + e mod 2) by (unfold k; rewrite Z.div2_div; apply Z.div_mod; lia). pose proof (Z.mod_pos_bound e 2 ltac:(lia)) as Hb.
  assert (F : fexp 53 1024 (Z.div2 (53 + e + 1)) = k - 26).
  { rewrite Z.div2_div. replace (53 + e + 1) with (e mod 2 + (k + 27) * 2) by lia. rewrite Z.div_add, (Z.div_small (e mod 2)) by lia. unfold fexp, emin. lia. }
  rewrite F. replace (Z.min (k - 26) k) with (k - 26) by lia. replace (e - 2 * (k - 26)) with (e mod 2 + 52) by lia.
  assert (S : match e mod 2 + 52 with 0 => Zpos m | Zpos _ => Z.shiftl (Zpos m) (e mod 2 + 52) | Zneg _ => 0 end = Zpos m * 2 ^ (e mod 2 + 52)).
  { destruct (e mod 2 + 52) eqn:E; try lia. rewrite Z.shiftl_mul_pow2 by lia. reflexivity. }
  rewrite S. clear S. set (m' := Zpos m * 2 ^ (e mod 2 + 52)).
  assert (Hm' : 2 ^ 104 <= m' < 2 ^ 106).
  { unfold m'. rewrite Z.pow_add_r by lia. assert (D : e mod 2 = 0 \/ e mod 2 = 1) by lia. destruct D as [-> | ->].
    - change (2 ^ 0) with 1. change (2 ^ 104) with (2 ^ 52 * 2 ^ 52). change (2 ^ 106) with (2 * 2 ^ 53 * 2 ^ 52). nia.
    - change (2 ^ 1) with 2. change (2 ^ 104) with (2 ^ 52 * 2 ^ 52). change (2 ^ 106) with (2 * 2 ^ 53 * 2 ^ 52). nia. }
  pose proof (Z.sqrtrem_spec m' ltac:(lia)) as SQ. destruct (Z.sqrtrem m') as (q, r). destruct SQ as (SQ & SR).
  assert (Hq : 2 ^ 52 <= q < 2 ^ 53).
  { change (2 ^ 104) with (2 ^ 52 * 2 ^ 52) in Hm'. change (2 ^ 106) with (2 ^ 53 * 2 ^ 53) in Hm'. nia. }
  set (l := if Zeq_bool r 0 then loc_Exact else loc_Inexact (if r <=? q then Lt else Gt)).
  assert (L : exists c, 0 <= c < 4 /\ loc_ok 4 c l).
  { unfold l, loc_ok, Zeq_bool. destruct (Z.compare_spec r 0); [exists 0; split; [lia|split; [lia|reflexivity]]|..];
      (destruct (r <=? q); [exists 1; split; [lia|split; [lia|reflexivity]]|exists 3; split; [lia|split; [lia|reflexivity]]]). }
  destruct L as (c & Hc & L).
  destruct (round_aux_ok 4 c q (k - 26) 53 l ltac:(lia) L ltac:(lia) ltac:(lia) ltac:(lia) ltac:(lia)) as (mr & er & R & -> & M1 & R1 & E1 & MR & RE).
  change (53 - 53) with 0 in *. change (2 ^ 0) with 1 in RE. rewrite Z.add_0_r in *.
  assert (HR : q <= R <= q + 1) by lia. clear RE.
  exists mr, er, R, (26 - k). split; [reflexivity|]. split; [lia|]. split; [lia|]. split.
  { rewrite <- MR, <- Z.mul_assoc, <- Z.pow_add_r by lia. f_equal. f_equal. lia. }
  split; [lia|].
  assert (Q1 : (R - 1) ^ 2 <= m') by nia. assert (Q2 : m' < (R + 1) ^ 2) by nia. clear HR MR M1 E1 L.
  (* m' * 2^300 = sv * 2^(2t) *)
  assert (SV : m' * 2 ^ 300 = Zpos m * 2 ^ (e + 300) * 2 ^ (2 * (26 - k))).
  { unfold m'. rewrite <- !Z.mul_assoc, <- !Z.pow_add_r by lia. f_equal. f_equal. lia. }
  set (sf := Zpos m * 2 ^ (e + 300)) in *. assert (T0 : 0 < 2 ^ 300) by (apply Z.pow_pos_nonneg; lia).
  assert (K0 : 0 < 2 ^ (2 * (26 - k))) by (apply Z.pow_pos_nonneg; lia). set (K := 2 ^ (2 * (26 - k))) in *. set (N := 2 ^ 300) in *. clearbody N K sf m'.
  set (P := 2 ^ 53) in *. assert (HP : P = 9007199254740992) by reflexivity. clearbody P.
  split.
  - assert (A : P * sf <= (P + 1) * (v * N)) by nia.
    apply (Z.mul_le_mono_pos_r _ _ N T0). replace ((P + 1) * v * K * N) with ((P + 1) * (v * N) * K) by ring.
    apply Z.le_trans with (P * sf * K); [|nia]. replace (P * sf * K) with (P * (m' * N)) by (rewrite SV; ring). nia.
  - assert (A : (P - 1) * (v * N) <= P * sf) by nia.
    apply (Z.mul_lt_mono_pos_r N _ _ T0). replace ((P - 1) * v * K * N) with ((P - 1) * (v * N) * K) by ring.
    apply Z.le_lt_trans with (P * sf * K); [nia|]. replace (P * sf * K) with (P * (m' * N)) by (rewrite SV; ring). nia.
Qed.

Lemma ceil_bounds a b : 0 < b -> (- ((- a) / b)) * b - b < a <= (- ((- a) / b)) * b.
Proof. intros H. pose proof (Z.div_mod (- a) b ltac:(lia)). pose proof (Z.mod_pos_bound (- a) b H). nia. Qed.

Lemma prime_root_ok B v : 62 <= B -> 0 < v < 2 ^ 62 ->
  (forall r, 0 < r -> r ^ 2 <= v -> r <= prime_root B v) /\ (forall r, 0 < r -> v < r ^ 2 -> prime_root B v <= r + 1).
Proof.
  intros HB Hv. destruct (f64_of_ok v ltac:(lia)) as (NF & (u & R0 & Hu & ESV & Hbig & Hclose) & _).
  assert (HS : 2 ^ 53 * Z.abs (sv (f64_of v) - v * 2 ^ 300) <= v * 2 ^ 300).
  { rewrite !Z.mul_1_r in *. change (2 ^ 53) with (2 * 2 ^ 52). nia. }
  destruct (sqrt_ok _ v NF HS ltac:(lia)) as (mr & er & R & t & E & Ht & Her & EV & HR & Lo & Hi).
  unfold prime_root, f64_ceil_to. rewrite E. replace (0 <=? er) with false by lia.
  set (T := 2 ^ t) in *. assert (T1 : 2 ^ 20 <= T) by (apply Z.pow_le_mono_r; lia).
  assert (T2 : T <= 2 ^ 52) by (apply Z.pow_le_mono_r; lia).
  assert (ET : 2 ^ (2 * t) = T * T) by (unfold T; apply pow2_double; lia). rewrite ET in Lo, Hi.
  assert (D0 : 0 < 2 ^ (- er)) by (apply Z.pow_pos_nonneg; lia). set (D := 2 ^ (- er)) in *.
  pose proof (ceil_bounds (Zpos mr) D D0) as C. set (c := - (- Zpos mr / D)) in *.
  assert (CT : c * T - T < R <= c * T) by nia. clear C. clearbody c T D.
  set (P := 2 ^ 53) in *. assert (HP : P = 9007199254740992) by reflexivity. clearbody P.
  assert (UP : forall r, 0 < r -> v < r ^ 2 -> c <= r + 1).
  { intros r Hr0 Hr. destruct (Z_le_gt_dec c (r + 1)) as [|N]; [assumption|exfalso].
    assert (A : (r + 1) * T < R) by nia. assert (A2 : ((r + 1) * T) ^ 2 <= (R - 1) ^ 2) by (apply Z.pow_le_mono_l; nia).
    assert (A3 : P * ((r + 1) * T) ^ 2 <= (P + 1) * v * (T * T)) by nia.
    replace (((r + 1) * T) ^ 2) with ((r + 1) ^ 2 * (T * T)) in A3 by ring. assert (P * (r + 1) ^ 2 <= (P + 1) * v) by nia. nia. }
  assert (CB : c <= 2 ^ 31 + 1) by (apply (UP (2 ^ 31)); lia).
  rewrite Z.min_r.
  2:{ pose proof (Z.pow_le_mono_r 2 62 B ltac:(lia) HB). lia. }
  split; [|exact UP].
  intros r Hr0 Hr. destruct (Z_le_gt_dec r c) as [|N]; [assumption|exfalso].
  assert (r < 2 ^ 31) by (change (2 ^ 62) with (2 ^ 31 * 2 ^ 31) in Hv; nia).
  assert (A : R + 1 <= (r - 1) * T + 1) by nia.
  assert (A2 : (R + 1) ^ 2 <= ((r - 1) * T + 1) ^ 2) by (apply Z.pow_le_mono_l; lia).
  assert (A3 : (P - 1) * (r ^ 2 * (T * T)) < P * ((r - 1) * T + 1) ^ 2).
  { apply Z.le_lt_trans with ((P - 1) * v * (T * T)).
    - rewrite <- Z.mul_assoc. apply Z.mul_le_mono_nonneg_l; [lia|]. apply Z.mul_le_mono_nonneg_r; [apply Z.square_nonneg|exact Hr].
    - eapply Z.lt_le_trans; [exact Hi|]. apply Z.mul_le_mono_nonneg_l; [lia|exact A2]. }
  clear Lo Hi A2 UP CB CT A.
  (* r T = X, T - 1 = Y: (P-1) X^2 < P (X - Y)^2 *)
  set (X := r * T) in *. replace (r ^ 2 * (T * T)) with (X * X) in A3 by (unfold X; ring).
  replace ((r - 1) * T + 1) with (X - (T - 1)) in A3 by (unfold X; ring).
  assert (XB : X * 4194304 <= P * T) by (unfold X; nia). assert (XT : T - 1 <= X) by (unfold X; nia). clearbody X.
  assert (A4 : P * (2 * X * (T - 1) - (T - 1) * (T - 1)) < X * X) by nia.
  assert (A5 : P * (X * (T - 1)) < X * X) by nia. assert (A6 : P * (T - 1) < X) by nia. nia.
Qed.

Lemma simple_prime_iff B m : 62 <= B -> 2 <= m < 2 ^ 62 -> (simple_prime_test B m = true <-> prime m /\ m <> 2).
Proof.
  intros HB Hm. unfold simple_prime_test. destruct (Z.eqb_spec (m mod 2) 0) as [E|E].
  - split; [discriminate|]. intros (Hp & N). exfalso. apply Z.mod_divide in E; [|lia]. destruct (prime_divisors m Hp 2 E) as [X|[X|[X|X]]]; lia.
  - destruct (prime_root_ok B m HB ltac:(lia)) as (Lo & Up). rewrite forallb_forall. split.
    + intros H. split; [|intros ->; apply E; reflexivity]. destruct (prime_dec m) as [|N]; [assumption|exfalso].
      destruct (not_prime_divide m ltac:(lia) N) as (d0 & Hd0 & Dd0).
      assert (X : exists d, 1 < d /\ (d | m) /\ d ^ 2 <= m).
      { destruct Dd0 as (k & Ek). destruct (Z_le_gt_dec d0 k); [exists d0|exists k]; (split; [nia|]; split; [|nia]); [exists k; exact Ek|exists d0; lia]. }
      destruct X as (d & Hd & Dd & Sd). pose proof (Lo d ltac:(lia) Sd) as Ld.
      assert (Od : d mod 2 = 1).
      { pose proof (Z.mod_pos_bound d 2 ltac:(lia)). destruct (Z.eq_dec (d mod 2) 0) as [Z0|]; [|lia]. exfalso. apply E. apply Z.mod_divide; [lia|].
        apply Z.divide_trans with d; [apply Z.mod_divide; lia|exact Dd]. }
      pose proof (Z.div_mod d 2 ltac:(lia)) as Ed. rewrite Od in Ed.
      specialize (H (Z.to_nat (d / 2 - 1))). rewrite in_seq in H.
      assert (IN : (0 <= Z.to_nat (d / 2 - 1) < 0 + Z.to_nat ((prime_root B m - 1) / 2))%nat).
      { split; [lia|]. cbn [Nat.add]. apply Z2Nat.inj_lt; [lia|apply Z.div_pos; lia|]. assert (d / 2 <= (prime_root B m - 1) / 2) by (apply Z.div_le_lower_bound; lia). lia. }
      specialize (H IN). rewrite Z2Nat.id in H by lia. replace (3 + 2 * (d / 2 - 1)) with d in H by lia.
      apply Z.mod_divide in Dd; [|lia]. rewrite Dd in H. discriminate.
    + intros (Hp & N) i Hi. apply in_seq in Hi. destruct (Z.eqb_spec (m mod (3 + 2 * Z.of_nat i)) 0) as [D|]; [exfalso|reflexivity].
      apply Z.mod_divide in D; [|lia].
      assert (R : prime_root B m < m).
      { destruct (Z.eq_dec m 3) as [->|N3]; [assert (P3 : prime_root B 3 = Z.min (2 ^ B - 1) 2) by reflexivity; lia|].
        assert (N4 : m <> 4) by (intros ->; apply E; reflexivity). set (s := Z.sqrt m).
        pose proof (Z.sqrt_spec m ltac:(lia)) as S. cbv zeta in S. fold s in S. pose proof (Up (Z.succ s) ltac:(unfold s; pose proof (Z.sqrt_nonneg m); lia) ltac:(rewrite Z.pow_2_r; apply S)) as U.
        assert (S0 : 0 <= s) by apply Z.sqrt_nonneg. clearbody s. assert (S2 : 2 <= s). { destruct (Z_lt_dec s 2); [|lia]. assert (D2 : s = 0 \/ s = 1) by lia. destruct D2 as [-> | ->]; lia. } destruct (Z.eq_dec s 2) as [->|S3]; [lia|]. assert (s * s >= 3 * s) by nia. lia. }
      assert (3 + 2 * Z.of_nat i <= prime_root B m).
      { assert (Z.of_nat i < (prime_root B m - 1) / 2) by lia. pose proof (Z.mul_div_le (prime_root B m - 1) 2 ltac:(lia)). lia. }
      destruct (prime_divisors m Hp _ D) as [X|[X|[X|X]]]; lia.
Qed.

(** One modulus of the test. *)
Lemma ut_prime_one B m mo draw : wwidth B -> 62 <= B -> 2 <= m < 2 ^ 62 -> barrett_new B m = Some mo -> (64 <= m -> forall i, 3 <= draw i <= m - 1) ->
  exists b, probably_prime B mo 20 draw = Some b /\ (prime m -> b = true) /\
    (Bool.eqb b (simple_prime_test B m) = true <-> m <> 2 /\ (b = true -> prime m)).
Proof.
  intros HB HB62 Hm E Hd. destruct (barrett_new_inv B m mo HB ltac:(lia) E) as (HR & V & Ok).
  assert (X : exists b, probably_prime B mo 20 draw = Some b /\ (prime m -> b = true)).
  { destruct (Z_lt_dec m 64) as [L|L].
    - destruct (probably_prime_small B m mo 20 draw HB E ltac:(lia)) as (b & Eb & Hb). exists b. split; [exact Eb|apply Hb].
    - destruct (test_exact B mo HB Ok ltac:(rewrite V; lia) 20 draw ltac:(rewrite V; apply Hd; lia)) as (b & Eb & _). exists b. split; [exact Eb|].
      intros Hp. assert (P : probably_prime B mo 20 draw = Some true).
      { apply probably_prime_prime; try assumption; rewrite V; [assumption|apply Hd; lia]. }
      congruence. }
  destruct X as (b & Eb & Hb). exists b. split; [exact Eb|]. split; [exact Hb|]. pose proof (simple_prime_iff B m HB62 Hm) as S.
  rewrite eqb_true_iff. split.
  - intros ->. split; [intros ->; specialize (Hb prime_2); apply S in Hb; tauto|]. intros H. apply S, H.
  - intros (N & H). destruct b; destruct (simple_prime_test B m); try reflexivity.
    + symmetry. apply S. auto.
    + apply Hb. apply S. reflexivity.
Qed.
Definition prime_draw_ok (B : Z) (mb : Z * (nat -> Z)) : Prop :=
  fst mb <> 2 /\ forall mo, barrett_new B (fst mb) = Some mo -> probably_prime B mo 20 (snd mb) = Some true -> prime (fst mb).
Lemma ut_prime_iff B draws : wwidth B -> 64 <= B ->
  Forall (fun mb => 2 <= fst mb < 2 ^ 62 /\ (64 <= fst mb -> forall i, 3 <= snd mb i <= fst mb - 1)) draws ->
  (ut_prime B draws = Some tt <-> Forall (prime_draw_ok B) draws).
Proof.
  intros HB H64 H. unfold ut_prime. induction H as [|(m & draw) l (Hm & Hd) _ IH]; [split; [constructor|reflexivity]|].
  cbn [foldM fst snd] in *. pose proof (Z.pow_le_mono_r 2 62 (B - 2) ltac:(lia) ltac:(lia)).
  destruct (m_new B m HB ltac:(lia)) as (mo & E & V & Ok). rewrite E. cbn [bind].
  destruct (ut_prime_one B m mo draw HB ltac:(lia) Hm E Hd) as (b & Eb & _ & Hb). rewrite Eb. cbn [bind].
  rewrite Forall_cons_iff, <- IH. clear IH. unfold prime_draw_ok at 1. cbn [fst snd].
  assert (Q : m <> 2 /\ (b = true -> prime m) <-> (m <> 2 /\ forall mo0, barrett_new B m = Some mo0 -> probably_prime B mo0 20 draw = Some true -> prime m)).
  { split.
    - intros (N & P). split; [exact N|]. intros mo0 E0 E1. rewrite E in E0. injection E0 as <-. rewrite Eb in E1. injection E1 as ->. auto.
    - intros (N & P). split; [exact N|]. intros ->. exact (P mo E Eb). }
  rewrite <- Q, <- Hb. destruct (Bool.eqb b (simple_prime_test B m)); cbn [assert bind]; [tauto|]. split; [discriminate|intros (X & _); discriminate X].
Qed.
