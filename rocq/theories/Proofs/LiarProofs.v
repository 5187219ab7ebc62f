(** At most a quarter of the residues pass one round of the Miller-Rabin test of a composite. *)
From Coq Require Import ZArith Znumtheory List Arith Bool Lia.
From Verif Require Import Spec.Basic Spec.Count.
From Verif Require Import Proofs.Arith Proofs.NumTheory Proofs.PolyMath Proofs.RandomProofs Proofs.RootChanceProofs.
Import ListNotations.
Local Open Scope Z_scope.

(** * Disjoint cosets *)
Fixpoint apart (v : Z) (L bs : list Z) : Prop :=
  match bs with
  | [] => True
  | b :: bs' => Forall (fun c => forall s s', In s L -> In s' L -> ~ cong v (b * s) (c * s')) bs' /\ apart v L bs'
  end.

Lemma NoDup_app_apart {A} (l l' : list A) : NoDup l -> NoDup l' -> (forall x, In x l -> In x l' -> False) -> NoDup (l ++ l').
Proof.
  induction 1 as [|x l Hx Hl IH]; intros Hl' H; [exact Hl'|]. cbn [app]. constructor.
  - rewrite in_app_iff. intros [K|K]; [contradiction|]. apply (H x); [left; reflexivity|exact K].
  - apply IH; [exact Hl'|]. intros y Hy. apply H. right. exact Hy.
Qed.

Lemma coset_count v L bs : 1 < v -> NoDup L -> incl L (zseq (Z.to_nat (v - 1))) -> Forall (rel_prime v) bs -> apart v L bs ->
  Z.of_nat (length bs) * Z.of_nat (length L) <= v - 1.
Proof.
  intros Hv HL Hin Hb Ha.
  set (M := flat_map (fun b => map (fun s => (b * s) mod v) L) bs).
  assert (LM : length M = (length bs * length L)%nat).
  { unfold M. clear. induction bs as [|b bs IH]; [reflexivity|]. cbn [flat_map length]. rewrite app_length, map_length, IH. lia. }
  assert (Rng : forall s, In s L -> 1 <= s <= v - 1).
  { intros s Hs. apply Hin, zseq_in in Hs. lia. }
  assert (IM : incl M (zseq (Z.to_nat (v - 1)))).
  { intros x Hx. unfold M in Hx. apply in_flat_map in Hx as (b & Hbb & Hx). apply in_map_iff in Hx as (s & <- & Hs).
    apply zseq_in. pose proof (Z.mod_pos_bound (b * s) v ltac:(lia)).
    enough ((b * s) mod v <> 0) by lia. intros E. apply Z.mod_divide in E; [|lia].
    rewrite Forall_forall in Hb. apply Gauss in E; [|apply Hb; exact Hbb]. apply Z.divide_pos_le in E; specialize (Rng s Hs); lia. }
  assert (NM : NoDup M).
  { unfold M. clear LM IM. induction bs as [|b bs IH]; [constructor|]. inversion Hb; subst. destruct Ha as (Ha & Ha').
    cbn [flat_map]. apply NoDup_app_apart.
    - apply NoDup_map_inj; [|exact HL]. intros x y Hx Hy E.
      assert (C : cong v (b * x) (b * y)) by (apply cong_iff; [lia|exact E]).
      apply cong_cancel in C; [|assumption]. apply Rng in Hx, Hy. apply cong_iff in C; [|lia]. rewrite !Z.mod_small in C by lia. exact C.
    - apply IH; assumption.
    - intros x Hx Hx'. apply in_map_iff in Hx as (s & E & Hs). apply in_flat_map in Hx' as (c & Hc & Hx').
      apply in_map_iff in Hx' as (s' & E' & Hs'). rewrite Forall_forall in Ha. apply (Ha c Hc s s' Hs Hs').
      apply cong_iff; [lia|]. congruence. }
  pose proof (NoDup_incl_length NM IM) as H. rewrite LM in H. unfold zseq in H. rewrite map_length, seq_length in H. lia.
Qed.

Ltac apart_split := cbn [apart]; repeat match goal with
  | |- _ /\ _ => split
  | |- Forall _ (_ :: _) => apply Forall_cons
  | |- Forall _ [] => apply Forall_nil
  | |- True => exact I
  end.

(** * Signs *)
Definition sg (x : Z) : Prop := x = 1 \/ x = -1.
Lemma sg_eq m a b : 2 < m -> sg a -> sg b -> cong m a b -> a = b.
Proof.
  intros Hm Ha Hb [q Hq]. destruct Ha as [->| ->], Hb as [->| ->]; try reflexivity; exfalso.
  - assert (D : (m | 2)) by (exists q; lia). apply Z.divide_pos_le in D; lia.
  - assert (D : (m | 2)) by (exists (- q); lia). apply Z.divide_pos_le in D; lia.
Qed.
Lemma sg_mul a b : sg a -> sg b -> sg (a * b).
Proof. unfold sg. intros [->| ->] [->| ->]; auto. Qed.
Lemma cong_div v m a b : (m | v) -> cong v a b -> cong m a b.
Proof. intros H C. exact (Z.divide_trans _ _ _ H C). Qed.

Lemma clash v e m1 m2 b c b1 b2 c1 c2 s s' x x' : 0 <= e -> (m1 | v) -> (m2 | v) -> 2 < m1 -> 2 < m2 ->
  sg b1 -> sg b2 -> sg c1 -> sg c2 -> cong m1 (b ^ e) b1 -> cong m2 (b ^ e) b2 -> cong m1 (c ^ e) c1 -> cong m2 (c ^ e) c2 ->
  b1 * c1 <> b2 * c2 -> sg x -> sg x' -> cong v (s ^ e) x -> cong v (s' ^ e) x' -> ~ cong v (b * s) (c * s').
Proof.
  intros He D1 D2 H1 H2 Sb1 Sb2 Sc1 Sc2 Eb1 Eb2 Ec1 Ec2 Hne Sx Sx' Es Es' C.
  assert (P : cong v (b ^ e * s ^ e) (c ^ e * s' ^ e)) by (rewrite <- !Z.pow_mul_l; apply cong_pow; exact C).
  assert (P1 : b1 * x = c1 * x').
  { apply (sg_eq m1); [exact H1|apply sg_mul; assumption|apply sg_mul; assumption|].
    rewrite <- Eb1, <- Ec1, <- (cong_div _ _ _ _ D1 Es), <- (cong_div _ _ _ _ D1 Es'). apply (cong_div v); assumption. }
  assert (P2 : b2 * x = c2 * x').
  { apply (sg_eq m2); [exact H2|apply sg_mul; assumption|apply sg_mul; assumption|].
    rewrite <- Eb2, <- Ec2, <- (cong_div _ _ _ _ D2 Es), <- (cong_div _ _ _ _ D2 Es'). apply (cong_div v); assumption. }
  apply Hne. unfold sg in *. intuition subst; lia.
Qed.

(** * Chinese remainders *)
Lemma crt m1 m2 a b : rel_prime m1 m2 -> exists x, cong m1 x a /\ cong m2 x b.
Proof.
  intros H. apply rel_prime_bezout in H. destruct H as [u w E].
  exists (a * (w * m2) + b * (u * m1)). split.
  - exists (u * (b - a)). replace (w * m2) with (1 - u * m1) by lia. ring.
  - exists (w * (a - b)). replace (u * m1) with (1 - w * m2) by lia. ring.
Qed.
Lemma rel_prime_of_inverse v b c : cong v (b * c) 1 -> rel_prime v b.
Proof. intros [q Hq]. apply bezout_rel_prime. exists (- q) c. lia. Qed.
Lemma rel_prime_pow v b e x : 0 < e -> sg x -> cong v (b ^ e) x -> rel_prime v b.
Proof.
  intros He Sx C. apply (rel_prime_of_inverse v b (x * b ^ (e - 1))).
  replace (b * (x * b ^ (e - 1))) with (x * b ^ e) by (replace e with (1 + (e - 1)) at 1 by lia; rewrite Z.pow_add_r by lia; ring).
  rewrite C. destruct Sx as [->| ->]; reflexivity.
Qed.
Lemma rel_prime_factors m1 m2 b : rel_prime m1 b -> rel_prime m2 b -> rel_prime (m1 * m2) b.
Proof. intros H1 H2. apply rel_prime_sym, rel_prime_mult; apply rel_prime_sym; assumption. Qed.

(** * One round on a composite *)
Section Composite.
Variables v q r : Z.
Hypothesis Hv : 2 < v.
Hypothesis Hq : 0 < q.
Hypothesis Hqo : Z.odd q = true.
Hypothesis Hr : 0 < r.
Hypothesis E : v - 1 = q * 2 ^ r.

Definition liar (a : Z) : Prop := cong v (a ^ q) 1 \/ exists j, 0 <= j < r /\ cong v (a ^ (q * 2 ^ j)) (-1).

Lemma pow2_split j i : 0 <= i <= j -> 2 ^ j = 2 ^ i * 2 ^ (j - i).
Proof. intros H. rewrite <- Z.pow_add_r by lia. f_equal. lia. Qed.
Lemma one_up a i j : 0 <= i <= j -> cong v (a ^ (q * 2 ^ i)) 1 -> cong v (a ^ (q * 2 ^ j)) 1.
Proof.
  intros H C. rewrite (pow2_split j i H), Z.mul_assoc, Z.pow_mul_r by (try apply Z.mul_nonneg_nonneg; try apply Z.pow_nonneg; lia).
  rewrite (cong_pow v _ 1 _ C). rewrite Z.pow_1_l by (apply Z.pow_nonneg; lia). reflexivity.
Qed.
Lemma minus_up a i j : 0 <= i < j -> cong v (a ^ (q * 2 ^ i)) (-1) -> cong v (a ^ (q * 2 ^ j)) 1.
Proof.
  intros H C. apply (one_up a (i + 1) j); [lia|].
  rewrite pow2_succ by lia. replace (q * (2 * 2 ^ i)) with (q * 2 ^ i * 2) by ring.
  rewrite Z.pow_mul_r by (try apply Z.mul_nonneg_nonneg; try apply Z.pow_nonneg; lia).
  rewrite (cong_pow v _ (-1) _ C). reflexivity.
Qed.

Lemma liar_fermat a : liar a -> cong v (a ^ (v - 1)) 1.
Proof.
  rewrite E. intros [C|(j & Hj & C)].
  - apply (one_up a 0 r); [lia|]. rewrite Z.mul_1_r. exact C.
  - apply (minus_up a j r); [lia|exact C].
Qed.

Lemma last_true (P : nat -> bool) : P O = true -> forall n, (0 < n)%nat ->
  exists j, (j < n)%nat /\ P j = true /\ forall i, (i < n)%nat -> P i = true -> (i <= j)%nat.
Proof.
  intros H0. induction n as [|n IH]; intros Hn; [lia|]. destruct (P n) eqn:En.
  - exists n. split; [lia|]. split; [exact En|]. intros. lia.
  - destruct n as [|n]; [congruence|]. destruct (IH ltac:(lia)) as (j & Hj & Pj & M). exists j. split; [lia|]. split; [exact Pj|].
    intros i Hi Pi. destruct (Nat.eq_dec i (S n)) as [->|]; [congruence|]. apply M; [lia|exact Pi].
Qed.

(** The largest exponent at which -1 occurs. *)
Lemma top_level : exists j a0, 0 <= j < r /\ cong v (a0 ^ (q * 2 ^ j)) (-1) /\
  forall a i, 0 <= i < r -> cong v (a ^ (q * 2 ^ i)) (-1) -> i <= j.
Proof.
  set (P := fun i : nat => existsb (fun a => a ^ (q * 2 ^ Z.of_nat i) mod v =? v - 1) (zseq (Z.to_nat (v - 1)))).
  assert (HP : forall i, P i = true <-> exists a, cong v (a ^ (q * 2 ^ Z.of_nat i)) (-1)).
  { intros i. unfold P. rewrite existsb_exists. pose proof (Z.pow_nonneg 2 (Z.of_nat i) ltac:(lia)).
    assert (K : -1 mod v = v - 1) by (symmetry; apply Z.mod_unique with (-1); lia). split.
    - intros (a & _ & Ha). exists a. apply cong_iff; [lia|]. apply Z.eqb_eq in Ha. congruence.
    - intros (a & Ha). exists (a mod v). rewrite zseq_in, Z.eqb_eq.
      assert (C : cong v ((a mod v) ^ (q * 2 ^ Z.of_nat i)) (-1)) by (rewrite (cong_pow v _ a _ (cong_mod v a ltac:(lia))); exact Ha).
      split; [|apply cong_iff in C; [|lia]; congruence].
      pose proof (Z.mod_pos_bound a v ltac:(lia)). enough (a mod v <> 0) by lia. intros Z0. rewrite Z0 in C.
      rewrite Z.pow_0_l in C by (pose proof (pow2_pos (Z.of_nat i)); nia). destruct C as [x Hx].
      assert (D : (v | 1)) by (exists x; lia). apply Z.divide_1_r_nonneg in D; lia. }
  destruct (last_true P) with (n := Z.to_nat r) as (j & Hj & Pj & M).
  - apply HP. exists (-1). change (2 ^ Z.of_nat 0) with 1. rewrite Z.mul_1_r. apply cong_of_eq. clear -Hqo Hq.
    apply Z.odd_spec in Hqo. destruct Hqo as [h ->]. rewrite Z.pow_add_r, Z.pow_mul_r by lia. change ((-1) ^ 2) with 1. rewrite Z.pow_1_l by lia. reflexivity.
  - lia.
  - apply HP in Pj as (a0 & Ha0). exists (Z.of_nat j), a0. split; [lia|]. split; [exact Ha0|]. intros a i Hi C.
    specialize (M (Z.to_nat i) ltac:(lia)). enough (Z.to_nat i <= j)%nat by lia. apply M, HP. exists a. rewrite Z2Nat.id by lia. exact C.
Qed.

(** A list of liars. *)
Variable L : list Z.
Hypothesis LN : NoDup L.
Hypothesis LI : incl L (zseq (Z.to_nat (v - 1))).
Hypothesis LL : forall a, In a L -> liar a.

Lemma level_sign j : 0 <= j < r -> (forall a i, 0 <= i < r -> cong v (a ^ (q * 2 ^ i)) (-1) -> i <= j) ->
  forall a, In a L -> exists x, sg x /\ cong v (a ^ (q * 2 ^ j)) x.
Proof.
  intros Hj M a Ha. destruct (LL a Ha) as [C|(i & Hi & C)].
  - exists 1. split; [left; reflexivity|]. apply (one_up a 0 j); [lia|]. rewrite Z.mul_1_r. exact C.
  - pose proof (M a i Hi C). destruct (Z.eq_dec i j) as [->|].
    + exists (-1). split; [right; reflexivity|exact C].
    + exists 1. split; [left; reflexivity|]. apply (minus_up a i j); [lia|exact C].
Qed.

(** A square factor. *)
Lemma quarter_square p m : v = p * m -> (p | m) -> 5 <= p -> 4 * Z.of_nat (length L) <= v - 1.
Proof.
  intros Ev [t Et] Hp5. assert (Hm : 0 < m) by nia.
  assert (Q : forall i k, 0 <= k -> cong v ((1 + i * m) ^ k) (1 + k * i * m)).
  { intros i k Hk. revert k Hk. apply natlike_ind; [apply cong_of_eq; rewrite Z.pow_0_r; ring|].
    intros k Hk IH. rewrite Z.pow_succ_r by exact Hk. rewrite IH. exists (k * i * i * t).
    rewrite Ev. replace (k * i * i * t * (p * m)) with (k * i * i * (t * p) * m) by ring. rewrite <- Et. ring. }
  assert (R : forall i, rel_prime v (1 + i * m)).
  { intros i. apply (rel_prime_of_inverse _ _ (1 - i * m)). exists (- (i * i * t)). rewrite Ev.
    replace (- (i * i * t) * (p * m)) with (- (i * i * (t * p) * m)) by ring. rewrite <- Et. ring. }
  assert (A : forall i j s s', -3 <= i - j <= 3 -> i <> j -> In s L -> In s' L -> ~ cong v ((1 + i * m) * s) ((1 + j * m) * s')).
  { intros i j s s' Hij Hne Hs Hs' C. apply (cong_pow v _ _ (v - 1)) in C; rewrite !Z.pow_mul_l in C.
    rewrite (liar_fermat s (LL s Hs)), (liar_fermat s' (LL s' Hs')), !Q in C by lia.
    destruct C as [x Hx]. assert (D : (p | i - j)).
    { exists (- x + (i - j) * m). apply (Z.mul_reg_r _ _ m); [lia|]. rewrite Ev in Hx. nia. }
    destruct D as [y Hy]. assert (y <> 0) by (intros ->; lia). nia. }
  apply (coset_count v L [1 + 0 * m; 1 + 1 * m; 1 + 2 * m; 1 + 3 * m]); [lia|exact LN|exact LI| |].
  - repeat (apply Forall_cons; [apply R|]). apply Forall_nil.
  - apart_split; intros s s' Hs Hs'; apply A; (lia || assumption).
Qed.

(** Three coprime factors. *)
Lemma quarter_three m1 m2 m3 : v = m1 * (m2 * m3) -> 2 < m1 -> 2 < m2 -> 2 < m3 ->
  rel_prime m1 m2 -> rel_prime m1 m3 -> rel_prime m2 m3 -> 4 * Z.of_nat (length L) <= v - 1.
Proof.
  intros Ev H1 H2 H3 R12 R13 R23. destruct top_level as (j & a0 & Hj & Ha0 & M). set (e := q * 2 ^ j) in *.
  pose proof (pow2_pos j ltac:(lia)) as Hpj. assert (He : 0 < e) by (unfold e; nia).
  pose proof (level_sign j Hj M) as LS. fold e in LS.
  assert (D1 : (m1 | v)) by (exists (m2 * m3); rewrite Ev; ring).
  assert (D2 : (m2 | v)) by (exists (m1 * m3); rewrite Ev; ring).
  assert (D3 : (m3 | v)) by (exists (m1 * m2); rewrite Ev; ring).
  destruct (crt m1 (m2 * m3) a0 1) as (b & B1 & B23); [apply rel_prime_mult; assumption|].
  destruct (crt m2 (m1 * m3) a0 1) as (c & C2 & C13); [apply rel_prime_mult; [apply rel_prime_sym|]; assumption|].
  assert (B2 : cong m2 b 1) by (apply (cong_div (m2 * m3)); [exists m3; ring|exact B23]).
  assert (B3 : cong m3 b 1) by (apply (cong_div (m2 * m3)); [exists m2; ring|exact B23]).
  assert (C1 : cong m1 c 1) by (apply (cong_div (m1 * m3)); [exists m3; ring|exact C13]).
  assert (C3 : cong m3 c 1) by (apply (cong_div (m1 * m3)); [exists m1; ring|exact C13]).
  assert (One : forall m x, cong m x 1 -> cong m (x ^ e) 1) by (intros m x H; rewrite (cong_pow m x 1 e H), Z.pow_1_l by lia; reflexivity).
  assert (Neg : forall m x, (m | v) -> cong m x a0 -> cong m (x ^ e) (-1)) by (intros m x Hm H; rewrite (cong_pow m x a0 e H); apply (cong_div v); assumption).
  pose proof (Neg m1 b D1 B1) as Pb1. pose proof (One m2 b B2) as Pb2. pose proof (One m3 b B3) as Pb3.
  pose proof (One m1 c C1) as Pc1. pose proof (Neg m2 c D2 C2) as Pc2. pose proof (One m3 c C3) as Pc3.
  assert (Pm : forall m x y, cong m (b ^ e) x -> cong m (c ^ e) y -> cong m ((b * c) ^ e) (x * y)) by (intros m x y X Y; rewrite Z.pow_mul_l, X, Y; reflexivity).
  pose proof (Pm _ _ _ Pb1 Pc1) as Pd1. pose proof (Pm _ _ _ Pb2 Pc2) as Pd2. pose proof (Pm _ _ _ Pb3 Pc3) as Pd3.
  assert (P1 : forall m, cong m (1 ^ e) 1) by (intros m; apply One; reflexivity).
  assert (S1 : sg 1) by (left; reflexivity). assert (Sm : sg (-1)) by (right; reflexivity).
  assert (K : forall x y x1 x2 y1 y2 m m', (m | v) -> (m' | v) -> 2 < m -> 2 < m' -> sg x1 -> sg x2 -> sg y1 -> sg y2 ->
    cong m (x ^ e) x1 -> cong m' (x ^ e) x2 -> cong m (y ^ e) y1 -> cong m' (y ^ e) y2 -> x1 * y1 <> x2 * y2 ->
    forall s s', In s L -> In s' L -> ~ cong v (x * s) (y * s')).
  { intros x y x1 x2 y1 y2 m m' Dm Dm' Gm Gm' X1 X2 Y1 Y2 Z1 Z2 Z3 Z4 Hne s s' Hs Hs'.
    destruct (LS s Hs) as (u & Su & Cu). destruct (LS s' Hs') as (u' & Su' & Cu').
    apply (clash v e m m' x y x1 x2 y1 y2 s s' u u'); (lia || assumption). }
  assert (Rp : forall x x1 x2 x3, sg x1 -> sg x2 -> sg x3 -> cong m1 (x ^ e) x1 -> cong m2 (x ^ e) x2 -> cong m3 (x ^ e) x3 -> rel_prime v x).
  { intros x x1 x2 x3 S1' S2' S3' X1 X2 X3. rewrite Ev. apply rel_prime_factors; [|apply rel_prime_factors].
    - apply (rel_prime_pow m1 x e x1); assumption.
    - apply (rel_prime_pow m2 x e x2); assumption.
    - apply (rel_prime_pow m3 x e x3); assumption. }
  apply (coset_count v L [1; b; c; b * c]); [lia|exact LN|exact LI| |].
  - constructor; [apply (Rp 1 1 1 1); auto|]. constructor; [apply (Rp b (-1) 1 1); auto|]. constructor; [apply (Rp c 1 (-1) 1); auto|].
    constructor; [|constructor]. apply (Rp (b * c) (-1 * 1) (1 * -1) (1 * 1)); auto.
  - apart_split.
    + apply (K 1 b 1 1 (-1) 1 m1 m2); auto; lia.
    + apply (K 1 c 1 1 1 (-1) m1 m2); auto; lia.
    + apply (K 1 (b * c) 1 1 (-1 * 1) (1 * 1) m1 m3); auto; lia.
    + apply (K b c (-1) 1 1 1 m1 m3); auto; lia.
    + apply (K b (b * c) (-1) 1 (-1 * 1) (1 * -1) m1 m2); auto; lia.
    + apply (K c (b * c) 1 (-1) (-1 * 1) (1 * -1) m1 m2); auto; lia.
Qed.

(** Two primes. *)
Lemma quarter_two p1 p2 : v = p1 * p2 -> prime p1 -> prime p2 -> 2 < p1 < p2 -> 4 * Z.of_nat (length L) <= v - 1.
Proof.
  intros Ev Hp1 Hp2 Hlt. destruct top_level as (j & a0 & Hj & Ha0 & M). set (e := q * 2 ^ j) in *.
  pose proof (pow2_pos j ltac:(lia)) as Hpj. assert (He : 0 < e) by (unfold e; nia).
  pose proof (level_sign j Hj M) as LS. fold e in LS.
  assert (D1 : (p1 | v)) by (exists p2; rewrite Ev; ring). assert (D2 : (p2 | v)) by (exists p1; rewrite Ev; ring).
  assert (R : rel_prime p1 p2).
  { apply prime_not_div_rel; [exact Hp1|]. intros D. apply prime_div_prime_eq in D; [lia|assumption|assumption]. }
  destruct (crt p1 p2 a0 1 R) as (b & B1 & B2).
  assert (Pb1 : cong p1 (b ^ e) (-1)) by (rewrite (cong_pow p1 b a0 e B1); apply (cong_div v); assumption).
  assert (Pb2 : cong p2 (b ^ e) 1) by (rewrite (cong_pow p2 b 1 e B2), Z.pow_1_l by lia; reflexivity).
  (* an element of the larger prime field whose order does not divide v - 1 *)
  assert (X : exists c0, 1 <= c0 < p2 /\ ~ cong p2 (c0 ^ (p1 - 1)) 1).
  { set (P := fun c => c ^ (p1 - 1) mod p2 =? 1). destruct (forallb P (zseq (Z.to_nat (p2 - 1)))) eqn:F.
    - exfalso. assert (N : (length (zseq (Z.to_nat (p2 - 1))) <= Z.to_nat (p1 - 1))%nat).
      { apply (power_roots p2 (Z.to_nat (p1 - 1)) 1); [exact Hp2|lia|apply zseq_nodup| |].
        - apply Forall_forall. intros x Hx. apply zseq_in in Hx. lia.
        - apply Forall_forall. intros x Hx. rewrite forallb_forall in F. specialize (F x Hx). unfold P in F. apply Z.eqb_eq in F.
          apply cong_iff; [lia|]. unfold npow. rewrite Z2Nat.id by lia. rewrite F. symmetry. apply Z.mod_small. lia. }
      unfold zseq in N. rewrite map_length, seq_length in N. lia.
    - assert (G : forall l, forallb P l = false -> exists c, In c l /\ P c = false).
      { induction l as [|x l IH]; [discriminate|]. cbn [forallb]. destruct (P x) eqn:Px.
        - intros H. destruct (IH H) as (c & Hc & Pc). exists c. split; [right; exact Hc|exact Pc].
        - intros _. exists x. split; [left; reflexivity|exact Px]. }
      destruct (G _ F) as (c & Hc & Pc). exists c. apply zseq_in in Hc. split; [lia|]. intros C. unfold P in Pc. apply Z.eqb_neq in Pc.
      apply Pc. apply cong_iff in C; [|lia]. rewrite C. apply Z.mod_small. lia. }
  destruct X as (c0 & Hc0 & Nc0). destruct (crt p1 p2 1 c0 R) as (c & C1 & C2).
  assert (Nc : ~ cong p2 (c ^ (v - 1)) 1).
  { intros C. apply Nc0. rewrite (cong_pow p2 c c0 (v - 1) C2) in C.
    replace (v - 1) with ((p2 - 1) * p1 + (p1 - 1)) in C by (rewrite Ev; ring).
    rewrite Z.pow_add_r, Z.pow_mul_r in C by nia.
    rewrite (cong_pow p2 (c0 ^ (p2 - 1)) 1 p1) in C by (apply fermat; [exact Hp2|apply prime_small_nz; lia]).
    rewrite Z.pow_1_l, Z.mul_1_l in C by lia. exact C. }
  assert (Rb : rel_prime v b).
  { rewrite Ev. apply rel_prime_factors; [apply (rel_prime_pow p1 b e (-1))|apply (rel_prime_pow p2 b e 1)]; (lia || assumption || (right; reflexivity) || (left; reflexivity)). }
  assert (Rc : rel_prime v c).
  { rewrite Ev. apply rel_prime_factors.
    - apply (rel_prime_pow p1 c 1 1); [lia|left; reflexivity|]. rewrite Z.pow_1_r. exact C1.
    - apply prime_not_div_rel; [exact Hp2|]. intros D. destruct C2 as [x Hx]. assert (D' : (p2 | c0)).
      { destruct D as [y Hy]. exists (y - x). lia. } apply Z.divide_pos_le in D'; lia. }
  assert (S1 : sg 1) by (left; reflexivity). assert (Sm : sg (-1)) by (right; reflexivity).
  assert (AB : forall s s', In s L -> In s' L -> ~ cong v (1 * s) (b * s')).
  { intros s s' Hs Hs'. destruct (LS s Hs) as (u & Su & Cu). destruct (LS s' Hs') as (u' & Su' & Cu').
    apply (clash v e p1 p2 1 b 1 1 (-1) 1 s s' u u'); try assumption; try lia; rewrite Z.pow_1_l by lia; reflexivity. }
  assert (Fb : cong v (b ^ (v - 1)) 1).
  { assert (T : cong v (b ^ (e * 2)) 1).
    { assert (T1 : cong p1 (b ^ (e * 2)) 1) by (rewrite Z.pow_mul_r by lia; rewrite (cong_pow p1 _ (-1) 2 Pb1); reflexivity).
      assert (T2 : cong p2 (b ^ (e * 2)) 1) by (rewrite Z.pow_mul_r by lia; rewrite (cong_pow p2 _ 1 2 Pb2); reflexivity).
      destruct T1 as [x Hx]. unfold cong in *. rewrite Ev. rewrite Hx in T2 |- *. rewrite Z.mul_comm in T2.
      apply Gauss in T2; [|apply rel_prime_sym; exact R]. destruct T2 as [y ->]. exists y. ring. }
    rewrite E. replace (q * 2 ^ r) with (e * 2 * 2 ^ (r - j - 1)).
    - rewrite Z.pow_mul_r by (try apply Z.pow_nonneg; lia). rewrite (cong_pow v _ 1 _ T). rewrite Z.pow_1_l by (apply Z.pow_nonneg; lia). reflexivity.
    - unfold e. rewrite (pow2_split r (j + 1)) by lia. rewrite pow2_succ by lia. replace (r - (j + 1)) with (r - j - 1) by lia. ring. }
  assert (AC : forall x y s s', cong v (x ^ (v - 1)) 1 -> cong v (y ^ (v - 1)) 1 -> In s L -> In s' L -> ~ cong v (x * s) (y * c * s')).
  { intros x y s s' Hx Hy Hs Hs' C. apply Nc. apply (cong_div v); [exact D2|].
    apply (cong_pow v _ _ (v - 1)) in C. rewrite !Z.pow_mul_l in C.
    rewrite (liar_fermat s (LL s Hs)), (liar_fermat s' (LL s' Hs')), Hx, Hy in C. rewrite !Z.mul_1_l, Z.mul_1_r in C. symmetry. exact C. }
  assert (F1 : cong v (1 ^ (v - 1)) 1) by (rewrite Z.pow_1_l by lia; reflexivity).
  apply (coset_count v L [1; b; 1 * c; b * c]); [lia|exact LN|exact LI| |].
  - constructor; [apply rel_prime_sym, rel_prime_1|]. constructor; [exact Rb|].
    constructor; [rewrite Z.mul_1_l; exact Rc|]. constructor; [apply rel_prime_mult; assumption|constructor].
  - apart_split.
    + exact AB.
    + intros s s' Hs Hs'. apply AC; assumption.
    + intros s s' Hs Hs'. apply AC; assumption.
    + intros s s' Hs Hs'. apply AC; assumption.
    + intros s s' Hs Hs'. apply AC; assumption.
    + intros s s' Hs Hs' C. apply (AB s s' Hs Hs'). apply (cong_cancel v c); [exact Rc|].
      replace (c * (1 * s)) with (1 * c * s) by ring. replace (c * (b * s')) with (b * c * s') by ring. exact C.
Qed.
End Composite.

Lemma odd_factor a b : Z.odd (a * b) = true -> Z.odd a = true /\ Z.odd b = true.
Proof. rewrite Z.odd_mul. apply andb_true_iff. Qed.
Lemma odd_gt2 a : Z.odd a = true -> 1 < a -> 2 < a.
Proof. intros H H1. destruct (Z.eq_dec a 2) as [->|]; [discriminate|lia]. Qed.

(** Rabin's bound for the composites that survive trial division by 3. *)
Theorem quarter v q r L : 2 < v -> Z.odd v = true -> ~ prime v -> ~ (3 | v) -> 0 < q -> Z.odd q = true -> 0 < r -> v - 1 = q * 2 ^ r ->
  NoDup L -> incl L (zseq (Z.to_nat (v - 1))) -> (forall a, In a L -> liar v q r a) ->
  4 * Z.of_nat (length L) <= v - 1.
Proof.
  intros Hv Hodd Hnp H3 Hq Hqo Hr E LN LI LL.
  assert (SQ : forall p, prime p -> forall m, v = p * m -> (p | m) -> 4 * Z.of_nat (length L) <= v - 1).
  { intros p Hp m Ev D. pose proof (prime_pos p Hp). rewrite Ev in Hodd. apply odd_factor in Hodd as (Op & Om).
    apply (quarter_square v q r Hv Hq Hr E L LN LI LL p m Ev D). pose proof (odd_gt2 p Op ltac:(lia)).
    destruct (Z.eq_dec p 3) as [->|]; [exfalso; apply H3; exists m; lia|]. destruct (Z.eq_dec p 4) as [->|]; [discriminate|]. lia. }
  destruct (prime_divisor_exists v ltac:(lia)) as (p & Hp & [m Em]). rewrite Z.mul_comm in Em. pose proof (prime_pos p Hp) as Hp2.
  assert (Hm1 : m <> 1) by (intros ->; rewrite Z.mul_1_r in Em; subst p; contradiction). assert (Hm : 1 < m) by nia.
  destruct (Zdivide_dec p m) as [D|D]; [apply (SQ p Hp m Em D)|].
  pose proof (prime_not_div_rel p m Hp D) as R. pose proof Hodd as Hodd'. rewrite Em in Hodd'. apply odd_factor in Hodd' as (Op & Om).
  pose proof (odd_gt2 p Op ltac:(lia)) as Gp. pose proof (odd_gt2 m Om Hm) as Gm.
  destruct (prime_dec m) as [Pm|Pm].
  - destruct (Z.lt_trichotomy p m) as [H|[->|H]].
    + apply (quarter_two v q r Hv Hq Hqo Hr E L LN LI LL p m); auto.
    + exfalso. apply D. exists 1. lia.
    + apply (quarter_two v q r Hv Hq Hqo Hr E L LN LI LL m p); auto. rewrite Em. ring.
  - destruct (prime_divisor_exists m Hm) as (p2 & Hp2' & [m2 Em2]). rewrite Z.mul_comm in Em2. pose proof (prime_pos p2 Hp2') as Hp22.
    assert (Hm21 : m2 <> 1) by (intros ->; rewrite Z.mul_1_r in Em2; subst p2; contradiction). assert (Hm2 : 1 < m2) by nia.
    destruct (Zdivide_dec p2 m2) as [D2|D2].
    + apply (SQ p2 Hp2' (p * m2)); [rewrite Em, Em2; ring|]. apply Z.divide_mul_r. exact D2.
    + rewrite Em2 in Om. apply odd_factor in Om as (O2 & O3).
      apply (quarter_three v q r Hv Hq Hqo Hr E L LN LI LL p p2 m2).
      * rewrite Em, Em2. reflexivity.
      * exact Gp.
      * apply odd_gt2; [exact O2|lia].
      * apply odd_gt2; [exact O3|lia].
      * rewrite Em2 in R. apply rel_prime_sym. apply rel_prime_sym in R. apply (rel_prime_div (p2 * m2)); [exact R|exists m2; ring].
      * rewrite Em2 in R. apply rel_prime_sym. apply rel_prime_sym in R. apply (rel_prime_div (p2 * m2)); [exact R|exists p2; ring].
      * apply prime_not_div_rel; assumption.
Qed.
