(** Exactly which composites the primality test accepts, and how often. *)
From Coq Require Import ZArith Znumtheory List Arith Bool Lia.
From Verif Require Import Spec.Basic Spec.Count Spec.MillerRabin Model.Base Model.Reduce Model.Barrett Model.Prime.
From Verif Require Import Proofs.Arith Proofs.NumTheory Proofs.ReduceProofs Proofs.BarrettProofs Proofs.PrimeProofs Proofs.RandomProofs Proofs.LiarProofs.
Import ListNotations.
Local Open Scope Z_scope.

(** The odd part and the power of two are unique. *)
Lemma odd_part_unique q r q' r' : q * 2 ^ r = q' * 2 ^ r' -> 0 <= r -> 0 <= r' -> Z.odd q = true -> Z.odd q' = true -> q = q' /\ r = r'.
Proof.
  assert (G : forall q r q' r', q * 2 ^ r = q' * 2 ^ r' -> 0 <= r -> r < r' -> Z.odd q = true -> False).
  { intros q0 r0 q1 r1 E H0 Hlt Ho. replace r1 with (r0 + ((r1 - r0 - 1) + 1)) in E by lia.
    rewrite !Z.pow_add_r in E by lia. pose proof (pow2_pos r0 H0).
    assert (q0 = q1 * 2 ^ (r1 - r0 - 1) * 2) by (apply (Z.mul_reg_r _ _ (2 ^ r0)); [lia|]; rewrite E; change (2 ^ 1) with 2; ring).
    subst q0. rewrite Z.odd_mul, andb_false_r in Ho. discriminate. }
  intros E Hr Hr' Ho Ho'. destruct (Z.lt_trichotomy r r') as [H|[->|H]].
  - destruct (G _ _ _ _ E Hr H Ho).
  - split; [|reflexivity]. pose proof (pow2_pos r' Hr'). apply (Z.mul_reg_r _ _ (2 ^ r')); [lia|exact E].
  - destruct (G _ _ _ _ (eq_sym E) Hr' H Ho').
Qed.

Section MR.
Variables (B : Z) (m : barrett).
Hypothesis HB : wwidth B.
Hypothesis Hok : barrett_ok B m.
Local Notation v := (bval m).
Hypothesis H64 : 64 <= v.

Lemma inner_spec n : forall x, 0 <= x < v ->
  exists b, mr_inner B m n x = Some b /\ (b = true <-> exists j, 1 <= j <= Z.of_nat n /\ cong v (x ^ (2 ^ j)) (-1)).
Proof.
  pose proof (p_word B m HB Hok) as Hw. induction n as [|n IH]; intros x Hx.
  - exists false. split; [reflexivity|]. split; [discriminate|]. intros (j & Hj & _). lia.
  - cbn [mr_inner]. rewrite bmul_correct by (assumption || lia). cbn [bind].
    pose proof (Z.mod_pos_bound (x * x) v ltac:(lia)) as Hb.
    assert (Sq : cong v ((x * x) mod v) (x * x)) by (apply cong_mod; lia).
    assert (Up : forall j, 1 <= j -> x ^ (2 ^ j) = (x * x) ^ (2 ^ (j - 1))).
    { intros j Hj. replace j with (j - 1 + 1) at 1 by lia. rewrite pow2_succ by lia.
      rewrite Z.pow_mul_r by (try apply Z.pow_nonneg; lia). rewrite Z.pow_2_r. reflexivity. }
    destruct (Z.eqb_spec ((x * x) mod v) (v - 1)) as [E1|E1].
    + exists true. split; [reflexivity|]. split; [|reflexivity]. intros _. exists 1. split; [lia|].
      change (2 ^ 1) with 2. rewrite Z.pow_2_r, <- Sq, E1. exists 1. ring.
    + destruct (Z.eqb_spec ((x * x) mod v) 1) as [E2|E2].
      * exists false. split; [reflexivity|]. split; [discriminate|]. intros (j & Hj & C). exfalso.
        rewrite Up in C by lia. rewrite <- (cong_pow v _ _ _ Sq), E2, Z.pow_1_l in C by (apply Z.pow_nonneg; lia).
        destruct C as [y Hy]. assert (D : (v | 2)) by (exists y; lia). apply Z.divide_pos_le in D; lia.
      * destruct (IH _ Hb) as (b & Eb & Sb). exists b. split; [exact Eb|]. rewrite Sb. split.
        -- intros (j & Hj & C). exists (j + 1). split; [lia|]. rewrite Up by lia. replace (j + 1 - 1) with j by lia.
           rewrite <- (cong_pow v _ _ _ Sq). exact C.
        -- intros (j & Hj & C). rewrite Up in C by lia. destruct (Z.eq_dec j 1) as [->|].
           ++ exfalso. change (2 ^ (1 - 1)) with 1 in C. rewrite Z.pow_1_r, <- Sq in C. apply E1.
              apply cong_small with v; [lia|lia|]. rewrite C. exists (-1). ring.
           ++ exists (j - 1). split; [lia|]. rewrite (cong_pow v _ _ _ Sq). exact C.
Qed.

Variables q r : Z.
Hypothesis Hq : 0 < q.
Hypothesis Hqo : Z.odd q = true.
Hypothesis Hr : 0 < r.
Hypothesis E : v - 1 = q * 2 ^ r.

Lemma at_once_iff a : passes_at_once v a <-> cong v (a ^ q) 1 \/ cong v (a ^ q) (-1).
Proof.
  split.
  - intros (q' & r' & E' & Hr' & Ho' & C). rewrite E in E'. apply odd_part_unique in E' as (<- & <-); (lia || assumption).
  - intros C. exists q, r. repeat split; (lia || assumption).
Qed.
Lemma later_iff a : passes_later v a <-> exists j, 1 <= j < r /\ cong v (a ^ (q * 2 ^ j)) (-1).
Proof.
  split.
  - intros (q' & r' & E' & Hr' & Ho' & C). rewrite E in E'. apply odd_part_unique in E' as (<- & <-); (lia || assumption).
  - intros C. exists q, r. repeat split; (lia || assumption).
Qed.
Lemma liar_iff a : liar v q r a <-> passes_at_once v a \/ passes_later v a.
Proof.
  rewrite at_once_iff, later_iff. unfold liar. split.
  - intros [C|(j & Hj & C)]; [auto|]. destruct (Z.eq_dec j 0) as [->|].
    + left. right. rewrite Z.mul_1_r in C. exact C.
    + right. exists j. split; [lia|exact C].
  - intros [[C|C]|(j & Hj & C)]; [auto| |].
    + right. exists 0. split; [lia|]. rewrite Z.mul_1_r. exact C.
    + right. exists j. split; [lia|exact C].
Qed.
Lemma once_not_later a : passes_at_once v a -> passes_later v a -> False.
Proof.
  rewrite at_once_iff, later_iff. intros H (j & Hj & C).
  assert (K : cong v (a ^ (q * 2 ^ j)) 1).
  { destruct H as [H|H].
    - apply (one_up v q r Hq a 0 j); [lia|]. rewrite Z.mul_1_r. exact H.
    - apply (minus_up v q r Hq a 0 j); [lia|]. rewrite Z.mul_1_r. exact H. }
  rewrite K in C. destruct C as [y Hy]. assert (D : (v | 2)) by (exists y; lia). apply Z.divide_pos_le in D; lia.
Qed.

Lemma one_round a : 0 <= a < v ->
  exists x, bexp B B m a q = Some x /\
   ((((x =? 1) || (x =? v - 1)) = true /\ passes_at_once v a) \/
    (((x =? 1) || (x =? v - 1)) = false /\ ~ passes_at_once v a /\
     exists b, mr_inner B m (Z.to_nat (r - 1)) x = Some b /\ (b = true <-> passes_later v a))).
Proof.
  intros Ha. pose proof (p_word B m HB Hok) as Hw. assert (HB0 : 0 <= B) by (destruct HB as (h & ? & ?); lia).
  rewrite bexp_correct by (assumption || lia). eexists. split; [reflexivity|]. set (x := a ^ q mod v).
  pose proof (Z.mod_pos_bound (a ^ q) v ltac:(lia)) as Hx. fold x in Hx.
  assert (C : cong v x (a ^ q)) by (apply cong_mod; lia).
  destruct (Z.eqb_spec x 1) as [E1|E1]; [left; split; [reflexivity|]; rewrite at_once_iff, <- C, E1; left; reflexivity|].
  destruct (Z.eqb_spec x (v - 1)) as [E2|E2]; [left; split; [reflexivity|]; rewrite at_once_iff, <- C, E2; right; exists 1; ring|].
  right. split; [reflexivity|]. split.
  - rewrite at_once_iff, <- C. intros [K|K].
    + apply E1. apply cong_small with v; [lia|lia|exact K].
    + apply E2. apply cong_small with v; [lia|lia|]. rewrite K. exists (-1). ring.
  - destruct (inner_spec (Z.to_nat (r - 1)) x Hx) as (b & Eb & Sb). exists b. split; [exact Eb|]. rewrite Sb, later_iff.
    split; intros (j & Hj & K); exists j; (split; [lia|]); rewrite (cong_pow v _ _ _ C), <- Z.pow_mul_r in * by (try apply Z.pow_nonneg; lia); exact K.
Qed.

Lemma rounds_spec draw : (forall i, 3 <= draw i <= v - 1) -> forall n i,
  exists b, mr_rounds B m q r draw n i = Some b /\
    (b = true <-> (forall k, (k < n)%nat -> passes_at_once v (base draw (i + k))) \/
       exists k, (k < n)%nat /\ passes_later v (base draw (i + k)) /\ forall l, (l < k)%nat -> passes_at_once v (base draw (i + l))).
Proof.
  intros Hd. induction n as [|n IH]; intros i.
  - exists true. split; [reflexivity|]. split; [|reflexivity]. intros _. left. intros k Hk. lia.
  - cbn [mr_rounds]. replace (if Nat.eqb i 0 then 2 else draw i) with (base draw i) by (destruct i; reflexivity).
    assert (Hb : 0 <= base draw i < v) by (destruct i; cbn [base]; [lia|specialize (Hd (S i)); lia]).
    destruct (one_round _ Hb) as (x & Ex & Cx). rewrite Ex. cbn [bind]. destruct Cx as [(Ec & Po)|(Ec & Po & b & Eb & Sb)]; rewrite Ec.
    + destruct (IH (S i)) as (b & Eb & Sb). exists b. split; [exact Eb|]. rewrite Sb. split.
      * intros [A|(k & Hk & Pl & A)].
        -- left. intros [|k] Hk; [rewrite Nat.add_0_r; exact Po|]. replace (i + S k)%nat with (S i + k)%nat by lia. apply A. lia.
        -- right. exists (S k). split; [lia|]. split; [replace (i + S k)%nat with (S i + k)%nat by lia; exact Pl|].
           intros [|l] Hl; [rewrite Nat.add_0_r; exact Po|]. replace (i + S l)%nat with (S i + l)%nat by lia. apply A. lia.
      * intros [A|(k & Hk & Pl & A)].
        -- left. intros k Hk. replace (S i + k)%nat with (i + S k)%nat by lia. apply A. lia.
        -- destruct k as [|k]; [exfalso; rewrite Nat.add_0_r in Pl; exact (once_not_later _ Po Pl)|].
           right. exists k. split; [lia|]. split; [replace (S i + k)%nat with (i + S k)%nat by lia; exact Pl|].
           intros l Hl. replace (S i + l)%nat with (i + S l)%nat by lia. apply A. lia.
    + exists b. split; [exact Eb|]. rewrite Sb. split.
      * intros Pl. right. exists O. split; [lia|]. rewrite Nat.add_0_r. split; [exact Pl|]. intros l Hl. lia.
      * intros [A|(k & Hk & Pl & A)].
        -- exfalso. apply Po. specialize (A O ltac:(lia)). rewrite Nat.add_0_r in A. exact A.
        -- destruct k as [|k]; [rewrite Nat.add_0_r in Pl; exact Pl|]. exfalso. apply Po. specialize (A O ltac:(lia)). rewrite Nat.add_0_r in A. exact A.
Qed.
End MR.

Section Whole.
Variables (B : Z) (m : barrett).
Hypothesis HB : wwidth B.
Hypothesis Hok : barrett_ok B m.
Local Notation v := (bval m).
Hypothesis H64 : 64 <= v.

Lemma odd_split : Z.odd v = true -> exists q r, 0 < q /\ Z.odd q = true /\ 0 < r /\ v - 1 = q * 2 ^ r /\
  r = trailing_zeros B (v - 1) /\ q = (v - 1) / 2 ^ r /\ r < B.
Proof.
  intros Ho. destruct (split_tz B m HB Hok ltac:(lia)) as (o & Eo & Hoo & Hpos & Htz & Eq).
  exists o, (trailing_zeros B (v - 1)). repeat split; try assumption; try lia.
  destruct (Z.eq_dec (trailing_zeros B (v - 1)) 0) as [E0|]; [exfalso|lia].
  rewrite E0 in Eo. change (2 ^ 0) with 1 in Eo. replace v with (o + 1) in Ho by lia. rewrite Z.odd_add, Hoo in Ho. discriminate.
Qed.

Definition accepted_bases (rounds : nat) (draw : nat -> Z) : Prop :=
  (forall i, (i < rounds)%nat -> passes_at_once v (base draw i)) \/
  exists i, (i < rounds)%nat /\ passes_later v (base draw i) /\ forall j, (j < i)%nat -> passes_at_once v (base draw j).

Lemma test_exact rounds draw : (forall i, 3 <= draw i <= v - 1) ->
  exists b, probably_prime B m rounds draw = Some b /\
    (b = true <-> Z.odd v = true /\ (forall d, In d trial_divisors -> ~ (d | v)) /\ accepted_bases rounds draw).
Proof.
  intros Hd. pose proof (p_word B m HB Hok) as Hw. unfold probably_prime.
  destruct (Z.eqb_spec v 0); [lia|]. destruct (Z.ltb_spec v 64); [lia|].
  change (Z.land v 1) with (Z.land v (2 ^ 1 - 1)). rewrite land_mask by lia. change (2 ^ 1) with 2. rewrite Zmod_odd.
  destruct (Z.odd v) eqn:Ho; cbn [Z.eqb].
  2:{ exists false. split; [reflexivity|]. split; [discriminate|intros (X & _); discriminate]. }
  destruct (existsb (fun d => v mod d =? 0) trial_divisors) eqn:Et.
  { exists false. split; [reflexivity|]. split; [discriminate|]. intros (_ & X & _). apply existsb_exists in Et as (d & Hdd & Ed).
    destruct (X d Hdd). apply Z.eqb_eq in Ed. apply Z.mod_divide in Ed; [exact Ed|]. cbn in Hdd. intuition lia. }
  destruct (odd_split Ho) as (q & r & Hq & Hqo & Hr & E & Er & Eq & HrB).
  rewrite usub_some by lia. cbn [bind]. rewrite <- Er. rewrite ushr_some by lia. cbn [bind]. rewrite <- Eq.
  destruct (rounds_spec B m HB Hok H64 q r Hq Hqo Hr E draw Hd rounds 0) as (b & Eb & Sb). exists b. split; [exact Eb|].
  rewrite Sb. unfold accepted_bases. cbn [Nat.add]. split; [|tauto]. intros A. split; [reflexivity|]. split; [|exact A].
  intros d Hdd Hdv. apply not_true_iff_false in Et. apply Et. apply existsb_exists. exists d. split; [exact Hdd|]. apply Z.eqb_eq.
  apply Z.mod_divide; [|exact Hdv]. cbn in Hdd. intuition lia.
Qed.

Lemma count_le {A} (P Q : A -> bool) l : (forall x, In x l -> P x = true -> Q x = true) -> count P l <= count Q l.
Proof.
  induction l as [|x l IH]; intros H; [reflexivity|]. rewrite !count_cons. specialize (IH (fun y Hy => H y (or_intror Hy))).
  specialize (H x (or_introl eq_refl)). destruct (P x); [rewrite H by reflexivity; lia|destruct (Q x); lia].
Qed.
Lemma tuples_count k n : 0 <= n -> count (fun _ => true) (tuples k n) = n ^ Z.of_nat k.
Proof.
  intros Hn. induction k as [|k IH]; [reflexivity|].
  rewrite (count_ext_in (fun _ => true) (fun l => match l with x :: l' => true && true | [] => false end)).
  - rewrite (tuples_step k n (fun _ => true) (fun _ => true)), IH, count_true, range_length by exact Hn.
    rewrite Nat2Z.inj_succ, Z.pow_succ_r by lia. rewrite Z2Nat.id by exact Hn. reflexivity.
  - intros l Hl. apply tuples_in in Hl as (Hl & _). destruct l; [discriminate|reflexivity].
Qed.

(** The drawn bases as a vector of numbers below v - 3. *)
Definition drawn (ts : list Z) (i : nat) : Z := 3 + nth (i - 1) ts 0.

Lemma test_quarter n : ~ prime v -> ~ passes_later v 2 ->
  4 * count (fun ts => match probably_prime B m (S (S n)) (drawn ts) with Some false => false | _ => true end) (tuples (S n) (v - 3))
    <= (v - 3) ^ Z.of_nat (S n).
Proof.
  intros Hnp Hl2.
  assert (Dr : forall ts, In ts (tuples (S n) (v - 3)) -> forall i, 3 <= drawn ts i <= v - 1).
  { intros ts Hts i. apply tuples_in in Hts as (_ & Hf). rewrite Forall_forall in Hf. unfold drawn.
    destruct (nth_in_or_default (i - 1) ts 0) as [Hi| ->]; [apply Hf in Hi; lia|lia]. }
  set (acc := fun ts => match probably_prime B m (S (S n)) (drawn ts) with Some false => false | _ => true end).
  assert (Acc : forall ts, In ts (tuples (S n) (v - 3)) -> acc ts = true ->
    Z.odd v = true /\ (forall d, In d trial_divisors -> ~ (d | v)) /\ passes_at_once v 2 /\
    (passes_at_once v (3 + nth 0 ts 0) \/ passes_later v (3 + nth 0 ts 0))).
  { intros ts Hts A. unfold acc in A. destruct (test_exact (S (S n)) (drawn ts) (Dr ts Hts)) as (b & Eb & Sb). rewrite Eb in A.
    destruct b; [|discriminate]. destruct Sb as (Sb & _). destruct (Sb eq_refl) as (X1 & X2 & X3). split; [exact X1|]. split; [exact X2|].
    destruct X3 as [X3|(i & Hi & Pl & X3)].
    - split; [exact (X3 O ltac:(lia))|]. left. exact (X3 1%nat ltac:(lia)).
    - destruct i as [|[|i]].
      + exfalso. apply Hl2. exact Pl.
      + split; [exact (X3 O ltac:(lia))|]. right. exact Pl.
      + split; [exact (X3 O ltac:(lia))|]. left. exact (X3 1%nat ltac:(lia)). }
  destruct (existsb acc (tuples (S n) (v - 3))) eqn:Ex.
  2:{ assert (Z0 : count acc (tuples (S n) (v - 3)) = 0).
      { rewrite (count_ext_in acc (fun _ => false)), count_false; [reflexivity|]. intros ts Hts. apply not_true_iff_false. intros A.
        apply not_true_iff_false in Ex. apply Ex. apply existsb_exists. exists ts. auto. }
      rewrite Z0. apply Z.pow_nonneg. lia. }
  apply existsb_exists in Ex as (ts0 & Hts0 & A0). destruct (Acc ts0 Hts0 A0) as (Ho & Htr & P2 & _).
  destruct (odd_split Ho) as (q & r & Hq & Hqo & Hr & E & _).
  set (lb := fun a => (a ^ q mod v =? 1) || existsb (fun j => a ^ (q * 2 ^ Z.of_nat j) mod v =? v - 1) (seq 0 (Z.to_nat r))).
  assert (K : -1 mod v = v - 1) by (symmetry; apply Z.mod_unique with (-1); lia).
  assert (Lb : forall a, lb a = true <-> liar v q r a).
  { intros a. unfold lb, liar. rewrite orb_true_iff, existsb_exists, Z.eqb_eq, cong_iff, (Z.mod_small 1 v) by lia.
    split; (intros [H|H]; [left; exact H|right]).
    - destruct H as (j & Hj & H). apply in_seq in Hj. exists (Z.of_nat j). split; [lia|]. apply cong_iff; [lia|]. apply Z.eqb_eq in H. congruence.
    - destruct H as (j & Hj & H). exists (Z.to_nat j). rewrite in_seq, Z.eqb_eq, Z2Nat.id by lia. split; [lia|]. apply cong_iff in H; [|lia]. congruence. }
  assert (Q4 : 4 * count (fun t => lb (3 + t)) (range (v - 3)) <= v - 3).
  { set (L3 := map (fun t => 3 + t) (filter (fun t => lb (3 + t)) (range (v - 3)))).
    assert (I3 : forall x, In x L3 -> 3 <= x <= v - 1 /\ lb x = true).
    { intros x Hx. unfold L3 in Hx. apply in_map_iff in Hx as (t & <- & Ht). apply filter_In in Ht as (Ht & Lt). apply in_range in Ht. split; [lia|exact Lt]. }
    pose proof (quarter v q r (1 :: 2 :: L3) ltac:(lia) Ho Hnp (Htr 3 ltac:(left; reflexivity)) Hq Hqo Hr E) as QQ.
    assert (N : NoDup (1 :: 2 :: L3)).
    { constructor; [intros [X|X]; [lia|apply I3 in X; lia]|]. constructor; [intros X; apply I3 in X; lia|].
      unfold L3. apply NoDup_map_inj; [intros; lia|]. apply NoDup_filter. unfold range. apply NoDup_map_inj; [intros; lia|apply seq_NoDup]. }
    assert (I1 : incl (1 :: 2 :: L3) (zseq (Z.to_nat (v - 1)))).
    { intros x Hx. apply zseq_in. destruct Hx as [<-|[<-|Hx]]; [lia|lia|]. apply I3 in Hx. lia. }
    assert (LL : forall a, In a (1 :: 2 :: L3) -> liar v q r a).
    { intros a [<-|[<-|Ha]].
      - left. rewrite Z.pow_1_l by lia. reflexivity.
      - apply (liar_iff m q r Hq Hqo Hr E). left. exact P2.
      - apply Lb. apply I3. exact Ha. }
    specialize (QQ N I1 LL). cbn [length] in QQ. unfold L3 in QQ. rewrite map_length in QQ. unfold count. lia. }
  assert (C1 : count acc (tuples (S n) (v - 3)) <= count (fun l => match l with x :: l' => lb (3 + x) && true | [] => false end) (tuples (S n) (v - 3))).
  { apply count_le. intros ts Hts A. destruct (Acc ts Hts A) as (_ & _ & _ & P). apply tuples_in in Hts as (Hlen & _).
    destruct ts as [|t ts]; [discriminate|]. rewrite andb_true_r. apply Lb. apply (liar_iff m q r Hq Hqo Hr E). exact P. }
  rewrite (tuples_step n (v - 3) (fun t => lb (3 + t)) (fun _ => true)), tuples_count in C1 by lia.
  rewrite Nat2Z.inj_succ, Z.pow_succ_r by lia. pose proof (Z.pow_nonneg (v - 3) (Z.of_nat n) ltac:(lia)).
  fold acc. nia.
Qed.
End Whole.

(** At most a quarter of the residues pass one round. *)
Lemma bases_quarter v L : 2 < v -> Z.odd v = true -> ~ prime v -> ~ (3 | v) -> NoDup L ->
  (forall a, In a L -> 1 <= a <= v - 1 /\ strong_probable_prime v a) -> 4 * Z.of_nat (length L) <= v - 1.
Proof.
  intros Hv Ho Hnp H3 Hn HL.
  destruct L as [|a0 L0]; [cbn; lia|]. destruct (HL a0 (or_introl eq_refl)) as (_ & q & r & E & Hr & Hqo & _).
  pose proof (pow2_pos r Hr).
  assert (Hq : 0 < q) by nia.
  assert (Hr' : 0 < r).
  { destruct (Z.eq_dec r 0) as [->|]; [exfalso|lia]. change (2 ^ 0) with 1 in E. replace v with (q + 1) in Ho by lia. rewrite Z.odd_add, Hqo in Ho. discriminate. }
  apply (quarter v q r); try assumption.
  - intros a Ha. apply HL in Ha as (Ha & _). apply zseq_in. lia.
  - intros a Ha. apply HL in Ha as (_ & q' & r' & E' & Hr2 & Ho' & C). rewrite E in E'. apply odd_part_unique in E' as (<- & <-); (lia || assumption).
Qed.

Section Floor.
Variables (B : Z) (m : barrett).
Hypothesis HB : wwidth B.
Hypothesis Hok : barrett_ok B m.
Local Notation v := (bval m).
Hypothesis H64 : 64 <= v.

(** More rounds do not help: a late first draw is accepted whatever follows. *)
Lemma test_floor n L : Z.odd v = true -> (forall d, In d trial_divisors -> ~ (d | v)) -> passes_at_once v 2 ->
  NoDup L -> (forall a, In a L -> 3 <= a <= v - 1 /\ passes_later v a) ->
  Z.of_nat (length L) * (v - 3) ^ Z.of_nat n <=
  count (fun ts => match probably_prime B m (S (S n)) (drawn ts) with Some true => true | _ => false end) (tuples (S n) (v - 3)).
Proof.
  intros Ho Htr P2 Hn HL.
  set (lb := fun t => existsb (Z.eqb (3 + t)) L).
  assert (C0 : Z.of_nat (length L) <= count lb (range (v - 3))).
  { unfold count. apply inj_le. rewrite <- (map_length (fun a => a - 3) L). apply NoDup_incl_length.
    - apply NoDup_map_inj; [intros; lia|exact Hn].
    - intros x Hx. apply in_map_iff in Hx as (a & <- & Ha). apply filter_In. split.
      + apply in_range. apply HL in Ha. lia.
      + unfold lb. apply existsb_exists. exists a. split; [exact Ha|]. apply Z.eqb_eq. lia. }
  transitivity (count (fun l => match l with x :: l' => lb x && true | [] => false end) (tuples (S n) (v - 3))).
  - rewrite (tuples_step n (v - 3) lb (fun _ => true)), tuples_count by lia.
    apply Z.mul_le_mono_nonneg_r; [apply Z.pow_nonneg; lia|exact C0].
  - apply count_le. intros ts Hts A. pose proof Hts as Hts'. apply tuples_in in Hts' as (Hlen & Hf). destruct ts as [|t ts]; [discriminate|].
    rewrite andb_true_r in A. unfold lb in A. apply existsb_exists in A as (a & Ha & Ea). apply Z.eqb_eq in Ea. destruct (HL a Ha) as (_ & Pl).
    assert (Dr : forall i, 3 <= drawn (t :: ts) i <= v - 1).
    { intros i. rewrite Forall_forall in Hf. unfold drawn.
      destruct (nth_in_or_default (i - 1) (t :: ts) 0) as [Hi| ->]; [apply Hf in Hi; lia|lia]. }
    destruct (test_exact B m HB Hok H64 (S (S n)) _ Dr) as (b & Eb & Sb). rewrite Eb.
    assert (T : b = true); [|rewrite T; reflexivity]. apply Sb. split; [exact Ho|]. split; [exact Htr|]. right. exists 1%nat. split; [lia|]. split.
    + cbn [base]. unfold drawn. cbn [nth Nat.sub]. rewrite Ea. exact Pl.
    + intros [|j] Hj; [exact P2|lia].
Qed.
End Floor.

(** A witness for the examples. *)
Lemma later_by B v m a q r j x : wwidth B -> barrett_new B v = Some m -> 1 < v -> v - 1 = q * 2 ^ r -> 0 <= q -> Z.odd q = true -> 1 <= j < r ->
  0 <= a < v -> bexp B B m a q = Some x -> cong v (x ^ (2 ^ j)) (-1) -> passes_later v a.
Proof.
  intros HB Hm Hv E Hq Ho Hj Ha Ex C. apply barrett_new_inv in Hm; [|exact HB|lia]. destruct Hm as (_ & <- & Hok).
  assert (0 <= B) by (destruct HB as (h & ? & ?); lia).
  rewrite bexp_correct in Ex by (assumption || lia). assert (K : x = a ^ q mod bval m) by congruence. clear Ex.
  exists q, r. split; [exact E|]. split; [lia|]. split; [exact Ho|]. exists j. split; [exact Hj|].
  rewrite Z.pow_mul_r by (try apply Z.pow_nonneg; lia). rewrite <- C. apply cong_pow. rewrite K. symmetry. apply cong_mod. lia.
Qed.
