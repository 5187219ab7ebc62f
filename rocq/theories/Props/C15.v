(** C15: a composite is accepted with probability at most 4^-rounds.
    False of the code: once a base reaches -1 after a squaring, [break 'next_round] skips all
    remaining rounds, and the first base is always 2.  So a base-2 strong pseudoprime of that kind
    is accepted for EVERY number of rounds and EVERY draw. *)
From Coq Require Import ZArith Znumtheory List.
From Verif Require Import Spec.Basic Spec.Count Spec.MillerRabin Model.Base Model.Barrett Model.Prime.
From Verif Require Import Proofs.Arith Proofs.BarrettProofs Proofs.PrimeProofs Proofs.PrimeChanceProofs.
Import ListNotations.
Local Open Scope Z_scope.

Theorem C15_composite_refuted : exists (v : Z) (m : barrett),
  v = 157 * 313 /\ ~ prime v /\ barrett_new 32 v = Some m /\
  forall (rounds : nat) (draw : nat -> Z), probably_prime 32 m rounds draw = Some true.
Proof. exact pseudoprime_accepted. Qed.
Print Assumptions C15_composite_refuted.

(** What acceptance does guarantee (missing: anything about the later, random bases). *)
Theorem C15_accepted_partial (B v : Z) (m : barrett) (rounds : nat) (draw : nat -> Z) :
  wwidth B -> barrett_new B v = Some m -> 64 <= v ->
  probably_prime B m (S rounds) draw = Some true ->
  Z.odd v = true /\
  (forall d, In d [3; 5; 7; 11; 13; 17; 19; 23; 29; 31; 37; 41; 43; 47; 53] -> ~ (d | v)) /\
  strong_probable_prime v 2.
Proof.
  intros HB Hm H64 E.
  apply barrett_new_inv in Hm; [|assumption|apply Z.le_trans with 64; [discriminate|exact H64]].
  destruct Hm as (_ & <- & Hok). apply (probably_prime_sprp2 B m HB Hok rounds draw); assumption.
Qed.
Print Assumptions C15_accepted_partial.

(** Exactly when a value from 64 on is accepted: trial division finds nothing, and either every base
    passes at once, or some base passes after a squaring and those before it pass at once (those
    after it are not tried). *)
Theorem C15_exact (B v : Z) (m : barrett) (rounds : nat) (draw : nat -> Z) :
  wwidth B -> barrett_new B v = Some m -> 64 <= v -> (forall i, 3 <= draw i <= v - 1) ->
  exists b, probably_prime B m rounds draw = Some b /\
    (b = true <->
     Z.odd v = true /\
     (forall d, In d [3; 5; 7; 11; 13; 17; 19; 23; 29; 31; 37; 41; 43; 47; 53] -> ~ (d | v)) /\
     ((forall i, (i < rounds)%nat -> passes_at_once v (base draw i)) \/
      exists i, (i < rounds)%nat /\ passes_later v (base draw i) /\
        forall j, (j < i)%nat -> passes_at_once v (base draw j))).
Proof.
  intros HB Hm H64 Hd.
  apply barrett_new_inv in Hm; [|assumption|apply Z.le_trans with 64; [discriminate|exact H64]].
  destruct Hm as (_ & <- & Hok). exact (test_exact B m HB Hok H64 rounds draw Hd).
Qed.
Print Assumptions C15_exact.

(** The fact the claim rests on: at most a quarter of the residues of an odd composite prime to 3
    pass one round. *)
Theorem C15_bases (v : Z) (L : list Z) :
  2 < v -> Z.odd v = true -> ~ prime v -> ~ (3 | v) -> NoDup L ->
  (forall a, In a L -> 1 <= a <= v - 1 /\ strong_probable_prime v a) ->
  4 * Z.of_nat (length L) <= v - 1.
Proof. exact (bases_quarter v L). Qed.
Print Assumptions C15_bases.

(** So if 2 does not pass after a squaring, at most a quarter of the draws of one or more random
    bases lead to acceptance (missing: a further factor 4 for each further round, see
    [C15_floor]). *)
Theorem C15_quarter_partial (B v : Z) (m : barrett) (n : nat) :
  wwidth B -> barrett_new B v = Some m -> 64 <= v -> ~ prime v -> ~ passes_later v 2 ->
  4 * count (fun ts => match probably_prime B m (S (S n)) (fun i => 3 + nth (i - 1) ts 0) with
                       | Some false => false | _ => true end) (tuples (S n) (v - 3))
  <= (v - 3) ^ Z.of_nat (S n).
Proof.
  intros HB Hm H64 Hnp Hl.
  apply barrett_new_inv in Hm; [|assumption|apply Z.le_trans with 64; [discriminate|exact H64]].
  destruct Hm as (_ & <- & Hok). exact (test_quarter B m HB Hok H64 n Hnp Hl).
Qed.
Print Assumptions C15_quarter_partial.

(** Further rounds do not push the acceptance rate below the share of the bases that pass after a
    squaring: the first draw alone decides. *)
Theorem C15_floor (B v : Z) (m : barrett) (n : nat) (L : list Z) :
  wwidth B -> barrett_new B v = Some m -> 64 <= v -> Z.odd v = true ->
  (forall d, In d [3; 5; 7; 11; 13; 17; 19; 23; 29; 31; 37; 41; 43; 47; 53] -> ~ (d | v)) ->
  passes_at_once v 2 -> NoDup L -> (forall a, In a L -> 3 <= a <= v - 1 /\ passes_later v a) ->
  Z.of_nat (length L) * (v - 3) ^ Z.of_nat n <=
  count (fun ts => match probably_prime B m (S (S n)) (fun i => 3 + nth (i - 1) ts 0) with
                   | Some true => true | _ => false end) (tuples (S n) (v - 3)).
Proof.
  intros HB Hm H64 Ho Ht P2 Hn HL.
  apply barrett_new_inv in Hm; [|assumption|apply Z.le_trans with 64; [discriminate|exact H64]].
  destruct Hm as (_ & <- & Hok). exact (test_floor B m HB Hok H64 n L Ho Ht P2 Hn HL).
Qed.
Print Assumptions C15_floor.

(** A composite rejected: 3 * 2^20 + 1 = 7 * 449389 falls to trial division, 59 * 61 to base 2. *)
Example C15_ex : exists m m', barrett_new 32 3599 = Some m /\ barrett_new 32 3145729 = Some m' /\
  probably_prime 32 m 1 (fun _ => 3) = Some false /\ probably_prime 32 m' 1 (fun _ => 3) = Some false.
Proof. do 2 eexists. split; [vm_compute; reflexivity|].
  split; [vm_compute; reflexivity|]. split; [vm_compute; reflexivity|vm_compute; reflexivity]. Qed.

(** Acceptance does occur, so the hypotheses of the partial theorem are met (97 is prime). *)
Example C15_ex_accept : exists m, barrett_new 32 97 = Some m /\
  probably_prime 32 m 2 (fun _ => 5) = Some true.
Proof. eexists. split; [vm_compute; reflexivity|]. vm_compute. reflexivity. Qed.

(** 42799 = 127 * 337 is composite, passes base 2 at once and not later, and is accepted when the
    drawn bases are powers of 2: the quarter bound is not vacuous. *)
Example C15_ex_quarter : exists m, barrett_new 32 42799 = Some m /\ ~ prime 42799 /\
  passes_at_once 42799 2 /\ ~ passes_later 42799 2 /\
  probably_prime 32 m 5 (fun i => 2 ^ Z.of_nat (i + 1)) = Some true /\
  probably_prime 32 m 5 (fun i => 3 * Z.of_nat i) = Some false.
Proof.
  eexists. split; [vm_compute; reflexivity|]. split.
  { intros H. destruct (prime_divisors _ H 127) as [X|[X|[X|X]]]; [exists 337; reflexivity|discriminate X..]. }
  split. { exists 21399, 1. split; [reflexivity|]. split; [discriminate|]. split; [reflexivity|]. left. apply cong_iff; [reflexivity|]. vm_compute. reflexivity. }
  split.
  { intros (q & r & E & Hr & Ho & j & Hj & _). change (42799 - 1) with (21399 * 2 ^ 1) in E.
    apply odd_part_unique in E as (_ & <-); try reflexivity; try discriminate; try assumption.
    destruct Hj as (H1 & H2). apply (Z.lt_irrefl 1). apply Z.le_lt_trans with j; assumption. }
  split; [vm_compute; reflexivity|vm_compute; reflexivity].
Qed.

(** 486737 = 233 * 2089 passes base 2 at once and base 21 after two squarings: the hypotheses of the
    floor are met, and one draw of 21 is accepted whatever is drawn after it. *)
Example C15_ex_floor : exists m, barrett_new 32 486737 = Some m /\ passes_at_once 486737 2 /\ passes_later 486737 21 /\
  Z.odd 486737 = true /\ ~ prime 486737 /\
  forallb (fun d => negb (486737 mod d =? 0)) [3; 5; 7; 11; 13; 17; 19; 23; 29; 31; 37; 41; 43; 47; 53] = true /\
  probably_prime 32 m 9 (fun i => if Nat.eqb i 1 then 21 else 6) = Some true /\
  probably_prime 32 m 9 (fun i => if Nat.eqb i 2 then 21 else 6) = Some false.
Proof.
  eexists. split; [vm_compute; reflexivity|].
  split. { exists 30421, 4. split; [reflexivity|]. split; [discriminate|]. split; [reflexivity|]. left. apply cong_iff; [reflexivity|]. vm_compute. reflexivity. }
  split.
  { apply (later_by 32 486737 (mk_barrett 486737 70592 8824) 21 30421 4 2 256863).
    - exists 16. split; [discriminate|reflexivity].
    - vm_compute. reflexivity.
    - reflexivity.
    - reflexivity.
    - discriminate.
    - reflexivity.
    - split; [discriminate|reflexivity].
    - split; [discriminate|reflexivity].
    - vm_compute. reflexivity.
    - exists 8943589165062626. vm_compute. reflexivity. }
  split; [reflexivity|]. split.
  { intros H. destruct (prime_divisors _ H 233) as [X|[X|[X|X]]]; [exists 2089; reflexivity|discriminate X..]. }
  split; [vm_compute; reflexivity|]. split; [vm_compute; reflexivity|vm_compute; reflexivity].
Qed.
