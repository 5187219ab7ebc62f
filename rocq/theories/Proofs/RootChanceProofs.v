(** How often the search for a primitive root fails. *)
From Coq Require Import ZArith List Arith Bool Lia Znumtheory.
From Verif Require Import Spec.Basic Spec.Poly Spec.Count Model.Base Model.Field Model.NTT.
From Verif Require Import Proofs.Arith Proofs.NumTheory Proofs.FieldProofs Proofs.PolyMath Proofs.NTTProofs Proofs.NTTTableProofs Proofs.RandomProofs.
Import ListNotations.
Local Open Scope Z_scope.

(** * Squares and non-squares *)
Lemma incong_canonical p l : 0 < p -> NoDup l -> Forall (fun x => 0 <= x < p) l -> incong p l.
Proof.
  intros Hp. induction 1 as [|x l Hx Hl IH]; intros Hf; [exact I|]. inversion Hf; subst. cbn [incong]. split; [|apply IH; assumption].
  rewrite Forall_forall in *. intros y Hy Hc. apply Hx. replace x with y; [exact Hy|].
  assert (0 <= y < p) by auto. apply cong_iff in Hc; [|exact Hp]. rewrite !Z.mod_small in Hc by lia. congruence.
Qed.

(** x^h = c has at most h solutions. *)
Lemma power_roots p h c l : prime p -> (0 < h)%nat -> NoDup l -> Forall (fun x => 0 <= x < p) l ->
  Forall (fun x => cong p (npow x h) c) l -> (length l <= h)%nat.
Proof.
  intros Hp Hh Hn Hl Hc. pose proof (prime_pos p Hp). destruct (Nat.le_gt_cases (length l) h) as [|Hgt]; [assumption|exfalso].
  set (a := - c :: repeat 0 (h - 1) ++ [1]).
  assert (Z : Forall (fun x => cong p x 0) a).
  { apply (roots_zero p a Hp l).
    - apply incong_canonical; [lia|assumption|assumption].
    - unfold a. cbn [length]. rewrite app_length, repeat_length. cbn [length]. lia.
    - rewrite Forall_forall in *. intros x Hx. specialize (Hc x Hx). unfold a. cbn [ev].
      rewrite ev_app, ev_zeros, repeat_length. cbn [ev].
      replace (- c + x * (0 + npow x (h - 1) * (1 + x * 0))) with (npow x h - c).
      + destruct Hc as [q Hq]. exists q. lia.
      + replace h with (S (h - 1)) at 1 by lia. rewrite npow_S. ring. }
  inversion Z as [|? ? _ Z']; subst. apply Forall_app in Z' as (_ & Z'). inversion Z' as [|? ? Z1 _]; subst.
  destruct Z1 as [q Hq]. assert (p | 1) by (exists q; lia). apply Z.divide_1_r_nonneg in H0; lia.
Qed.

Section Euler.
Variable p : Z.
Hypothesis Hp : prime p.
Hypothesis H3 : 2 < p.
Hypothesis Hodd : (2 | p - 1).
Local Notation h := ((p - 1) / 2).

Lemma half : p - 1 = 2 * h.
Proof. destruct Hodd as [q Hq]. rewrite Hq, Z.div_mul by lia. ring. Qed.

Lemma euler x : 1 <= x < p -> cong p (x ^ h) 1 \/ cong p (x ^ h) (-1).
Proof.
  intros Hx. pose proof half as E. assert (F : cong p (x ^ (p - 1)) 1) by (apply fermat; [exact Hp|apply prime_small_nz; lia]).
  rewrite E in F. replace (2 * h) with (h + h) in F by ring. rewrite Z.pow_add_r in F by lia.
  assert (D : (p | (x ^ h - 1) * (x ^ h + 1))).
  { destruct F as [q Hq]. exists q. rewrite <- Hq. ring. }
  apply prime_mult in D; [|exact Hp]. destruct D as [D|D]; [left; exact D|right].
  destruct D as [q Hq]. exists q. lia.
Qed.
Definition is_square (x : Z) : bool := x ^ h mod p =? 1.
Lemma is_square_spec x : is_square x = true <-> cong p (x ^ h) 1.
Proof.
  unfold is_square. rewrite Z.eqb_eq, cong_iff by lia. rewrite (Z.mod_small 1 p) by lia. reflexivity.
Qed.
Lemma nonsquare x : 1 <= x < p -> is_square x = false <-> cong p (x ^ h) (-1).
Proof.
  intros Hx. split.
  - intros H. destruct (euler x Hx) as [E|E]; [|exact E]. apply is_square_spec in E. congruence.
  - intros E. destruct (is_square x) eqn:S; [|reflexivity]. apply is_square_spec in S. exfalso.
    rewrite E in S. destruct S as [q Hq]. assert (D : (p | 2)) by (exists (- q); lia). apply Z.divide_pos_le in D; lia.
Qed.

Lemma zseq_bounds l : incl l (zseq (Z.to_nat (p - 1))) -> Forall (fun x => 0 <= x < p) l.
Proof. intros H. apply Forall_forall. intros x Hx. apply H, zseq_in in Hx. lia. Qed.

Lemma npow_h x : npow x (Z.to_nat h) = x ^ h.
Proof. pose proof half. unfold npow. rewrite Z2Nat.id by lia. reflexivity. Qed.

Lemma square_count : count is_square (zseq (Z.to_nat (p - 1))) = h.
Proof.
  pose proof half as E. set (L := zseq (Z.to_nat (p - 1))).
  assert (LL : Z.of_nat (length L) = 2 * h).
  { unfold L, zseq. rewrite map_length, seq_length. lia. }
  assert (S : count is_square L <= h).
  { unfold count. enough (length (filter is_square L) <= Z.to_nat h)%nat by lia.
    apply (power_roots p (Z.to_nat h) 1); [exact Hp|lia|apply NoDup_filter, zseq_nodup|apply zseq_bounds; apply incl_filter|].
    apply Forall_forall. intros x Hx. apply filter_In in Hx as (_ & Hx). rewrite npow_h. apply is_square_spec. exact Hx. }
  assert (N : count (fun x => negb (is_square x)) L <= h).
  { unfold count. enough (length (filter (fun x => negb (is_square x)) L) <= Z.to_nat h)%nat by lia.
    apply (power_roots p (Z.to_nat h) (-1)); [exact Hp|lia|apply NoDup_filter, zseq_nodup|apply zseq_bounds; apply incl_filter|].
    apply Forall_forall. intros x Hx. apply filter_In in Hx as (Hx' & Hx). rewrite npow_h. apply zseq_in in Hx'.
    apply nonsquare; [lia|]. apply negb_true_iff. exact Hx. }
  assert (T : count is_square L + count (fun x => negb (is_square x)) L = Z.of_nat (length L)).
  { clear. induction L as [|x l IH]; [reflexivity|]. rewrite !count_cons. cbn [length]. destruct (is_square x); cbn [negb]; lia. }
  lia.
Qed.

Lemma square_draws : count (fun t => is_square (2 + t)) (range (p - 2)) = (p - 3) / 2.
Proof.
  pose proof square_count as C. pose proof half as E.
  replace (zseq (Z.to_nat (p - 1))) with (1 :: map (fun t => 2 + t) (range (p - 2))) in C.
  - rewrite count_cons, count_map in C. replace (is_square 1) with true in C.
    + replace ((p - 3) / 2) with (h - 1); [lia|]. replace (p - 3) with (p - 1 + (-1) * 2) by ring. rewrite Z.div_add by lia. lia.
    + symmetry. apply is_square_spec. rewrite Z.pow_1_l by lia. reflexivity.
  - unfold zseq, range. replace (Z.to_nat (p - 1)) with (S (Z.to_nat (p - 2))) by lia. cbn [seq map]. f_equal.
    rewrite map_map. rewrite <- seq_shift, <- seq_shift, !map_map. apply map_ext. intros. lia.
Qed.
End Euler.

Lemma count_all (P : Z -> bool) n : forall k, count (forallb P) (tuples k n) = count P (range n) ^ Z.of_nat k.
Proof.
  induction k as [|k IH]; [reflexivity|].
  rewrite (count_ext_in (forallb P) (fun l => match l with x :: l' => P x && forallb P l' | [] => false end)).
  - rewrite tuples_step, IH, Nat2Z.inj_succ, Z.pow_succ_r by lia. reflexivity.
  - intros l Hl. apply tuples_in in Hl as (Hl & _). destruct l; [discriminate|reflexivity].
Qed.

(** * The search *)
Section Search.
Variable F : field.
Hypothesis Hok : fok F.
Local Notation p := (fp F).
Local Notation B := (fw F).
Hypothesis Hp : prime p.
Variable k : nat.
Local Notation D := (2 * Z.of_nat (2 ^ k)).
Hypothesis Hdiv : (D | p - 1).

Lemma root_search_hit q : 0 <= q -> forall m draws w, (forall i, 0 <= draws i < p) ->
  root_search F D q m draws = Some (Ok w) -> exists i, (i < m)%nat /\ cong p (npow (draws i ^ q) (2 ^ k)) (-1).
Proof.
  intros Hq. pose proof (B_facts F Hok). induction m as [|m IH]; intros draws w Hd E; cbn [root_search] in E; [discriminate|].
  rewrite (f_pow_correct F Hok) in E by (apply Hd || exact Hq). cbn [bind] in E.
  pose proof (Z.mod_pos_bound (draws O ^ q) p ltac:(lia)) as Hb.
  destruct (is_primitive_root_spec F Hok (draws O ^ q mod p) k Hb) as (b & Eb & Sb). rewrite Eb in E. cbn [bind] in E.
  destruct b.
  - exists O. split; [lia|]. rewrite (npow_cong p _ (draws O ^ q mod p)); [apply Sb; reflexivity|].
    symmetry. apply cong_mod. lia.
  - destruct (IH _ w (fun i => Hd (S i)) E) as (i & Hi & Hc). exists (S i). split; [lia|exact Hc].
Qed.

Lemma two_div : (2 | p - 1).
Proof. destruct Hdiv as [q Hq]. exists (q * Z.of_nat (2 ^ k)). rewrite Hq. ring. Qed.

Lemma quotient_half : (p - 1) / D * Z.of_nat (2 ^ k) = (p - 1) / 2.
Proof.
  pose proof (pow_nz k). destruct Hdiv as [q Hq]. rewrite Hq, Z.div_mul by lia.
  replace (q * D) with (q * Z.of_nat (2 ^ k) * 2) by ring. rewrite Z.div_mul by lia. reflexivity.
Qed.

Lemma try_primitive_hit draws w : (forall i, 2 <= draws i <= p - 1) -> try_primitive_root F draws D = Some (Ok w) ->
  exists i, (i < 100)%nat /\ cong p (draws i ^ ((p - 1) / 2)) (-1).
Proof.
  intros Hd. pose proof (B_facts F Hok). pose proof (pow_nz k). unfold try_primitive_root.
  rewrite usub_some by lia. cbn [bind]. rewrite udiv_some by lia. cbn [bind].
  pose proof (Z.mul_div_le (p - 1) D ltac:(lia)). rewrite umul_some by lia. cbn [bind].
  destruct (negb _); [discriminate|]. unfold assert. destruct (2 <=? p - 1); [|discriminate]. cbn [bind]. intros E.
  assert (Hq : 0 <= (p - 1) / D) by (apply Z.div_pos; lia).
  destruct (root_search_hit _ Hq 100 draws w) as (i & Hi & Hc); [|exact E|].
  - intros i. specialize (Hd i). lia.
  - exists i. split; [exact Hi|]. unfold npow in Hc. rewrite <- Z.pow_mul_r, quotient_half in Hc by lia. exact Hc.
Qed.

Lemma minimal_iff draws : (forall i, 2 <= draws i <= p - 1) ->
  (exists w, try_minimal_primitive_root F draws D = Some (Ok w)) <->
  exists i, (i < 100)%nat /\ cong p (draws i ^ ((p - 1) / 2)) (-1).
Proof.
  intros Hd. split.
  - intros (w & E). unfold try_minimal_primitive_root in E.
    destruct (try_primitive_root F draws D) as [[w'|]|] eqn:E'; cbn [bind] in E; try discriminate.
    exact (try_primitive_hit draws w' Hd E').
  - intros (i & Hi & Hc). destruct (try_minimal_spec F Hok Hp draws k Hd) as (r & E & S). destruct r as [w|]; [exists w; exact E|].
    destruct S as [S|S]; [contradiction|]. destruct (S i Hi Hc).
Qed.

Lemma generate_iff draws : (forall i, 2 <= draws i <= p - 1) -> (k < 63)%nat ->
  (exists T, generate_ntt_table F draws k = Some (Ok T)) <->
  exists i, (i < 100)%nat /\ cong p (draws i ^ ((p - 1) / 2)) (-1).
Proof.
  intros Hd Hk. pose proof (B_facts F Hok). pose proof (pow_nz k).
  assert (Hfit : D < 2 ^ B) by (apply Z.divide_pos_le in Hdiv; lia).
  rewrite <- (minimal_iff draws Hd). destruct (generate_spec F Hok Hp draws k Hd Hk Hfit) as (r & E & S). split.
  - intros (T & ET). destruct (try_minimal_spec F Hok Hp draws k Hd) as (r' & E' & S'). destruct r' as [w|]; [exists w; exact E'|].
    exfalso. unfold generate_ntt_table in ET.
    assert (Hk63 : 2 ^ Z.of_nat k <= 2 ^ 62) by (apply Z.pow_le_mono_r; lia).
    rewrite ushl_some in ET; [|lia|lia|rewrite Z.mul_1_l; apply Z.pow_lt_mono_r; lia]. cbn [bind] in ET.
    destruct (to_root_is F Hok 1 ltac:(lia)) as (one & Eone & Ione). rewrite Eone in ET. cbn [bind] in ET.
    rewrite Z.mul_1_l in ET. rewrite umul_some in ET by (change (2 ^ 64) with (2 ^ 62 * 4); lia). cbn [bind] in ET.
    rewrite <- pow2_nat in ET. rewrite (Z.mul_comm _ 2) in ET. rewrite assert_true in ET by (apply Z.ltb_lt; exact Hfit). cbn [bind] in ET.
    rewrite E' in ET. cbn [bind] in ET. discriminate.
  - intros X. apply (minimal_iff draws Hd) in X as (i & Hi & Hc). destruct r as [T|]; [exists T; exact E|].
    destruct S as [S|S]; [contradiction|]. destruct (S i Hi Hc).
Qed.

Lemma search_count (ok : (nat -> Z) -> bool) :
  (forall draws, (forall i, 2 <= draws i <= p - 1) ->
     ok draws = true <-> exists i, (i < 100)%nat /\ cong p (draws i ^ ((p - 1) / 2)) (-1)) ->
  count (fun ts => negb (ok (fun i => 2 + nth i ts 0))) (tuples 100 (p - 2)) = ((p - 3) / 2) ^ 100.
Proof.
  intros H. pose proof (pow_nz k). pose proof (B_facts F Hok).
  assert (H3 : 2 < p) by (apply Z.divide_pos_le in Hdiv; lia).
  rewrite <- (square_draws p Hp H3 two_div). change 100 with (Z.of_nat 100). rewrite <- (count_all (fun t => is_square p (2 + t))).
  apply count_ext_in. intros ts Hts. apply tuples_in in Hts as (Hl & Hf). rewrite Forall_forall in Hf.
  set (draws := fun i => 2 + nth i ts 0).
  assert (Hd : forall i, 2 <= draws i <= p - 1).
  { intros i. unfold draws. destruct (nth_in_or_default i ts 0) as [Hi| ->]; [apply Hf in Hi; lia|lia]. }
  specialize (H draws Hd). destruct (forallb (fun t => is_square p (2 + t)) ts) eqn:Ef.
  - apply negb_true_iff. apply not_true_iff_false. intros Ho. apply H in Ho as (i & Hi & Hc).
    rewrite forallb_forall in Ef. specialize (Ef (nth i ts 0) ltac:(apply nth_In; lia)). fold (draws i) in Ef.
    specialize (Hd i). apply (nonsquare p Hp H3 two_div) in Hc; [|lia]. unfold draws in *. congruence.
  - apply negb_false_iff. apply H.
    assert (X : exists t, In t ts /\ is_square p (2 + t) = false).
    { clear -Ef. induction ts as [|t ts IH]; [discriminate|]. cbn [forallb] in Ef. destruct (is_square p (2 + t)) eqn:E.
      - destruct (IH Ef) as (u & Hu & Eu). exists u. split; [right; exact Hu|exact Eu].
      - exists t. split; [left; reflexivity|exact E]. }
    destruct X as (t & Ht & Et). destruct (In_nth ts t 0 Ht) as (i & Hi & Ei). exists i. split; [lia|].
    apply (nonsquare p Hp H3 two_div); [specialize (Hd i); lia|]. unfold draws. rewrite Ei. exact Et.
Qed.
End Search.

Lemma chance_bound p : 2 < p -> (2 | p - 1) -> 2 ^ 100 * ((p - 3) / 2) ^ 100 < (p - 2) ^ 100.
Proof.
  intros H [q Hq]. rewrite <- Z.pow_mul_l. apply Z.pow_lt_mono_l; [lia|].
  pose proof (Z.mul_div_le (p - 3) 2 ltac:(lia)). pose proof (Z.div_pos (p - 3) 2 ltac:(lia) ltac:(lia)). lia.
Qed.

Lemma search_chance F k {X : Type} (f : (nat -> Z) -> option (res X)) : fok F -> prime (fp F) -> (2 * Z.of_nat (2 ^ k) | fp F - 1) ->
  (forall draws, (forall i, 2 <= draws i <= fp F - 1) ->
     (exists x, f draws = Some (Ok x)) <-> exists i, (i < 100)%nat /\ cong (fp F) (draws i ^ ((fp F - 1) / 2)) (-1)) ->
  let failures := count (fun ts => match f (fun i => 2 + nth i ts 0) with Some (Ok _) => false | _ => true end) (tuples 100 (fp F - 2)) in
  failures = ((fp F - 3) / 2) ^ 100 /\ 2 ^ 100 * failures < (fp F - 2) ^ 100.
Proof.
  intros Hok Hp Hd Hf. pose proof (B_facts F Hok). pose proof (pow_nz k).
  assert (E : count (fun ts => match f (fun i => 2 + nth i ts 0) with Some (Ok _) => false | _ => true end) (tuples 100 (fp F - 2)) = ((fp F - 3) / 2) ^ 100).
  { rewrite <- (search_count F Hok Hp k Hd (fun draws => match f draws with Some (Ok _) => true | _ => false end)).
    - unfold count. f_equal. f_equal. apply filter_ext. intros ts. destruct (f _) as [[x|]|]; reflexivity.
    - intros draws Hdr. rewrite <- (Hf draws Hdr).
      destruct (f draws) as [[x|]|]; split; try discriminate; try (intros (x' & X'); discriminate); [exists x; reflexivity|reflexivity]. }
  cbv zeta. rewrite E. split; [reflexivity|]. apply chance_bound; [|apply (two_div F k Hd)].
  apply Z.divide_pos_le in Hd; lia.
Qed.
