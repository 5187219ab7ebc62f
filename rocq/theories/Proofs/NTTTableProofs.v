(** Primitive roots and the transform table. *)
From Coq Require Import ZArith List Arith Bool Lia Znumtheory Setoid Morphisms.
From Verif Require Import Model.Base Model.Shoup Model.Barrett Model.Field Model.NTT.
From Verif Require Import Proofs.Arith Proofs.NumTheory Proofs.ShoupProofs Proofs.FieldProofs Proofs.NTTProofs.
Import ListNotations.
Local Open Scope Z_scope.

Lemma pow2_nat k : Z.of_nat (2 ^ k) = 2 ^ Z.of_nat k.
Proof. rewrite Nat2Z.inj_pow. reflexivity. Qed.

(** For an odd prime, x^n = -1 says exactly that x is a primitive (2n)-th root, n a power of two. *)
Lemma primitive_root_iff p k w : prime p -> 2 < p ->
  (primitive_root p (2 * Z.of_nat (2 ^ k)) w <-> cong p (npow w (2 ^ k)) (-1)).
Proof.
  intros Hp Hp2. pose proof (pow_nz k). split.
  - intros [H1 H2].
    assert (Hf : ~ cong p (npow w (2 ^ k)) 1).
    { apply (H2 (Z.of_nat (2 ^ k))). lia. }
    assert (Hd : (p | (npow w (2 ^ k) - 1) * (npow w (2 ^ k) + 1))).
    { replace ((npow w (2 ^ k) - 1) * (npow w (2 ^ k) + 1)) with (w ^ (2 * Z.of_nat (2 ^ k)) - 1); [exact H1|].
      unfold npow. rewrite Z.mul_comm, Z.pow_mul_r by lia. ring. }
    apply prime_mult in Hd; [|exact Hp]. destruct Hd as [Hd|Hd]; [contradiction|].
    unfold cong. replace (npow w (2 ^ k) - -1) with (npow w (2 ^ k) + 1) by ring. exact Hd.
  - intros Hw. split.
    + pose proof (root_full p w k Hw) as H1. unfold npow in H1. rewrite Nat2Z.inj_mul in H1. exact H1.
    + intros e He Hc. apply (root_order p w k Hp2 Hw (Z.to_nat e)); [lia|].
      unfold npow. rewrite Z2Nat.id by lia. exact Hc.
Qed.

Section Table.
Variable F : field.
Hypothesis Hok : fok F.
Local Notation B := (fw F).
Local Notation p := (fp F).
Hypothesis Hp : prime p.

Lemma is_primitive_root_spec root k : 0 <= root < p ->
  exists b, is_primitive_root F root (2 * Z.of_nat (2 ^ k)) = Some b /\
    (b = true <-> cong p (npow root (2 ^ k)) (-1)).
Proof.
  intros Hr. pose proof (B_facts F Hok). pose proof (pow_nz k). unfold is_primitive_root.
  rewrite assert_true by (apply Z.ltb_lt; lia). cbn [bind].
  rewrite assert_true.
  2:{ apply andb_true_iff. split; [apply Z.ltb_lt; lia|]. apply is_pow2_spec. exists (Z.of_nat (S k)).
      split; [lia|]. rewrite Nat2Z.inj_succ, Z.pow_succ_r by lia. rewrite pow2_nat. reflexivity. }
  cbn [bind]. destruct (Z.eqb_spec root 0) as [->|].
  - exists false. split; [reflexivity|]. split; [discriminate|]. intros H1. exfalso.
    unfold npow in H1. rewrite Z.pow_0_l in H1 by lia.
    assert (Hd : (p | 1)) by (destruct H1 as [q Hq]; exists q; lia).
    apply Z.divide_pos_le in Hd; lia.
  - rewrite ushr_some by lia. cbn [bind].
    assert (E : 2 * Z.of_nat (2 ^ k) / 2 ^ 1 = Z.of_nat (2 ^ k)).
    { change (2 ^ 1) with 2. rewrite Z.mul_comm. apply Z.div_mul. lia. }
    rewrite E, (f_pow_correct F Hok) by lia. cbn [bind]. eexists. split; [reflexivity|].
    fold (npow root (2 ^ k)). rewrite Z.eqb_eq. rewrite cong_iff by lia.
    replace (-1 mod p) with (p - 1); [reflexivity|].
    apply cong_eq_mod; [lia|]. exists 1. ring.
Qed.

Lemma root_search_spec k q : 0 <= q -> forall m draws, (forall i, 0 <= draws i < p) ->
  exists r, root_search F (2 * Z.of_nat (2 ^ k)) q m draws = Some r /\
    match r with
    | Ok w => 0 <= w < p /\ cong p (npow w (2 ^ k)) (-1)
    | Err => forall i, (i < m)%nat -> ~ cong p (npow (draws i ^ q) (2 ^ k)) (-1)
    end.
Proof.
  intros Hq. pose proof (B_facts F Hok). induction m as [|m IH]; intros draws Hd; cbn [root_search].
  - exists Err. split; [reflexivity|]. intros i Hi. lia.
  - rewrite (f_pow_correct F Hok) by (apply Hd || exact Hq). cbn [bind].
    pose proof (Z.mod_pos_bound (draws O ^ q) p ltac:(lia)) as Hb.
    destruct (is_primitive_root_spec (draws O ^ q mod p) k Hb) as (b & Eb & Sb). rewrite Eb. cbn [bind].
    destruct b.
    + eexists. split; [reflexivity|]. split; [exact Hb|]. apply Sb. reflexivity.
    + destruct (IH (fun i => draws (S i)) (fun i => Hd (S i))) as (r & Er & Sr). exists r. split; [exact Er|].
      destruct r; [exact Sr|]. intros [|i] Hi; [|apply Sr; lia].
      intros Hc. assert (false = true); [|discriminate]. apply Sb.
      rewrite (npow_cong p _ (draws O ^ q)); [exact Hc|]. apply cong_mod. lia.
Qed.

Lemma try_primitive_root_spec draws k : (forall i, 2 <= draws i <= p - 1) ->
  exists r, try_primitive_root F draws (2 * Z.of_nat (2 ^ k)) = Some r /\
    match r with
    | Ok w => (2 * Z.of_nat (2 ^ k) | p - 1) /\ 0 <= w < p /\ cong p (npow w (2 ^ k)) (-1)
    | Err => ~ (2 * Z.of_nat (2 ^ k) | p - 1) \/
             forall i, (i < 100)%nat -> ~ cong p (draws i ^ ((p - 1) / 2)) (-1)
    end.
Proof.
  intros Hd. pose proof (B_facts F Hok). pose proof (pow_nz k). set (D := 2 * Z.of_nat (2 ^ k)).
  unfold try_primitive_root. rewrite usub_some by lia. cbn [bind]. rewrite udiv_some by lia. cbn [bind].
  pose proof (Z.mul_div_le (p - 1) D ltac:(lia)). rewrite umul_some by lia. cbn [bind].
  destruct (Z.eqb_spec (p - 1) ((p - 1) / D * D)) as [E|E]; cbn [negb].
  - assert (Hdiv : (D | p - 1)) by (eexists; exact E).
    assert (Hp1 : 2 <= p - 1).
    { apply Z.divide_pos_le in Hdiv; lia. }
    rewrite assert_true by (apply Z.leb_le; lia). cbn [bind].
    destruct (root_search_spec k ((p - 1) / D) (Z.div_pos (p - 1) D ltac:(lia) ltac:(lia)) 100 draws) as (r & Er & Sr).
    + intros i. specialize (Hd i). lia.
    + exists r. split; [exact Er|]. destruct r as [w|]; [tauto|]. right. intros i Hi Hc. apply (Sr i Hi).
      unfold npow. rewrite <- Z.pow_mul_r; [|apply Z.div_pos; lia|lia].
      replace ((p - 1) / D * Z.of_nat (2 ^ k)) with ((p - 1) / 2); [exact Hc|].
      assert (E' : p - 1 = (p - 1) / D * Z.of_nat (2 ^ k) * 2) by (rewrite E at 1; unfold D; ring).
      rewrite E' at 1. apply Z.div_mul. lia.
  - exists Err. split; [reflexivity|]. left. intros [q Hq]. apply E. rewrite Hq. rewrite Z.div_mul by lia. reflexivity.
Qed.

(** [w] is the least canonical solution of x^(2^k) = -1. *)
Definition least_root (k : nat) (w : Z) : Prop :=
  0 <= w < p /\ cong p (npow w (2 ^ k)) (-1) /\
  forall z, 0 <= z < p -> cong p (npow z (2 ^ k)) (-1) -> w <= z.

Lemma least_root_unique k w w' : least_root k w -> least_root k w' -> w = w'.
Proof.
  intros (H1 & H2 & H3) (H1' & H2' & H3'). specialize (H3 w' H1' H2'). specialize (H3' w H1 H2). lia.
Qed.

Lemma divide_gt2 k : (2 * Z.of_nat (2 ^ k) | p - 1) -> 2 < p.
Proof.
  intros H. pose proof (pow_nz k). pose proof (B_facts F Hok). apply Z.divide_pos_le in H; lia.
Qed.

Lemma try_minimal_spec draws k : (forall i, 2 <= draws i <= p - 1) ->
  exists r, try_minimal_primitive_root F draws (2 * Z.of_nat (2 ^ k)) = Some r /\
    match r with
    | Ok w => (2 * Z.of_nat (2 ^ k) | p - 1) /\ least_root k w
    | Err => ~ (2 * Z.of_nat (2 ^ k) | p - 1) \/
             forall i, (i < 100)%nat -> ~ cong p (draws i ^ ((p - 1) / 2)) (-1)
    end.
Proof.
  intros Hd. pose proof (B_facts F Hok). pose proof (pow_nz k). unfold try_minimal_primitive_root.
  destruct (try_primitive_root_spec draws k Hd) as (r & -> & Sr). cbn [bind]. destruct r as [w|].
  2:{ exists Err. split; [reflexivity|exact Sr]. }
  destruct Sr as (Hdiv & Hw & Cw). pose proof (divide_gt2 k Hdiv) as Hp2.
  rewrite (f_mul_correct F Hok) by lia. cbn [bind].
  destruct (to_root_is F Hok ((w * w) mod p)) as (g & Eg & Ig); [apply Z.mod_pos_bound; lia|].
  rewrite Eg. cbn [bind].
  assert (Ig' : is_root F g (w * w)).
  { apply (is_root_cong F Hok) with (1 := Ig). apply cong_mod. lia. }
  destruct (iterM_inv (min_root_step F g)
    (fun i st => snd st = zeta w i mod p /\
       0 <= fst st < p /\ cong p (npow (fst st) (2 ^ k)) (-1) /\
       forall j, (j < i)%nat -> fst st <= zeta w j mod p)
    (Z.to_nat (2 * Z.of_nat (2 ^ k))) (w, w)) as ([w' c] & E & _ & Hw' & Cw' & Hmin).
  - cbn [fst snd]. split; [|split; [lia|split; [exact Cw|intros; lia]]].
    unfold zeta. cbn [Nat.mul Nat.add]. rewrite npow_1, Z.mod_small by lia. reflexivity.
  - intros i [root cur] Hi (Ec & Hroot & Croot & Hm). cbn [fst snd] in *. unfold min_root_step.
    pose proof (Z.mod_pos_bound (zeta w i) p ltac:(lia)) as Hb.
    rewrite (mul_root_correct F Hok g (w * w) cur Ig') by lia. cbn [bind]. eexists. split; [reflexivity|].
    cbn [fst snd].
    assert (Cc : cong p (npow cur (2 ^ k)) (-1)).
    { rewrite Ec. rewrite (npow_cong p _ (zeta w i)) by (apply cong_mod; lia). apply zeta_pow. exact Cw. }
    split; [|split; [|split]].
    + apply cong_iff; [lia|]. rewrite Ec. rewrite cong_mod by lia. apply cong_of_eq. unfold zeta.
      replace (2 * S i + 1)%nat with (S (S (2 * i + 1))) by lia. rewrite !npow_S. ring.
    + destruct (cur <? root); lia.
    + destruct (cur <? root); assumption.
    + intros j Hj. destruct (Z.ltb_spec cur root).
      * destruct (Nat.eq_dec j i) as [->|]; [lia|]. specialize (Hm j ltac:(lia)). lia.
      * destruct (Nat.eq_dec j i) as [->|]; [lia|]. apply Hm. lia.
  - rewrite E. cbn [bind fst snd] in *. eexists. split; [reflexivity|]. split; [exact Hdiv|].
    split; [exact Hw'|]. split; [exact Cw'|]. intros z Hz Cz.
    destruct (root_all p w k Hp Hp2 Cw z Cz) as (j & Hj & Hzj).
    replace z with (zeta w j mod p); [apply Hmin; lia|]. symmetry. apply cong_eq_mod; assumption.
Qed.

(** * The powers of the root *)
Lemma ordinal_powers_spec w g : is_root F g w -> forall m s power, 0 <= power < p ->
  cong p power (npow w s) ->
  exists l, ordinal_powers F g m power = Some l /\ length l = m /\
    forall i, (i < m)%nat -> exists r, nth_error l i = Some r /\ is_root F r (npow w (s + 1 + i)).
Proof.
  intros Hg. pose proof (B_facts F Hok). induction m as [|m IH]; intros s power Hpow Hc; cbn [ordinal_powers].
  - exists []. split; [reflexivity|]. split; [reflexivity|]. intros i Hi. lia.
  - rewrite (mul_root_correct F Hok g w power Hg) by lia. cbn [bind].
    pose proof (Z.mod_pos_bound (w * power) p ltac:(lia)) as Hb.
    destruct (to_root_is F Hok _ Hb) as (r & Er & Ir). rewrite Er. cbn [bind].
    assert (Hn : cong p ((w * power) mod p) (npow w (s + 1))).
    { rewrite cong_mod by lia. rewrite Hc. rewrite Nat.add_1_r, npow_S. reflexivity. }
    destruct (IH (s + 1)%nat ((w * power) mod p) Hb Hn) as (l & El & Ll & Hl). rewrite El. cbn [bind].
    eexists. split; [reflexivity|]. split; [cbn; lia|]. intros [|i] Hi.
    + exists r. split; [reflexivity|]. rewrite Nat.add_0_r. apply (is_root_cong F Hok) with (1 := Ir). exact Hn.
    + cbn [nth_error]. destruct (Hl i ltac:(lia)) as (r' & Er' & Ir'). exists r'. split; [exact Er'|].
      replace (s + 1 + S i)%nat with (s + 1 + 1 + i)%nat by lia. exact Ir'.
Qed.

(** * Scattering by a permutation *)
Lemma upd_spec {A} (l : list A) i x : (i < length l)%nat -> exists l', upd l i x = Some l' /\
  length l' = length l /\ nth_error l' i = Some x /\ forall j, j <> i -> nth_error l' j = nth_error l j.
Proof.
  revert i. induction l as [|y l IH]; intros i Hi; cbn in Hi; [lia|]. destruct i as [|i]; cbn [upd].
  - eexists. split; [reflexivity|]. split; [reflexivity|]. split; [reflexivity|]. intros [|j] Hj; [lia|reflexivity].
  - destruct (IH i ltac:(lia)) as (l' & E & Ll & Hx & Ho). rewrite E. cbn [bind].
    eexists. split; [reflexivity|]. split; [cbn; lia|]. split; [exact Hx|].
    intros [|j] Hj; [reflexivity|]. cbn. apply Ho. lia.
Qed.

Lemma scatter_spec off : forall items dst, NoDup (map snd items) ->
  (forall it, In it items -> (snd it + off < length dst)%nat) ->
  exists d, scatter off items dst = Some d /\ length d = length dst /\
    (forall x q, In (x, q) items -> nth_error d (q + off) = Some x) /\
    (forall j, (forall it, In it items -> (snd it + off)%nat <> j) -> nth_error d j = nth_error dst j).
Proof.
  unfold scatter. induction items as [|[x q] items IH]; intros dst Hnd Hb; cbn [foldM].
  - exists dst. split; [reflexivity|]. split; [reflexivity|]. split; [intros ? ? []|]. reflexivity.
  - cbn [map snd] in Hnd. inv Hnd. cbn [fst snd].
    destruct (upd_spec dst (q + off) x (Hb (x, q) (or_introl eq_refl))) as (d1 & E1 & L1 & X1 & O1).
    rewrite E1. cbn [bind].
    destruct (IH d1) as (d & Ed & Ld & Xd & Od).
    + assumption.
    + intros it Hit. rewrite L1. apply Hb. right. exact Hit.
    + exists d. split; [exact Ed|]. split; [lia|]. split.
      * intros y qy [Hin|Hin]; [|apply Xd; exact Hin]. injection Hin as <- <-. rewrite Od; [exact X1|].
        intros it Hit Hc. apply H1. apply in_map_iff. exists it. split; [lia|exact Hit].
      * intros j Hj. rewrite Od; [|intros it Hit; apply Hj; right; exact Hit].
        apply O1. intros ->. apply (Hj (x, q)); [left; reflexivity|reflexivity].
Qed.

Lemma combine_nth_In {A C} (a : list A) (b : list C) i x y : nth_error a i = Some x -> nth_error b i = Some y ->
  In (x, y) (combine a b).
Proof.
  revert a b. induction i; intros [|a0 a] [|b0 b] Ha Hb; try discriminate; cbn in *.
  - left. congruence.
  - right. apply IHi; assumption.
Qed.
Lemma NoDup_combine_snd {A} (a : list A) (b : list nat) : NoDup b -> NoDup (map snd (combine a b)).
Proof.
  revert b. induction a; intros b H; [constructor|]. destruct b; [constructor|]. inv H. cbn. constructor; [|apply IHa; assumption].
  intros Hin. apply H2. apply in_map_iff in Hin. destruct Hin as ([x y] & <- & Hin). apply in_combine_r in Hin. exact Hin.
Qed.
Lemma nth_error_firstn {A} (l : list A) m i : (i < m)%nat -> nth_error (firstn m l) i = nth_error l i.
Proof.
  revert l i. induction m; intros l i Hi; [lia|]. destruct l; [reflexivity|]. destruct i; [reflexivity|]. cbn. apply IHm. lia.
Qed.
Lemma nth_error_rev {A} (l : list A) i : (i < length l)%nat -> nth_error (rev l) i = nth_error l (length l - 1 - i).
Proof.
  intros H. destruct l as [|d l']; [cbn in H; lia|]. set (l := d :: l') in *.
  rewrite (nth_error_nth' (rev l) d) by (rewrite rev_length; exact H). rewrite rev_nth by exact H.
  rewrite (nth_error_nth' l d) by lia. do 2 f_equal. lia.
Qed.

Lemma nth_error_seq_map {A} (f : nat -> A) m i : (i < m)%nat -> nth_error (map f (seq 0 m)) i = Some (f i).
Proof.
  intros H. rewrite (map_nth_error f i (seq 0 m) (d := i)); [reflexivity|].
  rewrite (nth_error_nth' _ O) by (rewrite seq_length; exact H). rewrite seq_nth by exact H. reflexivity.
Qed.

Lemma bitrevs_nodup k m : (m <= 2 ^ k)%nat -> NoDup (map (bitrev k) (seq 0 m)).
Proof.
  intros Hm. apply NoDup_map_inj; [|apply seq_NoDup]. intros x y Hx Hy. apply in_seq in Hx, Hy.
  apply bitrev_inj; lia.
Qed.

Lemma bitrev_zero_iff k i : (i < 2 ^ k)%nat -> bitrev k i = O -> i = O.
Proof.
  intros Hi H. apply (bitrev_inj k i 0 Hi); [pose proof (pow_nz k); lia|]. rewrite bitrev_0. exact H.
Qed.

Lemma ntt_table_new_spec w k ord : 2 < p -> (k < 63)%nat -> 0 <= w < p -> cong p (npow w (2 ^ k)) (-1) ->
  length ord = (2 * 2 ^ k)%nat ->
  (forall i, (i < 2 * 2 ^ k)%nat -> exists r, nth_error ord i = Some r /\ is_root F r (npow w i)) ->
  exists T, ntt_table_new F w k ord = Some T /\ table_ok F w k T.
Proof.
  intros Hp2 Hk Hw Cw Hl Hord. pose proof (B_facts F Hok). pose proof (pow_nz k) as Hn0.
  set (n := (2 ^ k)%nat) in *. unfold ntt_table_new. fold n.
  rewrite assert_true by (apply Z.ltb_lt; lia). cbn [bind].
  destruct (Hord (2 * n - 1)%nat ltac:(lia)) as (lst & El & Il).
  rewrite nth_error_rev by lia. replace (length ord - 1 - 0)%nat with (2 * n - 1)%nat by lia. rewrite El. cbn [bind].
  rewrite (is_root_value F Hok lst _ Il).
  pose proof (Z.mod_pos_bound (npow w (2 * n - 1)) p ltac:(lia)).
  rewrite (f_mul_correct F Hok) by lia. cbn [bind].
  rewrite assert_true.
  2:{ apply Z.eqb_eq. symmetry. apply cong_eq_mod; [lia|]. symmetry.
      rewrite (cong_mod p (npow w _)) by lia. rewrite <- npow_S. replace (S (2 * n - 1)) with (2 * n)%nat by lia.
      apply root_full. exact Cw. }
  cbn [bind]. destruct (Hord O ltac:(lia)) as (one & Eone & Ione). rewrite Eone. cbn [bind].
  rewrite (mapM_some _ (fun i => Z.of_nat (bitrev k i))).
  2:{ intros i _. change 64 with (Z.of_nat 64). apply reverse_lsbs_correct. lia. }
  cbn [bind]. rewrite map_map. rewrite (map_ext (fun i => Z.to_nat (Z.of_nat (bitrev k i))) (bitrev k)) by (intros; apply Nat2Z.id).
  set (revs := map (bitrev k) (seq 0 n)).
  assert (Lrev : length revs = n) by (unfold revs; rewrite map_length, seq_length; reflexivity).
  assert (Nrev : forall i, (i < n)%nat -> nth_error revs i = Some (bitrev k i)).
  { intros i Hi. apply nth_error_seq_map. exact Hi. }
  destruct (upd_spec (repeat root_default n) 0 one) as (r0 & Er0 & Lr0 & _ & _); [rewrite repeat_length; lia|].
  rewrite repeat_length in Lr0. rewrite Er0. cbn [bind].
  rewrite assert_true by (apply Nat.leb_le; lia). cbn [bind].
  assert (Hin : forall (a : list shoup) it, In it (combine a revs) -> exists i, (i < n)%nat /\ snd it = bitrev k i).
  { intros a [x q] Hit. apply in_combine_r in Hit. apply in_map_iff in Hit. destruct Hit as (i & <- & Hi).
    apply in_seq in Hi. exists i. split; [lia|reflexivity]. }
  destruct (scatter_spec 0 (combine (firstn n ord) revs) r0) as (roots & Eroots & Lroots & Hroots & _).
  { apply NoDup_combine_snd. apply bitrevs_nodup. apply le_n. }
  { intros it Hit. destruct (Hin _ _ Hit) as (i & Hi & ->). pose proof (bitrev_bound k i). unfold n in *. lia. }
  rewrite Eroots. cbn [bind]. rewrite assert_true by (apply Nat.leb_le; lia). cbn [bind].
  destruct (scatter_spec 1 (combine (rev (skipn (n + 1) ord)) revs) r0) as (iroots & Eiroots & Liroots & Hiroots & _).
  { apply NoDup_combine_snd. apply bitrevs_nodup. apply le_n. }
  { (* only the first n-1 positions are used, none of them reversed to n-1 *)
    intros [x q] Hit. cbn [snd]. rewrite Lr0.
    assert (Hlen : length (rev (skipn (n + 1) ord)) = (n - 1)%nat) by (rewrite rev_length, skipn_length; lia).
    destruct (In_nth_error _ _ Hit) as (i & Ei).
    assert (Hi : (i < n - 1)%nat).
    { assert (i < length (combine (rev (skipn (n + 1) ord)) revs))%nat by (apply nth_error_Some; congruence).
      rewrite combine_length in H1. lia. }
    assert (Eq : q = bitrev k i).
    { assert (Hsnd : nth_error (map snd (combine (rev (skipn (n + 1) ord)) revs)) i = Some q).
      { apply (map_nth_error snd) in Ei. exact Ei. }
      assert (Hc : forall (a : list shoup) (b : list nat) i q, nth_error (map snd (combine a b)) i = Some q -> nth_error b i = Some q).
      { clear. induction a; intros [|b0 b] i q H; destruct i; cbn in *; try discriminate; auto. }
      apply Hc in Hsnd. rewrite Nrev in Hsnd by lia. congruence. }
    pose proof (bitrev_bound k i). fold n in H1.
    assert (bitrev k i <> n - 1)%nat; [|lia].
    intros Hc. assert (Hones : bitrev k (n - 1) = (n - 1)%nat) by (apply bitrev_ones).
    rewrite <- Hones in Hc. apply bitrev_inj in Hc; unfold n in *; lia. }
  rewrite Eiroots. cbn [bind].
  rewrite (f_from_usize_correct F Hok) by lia.
  (* n is invertible modulo p *)
  assert (Hnp : ~ (p | Z.of_nat n)).
  { unfold n. rewrite pow2_nat. intros Hd. apply prime_div_pow in Hd; [|exact Hp|lia].
    apply Z.divide_pos_le in Hd; lia. }
  assert (Hnm : 0 < Z.of_nat n mod p < p).
  { pose proof (Z.mod_pos_bound (Z.of_nat n) p ltac:(lia)).
    assert (Z.of_nat n mod p <> 0); [|lia]. intros Hz. apply Hnp. apply Z.mod_divide; [lia|exact Hz]. }
  destruct (f_inv_correct F Hok _ Hp Hnm) as (di & Edi & Hdi & Cdi). rewrite Edi. cbn [bind].
  destruct (to_root_is F Hok di Hdi) as (id & Eid & Iid). rewrite Eid. cbn [bind].
  eexists. split; [reflexivity|].
  constructor; cbn [nt_root nt_logn nt_roots nt_inv_roots nt_inv_degree nt_ord nt_rev].
  - reflexivity.
  - reflexivity.
  - fold n. lia.
  - intros i Hi. destruct (Hord (bitrev k i)) as (r & Er & Ir).
    { pose proof (bitrev_bound k i). fold n in H1. lia. }
    exists r. split; [|exact Ir]. rewrite <- (Nat.add_0_r i). apply Hroots.
    apply (combine_nth_In _ _ (bitrev k i)).
    + rewrite nth_error_firstn by (apply bitrev_bound). exact Er.
    + rewrite Nrev by (apply bitrev_bound). rewrite bitrev_involutive by exact Hi. reflexivity.
  - fold n. lia.
  - intros m Hm. fold n in Hm. fold n. 
    assert (Hbm : (bitrev k m < n - 1)%nat).
    { pose proof (bitrev_bound k m). fold n in H1. assert (bitrev k m <> n - 1)%nat; [|lia].
      intros Hc. assert (Hones : bitrev k (n - 1) = (n - 1)%nat) by (apply bitrev_ones).
      rewrite <- Hones in Hc. apply bitrev_inj in Hc; unfold n in *; lia. }
    destruct (Hord (2 * n - 1 - bitrev k m)%nat ltac:(lia)) as (r & Er & Ir).
    exists r. split; [|exact Ir]. replace (S m) with (m + 1)%nat by lia. apply Hiroots.
    apply (combine_nth_In _ _ (bitrev k m)).
    + assert (Hlen : length (skipn (n + 1) ord) = (n - 1)%nat) by (rewrite skipn_length; lia).
      rewrite nth_error_rev by lia. rewrite Hlen, nth_error_skipn.
      replace (n + 1 + (n - 1 - 1 - bitrev k m))%nat with (2 * n - 1 - bitrev k m)%nat by lia. exact Er.
    + rewrite Nrev by lia. rewrite bitrev_involutive by (fold n; lia). reflexivity.
  - exists di. split; [exact Iid|]. fold n. rewrite Z.mul_comm.
    rewrite <- (cong_mod p (Z.of_nat n)) by lia.
    apply cong_iff; [lia|]. rewrite Cdi. symmetry. apply Z.mod_small. lia.
  - exact Hl.
  - exact Hord.
  - reflexivity.
Qed.

Lemma generate_spec draws k : (forall i, 2 <= draws i <= p - 1) -> (k < 63)%nat -> 2 * Z.of_nat (2 ^ k) < 2 ^ B ->
  exists r, generate_ntt_table F draws k = Some r /\
    match r with
    | Ok T => (2 * Z.of_nat (2 ^ k) | p - 1) /\ exists w, least_root k w /\ table_ok F w k T
    | Err => ~ (2 * Z.of_nat (2 ^ k) | p - 1) \/
             forall i, (i < 100)%nat -> ~ cong p (draws i ^ ((p - 1) / 2)) (-1)
    end.
Proof.
  intros Hd Hk Hfit. pose proof (B_facts F Hok). pose proof (pow_nz k) as Hn0. unfold generate_ntt_table.
  assert (Hk63 : 2 ^ Z.of_nat k <= 2 ^ 62) by (apply Z.pow_le_mono_r; lia).
  rewrite ushl_some; [|lia|lia|rewrite Z.mul_1_l; apply Z.pow_lt_mono_r; lia]. cbn [bind].
  destruct (to_root_is F Hok 1 ltac:(lia)) as (one & Eone & Ione). rewrite Eone. cbn [bind].
  rewrite Z.mul_1_l. rewrite umul_some by (change (2 ^ 64) with (2 ^ 62 * 4); lia). cbn [bind].
  rewrite <- pow2_nat. rewrite (Z.mul_comm _ 2). rewrite assert_true by (apply Z.ltb_lt; exact Hfit). cbn [bind].
  destruct (try_minimal_spec draws k Hd) as (r & Er & Sr). rewrite Er. cbn [bind]. destruct r as [w|].
  2:{ exists Err. split; [reflexivity|exact Sr]. }
  destruct Sr as (Hdiv & Hlw). pose proof Hlw as (Hw & Cw & _). pose proof (divide_gt2 k Hdiv) as Hp2.
  destruct (to_root_is F Hok w Hw) as (g & Eg & Ig). rewrite Eg. cbn [bind].
  destruct (ordinal_powers_spec w g Ig (2 * 2 ^ k - 2) 1 w Hw) as (tail & Et & Lt & Ht).
  { rewrite npow_1. reflexivity. }
  rewrite Et. cbn [bind].
  destruct (ntt_table_new_spec w k (one :: g :: tail) Hp2 Hk Hw Cw) as (T & ET & HT).
  - cbn [length]. lia.
  - intros [|[|i]] Hi; cbn [nth_error].
    + exists one. split; [reflexivity|exact Ione].
    + exists g. split; [reflexivity|]. rewrite npow_1. exact Ig.
    + destruct (Ht i ltac:(lia)) as (r & Er' & Ir). exists r. split; [exact Er'|exact Ir].
  - rewrite ET. cbn [bind]. eexists. split; [reflexivity|]. split; [exact Hdiv|]. exists w. split; assumption.
Qed.

Lemma n2_spec k nn n2 : ushl 64 1 (Z.of_nat k) = Some nn -> umul 64 nn 2 = Some n2 ->
  (k < 63)%nat /\ n2 = 2 * Z.of_nat (2 ^ k).
Proof.
  clear. unfold ushl, umul. destruct (Z.ltb_spec (Z.of_nat k) 64) as [H|]; [|discriminate].
  assert (Es : (1 * 2 ^ Z.of_nat k) mod 2 ^ 64 = 2 ^ Z.of_nat k).
  { rewrite Z.mul_1_l. apply Z.mod_small. split; [apply Z.pow_nonneg; lia|apply Z.pow_lt_mono_r; lia]. }
  rewrite Es. intros E1 E2. assert (nn = 2 ^ Z.of_nat k) by congruence. subst nn.
  destruct (Z.ltb_spec (2 ^ Z.of_nat k * 2) (2 ^ 64)) as [Hl|]; [|discriminate].
  assert (n2 = 2 ^ Z.of_nat k * 2) by congruence. subst n2. split; [|rewrite pow2_nat; ring].
  destruct (Nat.lt_ge_cases k 63) as [|Hge]; [assumption|]. exfalso.
  assert (2 ^ 63 <= 2 ^ Z.of_nat k) by (apply Z.pow_le_mono_r; lia). lia.
Qed.

(** What a caller that got a table knows. *)
Lemma generate_ok draws k T : (forall i, 2 <= draws i <= p - 1) -> generate_ntt_table F draws k = Some (Ok T) ->
  2 < p /\ (k < 63)%nat /\ (2 * Z.of_nat (2 ^ k) | p - 1) /\ exists w, least_root k w /\ table_ok F w k T.
Proof.
  intros Hd HT. assert (Hkf : (k < 63)%nat /\ 2 * Z.of_nat (2 ^ k) < 2 ^ B).
  { unfold generate_ntt_table in HT. apply bind_some in HT. destruct HT as (nn & E & HT).
    apply bind_some in HT. destruct HT as (x & _ & HT). apply bind_some in HT. destruct HT as (n2 & E2 & HT).
    apply bind_some in HT. destruct HT as (u & E3 & _). destruct (n2_spec k nn n2 E E2) as [Hk ->].
    split; [exact Hk|]. unfold assert in E3. destruct (Z.ltb_spec (2 * Z.of_nat (2 ^ k)) (2 ^ B)); [assumption|discriminate]. }
  destruct Hkf as [Hk Hfit].
  destruct (generate_spec draws k Hd Hk Hfit) as (r & E & S). rewrite HT in E. injection E as <-.
  destruct S as (Hdiv & Hw). split; [apply (divide_gt2 k Hdiv)|]. split; [exact Hk|]. split; assumption.
Qed.

(** Two runs with different random draws build the same table. *)
Lemma table_ok_roots_eq w k T T' : table_ok F w k T -> table_ok F w k T' ->
  nt_roots T = nt_roots T' /\ nt_ord T = nt_ord T' /\ nt_inv_degree T = nt_inv_degree T' /\ nt_rev T = nt_rev T'.
Proof.
  intros HT HT'. pose proof (B_facts F Hok).
  assert (Hext : forall (a b : list shoup) m, length a = m -> length b = m ->
    (forall i, (i < m)%nat -> nth_error a i = nth_error b i) -> a = b).
  { induction a as [|x a IH]; intros [|y b] m Ha Hb H'; cbn in *; try lia; [reflexivity|].
    f_equal; [specialize (H' O ltac:(lia)); cbn in H'; congruence|]. apply (IH b (length a)); [reflexivity|lia|].
    intros i Hi. apply (H' (S i)). lia. }
  split; [|split; [|split]].
  - apply (Hext _ _ (2 ^ k)%nat); [apply (to_roots_len F w k T HT)|apply (to_roots_len F w k T' HT')|].
    intros i Hi. destruct (to_roots F w k T HT i Hi) as (r & -> & Ir). destruct (to_roots F w k T' HT' i Hi) as (r' & -> & Ir').
    f_equal. apply (is_root_det F r r' _ Ir Ir').
  - apply (Hext _ _ (2 * 2 ^ k)%nat); [apply (to_ord_len F w k T HT)|apply (to_ord_len F w k T' HT')|].
    intros i Hi. destruct (to_ord F w k T HT i Hi) as (r & -> & Ir). destruct (to_ord F w k T' HT' i Hi) as (r' & -> & Ir').
    f_equal. apply (is_root_det F r r' _ Ir Ir').
  - destruct (to_deg F w k T HT) as (d & Id & Cd). destruct (to_deg F w k T' HT') as (d' & Id' & Cd').
    apply (is_root_det F _ _ d Id). apply (is_root_cong F Hok) with (1 := Id').
    rewrite Z.mul_comm in Cd, Cd'. apply (inv_unique F d' d (Z.of_nat (2 ^ k)) Cd' Cd).
  - rewrite (to_rev F w k T HT), (to_rev F w k T' HT'). reflexivity.
Qed.

Lemma generate_det draws draws' k T T' : (forall i, 2 <= draws i <= p - 1) -> (forall i, 2 <= draws' i <= p - 1) ->
  generate_ntt_table F draws k = Some (Ok T) -> generate_ntt_table F draws' k = Some (Ok T') -> T = T'.
Proof.
  intros Hd Hd' H H'.
  unfold generate_ntt_table in *.
  apply bind_some in H. destruct H as (nn & E1 & H). rewrite E1 in H'. cbn [bind] in H'.
  apply bind_some in H. destruct H as (one & E2 & H). rewrite E2 in H'. cbn [bind] in H'.
  apply bind_some in H. destruct H as (n2 & E3 & H). rewrite E3 in H'. cbn [bind] in H'.
  apply bind_some in H. destruct H as (u & E4 & H). rewrite E4 in H'. cbn [bind] in H'.
  destruct (n2_spec k nn n2 E1 E3) as [_ En2].
  subst n2.
  destruct (try_minimal_spec draws k Hd) as (r & Er & Sr). rewrite Er in H. cbn [bind] in H.
  destruct (try_minimal_spec draws' k Hd') as (r' & Er' & Sr'). rewrite Er' in H'. cbn [bind] in H'.
  destruct r as [w|]; [|discriminate]. destruct r' as [w'|]; [|discriminate].
  assert (w = w') by (apply (least_root_unique k); tauto). subst w'. congruence.
Qed.

End Table.
