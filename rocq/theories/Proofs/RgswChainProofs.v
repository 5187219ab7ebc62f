(** Products of RGSW ciphertexts. *)
From Coq Require Import ZArith Znumtheory List Bool Arith Lia Setoid Morphisms.
From Verif Require Import Spec.Basic Spec.Poly Spec.Ring Spec.LinProg Spec.RingProg Model.Base Model.Field Model.NTT Model.Concrete Model.Poly Model.Rlwe Model.Gadget
  Proofs.Arith Proofs.BarrettProofs Proofs.NumTheory Proofs.FieldProofs Proofs.PolyMath Proofs.NTTProofs Proofs.NTTTableProofs
  Proofs.PolyProofs Proofs.MonomialProofs Proofs.RingProofs Proofs.GadgetProofs Proofs.RlweProofs Proofs.GadgetMain Proofs.RgswProofs Proofs.LinearProofs
  Proofs.BlindProofs Proofs.NoiseProofs Proofs.LinProgProofs Proofs.RingProgProofs.
Import ListNotations.
Local Open Scope Z_scope.

Section Field.
Variable F : field.
Hypothesis Hok : fok F.
Local Notation p := (fp F).
Hypothesis Hp : prime p.
Variables (tbl : tables) (k : nat) (w : Z).
Hypothesis C : ctx F tbl k w.
Hypothesis Hk : (0 < k)%nat.
Local Notation n := (2 ^ k)%nat.
Variables (b : basis) (bits : Z).
Hypothesis Hb : basis_new F bits = Some b.
Hypothesis Hbits : 0 <= bits.
Variable s : list Z.
Hypothesis Ls : length s = n.
Local Notation has := (rgsw_has p n b s (2 ^ bits)).
Local Notation gain E := (2 * (Z.of_nat (bs_len b) * (Z.of_nat n * ((2 ^ bits - 1) * E)))).

(** One half: rows of [g], each multiplied by [S]. *)
Lemma half S m E es es' (G T : list rlwe) v E1 fs : rgsw_wf p n b S -> length m = n -> 0 <= E -> rgsw_encrypts p n s (2 ^ bits) m S es es' ->
  Forall (fun e => length e = n /\ bounded E e) es -> Forall (fun e => length e = n /\ bounded E e) es' ->
  0 <= E1 -> length v = n -> Forall (rlwe_wf p n) G -> gadget_encrypts p n s (2 ^ bits) v G fs -> Forall (fun e => length e = n /\ bounded E1 e) fs ->
  Forall2 (external_product p n (2 ^ bits) S) G T ->
  exists gs, Forall (fun e => length e = n /\ bounded (norm1 m * E1 + gain E) e) gs /\ gadget_encrypts p n s (2 ^ bits) (negacyclic n m v) T gs.
Proof.
  intros WS Lm HE HS Bs Bs' HE1 Lv WG (LG & HG) BF HT.
  assert (Row : forall off G T, Forall (rlwe_wf p n) G -> Forall2 (external_product p n (2 ^ bits) S) G T -> forall fs, length fs = length G ->
    Forall (fun e => length e = n /\ bounded E1 e) fs ->
    (forall i, (i < length G)%nat -> pcong p (rphase n s (nth i G (mk_rlwe [] []))) (padd (pscale ((2 ^ bits) ^ Z.of_nat (off + i)) v) (nth i fs []))) ->
    exists gs, length gs = length T /\ Forall (fun e => length e = n /\ bounded (norm1 m * E1 + gain E) e) gs /\
      forall i, (i < length T)%nat -> pcong p (rphase n s (nth i T (mk_rlwe [] []))) (padd (pscale ((2 ^ bits) ^ Z.of_nat (off + i)) (negacyclic n m v)) (nth i gs []))).
  { clear G T fs WG LG HG BF HT. intros off G T WG HT. revert off WG. induction HT as [|x t G T Hx HT IH]; intros off WG fs Lf BF HG.
    - exists []. split; [reflexivity|]. split; [constructor|]. cbn. intros; lia.
    - destruct fs as [|f fs]; [discriminate|]. inversion WG as [|? ? Wx WG']; subst. inversion BF as [|? ? (Lf0 & Bf0) BF']; subst.
      destruct (IH (Datatypes.S off) WG' fs ltac:(cbn in Lf; lia) BF') as (gs & Lg & Bg & Hg).
      { intros i Hi. specialize (HG (Datatypes.S i) ltac:(cbn; lia)). cbn [nth] in HG. replace (Datatypes.S off + i)%nat with (off + Datatypes.S i)%nat by lia. exact HG. }
      destruct Hx as (Wt & da & db & Da & Db & HP). specialize (HP s m es es' Ls Lm HS).
      exists (padd (negacyclic n m f) (padd (lincomb n da es) (lincomb n db es')) :: gs). split; [cbn; lia|]. split.
      + constructor; [|exact Bg]. split; [pl|].
        destruct WS as ((_ & L0 & _) & (_ & L1 & _)). destruct HS as ((Q0 & _) & (Q1 & _)). destruct Wx as (X1 & X2 & _).
        apply bounded_padd; [apply bounded_product; assumption|]. rewrite L0 in Da. rewrite L1 in Db.
        apply (external_noise_bound n (2 ^ bits) E (bs_len b) x); try assumption; try congruence. pose proof (Z.pow_pos_nonneg 2 bits ltac:(lia) Hbits). lia.
      + intros [|i] Hi; cbn [nth].
        * eapply pcong_trans; [exact HP|]. specialize (HG O ltac:(cbn; lia)). cbn [nth] in HG. pose proof (rphase_len k s x (wf_len p n x Wx)) as LX.
          apply (pc F Hp tbl k w C); [pl|rewrite padd_length; rewrite pscale_length; pl|]. intros z Hz.
          rewrite !ev_add by (rewrite ?pscale_length; pl). rewrite ev_scale. rewrite !(evn p k z) by assumption.
          rewrite (ev_cong p z z _ _ (cong_refl p z) HG). rewrite ev_add by (rewrite pscale_length; congruence). rewrite ev_scale. apply cong_of_eq. ring.
        * specialize (Hg i ltac:(cbn in Hi; lia)). replace (off + Datatypes.S i)%nat with (Datatypes.S off + i)%nat by lia. exact Hg. }
  destruct (Row O G T WG HT fs LG BF) as (gs & Lg & Bg & Hg); [intros i Hi; apply HG, Hi|].
  exists gs. split; [exact Bg|]. split; [exact Lg|]. intros i Hi. split; [|apply Hg, Hi].
  assert (In (nth i gs []) gs) by (apply nth_In; lia). rewrite Forall_forall in Bg. apply Bg. assumption.
Qed.

Lemma pneg_nega m v t : length m = n -> length v = n -> length t = n -> forall gs T, gadget_encrypts p n s (2 ^ bits) (negacyclic n m (pneg (negacyclic n v t))) T gs ->
  gadget_encrypts p n s (2 ^ bits) (pneg (negacyclic n (negacyclic n m v) t)) T gs.
Proof.
  intros Lm Lv Lt gs T (Lg & H). split; [exact Lg|]. intros i Hi. destruct (H i Hi) as (L0 & H0). split; [exact L0|].
  eapply pcong_trans; [exact H0|]. apply (pc F Hp tbl k w C); [rewrite padd_length; rewrite pscale_length; pl|rewrite padd_length; rewrite pscale_length, pneg_length; pl|].
  intros z Hz. rewrite !ev_add by (rewrite pscale_length; rewrite ?pneg_length; pl). rewrite !ev_scale, ev_neg. rewrite !(evn p k z) by (rewrite ?pneg_length; pl).
  rewrite ev_neg. rewrite !(evn p k z) by assumption. apply cong_of_eq. ring.
Qed.

Theorem rgsw_mul_has R S u m : has R u -> has S m ->
  exists T, rgsw_mul_small F tbl R S = Some T /\ has T (negacyclic n (fst m) (fst u), norm1 (fst m) * snd u + gain (snd m)).
Proof.
  destruct u as [u E1], m as [m E]. cbn [fst snd]. intros (Lu & HE1 & WR & fs & fs' & (R1 & R2) & BF & BF') (Lm & HE & WS & es & es' & HS & Bs & Bs').
  destruct (rgsw_mul_main F Hok Hp tbl k w C Hk b bits Hb Hbits R S WR WS) as (_ & T & _ & ET & _ & WT & T1 & T2).
  exists T. split; [exact ET|]. split; [pl|]. pose proof (norm1_nonneg m). pose proof (Z.pow_pos_nonneg 2 bits ltac:(lia) Hbits).
  split. { apply Z.add_nonneg_nonneg; [apply Z.mul_nonneg_nonneg; lia|]. repeat apply Z.mul_nonneg_nonneg; lia. }
  split; [exact WT|]. destruct WR as ((_ & _ & W1) & (_ & _ & W2)).
  destruct (half S m E es es' _ _ (pneg (negacyclic n u s)) E1 fs WS Lm HE HS Bs Bs' HE1 ltac:(rewrite pneg_length; pl) W1 R1 BF T1) as (gs & Bg & Hg).
  destruct (half S m E es es' _ _ u E1 fs' WS Lm HE HS Bs Bs' HE1 Lu W2 R2 BF' T2) as (gs' & Bg' & Hg').
  exists gs, gs'. split; [split; [apply pneg_nega; assumption|exact Hg']|]. split; assumption.
Qed.
Theorem rgsw_product_has R u Rs ms : has R u -> Forall2 has Rs ms ->
  exists T, rgsw_product F tbl R Rs = Some T /\ has T (plain_product n (Z.of_nat (bs_len b)) (2 ^ bits) u ms).
Proof.
  intros HR HS. revert R u HR. induction HS as [|S [m E] Rs ms H HS IH]; intros R u HR; cbn [rgsw_product plain_product]; [exists R; auto|].
  destruct (rgsw_mul_has R S u (m, E) HR H) as (T & -> & HT). cbn [bind]. exact (IH T _ HT).
Qed.

(** Encrypted bits: the product is their conjunction. *)
Lemma has_cong R u v E E' : length v = n -> pcong p u v -> E <= E' -> has R (u, E) -> has R (v, E').
Proof.
  intros Lv Huv HE (Lu & HE0 & WR & es & es' & (H1 & H2) & B1 & B2). split; [exact Lv|]. split; [lia|]. split; [exact WR|]. exists es, es'.
  assert (MB : forall l, Forall (fun e : list Z => length e = n /\ bounded E e) l -> Forall (fun e => length e = n /\ bounded E' e) l).
  { intros l. apply Forall_impl. intros a (La & Ba). split; [exact La|]. eapply Forall_impl; [|exact Ba]. cbn. intros; lia. }
  split; [|split; apply MB; assumption].
  assert (EV : forall z, cong p (ev z u) (ev z v)) by (intros z; apply (ev_cong p z z); [apply cong_refl|exact Huv]).
  destruct H1 as (L1 & H1), H2 as (L2 & H2). split; split; try assumption; intros i Hi.
  - destruct (H1 i Hi) as (L0 & H0). split; [exact L0|]. eapply pcong_trans; [exact H0|].
    apply (pc F Hp tbl k w C); [rewrite padd_length; rewrite pscale_length, pneg_length; pl|rewrite padd_length; rewrite pscale_length, pneg_length; pl|].
    intros z Hz. rewrite !ev_add by (rewrite pscale_length; rewrite ?pneg_length; pl). rewrite !ev_scale, !ev_neg. rewrite !(evn p k z) by assumption.
    rewrite (EV z). reflexivity.
  - destruct (H2 i Hi) as (L0 & H0). split; [exact L0|]. eapply pcong_trans; [exact H0|].
    apply (pc F Hp tbl k w C); [rewrite padd_length; rewrite pscale_length; pl|rewrite padd_length; rewrite pscale_length; pl|].
    intros z Hz. rewrite !ev_add by (rewrite pscale_length; pl). rewrite !ev_scale. rewrite (EV z). reflexivity.
Qed.
Lemma norm1_bit c : norm1 (bit_poly n c) <= 1.
Proof.
  unfold bit_poly. assert (Hn' : n <> O) by (apply Nat.pow_nonzero; discriminate). revert Hn'. generalize (2 ^ k)%nat. intros n0 Hn'.
  unfold monomial. rewrite (Nat.mod_0_l n0 Hn'), (Nat.div_0_l n0 Hn'). cbn [Nat.even]. destruct n0 as [|n0]; [congruence|].
  cbn [seq map Nat.eqb norm1 fold_right]. enough (Z0 : forall m a, fold_right (fun x s => Z.abs x + s) 0 (map (fun i : nat => if (i =? 0)%nat then if c then 1 else 0 else 0) (seq (S a) m)) = 0).
  { rewrite Z0. destruct c; cbn; lia. }
  induction m as [|m IH]; intros a; [reflexivity|]. cbn [seq map fold_right Nat.eqb]. rewrite IH. reflexivity.
Qed.
Lemma bit_and c d : pcong p (negacyclic n (bit_poly n c) (bit_poly n d)) (bit_poly n (c && d)).
Proof.
  assert (Lb : forall c, length (bit_poly n c) = n) by (intros; apply BlindProofs.monomial_length).
  apply (pc F Hp tbl k w C); [pl|apply Lb|]. intros z Hz. rewrite (evn p k z) by (try apply Lb; assumption). rewrite !(bit_poly_ev k Hk s Ls).
  destruct c, d; reflexivity.
Qed.
Theorem rgsw_all R c cs Rs E0 E : has R (bit_poly n c, E0) -> Forall2 (fun R c => has R (bit_poly n c, E)) Rs cs ->
  exists T, rgsw_product F tbl R Rs = Some T /\ has T (bit_poly n (forallb (fun c => c) (c :: cs)), E0 + Z.of_nat (length cs) * gain E).
Proof.
  intros HR HS. revert R c E0 HR. induction HS as [|S d Rs cs H HS IH]; intros R c E0 HR; cbn [rgsw_product length].
  - exists R. split; [reflexivity|]. cbn [forallb]. rewrite andb_true_r. replace (E0 + Z.of_nat 0 * _) with E0 by (cbn; lia). exact HR.
  - destruct (rgsw_mul_has R S _ _ HR H) as (T & -> & HT). cbn [bind fst snd] in *.
    assert (HE0 : 0 <= E0) by apply HR. assert (HE : 0 <= E) by apply H.
    assert (HT' : has T (bit_poly n (d && c), E0 + gain E)).
    { eapply has_cong; [apply BlindProofs.monomial_length|apply bit_and| |exact HT]. pose proof (norm1_bit d). apply Z.add_le_mono_r. nia. }
    destruct (IH T _ _ HT') as (U & -> & HU). exists U. split; [reflexivity|].
    replace (E0 + Z.of_nat (Datatypes.S (length cs)) * gain E) with (E0 + gain E + Z.of_nat (length cs) * gain E) by (rewrite Nat2Z.inj_succ; ring).
    cbn [forallb] in *. rewrite andb_assoc, (andb_comm c d). exact HU.
Qed.
(** In transformed form it is a selector for the multiplexer. *)
Lemma has_to_ntt R u E : has R (u, E) -> exists RN, rgsw_to_ntt F tbl R = Some RN /\ rgsw_holds F tbl p n b s (2 ^ bits) E RN u.
Proof.
  intros (Lu & HE & WR & es & es' & H). eexists. split; [apply (rgsw_to_ntt_correct F Hok tbl k w C b); exact WR|].
  split; [exact Lu|]. exists R, es, es'. split; [exact WR|]. split; [apply (rgsw_to_ntt_correct F Hok tbl k w C b); exact WR|exact H].
Qed.
Theorem select_all med R c cs Rs E x y : length (ra med) = n /\ length (rb med) = n -> has R (bit_poly n c, E) -> Forall2 (fun R c => has R (bit_poly n c, E)) Rs cs ->
  rlwe_wf p n x -> rlwe_wf p n y ->
  exists T TN z, rgsw_product F tbl R Rs = Some T /\ rgsw_to_ntt F tbl T = Some TN /\ cmux F tbl n med TN x y = Some z /\
    rlwe_holds p n s z (rphase n s (if forallb (fun c => c) (c :: cs) then y else x), gain (E + Z.of_nat (length cs) * gain E)).
Proof.
  intros Lm HR HS Wx Wy. destruct (rgsw_all R c cs Rs E E HR HS) as (T & ET & HT). assert (HE : 0 <= E + Z.of_nat (length cs) * gain E) by apply HT.
  destruct (has_to_ntt T _ _ HT) as (TN & EN & HN).
  destruct (cmux_exact F Hok Hp tbl k w C Hk b bits _ Hb Hbits HE s Ls med Lm TN _ x y HN Wx Wy) as (z & Ez & Hz).
  exists T, TN, z. auto.
Qed.
End Field.

(** Decoding is unambiguous below half the scale. *)
Lemma holds_unique p n s x (delta t E : Z) ms ms' : 0 <= t -> delta * t <= p -> 2 * E < delta ->
  Forall (fun m => 0 <= m < t) ms -> Forall (fun m => 0 <= m < t) ms' ->
  rlwe_holds p n s x (map (Z.mul delta) ms, E) -> rlwe_holds p n s x (map (Z.mul delta) ms', E) -> ms = ms'.
Proof.
  intros Ht Hd HE Hm Hm' (_ & L & e & Le & Be & H) (_ & L' & e' & Le' & Be' & H'). rewrite map_length in L, L'.
  assert (HC : pcong p (padd (map (Z.mul delta) ms) e) (padd (map (Z.mul delta) ms') e')) by (eapply pcong_trans; [apply pcong_sym; exact H|exact H']).
  rewrite <- Le in L, L', Le'. clear n Le s x H H'. revert ms' e e' L L' Le' Hm' Be Be' HC. induction Hm as [|m ms Hm _ IH]; intros ms' e e' L L' Le' Hm' Be Be' HC.
  - destruct e; [|discriminate]. destruct ms'; [reflexivity|discriminate].
  - destruct e as [|a e]; [discriminate|]. destruct ms' as [|m' ms']; [discriminate|]. destruct e' as [|a' e']; [discriminate|]. cbn in L, L', Le'.
    inversion Hm' as [|? ? Hm0 Hm1]; subst. inversion Be as [|? ? Ba Be1]; subst. inversion Be' as [|? ? Ba' Be1']; subst.
    inversion HC as [|? ? ? ? H0 H1]; subst. f_equal; [|apply (IH ms' e e'); try assumption; lia].
    destruct H0 as (q & Hq). assert (HD : - (delta * (t - 1)) <= delta * (m - m') <= delta * (t - 1)) by (split; nia).
    assert (HB : - p < q * p < p) by nia. assert (q = 0) by nia. subst q. nia.
Qed.
