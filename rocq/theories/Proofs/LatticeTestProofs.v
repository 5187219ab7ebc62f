(** The randomised tests of LWE and RLWE ciphertexts. *)
From Coq Require Import ZArith Znumtheory List Bool Arith Lia.
From Verif Require Import Spec.Basic Spec.Poly Spec.Switch Spec.Lattice Spec.Ring Spec.LatticeTest.
From Verif Require Import Model.Base Model.PowOf2 Model.Field Model.NTT Model.Concrete Model.Poly Model.Lwe Model.Rlwe Model.Gadget Model.ModSwitch Model.UnitTests Model.RingTests.
From Verif Require Import Proofs.Arith Proofs.NumTheory Proofs.PolyMath Proofs.FieldProofs Proofs.PowOf2Proofs Proofs.NTTProofs Proofs.ConcreteProofs
  Proofs.PolyProofs Proofs.RingProofs Proofs.RlweProofs Proofs.GadgetProofs Proofs.ModSwitchProofs Proofs.UnitTestProofs Proofs.RingTestProofs.
Import ListNotations.
Local Open Scope Z_scope.

(** ** Decoding *)
Lemma rt_decode_ok B t p c : 0 < B <= 64 -> 2 <= t <= p -> p < 2 ^ B -> p * t <= 2 ^ 52 -> 0 <= c < p -> rt_decode B t p c = Some (nearest p t c).
Proof.
  intros HB Ht Hp H52 Hc. unfold rt_decode, urem. rewrite (proj2 (Z.eqb_neq _ _)) by lia. f_equal. unfold nearest. f_equal.
  change (2 ^ 52) with 4503599627370496 in H52. apply (ms_raw_exact B p t c HB); [change (2 ^ 53) with 9007199254740992|..|change (2 ^ 52) with 4503599627370496]; nia.
Qed.
Lemma nearest_close p t c phi u : 0 < t -> 0 < p -> cong p c phi -> 2 * Z.abs (t * phi - u * p) < p -> nearest p t c = u mod t.
Proof.
  intros Ht Hp (q & Hq) Hd. unfold nearest, round_div.
  replace ((2 * (c * t) + p) / (2 * p)) with (u + q * t); [apply Z_mod_plus_full|].
  apply Z.div_unique with (2 * (t * phi - u * p) + p); [left; lia|]. assert (c = phi + q * p) by lia. subst c. ring.
Qed.
Lemma nearest_list p t n c phi u : 0 < t -> 0 < p -> length u = n -> length phi = n -> pcong p c phi ->
  (forall i, (i < n)%nat -> 2 * Z.abs (t * nth i phi 0 - nth i u 0 * p) < p) -> map (nearest p t) c = map (fun x => x mod t) u.
Proof.
  intros Ht Hp Lu Lp Hc H. pose proof (pcong_length _ _ _ Hc) as Lc.
  apply (nth_ext _ _ (nearest p t 0) (0 mod t)); [rewrite !map_length; congruence|]. intros i Hi. rewrite map_length in Hi.
  rewrite map_nth, (map_nth (fun x => x mod t)). apply (nearest_close p t _ (nth i phi 0)); [exact Ht|exact Hp|apply pcong_nth_inv; exact Hc|].
  apply H. lia.
Qed.
(** Noise that is too small to cross a boundary changes nothing. *)
Lemma nearest_far p t n D x e : 0 < t -> 0 < p -> length x = n -> length e = n -> far_from_boundary p t D (pmod p x) -> bounded D e ->
  forall c, pcong p c (padd x e) -> map (nearest p t) c = map (nearest p t) (pmod p x).
Proof.
  intros Ht Hp Lx Le Hf He c Hc.
  assert (U : exists u, length u = n /\ forall i, (i < n)%nat -> 2 * Z.abs (t * nth i (pmod p x) 0 - nth i u 0 * p) + 2 * t * D < p).
  { clear -Hf Lx. rewrite <- (pmod_length p x) in Lx. revert n Lx. induction Hf as [|c l (u0 & Hu) _ IH]; intros n Ln; cbn [length] in Ln; subst n.
    - exists []. split; [reflexivity|]. intros; lia.
    - destruct (IH (length l) eq_refl) as (u & Lu & H). exists (u0 :: u). cbn [length]. split; [congruence|]. intros [|i] Hi; cbn [nth]; [exact Hu|apply H; lia]. }
  destruct U as (u & Lu & Hu). transitivity (map (fun v => v mod t) u).
  - apply (nearest_list p t n c (padd (pmod p x) e) u Ht Hp Lu).
    + rewrite padd_length; rewrite ?pmod_length; congruence.
    + eapply pcong_trans; [exact Hc|]. apply pcong_padd; [apply pcong_sym, pcong_pmod; lia|apply pcong_refl].
    + intros i Hi. specialize (Hu i Hi). rewrite nth_padd by (rewrite pmod_length; congruence).
      assert (Hb : Z.abs (nth i e 0) <= D). { unfold bounded in He. rewrite Forall_forall in He. apply He, nth_In. lia. }
      assert (t * Z.abs (nth i e 0) <= t * D) by (apply Z.mul_le_mono_nonneg_l; lia).
      assert (Z.abs (t * nth i e 0) = t * Z.abs (nth i e 0)) by (rewrite Z.abs_mul, (Z.abs_eq t) by lia; reflexivity). lia.
  - symmetry. apply (nearest_list p t n (pmod p x) (pmod p x) u Ht Hp Lu); [rewrite pmod_length; exact Lx|apply pcong_refl|].
    intros i Hi. specialize (Hu i Hi). assert (0 <= t * D \/ t * D < 0) as [|] by lia; [lia|].
    assert (D < 0) by nia. destruct e as [|y e]; [cbn in Le; lia|]. inversion_clear He. lia.
Qed.

(** ** LWE *)
Section Lwe.
Variables (B kk : Z).
Hypothesis Hkk : 1 <= kk <= B.
Local Notation r := (2 ^ kk).
Local Notation mask := (r - 1).

Lemma r_pos : 2 <= r. Proof. change 2 with (2 ^ 1) at 1. apply Z.pow_le_mono_r; lia. Qed.
Lemma p2_new_r : p2_new r = Some mask.
Proof.
  pose proof r_pos. unfold p2_new. rewrite (proj2 (Z.ltb_lt 1 r)) by lia. rewrite (proj2 (is_pow2_spec r)) by (exists kk; split; [lia|reflexivity]).
  cbn [andb assert bind]. apply usub_some. lia.
Qed.
Lemma rt_lwe_ok a1 a2 b1 b2 : length a1 = length a2 -> canonical r a1 -> canonical r a2 -> 0 <= b1 < r -> 0 <= b2 < r -> rt_lwe B r a1 a2 b1 b2 = Some tt.
Proof.
  intros L H1 H2 Hb1 Hb2. pose proof r_pos as Hr. unfold rt_lwe. rewrite p2_new_r. cbn [bind]. cbv zeta.
  assert (Z1 : forall x y, length x = length y -> zipA (fun a b => Some (p2_add B mask a b)) x y = Some (map (fun uv => p2_add B mask (fst uv) (snd uv)) (combine x y))).
  { induction x as [|u x IH]; intros [|v y] Hl; cbn in Hl; try lia; [reflexivity|]. cbn [zipA bind combine map fst snd]. rewrite IH by lia. reflexivity. }
  unfold lwe_add_inplace. cbn [la lb o_add p2_mops]. rewrite same_len_ok by exact L. cbn [bind]. rewrite Z1 by exact L. cbn [bind].
  unfold assert_lwe. cbn [la lb]. rewrite assert_poly_refl, assert_eq_refl. cbn [bind].
  unfold lwe_sub_inplace. cbn [la lb o_sub_assign p2_mops]. rewrite same_len_ok by (rewrite map_length, combine_length; lia). cbn [bind].
  assert (Z2 : forall x y, length x = length y -> canonical r x ->
    zipA (fun a b => Some (p2_sub B mask a b)) (map (fun uv => p2_add B mask (fst uv) (snd uv)) (combine x y)) y = Some x).
  { induction x as [|u x IH]; intros [|v y] Hl Hx; cbn in Hl; try lia; [reflexivity|]. inversion_clear Hx. cbn [combine map zipA bind fst snd].
    rewrite IH by (assumption || lia). cbn [bind]. rewrite p2_add_correct, p2_sub_correct by lia. rewrite Zminus_mod_idemp_l.
    replace (u + v - v) with u by ring. rewrite Z.mod_small by assumption. reflexivity. }
  rewrite Z2 by assumption. cbn [bind la lb]. rewrite assert_poly_refl. cbn [bind].
  rewrite p2_add_correct, p2_sub_correct by lia. rewrite Zminus_mod_idemp_l. replace (b1 + b2 - b2) with b1 by ring. rewrite Z.mod_small by assumption. apply assert_eq_refl.
Qed.

Lemma rt_dot_ok a s : rt_dot B mask a s = dotz a s mod r.
Proof.
  pose proof r_pos as Hr. unfold rt_dot. assert (G : forall acc, 0 <= acc < r -> fold_left (fun acc xy => p2_add B mask (p2_mul B mask (fst xy) (snd xy)) acc) (combine a s) acc = (acc + dotz a s) mod r).
  { revert s. induction a as [|x a IH]; intros [|y s] acc Ha; cbn [combine fold_left dotz]; try (rewrite Z.add_0_r, Z.mod_small by exact Ha; reflexivity).
    cbn [fst snd]. rewrite p2_add_correct, p2_mul_correct by lia. rewrite IH by (apply Z.mod_pos_bound; lia).
    rewrite Z.add_mod_idemp_l by lia. replace (((x * y) mod r + acc) + dotz a s) with ((acc + dotz a s) + (x * y) mod r) by ring. rewrite Z.add_mod_idemp_r by lia. f_equal. ring. }
  rewrite G by lia. reflexivity.
Qed.
Lemma zip_uadd_ok a1 a2 : Forall2 (fun x y => x + y < 2 ^ B) a1 a2 -> zipA (uadd B) a1 a2 = Some (padd a1 a2).
Proof.
  induction 1 as [|x y a1 a2 Hxy _ IH]; [reflexivity|]. cbn [zipA padd]. unfold uadd at 1. rewrite (proj2 (Z.ltb_lt _ _)) by exact Hxy. cbn [bind]. rewrite IH. reflexivity.
Qed.
Lemma zip_uadd_none a1 a2 : length a1 = length a2 -> ~ Forall2 (fun x y => x + y < 2 ^ B) a1 a2 -> zipA (uadd B) a1 a2 = None.
Proof.
  revert a2. induction a1 as [|x a1 IH]; intros [|y a2] L H; cbn in L; try lia; [exfalso; apply H; constructor|]. cbn [zipA]. unfold uadd at 1.
  destruct (Z.ltb_spec (x + y) (2 ^ B)); [|reflexivity]. cbn [bind]. rewrite IH; [reflexivity|lia|]. intros H'. apply H. constructor; assumption.
Qed.
Lemma fits_dec a1 : forall a2, Forall2 (fun x y => x + y < 2 ^ B) a1 a2 \/ ~ Forall2 (fun x y => x + y < 2 ^ B) a1 a2.
Proof.
  induction a1 as [|x a1 IH]; intros [|y a2]; [left; constructor|right; intros H; inversion H..|].
  destruct (Z_lt_dec (x + y) (2 ^ B)); [|right; intros H; inversion H; contradiction]. destruct (IH a2); [left; constructor; assumption|right; intros H'; inversion H'; contradiction].
Qed.
Lemma dotz_padd_l a1 a2 s : length a1 = length a2 -> dotz (padd a1 a2) s = dotz a1 s + dotz a2 s.
Proof.
  revert a2 s. induction a1 as [|x a1 IH]; intros [|y a2] s L; cbn in L; try lia; [reflexivity|]. destruct s; [reflexivity|]. cbn [padd dotz]. rewrite IH by lia. ring.
Qed.

Lemma rt_lwe_he_iff t v0 v1 s a1 e1 a2 e2 : kk < B <= 64 -> 2 <= t -> (t | r) -> r * t <= 2 ^ 52 -> 0 <= v0 < t -> 0 <= v1 < t ->
  length a1 = length a2 -> 0 <= e1 -> 0 <= e2 -> 2 * t * (e1 + e2) < r ->
  (rt_lwe_he B r t v0 v1 s a1 e1 a2 e2 = Some tt <-> Forall2 (fun x y => x + y < 2 ^ B) a1 a2).
Proof.
  intros HB Ht (q & Hq) H52 Hv0 Hv1 L He1 He2 He. pose proof r_pos as Hr.
  assert (Htr : t <= r) by (assert (0 < q) by nia; nia).
  assert (H2r : 2 * r <= 2 ^ B) by (rewrite <- Z.pow_succ_r by lia; apply Z.pow_le_mono_r; lia).
  assert (Enc : forall v, 0 <= v < t -> round_scaled B v r t = v * q).
  { intros v Hv. transitivity (round_div (v * r) t).
    - apply (ms_raw_exact B t r v); try lia; nia.
    - unfold round_div. rewrite Hq. symmetry. apply Z.div_unique with t; [left; lia|]. ring. }
  unfold rt_lwe_he. rewrite p2_new_r. cbn [bind]. cbv zeta. unfold lwe_add_inplace. cbn [la lb o_add plain_mops]. rewrite same_len_ok by exact L. cbn [bind].
  destruct (fits_dec a1 a2) as [HA|HA].
  2:{ rewrite zip_uadd_none by assumption. split; [discriminate|intros; contradiction]. }
  rewrite zip_uadd_ok by exact HA. cbn [bind]. split; [intros _; exact HA|intros _].
  rewrite !Enc, !p2_add_correct, !rt_dot_ok by lia.
  set (c0 := (_ + e1) mod r). set (c1 := (_ + e2) mod r).
  assert (R0 : 0 <= c0 < r) by (apply Z.mod_pos_bound; lia). assert (R1 : 0 <= c1 < r) by (apply Z.mod_pos_bound; lia).
  rewrite uadd_some by lia. cbn [bind lb la]. rewrite p2_sub_correct, ?rt_dot_ok by lia.
  rewrite rt_decode_ok; [|lia|lia|lia|lia|apply Z.mod_pos_bound; lia]. cbn [bind].
  rewrite uadd_some by lia. cbn [bind]. unfold urem. rewrite (proj2 (Z.eqb_neq t 0)) by lia. cbn [bind].
  rewrite (nearest_close r t _ (v0 * q + v1 * q + e1 + e2) (v0 + v1)); [apply assert_eq_refl|lia|lia| |].
  - rewrite dotz_padd_l by exact L. eapply cong_trans; [apply cong_mod; lia|].
    transitivity ((dotz a1 s + v0 * q + e1) + (dotz a2 s + v1 * q + e2) - (dotz a1 s + dotz a2 s)).
    + apply cong_sub; [|apply cong_mod; lia]. apply cong_add; (eapply cong_trans; [apply cong_mod; lia|]); apply cong_add; try reflexivity;
        (eapply cong_trans; [apply cong_mod; lia|]); apply cong_add; try reflexivity; apply cong_mod; lia.
    + apply cong_of_eq. ring.
  - rewrite Hq in He |- *. replace (t * (v0 * q + v1 * q + e1 + e2) - (v0 + v1) * (q * t)) with (t * (e1 + e2)) by ring. rewrite Z.abs_eq by nia. lia.
Qed.
End Lwe.

(** ** RLWE *)
Lemma nth_pmod_ q a i : q <> 0 -> nth i (pmod q a) 0 = nth i a 0 mod q.
Proof. intros Hq. unfold pmod. rewrite <- (Z.mod_0_l q Hq) at 1. apply (map_nth (fun x => x mod q)). Qed.
Section Rlwe.
Variable F : field.
Hypothesis Hok : fok F.
Local Notation p := (fp F).
Hypothesis Hp : prime p.
Variables (tbl : tables) (k : nat) (w : Z).
Hypothesis C : ctx F tbl k w.
Hypothesis Hk : (0 < k)%nat.
Local Notation n := (2 ^ k)%nat.
Local Notation ntt := (ntt_of F w k).

Lemma p_facts : 2 < p /\ 4 * p < 2 ^ fw F.
Proof. pose proof (fp_range F Hok). split; [apply C|lia]. Qed.
Lemma pEQ a b : length a = n -> length b = n -> (forall z, root p k z -> cong p (ev z a) (ev z b)) -> pcong p a b.
Proof. intros La Lb H. apply (EQ_pcong p w k Hp); [apply C|apply C|exact La|exact Lb|exact H]. Qed.

Lemma rt_encrypt_ok s m a e : length s = n -> length m = n -> length a = n -> length e = n -> canonical p s -> canonical p m -> canonical p a -> canonical p e ->
  exists x, rt_encrypt F tbl s m a e = Some x /\ rlwe_wf p n x /\ ra x = a /\ pcong p (rphase n s x) (padd m e).
Proof.
  intros Ls Lm La Le Hs Hm Ha He. pose proof p_facts as R. unfold rt_encrypt.
  rewrite (p_mul_assign_correct F Hok Hp tbl k w C a s Hk La Ls Ha Hs). cbn [bind].
  rewrite p_add_assign_correct by (try assumption; rewrite ?pmod_length, ?negacyclic_length; try congruence; apply pmod_canonical; lia). cbn [bind].
  set (u := pmod p (padd (pmod p (negacyclic n a s)) m)). assert (Lu : length u = n) by (unfold u; rewrite pmod_length, padd_length; rewrite ?pmod_length, ?negacyclic_length; congruence).
  rewrite p_add_assign_correct by (try assumption; try congruence; apply pmod_canonical; lia). cbn [bind].
  set (b := pmod p (padd u e)). assert (Lb : length b = n) by (unfold b; rewrite pmod_length, padd_length; congruence).
  unfold rlwe_new. rewrite same_len_ok by congruence. cbn [bind]. eexists. split; [reflexivity|]. split; [|split; [reflexivity|]].
  - repeat split; cbn [ra rb]; try assumption. apply pmod_canonical. lia.
  - apply pEQ; [apply rphase_len; split; assumption|rewrite padd_length; congruence|]. intros z Hz.
    rewrite (ev_rphase p k z) by (try assumption; split; assumption). cbn [ra rb]. unfold b. rewrite ev_pmod by lia. rewrite ev_add by congruence. unfold u. rewrite ev_pmod by lia.
    rewrite ev_add by (rewrite pmod_length, negacyclic_length; congruence). rewrite ev_pmod by lia. rewrite (evn p k z) by assumption. rewrite ev_add by congruence. apply cong_of_eq. ring.
Qed.
Lemma rt_phase_ok s x : length s = n -> canonical p s -> rlwe_wf p n x -> rt_phase F tbl s x = Some (pmod p (rphase n s x)).
Proof.
  intros Ls Hs (La & Lb & Ha & Hb). pose proof p_facts as R. unfold rt_phase.
  rewrite (p_mul_assign_correct F Hok Hp tbl k w C (ra x) s Hk La Ls Ha Hs). cbn [bind].
  rewrite p_sub_rev_correct by (try assumption; rewrite ?pmod_length, ?negacyclic_length; try congruence; apply pmod_canonical; lia).
  f_equal. apply mod_pcong_eq; [lia|]. unfold rphase.
  apply pEQ; try (rewrite psub_length; rewrite ?pmod_length, ?negacyclic_length; congruence). intros z Hz.
  rewrite !ev_sub by (rewrite ?pmod_length, ?negacyclic_length; congruence). rewrite ev_pmod by lia. reflexivity.
Qed.
Lemma add_phase s x y : length s = n -> rlwe_wf p n x -> rlwe_wf p n y ->
  exists r, rlwe_add_assign F x y = Some r /\ rlwe_wf p n r /\ pcong p (rphase n s r) (padd (rphase n s x) (rphase n s y)).
Proof.
  intros Ls (La & Lb & Ha & Hb) (La' & Lb' & Ha' & Hb'). pose proof p_facts as R. unfold rlwe_add_assign, on_both.
  rewrite !p_add_assign_correct by (try assumption; congruence). cbn [bind]. eexists. split; [reflexivity|].
  assert (W : rlwe_wf p n (mk_rlwe (pmod p (padd (ra x) (ra y))) (pmod p (padd (rb x) (rb y))))).
  { repeat split; cbn [ra rb]; try (apply pmod_canonical; lia); rewrite pmod_length, padd_length; congruence. }
  split; [exact W|]. apply pEQ; [apply rphase_len, (wf_len p); exact W|rewrite padd_length; rewrite !rphase_len by (split; assumption); reflexivity|]. intros z Hz.
  rewrite ev_add by (rewrite !rphase_len by (split; assumption); reflexivity). rewrite !(ev_rphase p k z) by (try assumption; try (split; assumption); apply (wf_len p); exact W).
  cbn [ra rb]. rewrite !ev_pmod by lia. rewrite !ev_add by congruence. apply cong_of_eq. ring.
Qed.

Lemma rt_rlwe_ok r a1 a2 b1 b2 : length r = n -> length a1 = n -> length a2 = n -> length b1 = n -> length b2 = n ->
  canonical p r -> canonical p a1 -> canonical p a2 -> canonical p b1 -> canonical p b2 -> rt_rlwe F tbl r a1 a2 b1 b2 = Some tt.
Proof.
  intros Lr L1 L2 L3 L4 Hr H1 H2 H3 H4. pose proof p_facts as R. unfold rt_rlwe.
  rewrite (p_mul_assign_correct F Hok Hp tbl k w C a1 r Hk L1 Lr H1 Hr), (p_mul_assign_correct F Hok Hp tbl k w C b1 r Hk L3 Lr H3 Hr). cbn [bind].
  unfold rlwe_new. rewrite !same_len_ok by (rewrite ?pmod_length, ?negacyclic_length; congruence). cbn [bind].
  assert (AS : forall a c, length a = n -> length c = n -> canonical p a -> canonical p c ->
    exists u, p_add_assign F a c = Some u /\ p_sub_assign F u a = Some c).
  { intros a c La Lc Ha Hc. rewrite p_add_assign_correct by (try assumption; congruence). eexists. split; [reflexivity|].
    rewrite p_sub_assign_correct by (try assumption; try (apply pmod_canonical; lia); rewrite pmod_length, padd_length; congruence).
    f_equal. rewrite <- (pmod_small p c Hc) at 2. apply mod_pcong_eq; [lia|]. apply pcong_nth; [rewrite psub_length; rewrite ?pmod_length, ?padd_length; congruence|].
    intros i Hi. rewrite nth_psub by (rewrite pmod_length, padd_length; congruence). rewrite nth_pmod_, nth_padd by (congruence || lia).
    eapply cong_trans; [apply cong_sub; [apply cong_mod; lia|reflexivity]|]. apply cong_of_eq. ring. }
  destruct (AS a1 a2 L1 L2 H1 H2) as (ua & EA1 & EA2). destruct (AS b1 b2 L3 L4 H3 H4) as (ub & EB1 & EB2).
  unfold rlwe_add_assign, rlwe_sub_assign, on_both. cbn [ra rb]. rewrite EA1. cbn [bind]. rewrite EB1. cbn [bind ra rb]. rewrite EA2. cbn [bind]. rewrite EB2. cbn [bind].
  unfold assert_rlwe. cbn [ra rb]. rewrite !assert_poly_refl. cbn [bind].
  rewrite (into_ntt_canon F Hok tbl k w C r Lr Hr). cbn [bind]. unfold rlwe_mul_ntt_poly, rlwe_zero. cbn [ra rb].
  rewrite (ntt_len F), len_pow2_ok, len_log_pow2. cbn [bind]. pose proof C as C0. destruct C0 as (C2 & _ & Cw & T & ET & HT). rewrite ET. cbn [bind].
  rewrite !same_len_ok by (rewrite repeat_length; congruence). cbn [bind].
  rewrite (t_transform_correct F Hok w k C2 Cw T HT a1 L1 H1), (t_transform_correct F Hok w k C2 Cw T HT b1 L3 H3). cbn [bind].
  rewrite !n_mul_assign_correct by (try assumption; rewrite ?(ntt_len F); try reflexivity; apply (ntt_canon F Hok)). cbn [bind].
  rewrite (inverse_inplace_correct F Hok Hp tbl k w C _ (mk_rlwe (negacyclic n a1 r) (negacyclic n b1 r)) _ Hk); [|split; [split; apply negacyclic_length|]|split; assumption].
  2:{ cbn [ra rb]. repeat split; try (apply (canonical_R2 F Hok), pmod_canonical; lia).
      - eapply pcong_trans; [apply pcong_pmod; lia|]. apply (ntt_mul F Hok tbl k w C); assumption.
      - eapply pcong_trans; [apply pcong_pmod; lia|]. apply (ntt_mul F Hok tbl k w C); assumption. }
  cbn [bind rl_mod ra rb]. rewrite !assert_poly_refl. reflexivity.
Qed.

Lemma dot_fold_ok a s : canonical p a -> canonical p s -> forall acc, 0 <= acc < p ->
  foldM (fun acc xy => let* m := f_mul F (fst xy) (snd xy) in f_add F acc m) acc (combine a s) = Some ((acc + dotz a s) mod p).
Proof.
  intros Ha. pose proof p_facts as R. revert s. induction Ha as [|x a Hx _ IH]; intros [|y s] Hs acc Hacc; cbn [combine foldM dotz]; try (rewrite Z.add_0_r, Z.mod_small by exact Hacc; reflexivity).
  inversion_clear Hs. cbn [fst snd]. rewrite f_mul_correct by (assumption || lia). cbn [bind]. rewrite f_add_correct by (try assumption; apply Z.mod_pos_bound; lia). cbn [bind].
  rewrite IH by (try assumption; apply Z.mod_pos_bound; lia). f_equal. rewrite Z.add_mod_idemp_r, Z.add_mod_idemp_l by lia. f_equal. ring.
Qed.
Lemma rt_extract_ok s a : length s = n -> length a = n -> canonical p s -> canonical p a -> rt_extract F tbl s a = Some tt.
Proof.
  intros Ls La Hs Ha. pose proof p_facts as R. unfold rt_extract. rewrite (p_mul_assign_correct F Hok Hp tbl k w C a s Hk La Ls Ha Hs). cbn [bind].
  unfold rlwe_new. rewrite same_len_ok by (rewrite pmod_length, negacyclic_length; exact La). cbn [bind].
  set (x := mk_rlwe a (pmod p (negacyclic n a s))).
  assert (W : rlwe_wf p n x) by (repeat split; cbn [x ra rb]; try assumption; [rewrite pmod_length; apply negacyclic_length|apply pmod_canonical; lia]).
  assert (Hn : (0 < n)%nat) by (pose proof (Nat.pow_nonzero 2 k); lia).
  destruct (extract_phase F Hok n s x Hn W Ls) as (z & Ez & _ & (Lz & Cz & Bz) & Ph). rewrite Ez. cbn [bind].
  rewrite dot_fold_ok by (assumption || lia). cbn [bind]. rewrite Z.add_0_l.
  replace (dotz (la z) s mod p) with (lb z); [apply assert_eq_refl|].
  assert (E0 : nth 0 (rphase n s x) 0 mod p = 0).
  { unfold rphase. cbn [x ra rb]. rewrite nth_psub by (rewrite pmod_length; reflexivity). rewrite nth_pmod_ by lia.
    rewrite Zminus_mod_idemp_l, Z.sub_diag. apply Z.mod_0_l. lia. }
  rewrite E0 in Ph. unfold phase in Ph. rewrite <- (Z.mod_small (lb z) p Bz). apply cong_iff; [lia|]. unfold cong. apply Z.mod_divide; [lia|exact Ph].
Qed.

(** Messages and small noises. *)
Lemma small_facts E e : small p E n e -> exists e', length e' = n /\ bounded E e' /\ pcong p e e' /\ length e = n /\ canonical p e.
Proof.
  pose proof p_facts. intros (e' & L & Bd & ->). exists e'. split; [exact L|]. split; [exact Bd|]. split; [apply pcong_pmod; lia|]. split; [rewrite map_length; exact L|apply pmod_canonical; lia].
Qed.
Variable t : Z.
Hypothesis Hfw : fw F <= 64.
Hypothesis Ht : 2 <= t <= p.
Hypothesis H52 : p * t <= 2 ^ 52.
Lemma decode_list l : canonical p l -> mapM (rt_decode (fw F) t p) l = Some (map (nearest p t) l).
Proof.
  intros H. pose proof p_facts as R. pose proof (B4 F Hok). apply mapM_some. intros c Hc. unfold canonical in H. rewrite Forall_forall in H. apply rt_decode_ok; try lia. apply H, Hc.
Qed.
Lemma rt_encode_ok m : 0 <= m < t -> exists c0, rt_encode F t m = Some (c0 mod p) /\ 2 * Z.abs (t * c0 - m * p) <= t.
Proof.
  intros Hm. pose proof p_facts as R. pose proof (B4 F Hok) as B4'. exists (round_div (m * p) t). unfold rt_encode.
  change (2 ^ 52) with 4503599627370496 in H52.
  replace (round_scaled (fw F) m p t) with (round_div (m * p) t)
    by (symmetry; apply (ms_raw_exact (fw F) t p m); [lia|change (2 ^ 53) with 9007199254740992; nia|lia|lia|change (2 ^ 52) with 4503599627370496; nia]).
  pose proof (Z.div_mod (2 * (m * p) + t) (2 * t) ltac:(lia)) as D. pose proof (Z.mod_pos_bound (2 * (m * p) + t) (2 * t) ltac:(lia)) as M.
  unfold round_div. set (v := (2 * (m * p) + t) / (2 * t)) in *. set (r := (2 * (m * p) + t) mod (2 * t)) in *.
  split; [|lia]. apply f_new_correct; [exact Hok|]. assert (0 <= v) by (apply Z.div_pos; nia). split; [lia|].
  enough (v <= p) by lia. assert (m * p <= (t - 1) * p) by (apply Z.mul_le_mono_nonneg_r; lia). nia.
Qed.
Lemma encode_list v : Forall (fun x => 0 <= x < t) v -> exists c0, mapM (rt_encode F t) v = Some (pmod p c0) /\ length c0 = length v /\
  forall i, (i < length v)%nat -> 2 * Z.abs (t * nth i c0 0 - nth i v 0 * p) <= t.
Proof.
  induction 1 as [|x v Hx _ (c & E & L & H)]; [exists []; repeat split; intros; cbn in *; lia|].
  destruct (rt_encode_ok x Hx) as (c0 & E0 & H0). exists (c0 :: c). cbn [mapM]. rewrite E0. cbn [bind]. rewrite E. cbn [bind pmod map length].
  split; [reflexivity|]. split; [congruence|]. intros [|i] Hi; cbn [nth]; [exact H0|apply H; lia].
Qed.
Lemma rt_rlwe_he_ok E v0 v1 s a0 e0 a1 e1 : length v0 = n -> length v1 = n -> Forall (fun x => 0 <= x < t) v0 -> Forall (fun x => 0 <= x < t) v1 ->
  length s = n -> canonical p s -> length a0 = n -> canonical p a0 -> length a1 = n -> canonical p a1 ->
  small p E n e0 -> small p E n e1 -> 2 * t * (2 * E + 1) < p -> rt_rlwe_he F tbl t v0 v1 s a0 e0 a1 e1 = Some tt.
Proof.
  intros L0 L1 V0 V1 Ls Hs La0 Ha0 La1 Ha1 S0 S1 HE. pose proof p_facts as R. pose proof (B4 F Hok) as B4'.
  destruct (small_facts E e0 S0) as (e0' & Le0 & Be0 & Pe0 & Le0' & Ce0). destruct (small_facts E e1 S1) as (e1' & Le1 & Be1 & Pe1 & Le1' & Ce1).
  unfold rt_rlwe_he. rewrite (mapM2_map2 _ (fun a b => (a + b) mod t) _ _ v0 v1 ltac:(congruence) V0 V1).
  2:{ intros x y Hx Hy. cbv beta in *. rewrite uadd_some by lia. cbn [bind]. unfold urem. rewrite (proj2 (Z.eqb_neq t 0)) by lia. reflexivity. }
  cbn [bind]. destruct (encode_list v0 V0) as (c0 & E0 & Lc0 & Hc0). destruct (encode_list v1 V1) as (c1 & E1 & Lc1 & Hc1). rewrite E0. cbn [bind]. rewrite E1. cbn [bind].
  destruct (rt_encrypt_ok s (pmod p c0) a0 e0) as (x0 & X0 & W0 & _ & P0); try assumption; [rewrite pmod_length; congruence|apply pmod_canonical; lia|].
  destruct (rt_encrypt_ok s (pmod p c1) a1 e1) as (x1 & X1 & W1 & _ & P1); try assumption; [rewrite pmod_length; congruence|apply pmod_canonical; lia|].
  rewrite X0. cbn [bind]. rewrite X1. cbn [bind]. destruct (add_phase s x0 x1 Ls W0 W1) as (x & X & W & Px). rewrite X. cbn [bind].
  rewrite rt_phase_ok by assumption. cbn [bind]. rewrite decode_list by (apply pmod_canonical; lia). cbn [bind]. apply assert_poly_eq.
  rewrite (nearest_list p t n _ (padd (padd c0 e0') (padd c1 e1')) (padd v0 v1)); [| lia|lia|rewrite padd_length; congruence|rewrite !padd_length; rewrite ?padd_length; congruence| |].
  - clear -L0 L1. assert (L : length v0 = length v1) by congruence. clear L0 L1. revert v1 L. induction v0 as [|x v0 IH]; intros [|y v1] L; cbn in L |- *; try lia; [reflexivity|]. f_equal. apply IH. lia.
  - eapply pcong_trans; [apply pcong_pmod; lia|]. eapply pcong_trans; [exact Px|].
    apply pcong_padd; [eapply pcong_trans; [exact P0|]|eapply pcong_trans; [exact P1|]]; apply pcong_padd; try assumption; apply pcong_pmod; lia.
  - intros i Hi. rewrite !nth_padd by (rewrite ?padd_length; congruence). specialize (Hc0 i ltac:(lia)). specialize (Hc1 i ltac:(lia)).
    assert (A0 : Z.abs (nth i e0' 0) <= E) by (unfold bounded in Be0; rewrite Forall_forall in Be0; apply Be0, nth_In; lia).
    assert (A1 : Z.abs (nth i e1' 0) <= E) by (unfold bounded in Be1; rewrite Forall_forall in Be1; apply Be1, nth_In; lia).
    assert (M0 : Z.abs (t * nth i e0' 0) <= t * E) by (rewrite Z.abs_mul, (Z.abs_eq t) by lia; apply Z.mul_le_mono_nonneg_l; lia).
    assert (M1 : Z.abs (t * nth i e1' 0) <= t * E) by (rewrite Z.abs_mul, (Z.abs_eq t) by lia; apply Z.mul_le_mono_nonneg_l; lia).
    replace (2 * t * (2 * E + 1)) with (4 * (t * E) + 2 * t) in HE by ring. lia.
Qed.
End Rlwe.
