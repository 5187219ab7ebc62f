(** Plaintext encoding and LWE ciphertexts. *)
From Coq Require Import ZArith List Arith Bool Lia Znumtheory Setoid Morphisms.
From Verif Require Import Spec.Basic Spec.Lattice Model.Base Model.Reduce Model.Barrett Model.PowOf2 Model.Field Model.Poly Model.Plaintext Model.Lwe.
From Verif Require Import Proofs.Arith Proofs.ReduceProofs Proofs.BarrettProofs Proofs.PowOf2Proofs Proofs.FieldProofs Proofs.NTTProofs Proofs.PolyProofs.
Import ListNotations.
Local Open Scope Z_scope.

(** * Encoding *)
Lemma tz_pow2 B k : 0 <= k -> trailing_zeros B (2 ^ k) = k.
Proof.
  intros Hk. pose proof (pow2_pos k Hk). destruct (tz_spec B (2 ^ k) ltac:(lia)) as (o & E & Ho & Hp).
  assert (T0 : 0 <= trailing_zeros B (2 ^ k)).
  { destruct (2 ^ k) eqn:E2; try lia. cbn. apply pos_tz_nonneg. }
  set (j := trailing_zeros B (2 ^ k)) in *.
  destruct (Z.eq_dec j k) as [e|ne]; [exact e|exfalso].
  destruct (Z_lt_le_dec j k).
  - replace k with (j + (k - j)) in E by lia. rewrite Z.pow_add_r in E by lia.
    assert (o = 2 ^ (k - j)) by (pose proof (pow2_pos j T0); nia). subst o.
    replace (k - j) with (Z.succ (k - j - 1)) in Ho by lia. rewrite Z.pow_succ_r in Ho by lia.
    rewrite Z.odd_mul in Ho. discriminate.
  - assert (2 ^ (k + 1) <= 2 ^ j) by (apply Z.pow_le_mono_r; lia).
    rewrite Z.pow_add_r in H0 by lia. nia.
Qed.

Lemma is_pow2_pow k : 0 <= k -> is_pow2 (2 ^ k) = true.
Proof. intros. apply is_pow2_spec. eauto. Qed.

Lemma pow2_div i j : 0 <= i <= j -> 2 ^ j / 2 ^ i = 2 ^ (j - i).
Proof.
  intros. replace j with (i + (j - i)) at 1 by lia. rewrite Z.pow_add_r by lia.
  rewrite Z.mul_comm. apply Z.div_mul. pose proof (pow2_pos i). lia.
Qed.

Section Enc.
  Variables B i j : Z.
  Hypothesis Hij : 0 <= i < j.
  Hypothesis Hj : j <= 63.
  Let t := 2 ^ i.
  Let q := 2 ^ j.
  Let D := 2 ^ (j - i).
  Let h := 2 ^ (j - i - 1).
  Hypothesis HB : j <= B.

  Lemma D2h : D = 2 * h.
  Proof. unfold D, h. replace (j - i) with (Z.succ (j - i - 1)) at 1 by lia. apply Z.pow_succ_r. lia. Qed.
  Lemma h_pos : 0 < h. Proof. unfold h. apply pow2_pos. lia. Qed.
  Lemma t_pos : 0 < t. Proof. unfold t. apply pow2_pos. lia. Qed.
  Lemma tD : q = t * D.
  Proof. unfold q, t, D. rewrite <- Z.pow_add_r by lia. f_equal. lia. Qed.
  Lemma q64 : q < 2 ^ 64. Proof. unfold q. apply Z.pow_lt_mono_r; lia. Qed.
  Lemma qB : q <= 2 ^ B. Proof. unfold q. apply Z.pow_le_mono_r; lia. Qed.
  Lemma q_div_t : q / t = D. Proof. unfold q, t, D. apply pow2_div. lia. Qed.

  Lemma encode_correct m : 0 <= m < t -> encode B m t q = Some (m * (q / t)).
  Proof.
    intros Hm. pose proof h_pos. pose proof D2h. pose proof tD. pose proof q64. pose proof qB. pose proof t_pos.
    unfold encode. rewrite assert_true by (unfold q, t; rewrite !is_pow2_pow by lia; reflexivity). cbn [bind].
    rewrite assert_true by lia. cbn [bind].
    unfold udiv. destruct (Z.eqb_spec t 0); [lia|]. cbn [bind]. rewrite q_div_t.
    unfold D at 1. rewrite tz_pow2 by lia. unfold ushl. destruct (Z.ltb_spec (j - i) 64); [|lia]. cbn [bind].
    fold D. assert (0 <= m * D < q) by nia. unfold ucast.
    rewrite (Z.mod_small (m * D)) by lia. rewrite Z.mod_small by lia. reflexivity.
  Qed.

  Lemma encode_none m : t <= m -> encode B m t q = None.
  Proof.
    intros Hm. unfold encode. rewrite assert_true by (unfold q, t; rewrite !is_pow2_pow by lia; reflexivity). cbn [bind].
    destruct (Z.ltb_spec m t); [lia|]. reflexivity.
  Qed.

  Lemma decode_correct M c : 0 <= c < q -> decode M c t q = shrink M (((c + h) / D) mod t).
  Proof.
    intros Hc. pose proof h_pos. pose proof D2h. pose proof tD. pose proof q64. pose proof t_pos.
    unfold decode. rewrite assert_true by (unfold q, t; rewrite !is_pow2_pow by lia; reflexivity). cbn [bind].
    unfold udiv. destruct (Z.eqb_spec t 0); [lia|]. cbn [bind]. rewrite q_div_t.
    unfold D at 1. rewrite tz_pow2 by lia. rewrite usub_some by lia. cbn [bind].
    unfold ushr. destruct (Z.ltb_spec (j - i - 1) 64); [|lia]. cbn [bind]. fold h.
    set (tmp := c / h).
    assert (Htmp : 0 <= tmp <= c) by (unfold tmp; split; [apply Z.div_pos; lia|apply Z.div_le_upper_bound; nia]).
    change 1 with (2 ^ 1 - 1) at 1. rewrite land_mask by lia. change (2 ^ 1) with 2.
    pose proof (Z.mod_pos_bound tmp 2 ltac:(lia)). pose proof (Z.div_mod tmp 2 ltac:(lia)).
    assert (E : tmp / 2 + tmp mod 2 = (c + h) / D).
    { rewrite D2h. replace (2 * h) with (h * 2) by ring. rewrite <- Z.div_div by lia.
      replace (c + h) with (c + 1 * h) by ring. rewrite Z.div_add by lia. fold tmp.
      apply (Z.div_unique _ 2 _ (1 - tmp mod 2)); lia. }
    rewrite uadd_some by lia. cbn [bind]. rewrite usub_some by lia. cbn [bind]. rewrite E.
    unfold t. rewrite land_mask by lia. reflexivity.
  Qed.

  (** The rounded quotient of a noisy encoding. *)
  Lemma decode_value m e : 0 <= m < t -> ((((m * (q / t) + e) mod q) + h) / D) mod t = (m + (e + h) / D) mod t.
  Proof.
    intros Hm. pose proof h_pos. pose proof D2h. pose proof tD. pose proof t_pos. rewrite q_div_t.
    pose proof (Z.div_mod (m * D + e) q ltac:(nia)) as Ed. set (r := (m * D + e) mod q) in *. set (u := (m * D + e) / q) in *.
    replace (r + h) with ((e + h) + (m - u * t) * D) by nia. rewrite Z.div_add by lia.
    replace ((e + h) / D + (m - u * t)) with ((m + (e + h) / D) + (- u) * t) by ring.
    apply Z.mod_add. lia.
  Qed.

  Lemma decode_exact m e : 0 <= m < t -> - h <= e < h ->
    ((((m * (q / t) + e) mod q) + h) / D) mod t = m.
  Proof.
    intros Hm He. pose proof h_pos. pose proof D2h. rewrite decode_value by exact Hm.
    rewrite (Z.div_small (e + h)) by lia. rewrite Z.add_0_r. apply Z.mod_small. lia.
  Qed.

  Lemma decode_exact_iff m e : 0 <= m < t -> - q <= 2 * e < q ->
    ((((m * (q / t) + e) mod q) + h) / D) mod t = m -> - h <= e < h.
  Proof.
    intros Hm He E. pose proof h_pos. pose proof D2h. pose proof tD. pose proof t_pos. rewrite decode_value in E by exact Hm.
    set (x := (e + h) / D) in *.
    pose proof (Z.div_mod (m + x) t ltac:(lia)) as E1. rewrite E in E1.
    assert (Hx : x = t * ((m + x) / t)) by lia. set (u := (m + x) / t) in *.
    pose proof (Z.div_mod (e + h) D ltac:(lia)) as E2. fold x in E2. pose proof (Z.mod_pos_bound (e + h) D ltac:(lia)).
    assert (u = 0) by nia. nia.
  Qed.
End Enc.

Lemma shrink_correct M c : 0 <= c < 2 ^ 64 ->
  shrink M c = if c <=? msg_max M then Some c else None.
Proof.
  intros Hc. destruct M; cbn [shrink msg_max].
  - destruct (Z.eqb_spec c 0); [subst; reflexivity|]. destruct (Z.eqb_spec c 1); [subst; reflexivity|].
    destruct (Z.leb_spec c 1); [lia|reflexivity].
  - unfold ucast. destruct (Z.ltb_spec (2 ^ 8 - 1) c); destruct (Z.leb_spec c (2 ^ 8 - 1)); try lia; [reflexivity|].
    rewrite Z.mod_small by lia. reflexivity.
  - unfold ucast. destruct (Z.ltb_spec (2 ^ 16 - 1) c); destruct (Z.leb_spec c (2 ^ 16 - 1)); try lia; [reflexivity|].
    rewrite Z.mod_small by lia. reflexivity.
  - unfold ucast. destruct (Z.ltb_spec (2 ^ 32 - 1) c); destruct (Z.leb_spec c (2 ^ 32 - 1)); try lia; [reflexivity|].
    rewrite Z.mod_small by lia. reflexivity.
  - destruct (Z.leb_spec c (2 ^ 64 - 1)); [reflexivity|lia].
Qed.

(** * LWE operations *)
Record mops_ok (q : Z) (O : mops) : Prop := {
  mo_q : 1 < q;
  mo_add : forall a b, 0 <= a < q -> 0 <= b < q -> o_add O a b = Some ((a + b) mod q);
  mo_sub : forall a b, 0 <= a < q -> 0 <= b < q -> o_sub O a b = Some ((a - b) mod q);
  mo_sub_assign : forall a b, 0 <= a < q -> 0 <= b < q -> o_sub_assign O a b = Some ((a - b) mod q);
  mo_neg : forall a, 0 <= a < q -> o_neg O a = Some ((- a) mod q);
  mo_mul : forall a b, 0 <= a < q -> 0 <= b < q -> o_mul O a b = Some ((a * b) mod q) }.

Lemma modulus_ops_ok q O : modulus_ops q O -> mops_ok q O.
Proof.
  intros [B k Hk|B q' m HB Hq Hm|B q' F HB Hq HF].
  - assert (1 < 2 ^ k) by (change 1 with (2 ^ 0); apply Z.pow_lt_mono_r; lia).
    constructor; cbn [o_add o_sub o_sub_assign o_neg o_mul p2_mops]; intros; [assumption|..]; f_equal;
      try apply (p2_ops_correct B k a b Hk). apply (p2_ops_correct B k a a Hk).
  - destruct (barrett_new_inv B q' m HB Hq Hm) as (R & E & OK). subst q'.
    pose proof (v_range B m HB OK) as (V2 & V4).
    constructor; cbn [o_add o_sub o_sub_assign o_neg o_mul barrett_mops]; intros.
    + lia.
    + apply badd_correct; assumption.
    + apply bsub_correct; assumption.
    + apply sub_reduce_assign_correct; lia.
    + apply bneg_correct; assumption.
    + apply bmul_correct; try assumption; lia.
  - destruct (derive_field_ok B q' F HB Hq HF) as (OK & <- & <-).
    pose proof (fp_range F OK) as (V2 & V4).
    constructor; cbn [o_add o_sub o_sub_assign o_neg o_mul field_mops]; intros.
    + lia.
    + apply f_add_correct; assumption.
    + apply f_sub_correct; assumption.
    + apply f_sub_assign_correct; assumption.
    + apply f_neg_correct; assumption.
    + apply f_mul_correct; try assumption; lia.
Qed.

Lemma dotz_map2 q (g : Z -> Z -> Z) (ca cb : Z) a b s : (forall x y, cong q (g x y) (ca * x + cb * y)) ->
  length a = length b -> cong q (dotz (map2 g a b) s) (ca * dotz a s + cb * dotz b s).
Proof.
  intros Hg. revert b s. induction a as [|x a IH]; intros [|y b] s L; cbn in L; try lia.
  - cbn. apply cong_of_eq. ring.
  - cbn [map2 dotz]. destruct s as [|z s]; [apply cong_of_eq; ring|].
    rewrite (IH b s) by lia. rewrite Hg. apply cong_of_eq. ring.
Qed.
Lemma dotz_map1 q (g : Z -> Z) (c : Z) a s : (forall x, cong q (g x) (c * x)) ->
  cong q (dotz (map g a) s) (c * dotz a s).
Proof.
  intros Hg. revert s. induction a as [|x a IH]; intros s.
  - cbn. apply cong_of_eq. ring.
  - cbn [map dotz]. destruct s as [|z s]; [apply cong_of_eq; ring|].
    rewrite IH. rewrite Hg. apply cong_of_eq. ring.
Qed.

Lemma phase_cong q s x : 0 < q -> cong q (phase q s x) (lb x - dotz (la x) s).
Proof. intros. unfold phase. apply cong_mod. lia. Qed.

Lemma canonical_map2 q g a b : (forall x y, 0 <= g x y < q) -> canonical q (map2 g a b).
Proof. intros Hg. revert b. induction a; destruct b; cbn; constructor; [apply Hg|apply IHa]. Qed.
Lemma canonical_map1 q (g : Z -> Z) a : (forall x, 0 <= g x < q) -> canonical q (map g a).
Proof. intros Hg. induction a; cbn; constructor; [apply Hg|apply IHa]. Qed.

Section Ops.
  Variables (q : Z) (O : mops).
  Hypothesis HO : mops_ok q O.
  Let Hq : 1 < q := mo_q q O HO.

  Lemma same_len_ok a b : length a = length b -> same_len a b = Some tt.
  Proof. intros L. unfold same_len. apply assert_true. apply Nat.eqb_eq. exact L. Qed.

  Lemma hom2_of (f : lwe -> lwe -> option lwe) (g : Z -> Z -> Z) ca cb :
    (forall n x y, lwe_wf q n x -> lwe_wf q n y ->
       f x y = Some (mk_lwe (map2 (fun u v => g u v mod q) (la x) (la y)) (g (lb x) (lb y) mod q))) ->
    (forall u v, g u v = ca * u + cb * v) -> phase_hom2 q f g.
  Proof.
    intros Hf Hg n s x y Hx Hy Hs. eexists. split; [apply (Hf n); assumption|].
    destruct Hx as (Lx & Cx & Bx), Hy as (Ly & Cy & By). unfold lwe_wf; cbn [la lb].
    split.
    - split; [rewrite map2_length; lia|]. split.
      + apply canonical_map2. intros. apply Z.mod_pos_bound. lia.
      + apply Z.mod_pos_bound. lia.
    - unfold phase at 1. cbn [la lb]. apply cong_iff; [lia|].
      rewrite (dotz_map2 q _ ca cb); [|intros; rewrite Hg; apply cong_mod; lia|lia].
      rewrite (cong_mod q (g (lb x) (lb y))) by lia. rewrite !Hg, !phase_cong by lia. apply cong_of_eq. ring.
  Qed.
  Lemma hom1_of (f : lwe -> option lwe) (g : Z -> Z) c :
    (forall n x, lwe_wf q n x ->
       f x = Some (mk_lwe (map (fun u => g u mod q) (la x)) (g (lb x) mod q))) ->
    (forall u, g u = c * u) -> phase_hom1 q f g.
  Proof.
    intros Hf Hg n s x Hx Hs. eexists. split; [apply (Hf n); assumption|].
    destruct Hx as (Lx & Cx & Bx). unfold lwe_wf; cbn [la lb].
    split.
    - split; [rewrite map_length; lia|]. split.
      + apply canonical_map1. intros. apply Z.mod_pos_bound. lia.
      + apply Z.mod_pos_bound. lia.
    - unfold phase at 1. cbn [la lb]. apply cong_iff; [lia|].
      rewrite (dotz_map1 q _ c); [|intros; rewrite Hg; apply cong_mod; lia].
      rewrite (cong_mod q (g (lb x))) by lia. rewrite !Hg, !phase_cong by lia. apply cong_of_eq. ring.
  Qed.

  Ltac start := intros n x y (Lx & Cx & Bx) (Ly & Cy & By); assert (Lxy : length (la x) = length (la y)) by lia.
  Lemma lwe_add_hom : phase_hom2 q (lwe_add O) Z.add.
  Proof.
    apply (hom2_of _ _ 1 1); [|intros; ring]. start. unfold lwe_add. rewrite same_len_ok by lia. cbn [bind].
    rewrite (mapM2_map2 _ (fun u v => (u + v) mod q) _ _ _ _ Lxy Cx Cy) by (intros; apply (mo_add q O HO); assumption).
    cbn [bind]. rewrite (mo_add q O HO) by assumption. reflexivity.
  Qed.
  Lemma lwe_add_inplace_hom : phase_hom2 q (lwe_add_inplace O) Z.add.
  Proof.
    apply (hom2_of _ _ 1 1); [|intros; ring]. start. unfold lwe_add_inplace. rewrite same_len_ok by lia. cbn [bind].
    rewrite (zipA_map2 _ (fun u v => (u + v) mod q) _ _ _ _ Lxy Cx Cy) by (intros; apply (mo_add q O HO); assumption).
    cbn [bind]. rewrite (mo_add q O HO) by assumption. reflexivity.
  Qed.
  Lemma lwe_sub_hom : phase_hom2 q (lwe_sub O) Z.sub.
  Proof.
    apply (hom2_of _ _ 1 (-1)); [|intros; ring]. start. unfold lwe_sub. rewrite same_len_ok by lia. cbn [bind].
    rewrite (mapM2_map2 _ (fun u v => (u - v) mod q) _ _ _ _ Lxy Cx Cy) by (intros; apply (mo_sub q O HO); assumption).
    cbn [bind]. rewrite (mo_sub q O HO) by assumption. reflexivity.
  Qed.
  Lemma lwe_sub_inplace_hom : phase_hom2 q (lwe_sub_inplace O) Z.sub.
  Proof.
    apply (hom2_of _ _ 1 (-1)); [|intros; ring]. start. unfold lwe_sub_inplace. rewrite same_len_ok by lia. cbn [bind].
    rewrite (zipA_map2 _ (fun u v => (u - v) mod q) _ _ _ _ Lxy Cx Cy) by (intros; apply (mo_sub_assign q O HO); assumption).
    cbn [bind]. rewrite (mo_sub_assign q O HO) by assumption. reflexivity.
  Qed.
  Lemma lwe_neg_hom : phase_hom1 q (lwe_neg O) Z.opp.
  Proof.
    apply (hom1_of _ _ (-1)); [|intros; ring]. intros n x (Lx & Cx & Bx). unfold lwe_neg.
    rewrite (mapM_some _ (fun u => (- u) mod q)).
    - cbn [bind]. rewrite (mo_neg q O HO) by assumption. reflexivity.
    - intros u Hu. apply (mo_neg q O HO). unfold canonical in Cx. rewrite Forall_forall in Cx. apply Cx, Hu.
  Qed.
  Lemma lwe_scalar_mul_hom c : 0 <= c < q -> phase_hom1 q (fun x => lwe_scalar_mul O x c) (fun u => u * c).
  Proof.
    intros Hc. apply (hom1_of _ _ c); [|intros; ring]. intros n x (Lx & Cx & Bx). unfold lwe_scalar_mul.
    rewrite (mapM_some _ (fun u => (u * c) mod q)).
    - cbn [bind]. rewrite (mo_mul q O HO) by assumption. reflexivity.
    - intros u Hu. apply (mo_mul q O HO); [|assumption]. unfold canonical in Cx. rewrite Forall_forall in Cx. apply Cx, Hu.
  Qed.
  Lemma lwe_add_scaled_hom c : 0 <= c < q -> phase_hom2 q (fun x y => lwe_add_scaled O x y c) (fun u v => u + v * c).
  Proof.
    intros Hc. apply (hom2_of _ _ 1 c); [|intros; ring]. start. unfold lwe_add_scaled.
    assert (Hs : forall u v, 0 <= u < q -> 0 <= v < q ->
      (let* w := o_mul O v c in o_add O u w) = Some ((u + v * c) mod q)).
    { intros u v Hu Hv. rewrite (mo_mul q O HO) by assumption. cbn [bind].
      rewrite (mo_add q O HO) by (try assumption; apply Z.mod_pos_bound; lia).
      rewrite Z.add_mod_idemp_r by lia. reflexivity. }
    rewrite (zipA_map2 _ (fun u v => (u + v * c) mod q) _ _ _ _ Lxy Cx Cy) by exact Hs.
    cbn [bind]. pose proof (Hs (lb x) (lb y) Bx By) as E. destruct (o_mul O (lb y) c); [|discriminate].
    cbn [bind] in *. rewrite E. reflexivity.
  Qed.
  Lemma lwe_len_panic x y : length (la x) <> length (la y) ->
    lwe_add O x y = None /\ lwe_add_inplace O x y = None /\ lwe_sub O x y = None /\ lwe_sub_inplace O x y = None.
  Proof.
    intros L. unfold lwe_add, lwe_add_inplace, lwe_sub, lwe_sub_inplace, same_len.
    apply Nat.eqb_neq in L. rewrite L. auto.
  Qed.
End Ops.

(** * Encryption *)
(** Distance to zero modulo [q]. *)
Lemma min_dist q e : 0 < q -> - q <= 2 * e < q -> Z.min (e mod q) ((- e) mod q) = Z.abs e.
Proof.
  intros Hq He. destruct (Z.eq_dec e 0) as [->|ne]; [rewrite Z.mod_0_l by lia; reflexivity|].
  destruct (Z_lt_le_dec e 0).
  - rewrite (Z.mod_small (- e)) by lia. replace (e mod q) with (e + q); [lia|].
    apply (Z.mod_unique _ _ (-1)); lia.
  - rewrite (Z.mod_small e) by lia. replace ((- e) mod q) with (- e + q); [lia|].
    apply (Z.mod_unique _ _ (-1)); lia.
Qed.

Section Crypt.
  Variables B i j : Z.
  Hypothesis Hij : 0 <= i < j.
  Hypothesis HjB : j < B.
  Hypothesis HB : B <= 64.
  Let t := 2 ^ i.
  Let q := 2 ^ j.

  Lemma p2_new_q : p2_new q = Some (q - 1).
  Proof. apply p2_new_correct; [unfold q; pose proof (pow2_pos j); lia|]. exists j. unfold q. lia. Qed.

  Lemma encrypt_correct s a e m : length a = length s -> 0 <= m < t ->
    encrypt B t q s a e m = Some (mk_lwe a ((dotz a s + e + m * (q / t)) mod q)).
  Proof.
    intros La Hm. unfold encrypt. rewrite p2_new_q. cbn [bind]. unfold lwe_zero_sample.
    rewrite <- La, firstn_all. unfold q. rewrite (p2_dot_correct B j ltac:(lia)) by exact La. cbn [bind la lb].
    fold q. unfold t, q. rewrite (encode_correct B i j) by (try lia; exact Hm). cbn [bind].
    rewrite !(proj1 (proj2 (p2_ops_correct B j _ _ ltac:(lia)))).
    pose proof (pow2_pos j ltac:(lia)). rewrite (Z.add_mod_idemp_l (dotz a s) e) by lia. rewrite Z.add_mod_idemp_l by lia. reflexivity.
  Qed.

  Lemma encrypt_panics s a e m : t <= m -> encrypt B t q s a e m = None.
  Proof.
    intros Hm. unfold encrypt. rewrite p2_new_q. cbn [bind]. destruct (lwe_zero_sample B (q - 1) s a e); [|reflexivity].
    cbn [bind]. unfold t, q. rewrite (encode_none B i j) by (try lia; exact Hm). reflexivity.
  Qed.

  Lemma decrypt_correct M s ct : length (la ct) = length s ->
    decrypt M B t q s ct = shrink M (((phase q s ct + q / t / 2) / (q / t)) mod t).
  Proof.
    intros L. unfold decrypt. rewrite p2_new_q. cbn [bind]. unfold q. rewrite (p2_dot_correct B j ltac:(lia)) by exact L. cbn [bind].
    rewrite (proj1 (proj2 (proj2 (p2_ops_correct B j _ _ ltac:(lia))))).
    pose proof (pow2_pos j ltac:(lia)). fold q in H |- *. rewrite Zminus_mod_idemp_r. unfold phase.
    unfold t, q. rewrite (decode_correct i j) by (try lia; apply Z.mod_pos_bound; lia).
    rewrite q_div_t by lia. assert (E : 2 ^ (j - i) / 2 = 2 ^ (j - i - 1)).
    { rewrite (D2h i j) by lia. rewrite (Z.mul_comm 2), Z.div_mul by lia. reflexivity. }
    rewrite E. reflexivity.
  Qed.

  Lemma decrypt_with_noise_correct M s ct m : length (la ct) = length s ->
    decrypt M B t q s ct = Some m -> 0 <= m < t ->
    decrypt_with_noise M B t q s ct =
      Some (m, Z.min ((phase q s ct - m * (q / t)) mod q) ((m * (q / t) - phase q s ct) mod q)).
  Proof.
    intros L D Hm. unfold decrypt in D. unfold decrypt_with_noise. rewrite p2_new_q in *. cbn [bind] in *.
    unfold q in *. rewrite (p2_dot_correct B j ltac:(lia)) in * by exact L. cbn [bind] in *. rewrite D. cbn [bind].
    unfold t. rewrite (encode_correct B i j) by (try lia; exact Hm). cbn [bind].
    rewrite !(proj1 (proj2 (proj2 (p2_ops_correct B j _ _ ltac:(lia))))).
    rewrite (Zminus_mod_idemp_r (lb ct)). reflexivity.
  Qed.
End Crypt.

Lemma budget_h i j e : 0 <= i < j ->
  (- 2 ^ j <= 2 * 2 ^ i * e < 2 ^ j <-> - 2 ^ (j - i - 1) <= e < 2 ^ (j - i - 1)).
Proof.
  intros H1. assert (E : 2 ^ j = 2 * 2 ^ i * 2 ^ (j - i - 1)).
  { replace j with (Z.succ (i + (j - i - 1))) at 1 by lia. rewrite Z.pow_succ_r, Z.pow_add_r by lia. ring. }
  pose proof (pow2_pos i ltac:(lia)). rewrite E. set (h := 2 ^ (j - i - 1)). nia.
Qed.

Lemma half_D i j : 0 <= i < j -> 2 ^ j / 2 ^ i / 2 = 2 ^ (j - i - 1).
Proof. intros H. rewrite pow2_div by lia. rewrite (D2h i j) by lia. rewrite (Z.mul_comm 2), Z.div_mul by lia. reflexivity. Qed.

Lemma encrypt_phase i j s a e m : 0 <= i < j -> 
  phase (2 ^ j) s (mk_lwe a ((dotz a s + e mod 2 ^ j + m * (2 ^ j / 2 ^ i)) mod 2 ^ j)) = (m * 2 ^ (j - i) + e) mod 2 ^ j.
Proof.
  intros H. pose proof (pow2_pos j ltac:(lia)). unfold phase. cbn [la lb]. apply cong_iff; [lia|].
  rewrite (cong_mod (2 ^ j) (dotz a s + _ + _)) by lia. rewrite (cong_mod (2 ^ j) e) by lia.
  rewrite pow2_div by lia. apply cong_of_eq. ring.
Qed.

Lemma encrypt_roundtrip (B i j : Z) (M : msg_type) (s a : list Z) (e m : Z) :
  0 <= i < j -> j < B <= 64 -> length a = length s -> canonical (2 ^ j) a ->
  0 <= m < 2 ^ i -> m <= msg_max M -> - 2 ^ j <= 2 * 2 ^ i * e < 2 ^ j ->
  exists ct, encrypt B (2 ^ i) (2 ^ j) s a (e mod 2 ^ j) m = Some ct /\
    lwe_wf (2 ^ j) (length s) ct /\ la ct = a /\
    phase (2 ^ j) s ct = (m * 2 ^ (j - i) + e) mod 2 ^ j /\
    decrypt M B (2 ^ i) (2 ^ j) s ct = Some m /\
    decrypt_with_noise M B (2 ^ i) (2 ^ j) s ct = Some (m, Z.abs e).
Proof.
  intros Hij HB La Ca Hm HM He. eexists. split; [apply (encrypt_correct B i j); (lia || assumption)|].
  pose proof (pow2_pos j ltac:(lia)) as Hq. pose proof (pow2_pos i ltac:(lia)) as Ht.
  split. { split; [exact La|]. split; [exact Ca|]. apply Z.mod_pos_bound. lia. }
  split; [reflexivity|]. pose proof (encrypt_phase i j s a e m Hij) as Ph. split; [exact Ph|].
  match goal with |- decrypt _ _ _ _ _ ?c = _ /\ _ => set (ct := c) in * end.
  pose proof (proj1 (budget_h i j e Hij) He) as He'.
  assert (D : decrypt M B (2 ^ i) (2 ^ j) s ct = Some m).
  { rewrite (decrypt_correct B i j) by (try lia; exact La). rewrite Ph, half_D by lia.
    rewrite <- (pow2_div i j) by lia.
    pose proof (decode_exact i j Hij ltac:(lia) m e Hm He') as E. rewrite <- (pow2_div i j) in E by lia. rewrite E.
    assert (2 ^ i <= 2 ^ 63) by (apply Z.pow_le_mono_r; lia).
    rewrite shrink_correct by lia. destruct (Z.leb_spec m (msg_max M)); [reflexivity|lia]. }
  split; [exact D|].
  rewrite (decrypt_with_noise_correct B i j Hij ltac:(lia) ltac:(lia) M s ct m La D Hm). do 2 f_equal.
  rewrite Ph, <- (pow2_div i j) by lia. rewrite Zminus_mod_idemp_l, Zminus_mod_idemp_r.
  replace (m * (2 ^ j / 2 ^ i) + e - m * (2 ^ j / 2 ^ i)) with e by ring.
  replace (m * (2 ^ j / 2 ^ i) - (m * (2 ^ j / 2 ^ i) + e)) with (- e) by ring.
  apply min_dist; [lia|]. nia.
Qed.

Lemma encrypt_tight (B i j : Z) (M : msg_type) (s a : list Z) (e m : Z) :
  0 <= i < j -> j < B <= 64 -> length a = length s ->
  0 <= m < 2 ^ i -> - 2 ^ j <= 2 * e < 2 ^ j -> ~ (- 2 ^ j <= 2 * 2 ^ i * e < 2 ^ j) ->
  exists ct, encrypt B (2 ^ i) (2 ^ j) s a (e mod 2 ^ j) m = Some ct /\
    decrypt M B (2 ^ i) (2 ^ j) s ct <> Some m.
Proof.
  intros Hij HB La Hm He He2. eexists. split; [apply (encrypt_correct B i j); (lia || assumption)|].
  pose proof (encrypt_phase i j s a e m Hij) as Ph.
  match goal with |- decrypt _ _ _ _ _ ?c <> _ => set (ct := c) in * end.
  pose proof (pow2_pos i ltac:(lia)) as Ht.
  rewrite (decrypt_correct B i j) by (try lia; exact La). rewrite Ph, half_D by lia. rewrite <- (pow2_div i j) by lia.
  pose proof (Z.mod_pos_bound ((((m * (2 ^ j / 2 ^ i) + e) mod 2 ^ j + 2 ^ (j - i - 1)) / (2 ^ j / 2 ^ i))) (2 ^ i) ltac:(lia)) as R.
  assert (2 ^ i <= 2 ^ 63) by (apply Z.pow_le_mono_r; lia).
  rewrite shrink_correct by lia. match goal with |- context [?x <=? _] => destruct (Z.leb_spec x (msg_max M)) end; [|discriminate].
  intros E. injection E as E. apply He2, budget_h; [lia|].
  apply (decode_exact_iff i j Hij ltac:(lia) m e Hm He). rewrite q_div_t by lia. rewrite pow2_div in E by lia. exact E.
Qed.

Lemma decrypt_any (B i j : Z) (s : list Z) (ct : lwe) :
  0 <= i < j -> j < B <= 64 -> length (la ct) = length s ->
  exists m d, decrypt MU64 B (2 ^ i) (2 ^ j) s ct = Some m /\ 0 <= m < 2 ^ i /\
    decrypt_with_noise MU64 B (2 ^ i) (2 ^ j) s ct = Some (m, Z.abs d) /\
    cong (2 ^ j) (phase (2 ^ j) s ct) (m * 2 ^ (j - i) + d) /\
    - 2 ^ j <= 2 * 2 ^ i * d < 2 ^ j.
Proof.
  intros Hij HB L. pose proof (pow2_pos i ltac:(lia)) as Ht. pose proof (pow2_pos j ltac:(lia)) as Hq.
  pose proof (h_pos i j Hij) as Hh. pose proof (D2h i j Hij) as HD. pose proof (tD i j Hij) as HtD.
  assert (D : decrypt MU64 B (2 ^ i) (2 ^ j) s ct = Some (((phase (2 ^ j) s ct + 2 ^ (j - i - 1)) / 2 ^ (j - i)) mod 2 ^ i)).
  { rewrite (decrypt_correct B i j) by (try lia; exact L). rewrite half_D, pow2_div by lia. reflexivity. }
  set (v := (phase (2 ^ j) s ct + 2 ^ (j - i - 1)) / 2 ^ (j - i)) in *.
  pose proof (Z.mod_pos_bound v (2 ^ i) ltac:(lia)) as Rm.
  exists (v mod 2 ^ i), (phase (2 ^ j) s ct - v * 2 ^ (j - i)).
  pose proof (Z.div_mod (phase (2 ^ j) s ct + 2 ^ (j - i - 1)) (2 ^ (j - i)) ltac:(lia)) as E1. fold v in E1.
  pose proof (Z.mod_pos_bound (phase (2 ^ j) s ct + 2 ^ (j - i - 1)) (2 ^ (j - i)) ltac:(lia)) as E2.
  assert (Bd : - 2 ^ (j - i - 1) <= phase (2 ^ j) s ct - v * 2 ^ (j - i) < 2 ^ (j - i - 1)) by lia.
  assert (C : cong (2 ^ j) (phase (2 ^ j) s ct) (v mod 2 ^ i * 2 ^ (j - i) + (phase (2 ^ j) s ct - v * 2 ^ (j - i)))).
  { exists (v / 2 ^ i). pose proof (Z.div_mod v (2 ^ i) ltac:(lia)). rewrite HtD. nia. }
  split; [exact D|]. split; [exact Rm|]. split; [|split; [exact C|apply budget_h; [lia|exact Bd]]].
  rewrite (decrypt_with_noise_correct B i j Hij ltac:(lia) ltac:(lia) MU64 s ct _ L D Rm). do 2 f_equal.
  rewrite pow2_div by lia. rewrite <- (min_dist (2 ^ j)); [|lia|nia].
  f_equal; apply cong_iff; try lia; set (d := phase (2 ^ j) s ct - v * 2 ^ (j - i)) in *; rewrite C; apply cong_of_eq; ring.
Qed.

Lemma decode_narrow (M : msg_type) (i j c : Z) :
  0 <= i < j -> j <= 63 -> 0 <= c < 2 ^ j ->
  exists m, decode MU64 c (2 ^ i) (2 ^ j) = Some m /\ 0 <= m < 2 ^ i /\
    (m <= msg_max M -> decode M c (2 ^ i) (2 ^ j) = Some m) /\
    (msg_max M < m -> decode M c (2 ^ i) (2 ^ j) = None).
Proof.
  intros Hij Hj Hc. pose proof (pow2_pos i ltac:(lia)) as Ht.
  exists (((c + 2 ^ (j - i - 1)) / 2 ^ (j - i)) mod 2 ^ i).
  set (v := (c + 2 ^ (j - i - 1)) / 2 ^ (j - i)).
  pose proof (Z.mod_pos_bound v (2 ^ i) ltac:(lia)) as Rm.
  assert (2 ^ i <= 2 ^ 63) by (apply Z.pow_le_mono_r; lia).
  rewrite !(decode_correct i j) by lia. fold v. rewrite !shrink_correct by lia.
  split. { destruct (Z.leb_spec (v mod 2 ^ i) (msg_max MU64)); [reflexivity|]. cbn [msg_max] in *. lia. }
  split; [exact Rm|].
  destruct (Z.leb_spec (v mod 2 ^ i) (msg_max M)); split; intros; try lia; reflexivity.
Qed.
