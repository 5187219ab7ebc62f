(** Sample extraction and monomial rotations. *)
From Coq Require Import ZArith Znumtheory List Bool Arith Lia Setoid Morphisms.
From Verif Require Import Spec.Basic Spec.Poly Spec.Ring Spec.Lattice Model.Base Model.Field Model.NTT Model.Concrete Model.Poly Model.Lwe Model.Rlwe
  Proofs.Arith Proofs.BarrettProofs Proofs.FieldProofs Proofs.PolyMath Proofs.NTTProofs Proofs.PolyProofs Proofs.MonomialProofs
  Proofs.RingProofs Proofs.LweProofs.
Import ListNotations.
Local Open Scope Z_scope.

Lemma zsum_rev f n : zsum f n = zsum (fun i => f (n - 1 - i)%nat) n.
Proof.
  revert f. induction n; intros f; [reflexivity|]. rewrite zsum_shift. cbn [zsum]. rewrite (IHn (fun i => f (S i))).
  replace (S n - 1 - n)%nat with O by lia. rewrite Z.add_comm. f_equal. apply zsum_ext. intros i Hi. f_equal. lia.
Qed.
Lemma dotz_zsum n x y : length x = n -> length y = n -> dotz x y = zsum (fun i => nth i x 0 * nth i y 0) n.
Proof.
  revert x y. induction n; intros [|a x] [|c y] Hx Hy; cbn in Hx, Hy; try lia; [reflexivity|].
  rewrite zsum_shift. cbn [dotz nth]. rewrite (IHn x y) by lia. reflexivity.
Qed.

(** Constant coefficient of a*s. *)
Lemma const_coeff a0 r s n : length s = n -> S (length r) = n ->
  negacyclic_coeff n (a0 :: r) s 0 = dotz (a0 :: pneg (rev r)) s.
Proof.
  intros Hs Hn. destruct n as [|m]; [lia|]. destruct s as [|s0 s']; [discriminate|]. cbn in Hs.
  unfold negacyclic_coeff. rewrite zsum_shift. cbn [dotz nth Nat.leb Nat.sub].
  rewrite (dotz_zsum m) by (rewrite ?pneg_length, ?rev_length; lia).
  f_equal. rewrite zsum_rev. apply zsum_ext. intros i Hi.
  replace (S m + 0 - S (m - 1 - i))%nat with (S i) by lia. cbn [nth].
  rewrite nth_pneg, rev_nth by lia. replace (length r - S i)%nat with (m - 1 - i)%nat by lia. ring.
Qed.
Lemma revkey_length s : length (revkey s) = length s.
Proof. destruct s; cbn; [reflexivity|]. rewrite pneg_length, rev_length. reflexivity. Qed.
Lemma revkey_invol s : revkey (revkey s) = s.
Proof.
  destruct s as [|s0 r]; [reflexivity|]. cbn. f_equal. unfold pneg. rewrite <- map_rev, rev_involutive, map_map.
  rewrite <- (map_id r) at 2. apply map_ext. intros; lia.
Qed.
Lemma dotz_rev x y : length x = length y -> dotz (rev x) y = dotz x (rev y).
Proof.
  intros H. rewrite (dotz_zsum (length x)), (dotz_zsum (length x)) by (rewrite ?rev_length; congruence).
  rewrite zsum_rev. apply zsum_ext. intros i Hi. rewrite !rev_nth by lia.
  rewrite <- H. replace (length x - S (length x - 1 - i))%nat with i by lia.
  replace (length x - 1 - i)%nat with (length x - S i)%nat by lia. reflexivity.
Qed.
Lemma dotz_neg_l x y : dotz (pneg x) y = - dotz x y.
Proof. revert y. induction x; intros [|b y]; cbn; try reflexivity. rewrite IHx. ring. Qed.
Lemma dotz_neg_r x y : dotz x (pneg y) = - dotz x y.
Proof. revert y. induction x; intros [|b y]; cbn; try reflexivity. rewrite IHx. ring. Qed.
Lemma pneg_rev x : pneg (rev x) = rev (pneg x).
Proof. unfold pneg. apply map_rev. Qed.
Lemma const_coeff_rev a s n : length s = n -> length a = n -> (0 < n)%nat ->
  negacyclic_coeff n a s 0 = dotz a (revkey s).
Proof.
  intros Hs Ha Hn. destruct a as [|a0 r]; cbn in Ha; [lia|]. destruct s as [|s0 s']; cbn in Hs; [lia|].
  rewrite const_coeff by (cbn; lia). cbn [dotz revkey]. f_equal.
  rewrite dotz_neg_l, dotz_neg_r. f_equal. apply dotz_rev. lia.
Qed.
Lemma dotz_zeros x m : dotz x (repeat 0 m) = 0.
Proof. revert m. induction x; intros [|m]; cbn; [reflexivity..|]. rewrite IHx. ring. Qed.
Lemma dotz_app_zeros x s m : dotz x (s ++ repeat 0 m) = dotz x s.
Proof.
  revert s. induction x; intros [|c s]; [reflexivity|reflexivity| |].
  - cbn [app]. rewrite dotz_zeros. reflexivity.
  - cbn. rewrite IHx. reflexivity.
Qed.
Lemma dotz_firstn x s : dotz (firstn (length s) x) s = dotz x s.
Proof. revert x. induction s; intros [|c x]; cbn; try reflexivity. rewrite IHs. reflexivity. Qed.
Lemma pad_length n s : (length s <= n)%nat -> length (pad n s) = n.
Proof. intros H. unfold pad. rewrite app_length, repeat_length. lia. Qed.
Lemma dotz_pad n x s : dotz x (pad n s) = dotz (firstn (length s) x) s.
Proof. unfold pad. rewrite dotz_app_zeros, dotz_firstn. reflexivity. Qed.
Lemma canonical_firstn q i l : canonical q l -> canonical q (firstn i l).
Proof. intros H. revert i. induction H; intros [|i]; cbn; constructor; auto. apply IHForall. Qed.
Lemma canonical_rev q l : canonical q l -> canonical q (rev l).
Proof. intros H. apply Forall_forall. intros x Hx. apply in_rev in Hx. unfold canonical in H. rewrite Forall_forall in H. auto. Qed.

Section Field.
Variable F : field.
Hypothesis Hok : fok F.
Local Notation p := (fp F).

Lemma pF : 0 < p. Proof. pose proof (fp_range F Hok). lia. Qed.

Definition ext (a : list Z) : list Z := match a with [] => [] | a0 :: r => a0 :: pmod p (pneg (rev r)) end.
Lemma ext_len a : length (ext a) = length a.
Proof. destruct a; cbn; [reflexivity|]. rewrite pmod_length, pneg_length, rev_length. reflexivity. Qed.
Lemma ext_canon a : canonical p a -> canonical p (ext a).
Proof. intros H. destruct H; constructor; [assumption|]. apply pmod_canonical, pF. Qed.
Lemma ext_dot a s n : length a = n -> length s = n -> (0 < n)%nat -> cong p (dotz (ext a) s) (negacyclic_coeff n a s 0).
Proof.
  intros Ha Hs Hn. destruct a as [|a0 r]; cbn in Ha; [lia|]. rewrite const_coeff by lia.
  destruct s as [|s0 s']; cbn in Hs; [lia|]. cbn [ext dotz]. apply cong_add; [reflexivity|].
  unfold pmod. pose proof pF. rewrite (dotz_map1 p (fun x => x mod p) 1).
  - apply cong_of_eq. ring.
  - intros x. rewrite (cong_mod p x) by lia. apply cong_of_eq. ring.
Qed.

Lemma extract_lwe_correct n x : (0 < n)%nat -> rlwe_wf p n x ->
  extract_lwe F x = Some (mk_lwe (ext (ra x)) (nth 0 (rb x) 0)) /\
  extract_lwe_locally F x = Some (mk_lwe (ext (ra x)) (nth 0 (rb x) 0)) /\
  forall d, extract_partial_lwe_locally F x d = Some (mk_lwe (firstn d (ext (ra x))) (nth 0 (rb x) 0)).
Proof.
  intros Hn (L1 & L2 & H1 & H2). destruct x as [a b]. cbn [ra rb] in *. pose proof pF.
  destruct b as [|b0 b']; cbn in L2; [lia|]. destruct a as [|a0 r]; cbn in L1; [lia|]. inv H1.
  unfold extract_lwe, extract_lwe_locally, extract_partial_lwe_locally. cbn [ra rb].
  assert (E : mapM (f_neg F) (rev r) = Some (pmod p (pneg (rev r)))) by (apply p_neg_correct, canonical_rev; assumption).
  change (index (b0 :: b') 0) with (Some b0). rewrite E. cbn [bind nth ext].
  split; [|split; reflexivity].
  change (mapM (f_neg F) (a0 :: r)) with (p_neg F (a0 :: r)). rewrite (p_neg_correct F) by (constructor; assumption).
  cbn [pneg map pmod bind].
  rewrite (f_neg_correct F) by (apply Z.mod_pos_bound; lia). cbn [bind]. do 2 f_equal. f_equal.
  - rewrite <- (Z.mod_small a0 p) at 2 by assumption. apply cong_iff; [lia|]. rewrite (cong_mod p (- a0)) by lia. apply cong_of_eq. ring.
  - unfold pmod, pneg. rewrite <- !map_rev. reflexivity.
Qed.
Lemma nth0_rphase n s x : (0 < n)%nat -> rl_len n x -> nth 0 (rphase n s x) 0 = nth 0 (rb x) 0 - negacyclic_coeff n (ra x) s 0.
Proof.
  intros Hn (L1 & L2). unfold rphase. rewrite nth_psub by (rewrite negacyclic_length; exact L2).
  rewrite nth_negacyclic by exact Hn. reflexivity.
Qed.
Lemma nth0_canon n b : (0 < n)%nat -> length b = n -> canonical p b -> 0 <= nth 0 b 0 < p.
Proof. intros Hn Lb Hb. unfold canonical in Hb. rewrite Forall_forall in Hb. apply Hb. apply nth_In. lia. Qed.

Lemma extract_phase n s x : (0 < n)%nat -> rlwe_wf p n x -> length s = n ->
  exists z, extract_lwe F x = Some z /\ extract_lwe_locally F x = Some z /\ lwe_wf p n z /\
    phase p s z = nth 0 (rphase n s x) 0 mod p.
Proof.
  intros Hn Hx Hs. destruct (extract_lwe_correct n x Hn Hx) as (E1 & E2 & _). eexists. split; [exact E1|]. split; [exact E2|].
  pose proof Hx as (L1 & L2 & H1 & H2). split.
  - split; [cbn; rewrite ext_len; exact L1|]. split; [apply ext_canon; exact H1|]. apply (nth0_canon n); assumption.
  - unfold phase. cbn [la lb]. rewrite nth0_rphase by (assumption || split; assumption). apply cong_iff; [apply pF|].
    apply cong_sub; [reflexivity|]. apply ext_dot; assumption.
Qed.
Lemma extract_partial_phase n s x : (0 < n)%nat -> rlwe_wf p n x -> (length s <= n)%nat ->
  exists z, extract_partial_lwe_locally F x (length s) = Some z /\ lwe_wf p (length s) z /\
    phase p s z = nth 0 (rphase n (pad n s) x) 0 mod p.
Proof.
  intros Hn Hx Hs. destruct (extract_lwe_correct n x Hn Hx) as (_ & _ & E). eexists. split; [apply E|].
  pose proof Hx as (L1 & L2 & H1 & H2). split.
  - split; [cbn; rewrite firstn_length, ext_len; lia|]. split; [apply canonical_firstn, ext_canon; exact H1|].
    apply (nth0_canon n); assumption.
  - unfold phase. cbn [la lb]. rewrite nth0_rphase by (assumption || split; assumption). apply cong_iff; [apply pF|].
    apply cong_sub; [reflexivity|]. rewrite <- (dotz_pad n). apply ext_dot; [exact L1|apply pad_length; exact Hs|exact Hn].
Qed.
Lemma extract_reverse_phase n s x : (0 < n)%nat -> rlwe_wf p n x -> length s = n ->
  exists z, extract_lwe_reverse_locally x = Some z /\ lwe_wf p n z /\
    phase p (revkey s) z = nth 0 (rphase n s x) 0 mod p.
Proof.
  intros Hn (L1 & L2 & H1 & H2) Hs. unfold extract_lwe_reverse_locally. destruct x as [a b]. cbn [ra rb] in *.
  destruct b as [|b0 b']; cbn in L2; [lia|]. change (index (b0 :: b') 0) with (Some b0). cbn [bind].
  eexists. split; [reflexivity|]. pose proof (Forall_inv H2) as Hb0. split; [split; [exact L1|split; assumption]|].
  unfold phase. cbn [la lb]. rewrite nth0_rphase by (assumption || split; cbn; lia). cbn [ra rb nth].
  rewrite const_coeff_rev by assumption. reflexivity.
Qed.
Lemma extract_partial_reverse_phase n s x : (0 < n)%nat -> rlwe_wf p n x -> (length s <= n)%nat ->
  exists z, extract_partial_lwe_reverse_locally x (length s) = Some z /\ lwe_wf p (length s) z /\
    phase p s z = nth 0 (rphase n (revkey (pad n s)) x) 0 mod p.
Proof.
  intros Hn (L1 & L2 & H1 & H2) Hs. unfold extract_partial_lwe_reverse_locally. destruct x as [a b]. cbn [ra rb] in *.
  destruct b as [|b0 b']; cbn in L2; [lia|]. change (index (b0 :: b') 0) with (Some b0). cbn [bind].
  eexists. split; [reflexivity|]. pose proof (Forall_inv H2) as Hb0. split.
  { split; [cbn [la]; rewrite firstn_length; lia|]. split; [apply canonical_firstn; exact H1|assumption]. }
  unfold phase. cbn [la lb]. rewrite nth0_rphase by (assumption || split; cbn; lia). cbn [ra rb nth].
  rewrite const_coeff_rev by (rewrite ?revkey_length, ?pad_length; lia). rewrite revkey_invol, dotz_pad. reflexivity.
Qed.

(** * Rotations *)
Definition rot (neg_low : bool) (r : nat) (y : list Z) : list Z :=
  let m := (length y - r)%nat in
  if neg_low then pneg (skipn m y) ++ firstn m y else skipn m y ++ pneg (firstn m y).

Lemma rot_length s r y : (r <= length y)%nat -> length (rot s r y) = length y.
Proof. intros H. unfold rot. destruct s; rewrite app_length, ?pneg_length, skipn_length, firstn_length; lia. Qed.

Lemma nth_skipn_ {A} (d : A) m l i : nth i (skipn m l) d = nth (m + i) l d.
Proof. revert l. induction m; intros l; [reflexivity|]. destruct l; [destruct i; reflexivity|]. cbn. apply IHm. Qed.
Lemma nth_firstn_ {A} (d : A) m l i : (i < m)%nat -> nth i (firstn m l) d = nth i l d.
Proof. revert l i. induction m; intros l i H; [lia|]. destruct l; [reflexivity|]. destruct i; [reflexivity|]. cbn. apply IHm. lia. Qed.
Lemma nth_rot s r y j : (r <= length y)%nat -> (j < length y)%nat ->
  nth j (rot s r y) 0 = if (j <? r)%nat then (if s then - nth (length y - r + j) y 0 else nth (length y - r + j) y 0)
                        else (if s then nth (j - r) y 0 else - nth (j - r) y 0).
Proof.
  intros Hr Hj. unfold rot.
  destruct (Nat.ltb_spec j r); destruct s.
  - rewrite app_nth1 by (rewrite pneg_length, skipn_length; lia). rewrite nth_pneg, nth_skipn_. reflexivity.
  - rewrite app_nth1 by (rewrite skipn_length; lia). rewrite nth_skipn_. reflexivity.
  - rewrite app_nth2 by (rewrite pneg_length, skipn_length; lia). rewrite pneg_length, skipn_length.
    rewrite nth_firstn_ by lia. f_equal. lia.
  - rewrite app_nth2 by (rewrite skipn_length; lia). rewrite skipn_length, nth_pneg.
    rewrite nth_firstn_ by lia. do 2 f_equal. lia.
Qed.

Lemma nega_mono n r y j : length y = n -> (j < n)%nat -> (r < n)%nat ->
  forall sg d, (d mod n = r)%nat -> sg = (if Nat.even (d / n) then 1 else -1) ->
  nth j (negacyclic n (monomial n 1 d) y) 0 = sg * (if (r <=? j)%nat then nth (j - r) y 0 else - nth (n + j - r) y 0).
Proof.
  intros Ly Hj Hr sg d Hd ->. rewrite nth_negacyclic by exact Hj. unfold negacyclic_coeff.
  rewrite (zsum_single _ n r Hr).
  - rewrite nth_monomial by exact Hr. rewrite Hd, Nat.eqb_refl. destruct (r <=? j)%nat, (Nat.even (d / n)); ring.
  - intros i Hi Hne. rewrite nth_monomial by exact Hi. rewrite Hd.
    replace (i =? r)%nat with false by (symmetry; apply Nat.eqb_neq; exact Hne). destruct (i <=? j)%nat; ring.
Qed.
Lemma rot_low n r y : (0 < n)%nat -> length y = n -> (r <= n)%nat -> rot true r y = negacyclic n (monomial n 1 r) y.
Proof.
  intros Hn Ly Hr. apply (nth_ext _ _ 0 0); [rewrite rot_length, negacyclic_length; lia|].
  rewrite rot_length by lia. rewrite Ly. intros j Hj. rewrite nth_rot, Ly by lia.
  destruct (Nat.eq_dec r n) as [->|Hrn].
  - rewrite (nega_mono n 0 y j Ly Hj Hn (-1) n) by (rewrite ?Nat.mod_same, ?Nat.div_same by lia; reflexivity).
    replace (j <? n)%nat with true by (symmetry; apply Nat.ltb_lt; exact Hj).
    replace (n - n + j)%nat with j by lia. cbn [Nat.leb]. rewrite Nat.sub_0_r. ring.
  - rewrite (nega_mono n r y j Ly Hj ltac:(lia) 1 r) by (rewrite ?Nat.mod_small, ?Nat.div_small by lia; reflexivity).
    destruct (Nat.ltb_spec j r); destruct (Nat.leb_spec r j); try lia.
    replace (n + j - r)%nat with (n - r + j)%nat by lia. ring.
Qed.
Lemma rot_high n r y : (0 < n)%nat -> length y = n -> (0 < r <= n)%nat -> rot false r y = negacyclic n (monomial n 1 (n + r)) y.
Proof.
  intros Hn Ly Hr. apply (nth_ext _ _ 0 0); [rewrite rot_length, negacyclic_length; lia|].
  rewrite rot_length by lia. rewrite Ly. intros j Hj. rewrite nth_rot, Ly by lia.
  destruct (Nat.eq_dec r n) as [->|Hrn].
  - rewrite (nega_mono n 0 y j Ly Hj Hn 1 (n + n)).
    + replace (j <? n)%nat with true by (symmetry; apply Nat.ltb_lt; exact Hj).
      replace (n - n + j)%nat with j by lia. cbn [Nat.leb]. rewrite Nat.sub_0_r. ring.
    + replace (n + n)%nat with (2 * n)%nat by lia. apply Nat.mod_mul. lia.
    + replace (n + n)%nat with (2 * n)%nat by lia. rewrite Nat.div_mul by lia. reflexivity.
  - assert (E1 : ((n + r) mod n = r)%nat) by (replace (n + r)%nat with (r + 1 * n)%nat by lia; rewrite Nat.mod_add, Nat.mod_small; lia).
    assert (E2 : ((n + r) / n = 1)%nat) by (replace (n + r)%nat with (r + 1 * n)%nat by lia; rewrite Nat.div_add, Nat.div_small; lia).
    rewrite (nega_mono n r y j Ly Hj ltac:(lia) (-1) (n + r) E1) by (rewrite E2; reflexivity).
    destruct (Nat.ltb_spec j r); destruct (Nat.leb_spec r j); try lia.
    replace (n + j - r)%nat with (n - r + j)%nat by lia. ring.
Qed.

Lemma slice_to_ok l i : (i <= length l)%nat -> slice_to l i = Some (firstn i l).
Proof. intros H. unfold slice_to. apply Nat.leb_le in H. rewrite H. reflexivity. Qed.
Lemma slice_from_ok l i : (i <= length l)%nat -> slice_from l i = Some (skipn i l).
Proof. intros H. unfold slice_from. apply Nat.leb_le in H. rewrite H. reflexivity. Qed.
Lemma canonical_skipn q i l : canonical q l -> canonical q (skipn i l).
Proof. intros H. revert i. induction H; intros [|i]; cbn; try constructor; auto. Qed.

Lemma rotate_correct f g (u v : Z -> Z -> Z) (P : Z -> Prop) x y r n :
  length x = n -> length y = n -> (r <= n)%nat -> Forall P x -> canonical p y ->
  (forall a b, P a -> 0 <= b < p -> f a b = Some (u a b)) -> (forall a b, P a -> 0 <= b < p -> g a b = Some (v a b)) ->
  rotate f g x y r (n - r) = Some (map2 u (firstn r x) (skipn (n - r) y) ++ map2 v (skipn r x) (firstn (n - r) y)).
Proof.
  intros Lx Ly Hr Hx Hy Hf Hg. unfold rotate.
  rewrite !slice_to_ok, !slice_from_ok by lia. cbn [bind].
  assert (Px : forall i, Forall P (firstn i x)) by (intros i; revert i; clear -Hx; induction Hx; intros [|i]; cbn; constructor; auto).
  assert (Sx : forall i, Forall P (skipn i x)) by (intros i; revert i; clear -Hx; induction Hx; intros [|i]; cbn; try constructor; auto).
  rewrite (zipA_map2 f u P (fun b => 0 <= b < p)); [|rewrite firstn_length, skipn_length; lia|apply Px|apply canonical_skipn; exact Hy|exact Hf].
  cbn [bind].
  rewrite (zipA_map2 g v P (fun b => 0 <= b < p)); [|rewrite firstn_length, skipn_length; lia|apply Sx|apply canonical_firstn; exact Hy|exact Hg].
  reflexivity.
Qed.
Lemma map2_second (h : Z -> Z) a b : length a = length b -> map2 (fun _ y => h y) a b = map h b.
Proof. revert b. induction a; intros [|c b] H; cbn in *; try lia; [reflexivity|]. f_equal. apply IHa. lia. Qed.
Lemma padd_app a a' b b' : length a = length a' -> padd (a ++ b) (a' ++ b') = padd a a' ++ padd b b'.
Proof. revert a'. induction a; intros [|c a'] H; cbn in *; try lia; [reflexivity|]. f_equal. apply IHa. lia. Qed.
Lemma pmod_app a b : pmod p (a ++ b) = pmod p a ++ pmod p b.
Proof. apply map_app. Qed.
Lemma map2_sub_padd a b : map2 (fun x y => (x - y) mod p) a b = pmod p (padd a (pneg b)).
Proof. revert b. induction a; intros [|c b]; cbn; try reflexivity. f_equal. apply IHa. Qed.
Lemma map2_add_padd a b : map2 (fun x y => (x + y) mod p) a b = pmod p (padd a b).
Proof. revert b. induction a; intros [|c b]; cbn; try reflexivity. f_equal. apply IHa. Qed.

(** [f_sub_assign] and [f_add] rotations: [x + rot y]. *)
Lemma rotate_add_low n r x y : length x = n -> length y = n -> (r <= n)%nat -> canonical p x -> canonical p y ->
  rotate (f_sub_assign F) (f_add F) x y r (n - r) = Some (pmod p (padd x (rot true r y))).
Proof.
  intros Lx Ly Hr Hx Hy.
  rewrite (rotate_correct _ _ (fun a b => (a - b) mod p) (fun a b => (a + b) mod p) (fun a => 0 <= a < p)) with (n := n);
    [|assumption..|intros; apply f_sub_assign_correct; assumption|intros; apply f_add_correct; assumption].
  f_equal. rewrite map2_sub_padd, map2_add_padd, <- pmod_app. f_equal.
  rewrite <- (firstn_skipn r x) at 3. unfold rot. rewrite Ly. rewrite padd_app; [reflexivity|].
  rewrite pneg_length, firstn_length, skipn_length. lia.
Qed.
Lemma rotate_add_high n r x y : length x = n -> length y = n -> (r <= n)%nat -> canonical p x -> canonical p y ->
  rotate (f_add F) (f_sub_assign F) x y r (n - r) = Some (pmod p (padd x (rot false r y))).
Proof.
  intros Lx Ly Hr Hx Hy.
  rewrite (rotate_correct _ _ (fun a b => (a + b) mod p) (fun a b => (a - b) mod p) (fun a => 0 <= a < p)) with (n := n);
    [|assumption..|intros; apply f_add_correct; assumption|intros; apply f_sub_assign_correct; assumption].
  f_equal. rewrite map2_sub_padd, map2_add_padd, <- pmod_app. f_equal.
  rewrite <- (firstn_skipn r x) at 3. unfold rot. rewrite Ly. rewrite padd_app; [reflexivity|].
  rewrite firstn_length, skipn_length. lia.
Qed.
Lemma psub_pmod_l a b : pmod p (psub (pmod p a) b) = pmod p (psub a b).
Proof.
  pose proof pF. revert b. induction a; intros [|c b]; cbn; try reflexivity. f_equal; [|apply IHa].
  rewrite Zminus_mod_idemp_l. reflexivity.
Qed.
Lemma rotate_sub_low_correct n r x y : length x = n -> length y = n -> (r <= n)%nat -> canonical p y ->
  rotate_sub_low F x y r (n - r) = Some (pmod p (psub (rot true r y) y)).
Proof.
  intros Lx Ly Hr Hy. unfold rotate_sub_low. pose proof pF.
  rewrite (rotate_correct _ _ (fun _ b => (- b) mod p) (fun _ b => b) (fun _ => True)) with (n := n);
    [|assumption..|apply Forall_forall; auto|assumption|intros; apply f_neg_correct; assumption|reflexivity].
  cbn [bind]. rewrite (map2_second (fun b => (- b) mod p)) by (rewrite firstn_length, skipn_length; lia).
  rewrite (map2_second (fun b => b)) by (rewrite firstn_length, skipn_length; lia). rewrite map_id.
  assert (E : map (fun b => (- b) mod p) (skipn (n - r) y) ++ firstn (n - r) y = pmod p (rot true r y)).
  { unfold rot. rewrite Ly, pmod_app. f_equal; [unfold pmod, pneg; rewrite map_map; reflexivity|].
    symmetry. apply pmod_small, canonical_firstn. exact Hy. }
  rewrite E. rewrite (p_sub_assign_correct F Hok) by (rewrite ?pmod_length, ?rot_length; (lia || apply pmod_canonical, pF || exact Hy)).
  rewrite psub_pmod_l. reflexivity.
Qed.
Lemma rotate_sub_high_correct n r x y : length x = n -> length y = n -> (r <= n)%nat -> canonical p y ->
  rotate_sub_high F x y r (n - r) = Some (pmod p (psub (rot false r y) y)).
Proof.
  intros Lx Ly Hr Hy. unfold rotate_sub_high. pose proof pF.
  rewrite (rotate_correct _ _ (fun _ b => b) (fun _ b => (- b) mod p) (fun _ => True)) with (n := n);
    [|assumption..|apply Forall_forall; auto|assumption|reflexivity|intros; apply f_neg_correct; assumption].
  cbn [bind]. rewrite (map2_second (fun b => (- b) mod p)) by (rewrite firstn_length, skipn_length; lia).
  rewrite (map2_second (fun b => b)) by (rewrite firstn_length, skipn_length; lia). rewrite map_id.
  assert (E : skipn (n - r) y ++ map (fun b => (- b) mod p) (firstn (n - r) y) = pmod p (rot false r y)).
  { unfold rot. rewrite Ly, pmod_app. f_equal; [|unfold pmod, pneg; rewrite map_map; reflexivity].
    symmetry. apply pmod_small, canonical_skipn. exact Hy. }
  rewrite E. rewrite (p_sub_assign_correct F Hok) by (rewrite ?pmod_length, ?rot_length; (lia || apply pmod_canonical, pF || exact Hy)).
  rewrite psub_pmod_l. reflexivity.
Qed.

Lemma mono_sub_one_correct n r x dst : (0 < n)%nat -> rlwe_wf p n x -> rl_len n dst -> (r <= 2 * n)%nat ->
  mul_monic_monomial_sub_one F x n r dst = Some (rl_mod p (rl_sub (rl_mul n (monomial n 1 r) x) x)).
Proof.
  intros Hn (L1 & L2 & H1 & H2) (D1 & D2) Hr. unfold mul_monic_monomial_sub_one, rl_mod, rl_sub, rl_mul. cbn [ra rb].
  destruct (Nat.leb_spec r n).
  - rewrite !(rotate_sub_low_correct n) by assumption. cbn [bind]. rewrite !(rot_low n) by assumption. reflexivity.
  - replace (r - n <=? n)%nat with true by (symmetry; apply Nat.leb_le; lia). cbn [assert bind].
    rewrite !(rotate_sub_high_correct n) by (assumption || lia). cbn [bind]. rewrite !(rot_high n) by (assumption || lia).
    replace (n + (r - n))%nat with r by lia. reflexivity.
Qed.
Lemma add_mono_correct n r x y : (0 < n)%nat -> rlwe_wf p n x -> rlwe_wf p n y -> (r <= 2 * n)%nat ->
  add_assign_rhs_mul_monomial F x y n r = Some (rl_mod p (rl_add x (rl_mul n (monomial n 1 r) y))).
Proof.
  intros Hn (L1 & L2 & H1 & H2) (D1 & D2 & D3 & D4) Hr. unfold add_assign_rhs_mul_monomial, rl_mod, rl_add, rl_mul. cbn [ra rb].
  destruct (Nat.leb_spec r n).
  - rewrite !(rotate_add_low n) by assumption. cbn [bind]. rewrite !(rot_low n) by assumption. reflexivity.
  - replace (r - n <=? n)%nat with true by (symmetry; apply Nat.leb_le; lia). cbn [assert bind].
    rewrite !(rotate_add_high n) by (assumption || lia). cbn [bind]. rewrite !(rot_high n) by (assumption || lia).
    replace (n + (r - n))%nat with r by lia. reflexivity.
Qed.
Lemma mono_out_of_range n r x y dst : (2 * n < r)%nat ->
  mul_monic_monomial_sub_one F x n r dst = None /\ add_assign_rhs_mul_monomial F x y n r = None.
Proof.
  intros Hr. unfold mul_monic_monomial_sub_one, add_assign_rhs_mul_monomial.
  replace (r <=? n)%nat with false by (symmetry; apply Nat.leb_gt; lia).
  replace (r - n <=? n)%nat with false by (symmetry; apply Nat.leb_gt; lia). split; reflexivity.
Qed.
End Field.
