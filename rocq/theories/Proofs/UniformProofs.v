(** Uniform words: invariance under translation, laws of affine images, rounding errors. *)
From Coq Require Import ZArith List Bool Arith Lia Permutation Znumtheory.
From Verif Require Import Spec.Basic Spec.Poly Spec.Moment Spec.SubGauss Spec.Count Spec.Switch Spec.Boot.
From Verif Require Import Proofs.MomentProofs Proofs.SubGaussProofs.
Import ListNotations.
Local Open Scope Z_scope.

Lemma in_range n x : In x (range n) <-> 0 <= x < n.
Proof.
  unfold range. rewrite in_map_iff. split.
  - intros (i & <- & Hi). apply in_seq in Hi. lia.
  - intros H. exists (Z.to_nat x). split; [lia|]. apply in_seq. lia.
Qed.
Lemma range_length n : length (range n) = Z.to_nat n.
Proof. unfold range. rewrite map_length, seq_length. reflexivity. Qed.
Lemma range_nodup n : NoDup (range n).
Proof. unfold range. apply FinFun.Injective_map_NoDup; [intros a b H; lia|apply seq_NoDup]. Qed.

Lemma in_uniform p x w : In (x, w) (uniform p) -> 0 <= x < p /\ w = 1.
Proof. unfold uniform. intros H. apply in_map_iff in H. destruct H as (v & E & Hv). injection E as <- <-. apply in_range in Hv. auto. Qed.
Lemma uniform_nonneg p : nonneg (uniform p).
Proof. unfold nonneg. apply Forall_forall. intros (x & w) H. apply in_uniform in H. cbn. lia. Qed.
Lemma wsum_list (l : list Z) f : wsum (map (fun v => (v, 1)) l) f = fold_right (fun v a => f v + a) 0 l.
Proof. induction l as [|x l IH]; [reflexivity|]. cbn [map wsum fold_right]. rewrite IH. ring. Qed.
Lemma mass_uniform p : 0 <= p -> mass (uniform p) = p.
Proof.
  intros Hp. unfold mass, uniform. rewrite wsum_list. transitivity (Z.of_nat (length (range p))); [|rewrite range_length; lia].
  induction (range p) as [|x l IH]; [reflexivity|]. cbn [fold_right]. rewrite IH. cbn [length]. lia.
Qed.
Lemma fold_perm (f : Z -> Z) l l' : Permutation l l' -> fold_right (fun v a => f v + a) 0 l = fold_right (fun v a => f v + a) 0 l'.
Proof. induction 1; cbn [fold_right]; lia. Qed.
(** A permutation of the residues leaves the uniform law unchanged. *)
Lemma uniform_perm p g f : (forall x, 0 <= x < p -> 0 <= g x < p) ->
  (forall x y, 0 <= x < p -> 0 <= y < p -> g x = g y -> x = y) ->
  wsum (uniform p) (fun x => f (g x)) = wsum (uniform p) f.
Proof.
  intros Hg Hi. unfold uniform. rewrite !wsum_list.
  assert (E : fold_right (fun v a => f (g v) + a) 0 (range p) = fold_right (fun v a => f v + a) 0 (map g (range p))).
  { induction (range p) as [|x l IH]; [reflexivity|]. cbn [map fold_right]. rewrite IH. reflexivity. }
  rewrite E. apply fold_perm. apply NoDup_Permutation_bis.
  - assert (G : forall l, NoDup l -> (forall x, In x l -> 0 <= x < p) -> NoDup (map g l)).
    { induction 1 as [|x l Hx Hl IH]; intros HL; [constructor|]. cbn [map]. constructor; [|apply IH; intros y Hy; apply HL; right; exact Hy].
      rewrite in_map_iff. intros (y & Ey & Hy). apply Hx. rewrite (Hi x y); [exact Hy|apply HL; left; reflexivity|apply HL; right; exact Hy|congruence]. }
    apply G; [apply range_nodup|]. intros x Hx. apply in_range. exact Hx.
  - rewrite map_length. lia.
  - intros x Hx. apply in_map_iff in Hx. destruct Hx as (y & <- & Hy). apply in_range. apply Hg. apply in_range. exact Hy.
Qed.

Lemma wsum_swap {A B : Type} (D : dist A) (D' : dist B) (f : A -> B -> Z) :
  wsum D (fun x => wsum D' (fun y => f x y)) = wsum D' (fun y => wsum D (fun x => f x y)).
Proof.
  induction D as [|[x w] D IH]; cbn [wsum].
  - symmetry. rewrite <- (Z.mul_0_l (mass D')). apply (wsum_const D' 0).
  - rewrite IH, wsum_add, wsum_scale. reflexivity.
Qed.

(** Maps that leave a distribution unchanged. *)
Definition inv {A : Type} (D : dist A) (T : A -> A) : Prop := forall f, wsum D (fun x => f (T x)) = wsum D f.
Lemma inv_both {A B : Type} (D : dist A) (D' : dist B) T T' : inv D T -> inv D' T' -> inv (both D D') (fun xy => (T (fst xy), T' (snd xy))).
Proof.
  intros H H' f. rewrite !wsum_both. cbn [fst snd]. rewrite (wsum_ext D _ (fun x => wsum D' (fun y => f (T x, y)))).
  - apply (H (fun x => wsum D' (fun y => f (x, y)))).
  - intros x w _. apply (H' (fun y => f (T x, y))).
Qed.
Fixpoint zapp {A : Type} (Ts : list (A -> A)) (l : list A) : list A :=
  match Ts, l with T :: Ts', x :: l' => T x :: zapp Ts' l' | _, _ => [] end.
Lemma inv_each {A : Type} (D : dist A) Ts : Forall (inv D) Ts -> inv (each (length Ts) D) (zapp Ts).
Proof.
  induction 1 as [|T Ts HT H IH]; intros f; [reflexivity|]. cbn [length]. rewrite !wsum_each_S.
  rewrite (wsum_ext D _ (fun x => wsum (each (length Ts) D) (fun l => f (T x :: l)))).
  - apply (HT (fun x => wsum (each (length Ts) D) (fun l => f (x :: l)))).
  - intros x w _. cbn [zapp]. apply (IH (fun l => f (T x :: l))).
Qed.

Section Mod.
Variable p : Z.
Hypothesis Hp : 0 < p.

(** Entrywise sums modulo [p]. *)
Definition addv (u v : list Z) : list Z := pmod p (padd u v).
Fixpoint addm (u v : list (list Z)) : list (list Z) :=
  match u, v with x :: u', y :: v' => addv x y :: addm u' v' | _, _ => [] end.

Lemma inv_shift c : inv (uniform p) (fun x => (x + c) mod p).
Proof.
  intros f. apply (uniform_perm p (fun x => (x + c) mod p)); [intros; apply Z.mod_pos_bound; exact Hp|].
  intros x y Hx Hy E. assert (D : (p | x - y)).
  { apply Z.mod_divide; [lia|]. replace (x - y) with ((x + c) - (y + c)) by ring. rewrite Zminus_mod, E, Z.sub_diag. apply Z.mod_0_l. lia. }
  destruct D as (k & Ek). assert (k = 0) by (assert (k * p < p) by lia; assert (- p < k * p) by lia; nia). subst k. lia.
Qed.
Lemma inv_addv s : inv (each (length s) (uniform p)) (fun u => addv u s).
Proof.
  intros f. pose proof (inv_each (uniform p) (map (fun c x => (x + c) mod p) s)) as H. rewrite map_length in H.
  rewrite <- (H ltac:(apply Forall_forall; intros T HT; apply in_map_iff in HT; destruct HT as (c & <- & _); apply inv_shift) f).
  apply wsum_ext. intros u w Hu. apply in_each in Hu. destruct Hu as (Hl & _). f_equal. clear f H w. revert u Hl.
  induction s as [|c s IH]; intros [|x u] Hl; try discriminate; [reflexivity|]. cbn in Hl. injection Hl as Hl.
  unfold addv in *. cbn [padd pmod map zapp]. f_equal. apply IH. exact Hl.
Qed.
Lemma inv_addm n s : Forall (fun v => length v = n) s -> inv (each (length s) (each n (uniform p))) (fun u => addm u s).
Proof.
  intros Hs f. pose proof (inv_each (each n (uniform p)) (map (fun v u => addv u v) s)) as H. rewrite map_length in H.
  rewrite <- (H ltac:(apply Forall_forall; intros T HT; apply in_map_iff in HT; destruct HT as (c & <- & Hc); rewrite Forall_forall in Hs; rewrite <- (Hs c Hc); apply inv_addv) f).
  apply wsum_ext. intros u w Hu. apply in_each in Hu. destruct Hu as (Hl & _). f_equal. clear f H w Hs. revert u Hl.
  induction s as [|c s IH]; intros [|x u] Hl; try discriminate; [reflexivity|]. cbn in Hl. injection Hl as Hl.
  cbn [addm map zapp]. f_equal. apply IH. exact Hl.
Qed.

Lemma in_each_uniform r t w : In (t, w) (each r (uniform p)) -> length t = r /\ canonical p t.
Proof.
  intros H. apply in_each in H. destruct H as (Hl & Hf). split; [exact Hl|]. unfold canonical. eapply Forall_impl; [|exact Hf].
  cbn. intros x (v & Hx). apply in_uniform in Hx. apply Hx.
Qed.
Lemma mass_each_uniform r : mass (each r (uniform p)) = p ^ Z.of_nat r.
Proof. induction r as [|r IH]; [reflexivity|]. rewrite mass_each_S, mass_uniform, IH by lia. rewrite Nat2Z.inj_succ, Z.pow_succ_r by lia. reflexivity. Qed.
Lemma mass_pos_each r : 0 < mass (each r (uniform p)).
Proof. rewrite mass_each_uniform. apply Z.pow_pos_nonneg; lia. Qed.

Lemma padd_comm a : forall b, padd a b = padd b a.
Proof. induction a as [|x a IH]; intros [|y b]; cbn [padd]; try reflexivity. rewrite IH. f_equal. ring. Qed.

(** The law of an image that translations of the argument move transitively is uniform. *)
Lemma law {A : Type} (M : dist A) (L : A -> list Z) r F :
  (forall u w, In (u, w) M -> length (L u) = r /\ canonical p (L u)) ->
  (forall t, length t = r -> canonical p t -> exists T, inv M T /\ forall u w, In (u, w) M -> L (T u) = addv (L u) t) ->
  wsum M (fun u => F (L u)) * p ^ Z.of_nat r = wsum (each r (uniform p)) F * mass M.
Proof.
  intros HL HT. rewrite <- mass_each_uniform. transitivity (wsum (each r (uniform p)) (fun t => wsum M (fun u => F (addv (L u) t)))).
  - rewrite <- wsum_const. apply wsum_ext. intros t w Ht. apply in_each_uniform in Ht. destruct Ht as (Lt & Ct).
    destruct (HT t Lt Ct) as (T & IT & ET). rewrite <- (IT (fun u => F (L u))). apply wsum_ext. intros u v Hu. rewrite (ET u v Hu). reflexivity.
  - rewrite wsum_swap, <- wsum_const. apply wsum_ext. intros u v Hu. destruct (HL u v Hu) as (Lu & _).
    pose proof (inv_addv (L u) F) as I. rewrite Lu in I. rewrite <- I. apply wsum_ext. intros t w _. unfold addv. rewrite padd_comm. reflexivity.
Qed.
Lemma law_le {A : Type} (M : dist A) (L : A -> list Z) r F G :
  (forall u w, In (u, w) M -> length (L u) = r /\ canonical p (L u)) ->
  (forall t, length t = r -> canonical p t -> exists T, inv M T /\ forall u w, In (u, w) M -> L (T u) = addv (L u) t) ->
  0 <= mass M -> wsum (each r (uniform p)) F <= G * mass (each r (uniform p)) -> wsum M (fun u => F (L u)) <= G * mass M.
Proof.
  intros HL HT HM HF. pose proof (law M L r F HL HT) as E. rewrite mass_each_uniform in HF. assert (0 < p ^ Z.of_nat r) by (apply Z.pow_pos_nonneg; lia).
  apply (Zmult_le_reg_r _ _ (p ^ Z.of_nat r)); [lia|]. rewrite E. apply (Z.mul_le_mono_nonneg_r _ _ _ HM) in HF. lia.
Qed.
Lemma sg_law {A : Type} (M : dist A) (L : A -> list Z) r f V : nonneg M ->
  (forall u w, In (u, w) M -> length (L u) = r /\ canonical p (L u)) ->
  (forall t, length t = r -> canonical p t -> exists T, inv M T /\ forall u w, In (u, w) M -> L (T u) = addv (L u) t) ->
  sg (each r (uniform p)) f V -> sg M (fun u => f (L u)) V.
Proof.
  intros HM HL HT (HV & H). split; [exact HV|]. intros m s U HU.
  apply (law_le M L r (fun v => gm (2 * m) (s + f v) U)); [exact HL|exact HT|apply mass_nonneg; exact HM|apply H; exact HU].
Qed.
End Mod.

(** Even powers of the integers up to [h]. *)
Fixpoint psum (n h : nat) : Z := match h with O => 0 | S h' => psum n h' + Z.of_nat h ^ Z.of_nat n end.
Lemma powdiff n y : 1 <= y ->
  2 * Z.of_nat (S n) * y ^ Z.of_nat n <= (y + 1) ^ Z.of_nat (S n) - (y - 1) ^ Z.of_nat (S n) /\
  2 * y ^ Z.of_nat (S n) <= (y + 1) ^ Z.of_nat (S n) + (y - 1) ^ Z.of_nat (S n).
Proof.
  intros Hy. induction n as [|n (I1 & I2)].
  - change (Z.of_nat 1) with 1. change (Z.of_nat 0) with 0. rewrite !Z.pow_1_r, Z.pow_0_r. lia.
  - rewrite (Nat2Z.inj_succ (S n)), !(Z.pow_succ_r _ (Z.of_nat (S n))) by lia.
    set (P := (y + 1) ^ Z.of_nat (S n)) in *. set (M := (y - 1) ^ Z.of_nat (S n)) in *.
    assert (E : y ^ Z.of_nat (S n) = y * y ^ Z.of_nat n) by (rewrite Nat2Z.inj_succ, Z.pow_succ_r by lia; reflexivity).
    set (Q := y ^ Z.of_nat n) in *. assert (0 <= Q) by (apply Z.pow_nonneg; lia). rewrite E in *. set (k := Z.of_nat (S n)) in *. assert (1 <= k) by lia.
    assert (A1 : y * (2 * k * Q) <= y * (P - M)) by (apply Z.mul_le_mono_nonneg_l; lia).
    assert (A2 : y * (2 * (y * Q)) <= y * (P + M)) by (apply Z.mul_le_mono_nonneg_l; lia).
    split; [|]; [|nia].
    replace ((y + 1) * P - (y - 1) * M) with (y * (P - M) + (P + M)) by ring. replace (Z.succ k) with (k + 1) by ring.
    replace (2 * (k + 1) * (y * Q)) with (y * (2 * k * Q) + 2 * (y * Q)) by ring. lia.
Qed.
Lemma psum_bound m h : (2 * Z.of_nat m + 1) * 2 ^ (2 * Z.of_nat m + 1) * psum (2 * m) h + 1 <= (2 * Z.of_nat h + 1) ^ (2 * Z.of_nat m + 1).
Proof.
  induction h as [|h IH].
  - cbn [psum]. change (2 * Z.of_nat 0 + 1) with 1. rewrite Z.pow_1_l by lia. lia.
  - cbn [psum]. destruct (powdiff (2 * m) (2 * Z.of_nat (S h)) ltac:(lia)) as (H & _).
    replace (2 * Z.of_nat (S h) - 1) with (2 * Z.of_nat h + 1) in H by lia.
    replace (Z.of_nat (S (2 * m))) with (2 * Z.of_nat m + 1) in H by lia. rewrite Z.pow_mul_l in H.
    replace (2 ^ (2 * Z.of_nat m + 1)) with (2 * 2 ^ Z.of_nat (2 * m)).
    2:{ rewrite Z.add_1_r, Z.pow_succ_r by lia. do 2 f_equal. lia. }
    replace (2 ^ (2 * Z.of_nat m + 1)) with (2 * 2 ^ Z.of_nat (2 * m)) in IH.
    2:{ rewrite Z.add_1_r, Z.pow_succ_r by lia. do 2 f_equal. lia. }
    set (A := 2 ^ Z.of_nat (2 * m)) in *. set (Q := Z.of_nat (S h) ^ Z.of_nat (2 * m)) in *. lia.
Qed.
Lemma odd_three m : 3 ^ Z.of_nat m <= odd_product (S m).
Proof.
  induction m as [|m IH]; [cbn; lia|]. rewrite Nat2Z.inj_succ, Z.pow_succ_r by lia. remember (S m) as k. cbn [odd_product].
  pose proof (odd_product_pos k). assert (1 <= Z.of_nat k) by lia. nia.
Qed.

(** The centred uniform law on -h .. h. *)
Definition centred_uniform (h : nat) : dist Z := map (fun v => (v - Z.of_nat h, 1)) (range (2 * Z.of_nat h + 1)).
Lemma wsum_centred h f : wsum (centred_uniform h) f = wsum (uniform (2 * Z.of_nat h + 1)) (fun v => f (v - Z.of_nat h)).
Proof. unfold centred_uniform, uniform. induction (range _) as [|x l IH]; [reflexivity|]. cbn [map wsum]. rewrite IH. reflexivity. Qed.
Lemma range_S n : 0 <= n -> range (n + 1) = range n ++ [n].
Proof. intros H. unfold range. replace (Z.to_nat (n + 1)) with (S (Z.to_nat n)) by lia. rewrite seq_S, map_app. cbn [map]. rewrite Nat.add_0_l, Z2Nat.id by lia. reflexivity. Qed.
Lemma uniform_S n f : 0 <= n -> wsum (uniform (n + 1)) f = wsum (uniform n) f + f n.
Proof. intros H. unfold uniform. rewrite range_S, map_app, wsum_app by exact H. cbn [map wsum]. ring. Qed.
Lemma uniform_S' n f : 0 <= n -> wsum (uniform (n + 1)) f = f 0 + wsum (uniform n) (fun v => f (v + 1)).
Proof.
  intros H. rewrite <- (Z2Nat.id n) by exact H. induction (Z.to_nat n) as [|k IH].
  { unfold uniform, range. change (Z.to_nat (Z.of_nat 0 + 1)) with 1%nat. change (Z.to_nat (Z.of_nat 0)) with 0%nat. cbn [seq map wsum]. change (Z.of_nat 0) with 0. ring. }
  rewrite Nat2Z.inj_succ. unfold Z.succ.
  rewrite (uniform_S (Z.of_nat k + 1) f), IH, (uniform_S (Z.of_nat k) (fun v => f (v + 1))) by lia. ring.
Qed.
Lemma centred_S h f : wsum (centred_uniform (S h)) f = wsum (centred_uniform h) f + (f (Z.of_nat (S h)) + f (- Z.of_nat (S h))).
Proof.
  rewrite !wsum_centred. replace (2 * Z.of_nat (S h) + 1) with ((2 * Z.of_nat h + 1) + 1 + 1) by lia. rewrite uniform_S, uniform_S' by lia.
  rewrite (wsum_ext _ (fun v => f (v + 1 - Z.of_nat (S h))) (fun v => f (v - Z.of_nat h))) by (intros; f_equal; lia).
  replace (2 * Z.of_nat h + 1 + 1 - Z.of_nat (S h)) with (Z.of_nat (S h)) by lia. replace (0 - Z.of_nat (S h)) with (- Z.of_nat (S h)) by lia. ring.
Qed.
Lemma centred_odd m h : wsum (centred_uniform h) (fun x => x ^ Z.of_nat (2 * m + 1)) = 0.
Proof.
  induction h as [|h IH]; [unfold centred_uniform, range; cbn [Z.of_nat]; change (Z.to_nat (2 * 0 + 1)) with 1%nat; cbn [seq map wsum]; rewrite Z.pow_0_l by lia; reflexivity|].
  rewrite centred_S, IH, Z.pow_opp_odd; [lia|]. exists (Z.of_nat m). lia.
Qed.
Lemma centred_even m h : wsum (centred_uniform h) (fun x => x ^ Z.of_nat (2 * S m)) = 2 * psum (2 * S m) h.
Proof.
  induction h as [|h IH]; [unfold centred_uniform, range; cbn [Z.of_nat]; change (Z.to_nat (2 * 0 + 1)) with 1%nat; cbn [seq map wsum psum]; rewrite Z.pow_0_l by lia; reflexivity|].
  rewrite centred_S, IH, Z.pow_opp_even; [cbn [psum]; lia|]. exists (Z.of_nat (S m)). lia.
Qed.
Lemma centred_uniform_gauss h V : (2 * Z.of_nat h + 1) * (2 * Z.of_nat h + 1) <= 12 * V -> sub_gaussian V (centred_uniform h).
Proof.
  intros HV. assert (Ms : mass (centred_uniform h) = 2 * Z.of_nat h + 1) by (unfold mass; rewrite wsum_centred; apply mass_uniform; lia).
  split; [unfold centred_uniform; apply Forall_forall; intros x Hx; apply in_map_iff in Hx; destruct Hx as (v & <- & _); cbn; lia|].
  intros m. split; [apply centred_odd|]. rewrite Ms. destruct m as [|m].
  - rewrite <- Ms. unfold mass. apply Z.eq_le_incl. cbn [odd_product Nat.mul]. change (Z.of_nat 0) with 0. rewrite Z.pow_0_r, !Z.mul_1_l. reflexivity.
  - rewrite centred_even. set (k := S m). pose proof (psum_bound k h) as HB. pose proof (odd_three k) as HO. cbn [odd_product] in HO.
    set (P := 2 * Z.of_nat h + 1) in *. set (s := psum (2 * k) h) in *. set (o := odd_product k) in *. set (c := 2 * Z.of_nat k + 1) in *.
    assert (HVm : (P * P) ^ Z.of_nat k <= 12 ^ Z.of_nat k * V ^ Z.of_nat k) by (rewrite <- Z.pow_mul_l; apply Z.pow_le_mono_l; unfold P; nia).
    assert (E1 : 2 ^ c = 2 * 4 ^ Z.of_nat k). { unfold c. rewrite Z.add_1_r, Z.pow_succ_r, Z.pow_mul_r by lia. reflexivity. }
    assert (E2 : P ^ c = P * (P * P) ^ Z.of_nat k). { unfold c. rewrite Z.add_1_r, Z.pow_succ_r, Z.pow_mul_r, Z.pow_2_r by lia. reflexivity. }
    assert (E3 : 12 ^ Z.of_nat k = 3 ^ Z.of_nat k * 4 ^ Z.of_nat k) by (rewrite <- Z.pow_mul_l; reflexivity).
    rewrite E1, E2 in HB. rewrite E3 in HVm. set (F := 4 ^ Z.of_nat k) in *. set (T := 3 ^ Z.of_nat k) in *. set (W := V ^ Z.of_nat k) in *. set (G := (P * P) ^ Z.of_nat k) in *.
    assert (0 < F) by (apply Z.pow_pos_nonneg; lia). assert (0 <= W) by (apply Z.pow_nonneg; unfold P in HV; nia). assert (0 < c) by lia. assert (0 < P) by (unfold P; lia).
    apply (Zmult_le_reg_r _ _ (c * F)); [nia|].
    assert (c * (2 * F) * s <= P * (T * F * W)). { transitivity (P * G); [lia|]. apply Z.mul_le_mono_nonneg_l; lia. }
    assert (P * (T * F * W) <= P * (c * o * F * W)).
    { apply Z.mul_le_mono_nonneg_l; [lia|]. apply Z.mul_le_mono_nonneg_r; [lia|]. apply Z.mul_le_mono_nonneg_r; lia. }
    replace (2 * s * (c * F)) with (c * (2 * F) * s) by ring. replace (o * W * P * (c * F)) with (P * (c * o * F * W)) by ring. lia.
Qed.

(** The rounding error of v * q / p, scaled by p. *)
Definition rho (p q v : Z) : Z := p * round_div (v * q) p - q * v.
Lemma rho_bound p q v : 0 < p -> 2 * Z.abs (rho p q v) <= p.
Proof.
  intros Hp. unfold rho, round_div. pose proof (Z.div_mod (2 * (v * q) + p) (2 * p) ltac:(lia)) as E. pose proof (Z.mod_pos_bound (2 * (v * q) + p) (2 * p) ltac:(lia)).
  set (d := (2 * (v * q) + p) / (2 * p)) in *. set (r := (2 * (v * q) + p) mod (2 * p)) in *. assert (2 * (p * d - q * v) = p - r) by lia. lia.
Qed.
Lemma rho_law p q h f : p = 2 * Z.of_nat h + 1 -> rel_prime q p -> wsum (uniform p) (fun v => f (rho p q v)) = wsum (centred_uniform h) f.
Proof.
  intros Ep Hq. assert (Hp : 0 < p) by lia. rewrite wsum_centred, <- Ep. rewrite <- (uniform_perm p (fun v => rho p q v + Z.of_nat h) (fun v => f (v - Z.of_nat h))).
  - apply wsum_ext. intros v w _. f_equal. ring.
  - intros v _. pose proof (rho_bound p q v Hp). lia.
  - intros x y Hx Hy E. assert (D : (p | q * (x - y))).
    { unfold rho in E. exists (round_div (x * q) p - round_div (y * q) p). lia. }
    apply Gauss in D; [|apply rel_prime_sym; exact Hq]. destruct D as (k & Ek). assert (k = 0) by (assert (k * p < p) by lia; assert (- p < k * p) by lia; nia). subst k. lia.
Qed.
Lemma rho_sg p q h V c : p = 2 * Z.of_nat h + 1 -> rel_prime q p -> p * p <= 12 * V -> sg (uniform p) (fun v => c * rho p q v) (c * c * V).
Proof.
  intros Ep Hq HV. assert (H : sub_gaussian V (centred_uniform h)) by (apply centred_uniform_gauss; rewrite <- Ep; exact HV).
  destruct (sg_scale (centred_uniform h) V c ltac:(nia) H) as (H0 & HS). split; [exact H0|]. intros m s U HU. specialize (HS m s U HU).
  unfold mass in *. rewrite <- (rho_law p q h (fun x => gm (2 * m) (s + c * x) U) Ep Hq) in HS. rewrite <- (rho_law p q h (fun _ => 1) Ep Hq) in HS. exact HS.
Qed.
(** The weighted rounding errors of independent uniform words. *)
Definition rho_form (p q : Z) (z u : list Z) : Z := dotz z (map (rho p q) u).
Lemma rho_form_sg p q h V z : p = 2 * Z.of_nat h + 1 -> rel_prime q p -> p * p <= 12 * V ->
  sg (each (length z) (uniform p)) (rho_form p q z) (dotz z z * V).
Proof.
  intros Ep Hq HV. induction z as [|c z IH].
  - cbn [length dotz]. rewrite Z.mul_0_l. apply (sg_ext _ (fun _ => 0)); [intros u w _; unfold rho_form; reflexivity|apply sg_zero].
  - cbn [length dotz]. replace ((c * c + dotz z z) * V) with (c * c * V + dotz z z * V) by ring.
    apply (sg_each_S _ _ (fun v => c * rho p q v) (fun _ => rho_form p q z)); [apply uniform_nonneg|apply (rho_sg p q h); assumption|apply IH| |].
    + intros x w _. exact IH.
    + intros x l. unfold rho_form. cbn [map dotz]. reflexivity.
Qed.
