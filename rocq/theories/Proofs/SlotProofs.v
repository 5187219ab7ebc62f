(** Slots of the transforms: which masks reach them, and how often they vanish. *)
From Coq Require Import ZArith Znumtheory List Bool Arith Lia Setoid Morphisms.
From Verif Require Import Spec.Basic Spec.Poly Spec.Ring Spec.Lattice Spec.Blind Spec.Moment Spec.Noise Spec.SubGauss Spec.Count Spec.Boot Model.Base Model.Field Model.NTT Model.Concrete Model.Poly Model.Lwe Model.Rlwe Model.Gadget Model.BlindRotation
  Proofs.Arith Proofs.BarrettProofs Proofs.NumTheory Proofs.FieldProofs Proofs.PolyMath Proofs.NTTProofs Proofs.NTTTableProofs
  Proofs.PolyProofs Proofs.MonomialProofs Proofs.RingProofs Proofs.GadgetProofs Proofs.RlweProofs Proofs.GadgetMain Proofs.RgswProofs Proofs.SampleProofs Proofs.BlindProofs Proofs.BlindKeyProofs Proofs.MomentProofs Proofs.SubGaussProofs Proofs.NoiseProofs
  Proofs.UniformProofs Proofs.InterpProofs.
Import ListNotations.
Local Open Scope Z_scope.

Lemma choice_n {A : Type} (d : A) (P : nat -> A -> Prop) n : (forall i, (i < n)%nat -> exists c, P i c) ->
  exists cs, length cs = n /\ forall i, (i < n)%nat -> P i (nth i cs d).
Proof.
  induction n as [|n IH]; intros H; [exists []; split; [reflexivity|intros; lia]|].
  destruct IH as (cs & Lc & Hc); [intros i Hi; apply H; lia|]. destruct (H n ltac:(lia)) as (c & Pc).
  exists (cs ++ [c]). split; [rewrite app_length; cbn; lia|]. intros i Hi. destruct (Nat.eq_dec i n) as [->|Hne].
  - rewrite app_nth2, Lc, Nat.sub_diag by lia. exact Pc.
  - rewrite app_nth1 by lia. apply Hc. lia.
Qed.

(** Column [i] of a list of rows. *)
Definition col (i : nat) (M : list (list Z)) : list Z := map (fun a => nth i a 0) M.
Lemma col_app i M M' : col i (M ++ M') = col i M ++ col i M'. Proof. apply map_app. Qed.
Lemma col_length i M : length (col i M) = length M. Proof. apply map_length. Qed.

Lemma dotz_cong p d : forall a b, pcong p a b -> cong p (dotz d a) (dotz d b).
Proof. induction d as [|x d IH]; intros a b H; [reflexivity|]. destruct H as [|y y' a b Hy H]; [reflexivity|]. cbn [dotz]. rewrite Hy, (IH _ _ H). reflexivity. Qed.
Lemma dotz_padd d : forall a b, length a = length b -> dotz d (padd a b) = dotz d a + dotz d b.
Proof.
  induction d as [|x d IH]; intros a b H; [reflexivity|]. destruct a as [|y a], b as [|y' b]; try discriminate H; [reflexivity|].
  cbn [padd dotz]. rewrite IH by (injection H; auto). ring.
Qed.
Lemma dotz_pscale d c : forall a, dotz d (pscale c a) = c * dotz d a.
Proof. induction d as [|x d IH]; intros [|y a]; cbn [pscale map dotz]; try ring. change (map (Z.mul c) a) with (pscale c a). rewrite IH. ring. Qed.

Definition regular (p : Z) (d : list Z) : Prop := Exists (fun x => ~ (p | x)) d.
Lemma regular_dec p d : p <> 0 -> {regular p d} + {Forall (fun x => (p | x)) d}.
Proof.
  intros Hp. induction d as [|x d IH]; [right; constructor|]. destruct (Zdivide_dec p x) as [H|H]; [|left; left; exact H].
  destruct IH as [IH|IH]; [left; right; exact IH|right; constructor; assumption].
Qed.
Lemma dotz_irregular p d a : Forall (fun x => (p | x)) d -> cong p (dotz d a) 0.
Proof.
  intros H. revert a. induction H as [|x d Hx H IH]; intros [|y a]; cbn [dotz]; try reflexivity. rewrite (IH a).
  transitivity (x * y); [apply cong_of_eq; ring|]. apply cong_0. apply Z.divide_mul_l. exact Hx.
Qed.
(** A regular row of coefficients reaches every value. *)
Lemma reach p d v : prime p -> regular p d -> exists c, length c = length d /\ canonical p c /\ cong p (dotz d c) v.
Proof.
  intros Hp H. pose proof (prime_ge_2 p Hp). induction H as [x d Hx|x d H IH].
  - destruct (mod_inverse p x Hp Hx) as (b & Eb). exists (((b * v) mod p) :: repeat 0 (length d)).
    split; [cbn [length]; rewrite repeat_length; reflexivity|]. split.
    + constructor; [apply Z.mod_pos_bound; lia|]. apply Forall_forall. intros y Hy. apply repeat_spec in Hy. lia.
    + cbn [dotz]. rewrite dotz_zeros, cong_mod by lia. transitivity ((x * b) * v); [apply cong_of_eq; ring|]. rewrite Eb. apply cong_of_eq. ring.
  - destruct IH as (c & Lc & Cc & Ec). exists (0 :: c). split; [cbn; lia|]. split; [constructor; [lia|exact Cc]|]. cbn [dotz]. rewrite Ec. apply cong_of_eq. ring.
Qed.

Section Shift.
Variables (p : Z) (n : nat).
Hypothesis Hp : prime p.
Lemma p_pos : 0 < p. Proof. pose proof (prime_ge_2 p Hp). lia. Qed.

(** Rows of words whose combinations take prescribed values slot by slot. *)
Lemma shift_exists L (d : nat -> list Z) (tau : nat -> Z) : (forall i, (i < n)%nat -> length (d i) = L) ->
  (forall i, (i < n)%nat -> regular p (d i) \/ cong p (tau i) 0) ->
  exists sg, length sg = L /\ Forall (fun v => length v = n) sg /\ forall i, (i < n)%nat -> cong p (dotz (d i) (col i sg)) (tau i).
Proof.
  intros HL HR.
  destruct (choice_n [] (fun i c => length c = L /\ cong p (dotz (d i) c) (tau i)) n) as (cs & Lc & Hc).
  { intros i Hi. destruct (HR i Hi) as [H|H].
    - destruct (reach p (d i) (tau i) Hp H) as (c & L1 & _ & E). exists c. rewrite L1, HL by exact Hi. split; [reflexivity|exact E].
    - exists (repeat 0 L). split; [apply repeat_length|]. rewrite dotz_zeros. symmetry. exact H. }
  exists (map (fun j => map (fun i => nth j (nth i cs []) 0) (seq 0 n)) (seq 0 L)). split; [rewrite map_length, seq_length; reflexivity|]. split.
  - apply Forall_forall. intros v Hv. apply in_map_iff in Hv. destruct Hv as (j & <- & _). rewrite map_length, seq_length. reflexivity.
  - intros i Hi. destruct (Hc i Hi) as (Li & Ei).
    assert (E : col i (map (fun j => map (fun i => nth j (nth i cs []) 0) (seq 0 n)) (seq 0 L)) = nth i cs []).
    { unfold col. rewrite map_map. rewrite (map_ext _ (fun j => nth j (nth i cs []) 0)).
      - rewrite <- Li. clear. generalize (nth i cs []). intros c. apply nth_ext with 0 0; [rewrite map_length, seq_length; reflexivity|].
        intros j Hj. rewrite map_length, seq_length in Hj. rewrite (nth_indep _ 0 (nth 0 c 0)) by (rewrite map_length, seq_length; exact Hj).
        rewrite (map_nth (fun j => nth j c 0)), seq_nth by exact Hj. reflexivity.
      - intros j. rewrite (nth_indep _ 0 ((fun i => nth j (nth i cs []) 0) 0%nat)) by (rewrite map_length, seq_length; exact Hi).
        rewrite (map_nth (fun i => nth j (nth i cs []) 0)), seq_nth by exact Hi. reflexivity. }
    rewrite E. exact Ei.
Qed.
Lemma nth_addv u v i : length u = length v -> cong p (nth i (addv p u v) 0) (nth i u 0 + nth i v 0).
Proof.
  intros H. unfold addv. pose proof p_pos. destruct (Nat.lt_ge_cases i (length u)) as [Hi|Hi].
  - unfold pmod. rewrite (nth_indep _ 0 ((fun x => x mod p) 0)) by (rewrite map_length, padd_length by exact H; exact Hi).
    rewrite (map_nth (fun x => x mod p)), cong_mod by lia. rewrite nth_padd by exact H. reflexivity.
  - rewrite nth_overflow by (unfold pmod; rewrite map_length, padd_length by exact H; exact Hi). rewrite !nth_overflow by lia. reflexivity.
Qed.
Lemma col_addm i u : forall v, Forall (fun a => length a = n) u -> Forall (fun a => length a = n) v -> length u = length v ->
  pcong p (col i (addm p u v)) (padd (col i u) (col i v)).
Proof.
  induction u as [|a u IH]; intros [|c v] Hu Hv HL; try discriminate HL; [constructor|]. inversion Hu; inversion Hv; subst.
  cbn [addm col map padd]. constructor; [apply nth_addv; congruence|]. apply IH; try assumption. injection HL. auto.
Qed.
Lemma in_masks L u wt : In (u, wt) (each L (each n (uniform p))) -> length u = L /\ Forall (fun a => length a = n /\ canonical p a) u.
Proof.
  intros H. apply in_each in H. destruct H as (Hl & Hf). split; [exact Hl|]. eapply Forall_impl; [|exact Hf]. cbn. intros a (v & Ha).
  apply (in_each_uniform p) in Ha. exact Ha.
Qed.
End Shift.

(** Products over lists. *)
Definition zp {A : Type} (f : A -> Z) (S : list A) : Z := fold_right (fun i a => f i * a) 1 S.
Lemma zp_ext {A : Type} (f g : A -> Z) S : (forall i, In i S -> f i = g i) -> zp f S = zp g S.
Proof. induction S as [|i S IH]; intros H; [reflexivity|]. cbn [zp fold_right]. rewrite (H i (or_introl eq_refl)). f_equal. apply IH. intros j Hj. apply H. right. exact Hj. Qed.
Lemma zp_nonneg {A : Type} (f : A -> Z) S : (forall i, In i S -> 0 <= f i) -> 0 <= zp f S.
Proof.
  induction S as [|i S IH]; intros H; [cbn; lia|]. cbn [zp fold_right]. apply Z.mul_nonneg_nonneg; [apply H; left; reflexivity|]. apply IH. intros j Hj. apply H. right. exact Hj.
Qed.
Lemma zp_le {A : Type} (f g : A -> Z) S : (forall i, In i S -> 0 <= f i <= g i) -> zp f S <= zp g S.
Proof.
  induction S as [|i S IH]; intros H; [cbn; lia|]. cbn [zp fold_right]. assert (H0 := H i (or_introl eq_refl)).
  assert (H1 : forall j, In j S -> 0 <= f j <= g j) by (intros j Hj; apply H; right; exact Hj).
  apply Z.mul_le_mono_nonneg; [lia|lia|apply zp_nonneg; intros j Hj; apply H1; exact Hj|apply IH; exact H1].
Qed.
Lemma zp_cons {A : Type} (f : A -> Z) i S : zp f (i :: S) = f i * zp f S. Proof. reflexivity. Qed.
Lemma zp_filter {A : Type} (f : A -> Z) (P : A -> bool) S : zp f S = zp f (filter (fun i => negb (P i)) S) * zp f (filter P S).
Proof. induction S as [|i S IH]; [reflexivity|]. cbn [filter]. destruct (P i); cbn [negb]; rewrite !zp_cons, IH; ring. Qed.
Lemma zp_const {A : Type} c (S : list A) : zp (fun _ => c) S = c ^ Z.of_nat (length S).
Proof. induction S as [|i S IH]; [reflexivity|]. cbn [length]. rewrite Nat2Z.inj_succ, Z.pow_succ_r by lia. rewrite <- IH. reflexivity. Qed.
Lemma zp_map {A B : Type} (h : A -> B) (f : B -> Z) S : zp f (map h S) = zp (fun i => f (h i)) S.
Proof. induction S as [|i S IH]; [reflexivity|]. cbn [map zp fold_right]. f_equal. exact IH. Qed.
Lemma each_zp (D : dist Z) (g : Z -> Z) r : wsum (each r D) (zp g) = wsum D g ^ Z.of_nat r.
Proof.
  induction r as [|r IH]; [cbn; ring|]. rewrite wsum_each_S, Nat2Z.inj_succ, Z.pow_succ_r by lia. rewrite <- IH.
  rewrite (wsum_ext D _ (fun x => wsum (each r D) (zp g) * g x)); [rewrite wsum_scale; ring|].
  intros x w _. rewrite Z.mul_comm, <- wsum_scale. reflexivity.
Qed.
Lemma fun_of_list (S : list nat) t : NoDup S -> length t = length S -> exists tau : nat -> Z, map tau S = t /\ forall i, ~ In i S -> tau i = 0.
Proof.
  intros H. revert t. induction H as [|i S Hi HS IH]; intros [|v t] Ht; try discriminate Ht; [exists (fun _ => 0); split; [reflexivity|reflexivity]|].
  destruct (IH t ltac:(injection Ht; auto)) as (tau & E & Hz). exists (fun j => if Nat.eqb j i then v else tau j). split.
  - cbn [map]. rewrite Nat.eqb_refl. f_equal. rewrite <- E. apply map_ext_in. intros j Hj. destruct (Nat.eqb_spec j i) as [->|]; [contradiction|reflexivity].
  - intros j Hj. destruct (Nat.eqb_spec j i) as [->|]; [exfalso; apply Hj; left; reflexivity|]. apply Hz. intros H'. apply Hj. right. exact H'.
Qed.

Definition gk (p k v : Z) : Z := if v =? 0 then p else k.
Lemma gk_sum p k : 1 <= p -> wsum (uniform p) (gk p k) = p + (p - 1) * k.
Proof.
  intros Hp. replace p with (p - 1 + 1) at 1 by ring. rewrite uniform_S' by lia. unfold gk at 1. cbn [Z.eqb].
  rewrite (wsum_ext _ _ (fun _ => k)); [rewrite wsum_const, mass_uniform by lia; ring|].
  intros v w Hv. apply in_uniform in Hv. unfold gk. destruct (Z.eqb_spec (v + 1) 0); [lia|reflexivity].
Qed.

Section StepLaw.
Variables (p : Z) (n l : nat).
Hypothesis Hp : prime p.
Let Hp0 : 0 < p := p_pos p Hp.
Definition cols2 (i : nat) (u : rows2) : list Z := col i (fst u ++ snd u).
Definition isreg (d : list Z) : bool := if regular_dec p d (Z.neq_sym _ _ (Z.lt_neq _ _ Hp0)) then true else false.
Lemma isreg_true d : isreg d = true -> regular p d.
Proof. unfold isreg. destruct (regular_dec _ _ _); [auto|discriminate]. Qed.
Lemma isreg_false d : isreg d = false -> Forall (fun x => (p | x)) d.
Proof. unfold isreg. destruct (regular_dec _ _ _); [discriminate|auto]. Qed.

Lemma step_law S d c k : NoDup S -> (forall i, In i S -> (i < n)%nat) -> (forall i, (i < n)%nat -> length (d i) = (l + l)%nat) -> 0 <= k ->
  wsum (noise_rows2 n l (uniform p)) (fun u => zp (fun i => gk p k ((c i + dotz (d i) (cols2 i u)) mod p)) S) <=
  zp (fun i => if isreg (d i) then k + 1 else gk p k (c i mod p)) S * mass (noise_rows2 n l (uniform p)).
Proof.
  intros HS Hn Hd Hk. set (M := noise_rows2 n l (uniform p)). set (R := fun i => isreg (d i)). set (Sr := filter R S). set (Si := filter (fun i => negb (R i)) S).
  set (v := fun u i => (c i + dotz (d i) (cols2 i u)) mod p). set (L := fun u => map (v u) Sr). set (K := zp (fun i => gk p k (c i mod p)) Si).
  assert (HM : nonneg M) by (apply nonneg_both; apply nonneg_each, nonneg_each, uniform_nonneg).
  assert (G0 : forall x, 0 <= gk p k x) by (intros x; unfold gk; destruct (x =? 0); lia).
  assert (HK : 0 <= K) by (apply zp_nonneg; intros; apply G0).
  rewrite (wsum_ext M _ (fun u => (fun t => K * zp (gk p k) t) (L u))).
  2:{ intros u w _. cbn beta. rewrite (zp_filter _ R). fold Sr Si. unfold L. rewrite zp_map. f_equal. unfold K. apply zp_ext. intros i Hi. apply filter_In in Hi.
      destruct Hi as (_ & Hi). apply negb_true_iff in Hi. f_equal. apply cong_iff; [exact Hp0|]. rewrite (dotz_irregular p (d i)) by (apply isreg_false; exact Hi). apply cong_of_eq. ring. }
  assert (E : zp (fun i => if isreg (d i) then k + 1 else gk p k (c i mod p)) S = K * (k + 1) ^ Z.of_nat (length Sr)).
  { rewrite (zp_filter _ R). fold Sr Si. f_equal.
    - apply zp_ext. intros i Hi. apply filter_In in Hi. destruct Hi as (_ & Hi). apply negb_true_iff in Hi. unfold R in Hi. rewrite Hi. reflexivity.
    - rewrite <- zp_const. apply zp_ext. intros i Hi. apply filter_In in Hi. destruct Hi as (_ & Hi). unfold R in Hi. rewrite Hi. reflexivity. }
  rewrite E. apply (law_le p Hp0 M L (length Sr) (fun t => K * zp (gk p k) t)).
  - intros u w _. unfold L. split; [apply map_length|]. unfold canonical. apply Forall_forall. intros x Hx. apply in_map_iff in Hx. destruct Hx as (i & <- & _). apply Z.mod_pos_bound. exact Hp0.
  - intros t Lt Ct. assert (NS : NoDup Sr) by (apply NoDup_filter; exact HS). destruct (fun_of_list Sr t NS Lt) as (tau & Et & Hz).
    destruct (shift_exists p n Hp (l + l) d tau Hd) as (sg & Lsg & Fsg & Esg).
    { intros i Hi. destruct (isreg (d i)) eqn:Ei; [left; apply isreg_true; exact Ei|]. right. rewrite Hz; [reflexivity|]. intros HI. apply filter_In in HI. destruct HI as (_ & HI). unfold R in HI. congruence. }
    set (s0 := firstn l sg). set (s1 := skipn l sg). assert (L0 : length s0 = l) by (unfold s0; rewrite firstn_length; lia). assert (L1 : length s1 = l) by (unfold s1; rewrite skipn_length; lia).
    assert (Esp : sg = s0 ++ s1) by (unfold s0, s1; symmetry; apply firstn_skipn).
    assert (F01 : Forall (fun v => length v = n) s0 /\ Forall (fun v => length v = n) s1) by (apply Forall_app; rewrite <- Esp; exact Fsg).
    destruct F01 as (F0 & F1).
    exists (fun u => (addm p (fst u) s0, addm p (snd u) s1)). split.
    { unfold M, noise_rows2. apply (inv_both _ _ (fun a => addm p a s0) (fun a => addm p a s1)); [rewrite <- L0|rewrite <- L1]; apply inv_addm; assumption. }
    intros [u0 u1] w Hu. unfold M, noise_rows2 in Hu. apply in_both in Hu. destruct Hu as ((w0 & H0) & (w1 & H1)). apply in_masks in H0, H1. destruct H0 as (U0 & G0'), H1 as (U1 & G1').
    assert (A0 : Forall (fun a => length a = n) u0) by (eapply Forall_impl; [|exact G0']; cbn; tauto). assert (A1 : Forall (fun a => length a = n) u1) by (eapply Forall_impl; [|exact G1']; cbn; tauto).
    unfold L. rewrite <- Et. unfold addv, pmod. 
    assert (EM : forall S', padd (map (v (u0, u1)) S') (map tau S') = map (fun i => v (u0, u1) i + tau i) S') by (clear; induction S' as [|i S' IH]; [reflexivity|]; cbn [map padd]; rewrite IH; reflexivity).
    rewrite EM, map_map. apply map_ext_in. intros i Hi. unfold v, cols2. cbn [fst snd]. apply cong_iff; [exact Hp0|]. rewrite (cong_mod p (c i + _)) by lia.
    assert (Hin : (i < n)%nat) by (apply Hn; apply filter_In in Hi; apply Hi).
    rewrite <- (Esg i Hin), Esp. rewrite !col_app.
    rewrite (dotz_cong p (d i) (col i (addm p u0 s0) ++ col i (addm p u1 s1)) (padd (col i u0 ++ col i u1) (col i s0 ++ col i s1))).
    + rewrite dotz_padd by (rewrite !app_length, !col_length; lia). apply cong_of_eq. ring.
    + rewrite (RlweProofs.padd_app (col i u0) (col i s0)) by (rewrite !col_length; lia). apply Forall2_app; apply (col_addm p n Hp); try assumption; congruence.
  - apply mass_nonneg. exact HM.
  - rewrite wsum_scale, each_zp, gk_sum, (mass_each_uniform p) by lia. rewrite <- Z.mul_assoc. apply Z.mul_le_mono_nonneg_l; [exact HK|].
    rewrite <- Z.pow_mul_l. apply Z.pow_le_mono_l. nia.
Qed.
End StepLaw.
