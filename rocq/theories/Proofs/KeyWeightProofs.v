(** The weight of a sampled ternary key. *)
From Coq Require Import ZArith List Bool Arith Lia.
From Verif Require Import Spec.Basic Spec.Count Spec.Moment Spec.Boot Spec.KeyGen Model.Base Model.Sample Proofs.MomentProofs Proofs.UniformProofs Proofs.RandomProofs Props.C44.
Import ListNotations.
Local Open Scope Z_scope.

Fixpoint sumf {A : Type} (l : list A) (f : A -> Z) : Z := match l with [] => 0 | x :: l => f x + sumf l f end.
Lemma sumf_add {A} (l : list A) f g : sumf l (fun x => f x + g x) = sumf l f + sumf l g.
Proof. induction l as [|x l IH]; cbn [sumf]; [reflexivity|]. rewrite IH. ring. Qed.
Lemma sumf_ext {A} (l : list A) f g : (forall x, In x l -> f x = g x) -> sumf l f = sumf l g.
Proof. induction l as [|x l IH]; cbn [sumf]; intros H; [reflexivity|]. rewrite H by (left; reflexivity). rewrite IH; [reflexivity|]. intros y Hy. apply H. right. exact Hy. Qed.
Lemma sumf_le {A} (l : list A) f g : (forall x, In x l -> f x <= g x) -> sumf l f <= sumf l g.
Proof. induction l as [|x l IH]; cbn [sumf]; intros H; [lia|]. apply Z.add_le_mono; [apply H; left; reflexivity|]. apply IH. intros y Hy. apply H. right. exact Hy. Qed.
Lemma sumf_zero {A} (l : list A) f : (forall x, In x l -> f x = 0) -> sumf l f = 0.
Proof. induction l as [|x l IH]; cbn [sumf]; intros H; [reflexivity|]. rewrite H by (left; reflexivity). apply IH. intros y Hy. apply H. right. exact Hy. Qed.
Lemma sumf_scale {A} (l : list A) f c : sumf l (fun x => f x * c) = sumf l f * c.
Proof. induction l as [|x l IH]; cbn [sumf]; [ring|]. rewrite IH. ring. Qed.
Lemma sumf_app {A} (l l' : list A) f : sumf (l ++ l') f = sumf l f + sumf l' f.
Proof. induction l as [|x l IH]; cbn [sumf app]; [ring|]. rewrite IH. ring. Qed.

Lemma sumf_one (l : list (list Z)) (y : list Z) c : NoDup l -> In y l -> sumf l (fun v => if returns (Some y) v then c v else 0) = c y.
Proof.
  intros HN. induction HN as [|x l Hx HN IH]; intros Hy; [contradiction|]. cbn [sumf]. destruct Hy as [->|Hy].
  - replace (returns (Some y) y) with true by (symmetry; apply returns_spec; reflexivity).
    rewrite sumf_zero; [ring|]. intros v Hv. destruct (returns (Some y) v) eqn:E; [|reflexivity]. apply returns_spec in E. injection E as ->. contradiction.
  - rewrite IH by exact Hy. destruct (returns (Some y) x) eqn:E; [|ring]. apply returns_spec in E. injection E as ->. contradiction.
Qed.

(** Counting by the value returned. *)
Lemma count_by_value {A} (f : A -> option (list Z)) (P : list Z -> bool) (vs : list (list Z)) (T : list A) : NoDup vs ->
  (forall x, In x T -> exists v, f x = Some v /\ In v vs) ->
  count (fun x => match f x with Some v => P v | None => true end) T = sumf vs (fun v => if P v then count (fun x => returns (f x) v) T else 0).
Proof.
  intros HN. induction T as [|x T IH]; intros H.
  - rewrite count_nil. symmetry. apply sumf_zero. intros v _. rewrite count_nil. destruct (P v); reflexivity.
  - rewrite count_cons, IH by (intros y Hy; apply H; right; exact Hy).
    destruct (H x (or_introl eq_refl)) as (y & Ey & Hy). rewrite Ey.
    transitivity (sumf vs (fun v => (if returns (Some y) v then (if P v then 1 else 0) else 0) + (if P v then count (fun x => returns (f x) v) T else 0))).
    + rewrite sumf_add, (sumf_one vs y (fun v => if P v then 1 else 0) HN Hy). reflexivity.
    + apply sumf_ext. intros v _. rewrite count_cons, Ey. destruct (P v), (returns (Some y) v); ring.
Qed.

Section Tern.
Variable q : Z.
Hypothesis Hq : 2 < q.
Fixpoint vecs (n : nat) : list (list Z) :=
  match n with O => [[]] | S n' => map (cons 0) (vecs n') ++ map (cons 1) (vecs n') ++ map (cons (q - 1)) (vecs n') end.
Lemma vecs_in n : forall v, length v = n -> Forall (fun x => x = 0 \/ x = 1 \/ x = q - 1) v -> In v (vecs n).
Proof.
  induction n as [|n IH]; intros [|x v] L H; try discriminate L; [left; reflexivity|]. inversion H as [|? ? Hx Hv]; subst. injection L as L.
  cbn [vecs]. rewrite !in_app_iff. destruct Hx as [->|[->| ->]]; [left|right; left|right; right]; apply in_map, IH; assumption.
Qed.
Lemma in_vecs n : forall v, In v (vecs n) -> length v = n /\ Forall (fun x => x = 0 \/ x = 1 \/ x = q - 1) v.
Proof.
  induction n as [|n IH]; intros v; cbn [vecs].
  - intros [<-|[]]. split; [reflexivity|constructor].
  - rewrite !in_app_iff, !in_map_iff. intros [(v' & <- & H)|[(v' & <- & H)|(v' & <- & H)]]; destruct (IH _ H) as (L & HF); (split; [cbn [length]; congruence|constructor; [auto|exact HF]]).
Qed.
Lemma NoDup_app' {A} (l l' : list A) : NoDup l -> NoDup l' -> (forall x, In x l -> In x l' -> False) -> NoDup (l ++ l').
Proof.
  intros H H' HD. induction H as [|x l Hx H IH]; [exact H'|]. cbn [app]. constructor.
  - rewrite in_app_iff. intros [Hl|Hl]; [contradiction|]. apply (HD x); [left; reflexivity|exact Hl].
  - apply IH. intros y Hy. apply HD. right. exact Hy.
Qed.
Lemma NoDup_cons_map (a : Z) l : NoDup l -> NoDup (map (cons a) l).
Proof.
  intros H. induction H as [|x l Hx H IH]; cbn [map]; constructor; [|exact IH]. rewrite in_map_iff. intros (y & E & Hy). injection E as ->. contradiction.
Qed.
Lemma vecs_nodup n : NoDup (vecs n).
Proof.
  induction n as [|n IH]; cbn [vecs]; [constructor; [intros []|constructor]|].
  assert (DJ : forall a b (x : list Z), a <> b -> In x (map (cons a) (vecs n)) -> In x (map (cons b) (vecs n)) -> False).
  { intros a b x Hab. rewrite !in_map_iff. intros (y & <- & _) (y' & E & _). injection E as E _. congruence. }
  apply NoDup_app'; [apply NoDup_cons_map; exact IH| |].
  - apply NoDup_app'; [apply NoDup_cons_map; exact IH|apply NoDup_cons_map; exact IH|]. intros x. apply DJ. lia.
  - intros x H. rewrite in_app_iff. intros [H'|H']; [apply (DJ 0 1 x)|apply (DJ 0 (q - 1) x)]; try assumption; lia.
Qed.

Lemma weight_cons x v : weight (x :: v) = (if x =? 0 then 0 else 1) + weight v.
Proof. unfold weight. cbn [filter]. destruct (x =? 0); cbn [negb length]; lia. Qed.
Lemma weight_nonneg v : 0 <= weight v. Proof. unfold weight. lia. Qed.

Lemma sumf_map {A B} (h : A -> B) (l : list A) f : sumf (map h l) f = sumf l (fun x => f (h x)).
Proof. induction l as [|x l IH]; cbn [map sumf]; [reflexivity|]. rewrite IH. reflexivity. Qed.
(** The generating function of the weight. *)
Lemma vecs_gen t n : sumf (vecs n) (fun v => 2 ^ count (fun x => x =? 0) v * t ^ weight v) = (2 + 2 * t) ^ Z.of_nat n.
Proof.
  induction n as [|n IH]; [reflexivity|]. cbn [vecs]. rewrite !sumf_app, !sumf_map.
  rewrite Nat2Z.inj_succ, Z.pow_succ_r by lia. rewrite <- IH.
  set (g := fun v => 2 ^ count (fun x => x =? 0) v * t ^ weight v).
  assert (E0 : forall v, 2 ^ count (fun x => x =? 0) (0 :: v) * t ^ weight (0 :: v) = g v * 2).
  { intros v. rewrite count_cons, weight_cons. cbn [Z.eqb]. pose proof (count_nonneg (fun x => x =? 0) v). rewrite Z.pow_add_r by lia. unfold g. change (0 + weight v) with (weight v). change (2 ^ 1) with 2. ring. }
  assert (E1 : forall a v, a <> 0 -> 2 ^ count (fun x => x =? 0) (a :: v) * t ^ weight (a :: v) = g v * t).
  { intros a v Ha. rewrite count_cons, weight_cons. destruct (Z.eqb_spec a 0); [contradiction|]. pose proof (weight_nonneg v). rewrite (Z.pow_add_r t 1) by lia. unfold g. rewrite Z.add_0_l, Z.pow_1_r. ring. }
  rewrite (sumf_ext _ _ (fun v => g v * 2)) by (intros; apply E0).
  rewrite (sumf_ext _ (fun x => 2 ^ count _ (1 :: x) * _) (fun v => g v * t)) by (intros; apply E1; lia).
  rewrite (sumf_ext _ (fun x => 2 ^ count _ (q - 1 :: x) * _) (fun v => g v * t)) by (intros; apply E1; lia).
  rewrite !sumf_scale. ring.
Qed.

(** Chernoff's bound for a sampled key of [len] entries. *)
Lemma heavy_count len w t : 1 <= t -> 0 <= w ->
  let n := S (len / 16) in
  count (fun ws => match sample_ternary_values q len (stream ws) with Some v => w <=? weight v | None => true end) (tuples n (2 ^ 32)) * (t ^ w * 2 ^ Z.of_nat len) <= (1 + t) ^ Z.of_nat len * (2 ^ 32) ^ Z.of_nat n.
Proof.
  intros Ht Hw n. assert (En : n = S (len / 16)) by reflexivity. clearbody n. set (R := 2 ^ 32).
  assert (HR : R = 2 ^ 32) by reflexivity. clearbody R.
  assert (L16 : 2 * Z.of_nat len <= 32 * Z.of_nat n).
  { subst n. pose proof (Nat.div_mod len 16 ltac:(lia)). pose proof (Nat.mod_upper_bound len 16 ltac:(lia)). lia. }
  rewrite (count_by_value _ _ (vecs len) _ (vecs_nodup len)).
  2:{ intros ws Hws. apply tuples_in in Hws. destruct Hws as (Lws & Hws).
      destruct (C44_ternary_outputs q len (stream ws) ltac:(lia)) as (v & Ev & _ & Lv & Hv).
      - intros i. unfold stream. destruct (Nat.ltb_spec i (length ws)) as [Hi|Hi]; [|rewrite nth_overflow by exact Hi; lia].
        rewrite <- HR. rewrite Forall_forall in Hws. apply Hws. apply nth_In. exact Hi.
      - exists v. split; [exact Ev|]. apply vecs_in; [exact Lv|]. eapply Forall_impl; [|exact Hv]. cbn. intros x (Hx & _). exact Hx. }
  set (C := 2 ^ (32 * Z.of_nat n - 2 * Z.of_nat len)). assert (HC : 0 < C) by (apply Z.pow_pos_nonneg; lia).
  assert (HTw : 0 < t ^ w) by (apply Z.pow_pos_nonneg; lia).
  assert (S1 : sumf (vecs len) (fun v => if w <=? weight v then count (fun ws => returns (sample_ternary_values q len (stream ws)) v) (tuples n R) else 0) * t ^ w <= (2 + 2 * t) ^ Z.of_nat len * C).
  { rewrite <- vecs_gen, <- !sumf_scale. apply sumf_le. intros v Hv. apply in_vecs in Hv. destruct Hv as (Lv & Hv).
    assert (P0 : 0 < 2 ^ count (fun x => x =? 0) v) by (apply Z.pow_pos_nonneg; [lia|apply count_nonneg]).
    destruct (Z.leb_spec w (weight v)) as [Hwt|Hwt].
    - pose proof (C44_ternary q len v Hq Lv Hv) as E44. cbv zeta in E44. rewrite <- HR, <- En in E44. rewrite E44. fold C. assert (t ^ w <= t ^ weight v) by (apply Z.pow_le_mono_r; lia).
      assert (0 <= 2 ^ count (fun x => x =? 0) v * C) by (apply Z.mul_nonneg_nonneg; lia).
      apply Z.le_trans with (2 ^ count (fun x => x =? 0) v * C * t ^ weight v); [apply Z.mul_le_mono_nonneg_l; lia|]. apply Z.eq_le_incl. ring.
    - assert (0 <= t ^ weight v) by (apply Z.pow_nonneg; lia). rewrite Z.mul_0_l. apply Z.mul_nonneg_nonneg; [apply Z.mul_nonneg_nonneg|]; lia. }
  set (S := sumf _ _) in *. clearbody S.
  replace ((2 + 2 * t) ^ Z.of_nat len) with (2 ^ Z.of_nat len * (1 + t) ^ Z.of_nat len) in S1 by (rewrite <- Z.pow_mul_l; f_equal; ring).
  replace (R ^ Z.of_nat n) with (2 ^ Z.of_nat len * 2 ^ Z.of_nat len * C).
  2:{ unfold C. rewrite HR. rewrite <- Z.pow_mul_r, <- !Z.pow_add_r by lia. f_equal. lia. }
  assert (HL : 0 < 2 ^ Z.of_nat len) by (apply Z.pow_pos_nonneg; lia).
  apply Z.le_trans with (2 ^ Z.of_nat len * (1 + t) ^ Z.of_nat len * C * 2 ^ Z.of_nat len); [|apply Z.eq_le_incl; ring].
  rewrite Z.mul_assoc. apply Z.mul_le_mono_nonneg_r; lia.
Qed.
End Tern.

(** Sums over uniform words as counts. *)
Lemma wsum_tuples n R f : wsum (each n (uniform R)) f = sumf (tuples n R) f.
Proof.
  revert f. induction n as [|n IH]; intros f; [cbn [each wsum tuples sumf]; lia|]. rewrite wsum_each_S.
  rewrite (wsum_ext _ _ (fun x => sumf (tuples n R) (fun l => f (x :: l)))) by (intros x w _; apply IH). cbn [tuples].
  generalize (tuples n R) as T. intros T. unfold uniform. rewrite wsum_list.
  induction (range R) as [|x l IHl]; cbn [fold_right flat_map sumf]; [reflexivity|].
  rewrite sumf_app, sumf_map, IHl. reflexivity.
Qed.
Lemma sumf_count {A} (P : A -> bool) l : sumf l (fun x => if P x then 1 else 0) = count P l.
Proof. induction l as [|x l IH]; [reflexivity|]. cbn [sumf]. rewrite count_cons, IH. reflexivity. Qed.

(** A failure chance given the words, and rare bad words. *)
Lemma run_bound {A B : Type} (W : Moment.dist A) (DD : Moment.dist B) (f : A -> B -> Z) (bad : A -> bool) num den X : nonneg W -> nonneg DD -> 0 <= num -> 0 < den -> 0 <= X ->
  (forall a b, f a b <= 1) -> (forall a w, In (a, w) W -> bad a = false -> wsum DD (f a) * den <= num * mass DD) ->
  wsum W (fun a => if bad a then 1 else 0) * X <= mass W ->
  wsum (both W DD) (fun ab => f (fst ab) (snd ab)) * (den * X) <= (num * X + den) * mass (both W DD).
Proof.
  intros HW HD Hn Hd HX Hf Hg Hb. rewrite wsum_both, mass_both. cbn [fst snd].
  pose proof (mass_nonneg DD HD) as M0.
  assert (S1 : wsum W (fun a => wsum DD (f a)) * den <= (num * mass W + den * wsum W (fun a => if bad a then 1 else 0)) * mass DD).
  { transitivity (wsum W (fun a => (num + den * (if bad a then 1 else 0)) * mass DD)).
    - rewrite Z.mul_comm, <- wsum_scale. apply wsum_le; [exact HW|]. intros a w Ha. destruct (bad a) eqn:E.
      + apply Z.le_trans with (den * mass DD).
        * apply Z.mul_le_mono_nonneg_l; [lia|]. unfold mass. apply wsum_le; [exact HD|]. intros b v _. apply Hf.
        * apply Z.mul_le_mono_nonneg_r; lia.
      + specialize (Hg a w Ha E). lia.
    - rewrite (wsum_ext _ _ (fun a => mass DD * (num + den * (if bad a then 1 else 0)))) by (intros; ring).
      rewrite wsum_scale, wsum_add, wsum_const, wsum_scale. apply Z.eq_le_incl. ring. }
  set (T := wsum W (fun a => wsum DD (f a))) in *. set (b := wsum W (fun a => if bad a then 1 else 0)) in *. clearbody T b.
  assert (S2 : T * den * X <= (num * mass W + den * b) * mass DD * X) by (apply Z.mul_le_mono_nonneg_r; assumption).
  assert (S3 : den * mass DD * (b * X) <= den * mass DD * mass W) by (apply Z.mul_le_mono_nonneg_l; [apply Z.mul_nonneg_nonneg; lia|exact Hb]).
  lia.
Qed.
