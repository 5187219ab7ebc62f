(** From blocks of a random permutation to uniform blocks, and what programs draw from them. *)
From Coq Require Import ZArith QArith Qabs List Bool Lia Lqa SpecFloat Permutation.
From Verif Require Import Spec.Basic Spec.Aes Spec.Stream Spec.Count Spec.HidingKeys Spec.Machine Spec.Cipher.
From Verif Require Import Model.Base Model.Field Model.Poly Model.Lwe Model.Aes Model.Prg Model.Params Model.Boolean Model.SecretKey Model.Gaussian Model.Sampled Model.Stream Model.Seeded.
From Verif Require Import Proofs.PrgProofs Proofs.Reify Proofs.MachineProofs Proofs.MachineMain Proofs.RandomProofs Proofs.Shuffle.
Import ListNotations.
Local Open Scope Z_scope.

(** * Counting *)

Definition zsum {A : Type} (f : A -> Z) (l : list A) : Z := fold_right (fun x a => f x + a) 0 l.
Lemma count_nil {A} (D : A -> bool) : count D [] = 0.
Proof. reflexivity. Qed.
Lemma count_cons {A} (D : A -> bool) x l : count D (x :: l) = (if D x then 1 else 0) + count D l.
Proof. unfold count. cbn [filter]. destruct (D x); [|reflexivity]. cbn [length]. lia. Qed.
Lemma count_app {A} (D : A -> bool) l l' : count D (l ++ l') = count D l + count D l'.
Proof. induction l as [|x l IH]; [reflexivity|]. cbn [app]. rewrite !count_cons, IH. lia. Qed.
Lemma count_map {A C} (f : A -> C) D l : count D (map f l) = count (fun x => D (f x)) l.
Proof. induction l as [|x l IH]; [reflexivity|]. cbn [map]. rewrite !count_cons, IH. reflexivity. Qed.
Lemma count_flat {A C} (f : A -> list C) D l : count D (flat_map f l) = zsum (fun x => count D (f x)) l.
Proof. induction l as [|x l IH]; [reflexivity|]. cbn [flat_map zsum fold_right]. rewrite count_app, IH. reflexivity. Qed.
Lemma count_ext {A} (D D' : A -> bool) l : (forall x, In x l -> D x = D' x) -> count D l = count D' l.
Proof.
  induction l as [|x l IH]; [reflexivity|]. intros H. rewrite !count_cons, IH by (intros y Hy; apply H; right; exact Hy).
  rewrite (H x (or_introl eq_refl)). reflexivity.
Qed.
Lemma count_not {A} (D : A -> bool) l : count D l + count (fun x => negb (D x)) l = Z.of_nat (length l).
Proof. induction l as [|x l IH]; [reflexivity|]. rewrite !count_cons. cbn [length]. destruct (D x); cbn [negb]; lia. Qed.
Lemma count_true {A} (l : list A) : count (fun _ => true) l = Z.of_nat (length l).
Proof. induction l as [|x l IH]; [reflexivity|]. rewrite count_cons, IH. cbn [length]. lia. Qed.
Lemma count_bounds {A} (D : A -> bool) l : 0 <= count D l <= Z.of_nat (length l).
Proof. pose proof (count_not D l). unfold count in *. lia. Qed.
Lemma zsum_ext {A} (f g : A -> Z) l : (forall x, In x l -> f x = g x) -> zsum f l = zsum g l.
Proof. induction l as [|x l IH]; [reflexivity|]. intros H. cbn [zsum fold_right]. rewrite (H x (or_introl eq_refl)). f_equal. apply IH. intros y Hy. apply H. right. exact Hy. Qed.
Lemma zsum_le {A} (f g : A -> Z) l : (forall x, In x l -> f x <= g x) -> zsum f l <= zsum g l.
Proof.
  induction l as [|x l IH]; [reflexivity|]. intros H. cbn [zsum fold_right]. pose proof (H x (or_introl eq_refl)).
  assert (zsum f l <= zsum g l) by (apply IH; intros y Hy; apply H; right; exact Hy). unfold zsum in *. lia.
Qed.
Lemma zsum_map {A C} (h : A -> C) (f : C -> Z) l : zsum f (map h l) = zsum (fun x => f (h x)) l.
Proof. induction l as [|x l IH]; [reflexivity|]. cbn [map zsum fold_right]. f_equal. exact IH. Qed.
Lemma zsum_const {A} c (l : list A) : zsum (fun _ => c) l = Z.of_nat (length l) * c.
Proof. induction l as [|x l IH]; [reflexivity|]. cbn [zsum fold_right length]. fold (zsum (fun _ : A => c) l). lia. Qed.
Lemma zsum_scale {A} c (f : A -> Z) l : zsum (fun x => c * f x) l = c * zsum f l.
Proof. induction l as [|x l IH]; cbn [zsum fold_right]; [lia|]. fold (zsum (fun x => c * f x) l). fold (zsum f l). lia. Qed.
Lemma zsum_app {A} (f : A -> Z) l l' : zsum f (l ++ l') = zsum f l + zsum f l'.
Proof. induction l as [|x l IH]; [reflexivity|]. cbn [app zsum fold_right]. fold (zsum f (l ++ l')). fold (zsum f l). lia. Qed.
Lemma zsum_perm {A} (f : A -> Z) l l' : Permutation l l' -> zsum f l = zsum f l'.
Proof. intros H. induction H as [|x l l' H IH|x y l|l l' l'' H1 IH1 H2 IH2]; [reflexivity| | |congruence]; cbn [zsum fold_right]; [f_equal; exact IH|lia]. Qed.
Lemma zsum_nonneg {A} (f : A -> Z) l : (forall x, 0 <= f x) -> 0 <= zsum f l.
Proof. intros H. induction l as [|x l IH]; [reflexivity|]. cbn [zsum fold_right]. fold (zsum f l). specialize (H x). lia. Qed.

(** * Arrangements *)

Section Arrange.
Context {A : Type}.
Implicit Types (L : list A).

Lemma picks_fst L : map fst (picks L) = L.
Proof. induction L as [|x L IH]; [reflexivity|]. cbn [picks map fst]. rewrite map_map. cbn [fst]. f_equal. exact IH. Qed.
Lemma picks_perm L y r : In (y, r) (picks L) -> Permutation (y :: r) L.
Proof.
  revert y r. induction L as [|x L IH]; intros y r H; [destruct H|]. cbn [picks] in H. destruct H as [E|H].
  - injection E as -> ->. apply Permutation_refl.
  - apply in_map_iff in H. destruct H as ((y' & r') & E & H). cbn [fst snd] in E. injection E as <- <-.
    eapply Permutation_trans; [apply perm_swap|]. apply perm_skip. apply IH. exact H.
Qed.
Lemma picks_length L : length (picks L) = length L.
Proof. rewrite <- (picks_fst L) at 2. rewrite map_length. reflexivity. Qed.
Lemma picks_rest L y r : In (y, r) (picks L) -> Z.of_nat (length r) = Z.of_nat (length L) - 1.
Proof. intros H. apply picks_perm, Permutation_length in H. cbn [length] in H. lia. Qed.

Lemma arr_count n L (D : list A -> bool) :
  count D (arrangements (S n) L) = zsum (fun yr => count (fun l => D (fst yr :: l)) (arrangements n (snd yr))) (picks L).
Proof. cbn [arrangements]. rewrite count_flat. apply zsum_ext. intros (y & r) _. cbn [fst snd]. apply count_map. Qed.
Lemma lists_count n L (D : list A -> bool) :
  count D (lists (S n) L) = zsum (fun y => count (fun l => D (y :: l)) (lists n L)) L.
Proof. cbn [lists]. rewrite count_flat. apply zsum_ext. intros y _. apply count_map. Qed.

Lemma arr_le_lists n : forall L L' R (D : list A -> bool), Permutation (L' ++ R) L -> count D (arrangements n L') <= count D (lists n L).
Proof.
  induction n as [|n IH]; intros L L' R D HP; [apply Z.le_refl|]. rewrite arr_count, lists_count.
  apply Z.le_trans with (zsum (fun yr => count (fun l => D (fst yr :: l)) (lists n L)) (picks L')).
  - apply zsum_le. intros (y & r) Hy. cbn [fst snd]. apply picks_perm in Hy. apply (IH L r (y :: R)).
    eapply Permutation_trans; [|exact HP]. eapply Permutation_trans; [apply Permutation_sym, Permutation_middle|]. apply (Permutation_app_tail R Hy).
  - pose (f := fun y => count (fun l => D (y :: l)) (lists n L)). change (zsum (fun yr => f (fst yr)) (picks L') <= zsum f L).
    rewrite <- (zsum_map fst f), picks_fst, <- (zsum_perm f _ _ HP), zsum_app.
    pose proof (zsum_nonneg f R (fun y => proj1 (count_bounds _ _))). lia.
Qed.

Fixpoint fall (N : Z) (n : nat) : Z := match n with O => 1 | S n' => N * fall (N - 1) n' end.
Lemma fall_end n : forall N, fall N (S n) = fall N n * (N - Z.of_nat n).
Proof.
  induction n as [|n IH]; intros N; [cbn [fall]; lia|]. change (fall N (S (S n))) with (N * fall (N - 1) (S n)). rewrite IH. cbn [fall]. lia.
Qed.
Lemma fall_pos n : forall N, Z.of_nat n <= N -> 0 < fall N n.
Proof. induction n as [|n IH]; intros N H; cbn [fall]; [lia|]. specialize (IH (N - 1)). assert (0 < fall (N - 1) n) by (apply IH; lia). nia. Qed.
Lemma fall_pow N n : Z.of_nat n <= N -> fall N n <= N ^ Z.of_nat n /\ 2 * N * (N ^ Z.of_nat n - fall N n) <= Z.of_nat n * (Z.of_nat n - 1) * N ^ Z.of_nat n.
Proof.
  induction n as [|n IH]; intros H; [cbn; lia|]. destruct IH as (I1 & I2); [lia|]. rewrite fall_end.
  assert (E : N ^ Z.of_nat (S n) = N * N ^ Z.of_nat n) by (rewrite Nat2Z.inj_succ, Z.pow_succ_r by lia; reflexivity). rewrite E.
  pose proof (fall_pos n N ltac:(lia)) as HP. set (U := N ^ Z.of_nat n) in *. set (a := fall N n) in *. set (k := Z.of_nat n) in *.
  replace (Z.of_nat (S n)) with (k + 1) in * by lia. assert (0 <= k) by lia. clearbody U a k. split; [nia|].
  assert (0 <= N) by lia. assert (N * (2 * N * (U - a)) <= N * (k * (k - 1) * U)) by nia. assert (k * N * a <= k * N * U) by (apply Z.mul_le_mono_nonneg_l; nia). nia.
Qed.

Lemma arr_length n : forall L, Z.of_nat (length (arrangements n L)) = fall (Z.of_nat (length L)) n.
Proof.
  induction n as [|n IH]; intros L; [reflexivity|]. rewrite <- count_true, arr_count. cbn [fall]. rewrite <- picks_length, <- (zsum_const _ (picks L)).
  apply zsum_ext. intros (y & r) Hy. cbn [fst snd]. rewrite count_true, IH, (picks_rest L y r Hy), picks_length. reflexivity.
Qed.
Lemma arr_prefix n : forall k L (D : list A -> bool),
  count (fun l => D (firstn n l)) (arrangements (n + k) L) = fall (Z.of_nat (length L) - Z.of_nat n) k * count D (arrangements n L).
Proof.
  induction n as [|n IH]; intros k L D.
  - cbn [Nat.add firstn arrangements]. rewrite Z.sub_0_r, <- arr_length, count_cons, count_nil, <- count_true.
    destruct (D []); [lia|]. rewrite Z.mul_0_r. clear. induction (arrangements k L) as [|x l IH]; [reflexivity|]. rewrite count_cons, IH. reflexivity.
  - cbn [Nat.add]. rewrite !arr_count, <- zsum_scale. apply zsum_ext. intros (y & r) Hy. cbn [fst snd firstn].
    rewrite (IH k r (fun l => D (y :: l))), (picks_rest L y r Hy). f_equal. f_equal. lia.
Qed.

End Arrange.

(** * Chances *)

Lemma frac (a b : Z) (c d : Z) : 0 < b -> 0 < d -> a * d <= c * b -> (inject_Z a / inject_Z b <= inject_Z c / inject_Z d)%Q.
Proof.
  intros Hb Hd H. assert (Hb' : (0 < inject_Z b)%Q) by (unfold Qlt; cbn; lia). assert (Hd' : (0 < inject_Z d)%Q) by (unfold Qlt; cbn; lia).
  apply Qle_shift_div_l; [exact Hd'|]. setoid_replace (inject_Z a / inject_Z b * inject_Z d)%Q with (inject_Z (a * d)%Z / inject_Z b)%Q.
  - apply Qle_shift_div_r; [exact Hb'|]. rewrite <- inject_Z_mult. rewrite <- Zle_Qle. exact H.
  - rewrite inject_Z_mult. field. intros E. rewrite E in Hb'. now apply Qlt_irrefl in Hb'.
Qed.
Lemma frac_eq (a b c d : Z) : 0 < b -> 0 < d -> a * d = c * b -> (inject_Z a / inject_Z b == inject_Z c / inject_Z d)%Q.
Proof. intros Hb Hd H. apply Qle_antisym; apply frac; lia. Qed.
Lemma frac_sub (a b c d : Z) : 0 < b -> 0 < d -> (inject_Z a / inject_Z b - inject_Z c / inject_Z d == inject_Z (a * d - c * b)%Z / inject_Z (b * d)%Z)%Q.
Proof.
  intros Hb Hd. assert (Hb' : (0 < inject_Z b)%Q) by (unfold Qlt; cbn; lia). assert (Hd' : (0 < inject_Z d)%Q) by (unfold Qlt; cbn; lia).
  unfold Zminus. rewrite inject_Z_plus, inject_Z_opp, !inject_Z_mult. field.
  split; intros E; [rewrite E in Hd'; now apply Qlt_irrefl in Hd'|rewrite E in Hb'; now apply Qlt_irrefl in Hb'].
Qed.
Lemma prob_ext {A} (D D' : A -> bool) L : (forall x, In x L -> D x = D' x) -> prob D L = prob D' L.
Proof. intros H. unfold prob. rewrite (count_ext D D' L H). reflexivity. Qed.
Lemma prob_le {A} (D D' : A -> bool) L : (forall x, In x L -> D x = true -> D' x = true) -> (prob D L <= prob D' L)%Q.
Proof.
  intros H. destruct L as [|x0 L0]; [apply Qle_refl|]. assert (0 < Z.of_nat (length (x0 :: L0))) by (cbn [length]; lia). revert H H0. generalize (x0 :: L0). clear. intros L H HL.
  unfold prob. apply frac; [exact HL|exact HL|]. apply Z.mul_le_mono_nonneg_r; [lia|]. clear HL. induction L as [|x L IH]; [apply Z.le_refl|]. rewrite !count_cons.
  pose proof (H x (or_introl eq_refl)). assert (count D L <= count D' L) by (apply IH; intros y Hy; apply H; right; exact Hy).
  destruct (D x), (D' x); try lia.
Qed.
Lemma prob_or {A} (D D' : A -> bool) L : (prob (fun x => D x || D' x) L <= prob D L + prob D' L)%Q.
Proof.
  unfold prob. setoid_replace (inject_Z (count D L) / inject_Z (Z.of_nat (length L)) + inject_Z (count D' L) / inject_Z (Z.of_nat (length L)))%Q
    with (inject_Z (count D L + count D' L)%Z / inject_Z (Z.of_nat (length L)))%Q by (rewrite inject_Z_plus; unfold Qdiv; ring).
  destruct L as [|x0 L0]; [apply Qle_refl|]. assert (HL : 0 < Z.of_nat (length (x0 :: L0))) by (cbn [length]; lia). revert HL. generalize (x0 :: L0). clear. intros L HL.
  apply frac; [exact HL|exact HL|]. apply Z.mul_le_mono_nonneg_r; [lia|]. clear HL. induction L as [|x L IH]; [apply Z.le_refl|]. rewrite !count_cons.
  destruct (D x), (D' x); cbn [orb]; lia.
Qed.

Section Switch.
Context {A : Type}.
Variables (L : list A) (n : nat).
Let N := Z.of_nat (length L).
Hypothesis Hn : Z.of_nat n <= N.
Hypothesis HN : 0 < N.

Lemma perm_arr (D : list A -> bool) : (prob (fun l => D (firstn n l)) (arrangements (length L) L) == prob D (arrangements n L))%Q.
Proof.
  assert (E : length L = (n + (length L - n))%nat) by (unfold N in Hn; lia). replace (arrangements (length L) L) with (arrangements (n + (length L - n)) L) by (rewrite <- E; reflexivity). unfold prob. rewrite arr_prefix.
  rewrite <- (count_true (arrangements (n + (length L - n)) L)), (arr_prefix n (length L - n) L (fun _ => true)), count_true, arr_length. fold N.
  assert (0 < fall (N - Z.of_nat n) (length L - n)) by (apply fall_pos; unfold N; lia). pose proof (fall_pos n N Hn).
  apply frac_eq; [nia|lia|ring].
Qed.
Lemma switch (D : list A -> bool) :
  (Qabs (prob D (arrangements n L) - prob D (lists n L)) <= inject_Z (Z.of_nat n * (Z.of_nat n - 1))%Z / inject_Z (2 * N)%Z)%Q.
Proof.
  pose proof (arr_le_lists n L L [] D ltac:(rewrite app_nil_r; apply Permutation_refl)) as H1.
  pose proof (arr_le_lists n L L [] (fun l => negb (D l)) ltac:(rewrite app_nil_r; apply Permutation_refl)) as H2.
  pose proof (count_not D (arrangements n L)) as C1. pose proof (count_not D (lists n L)) as C2. pose proof (count_bounds D (arrangements n L)) as B1.
  unfold prob. rewrite arr_length in *. rewrite lists_length in *. fold N in C1, C2, B1. fold N. destruct (fall_pow N n Hn) as (F1 & F2). pose proof (fall_pos n N Hn) as F3.
  set (a := count D (arrangements n L)) in *. set (b := count D (lists n L)) in *. set (U := N ^ Z.of_nat n) in *. set (f := fall N n) in *.
  assert (HU : 0 < U) by lia. assert (Hk : 0 <= Z.of_nat n * (Z.of_nat n - 1)) by nia. set (k := Z.of_nat n * (Z.of_nat n - 1)) in *. clearbody a b U f k.
  rewrite frac_sub by lia. assert (HX : - ((U - f) * f) <= a * U - b * f <= (U - f) * f) by nia.
  assert (HY : (U - f) * f * (2 * N) <= k * (f * U)) by nia.
  apply Qabs_case; intros _.
  - apply frac; [nia|lia|]. assert ((a * U - b * f) * (2 * N) <= (U - f) * f * (2 * N)) by (apply Z.mul_le_mono_nonneg_r; lia). lia.
  - setoid_replace (- (inject_Z (a * U - b * f)%Z / inject_Z (f * U)%Z))%Q with (inject_Z (- (a * U - b * f))%Z / inject_Z (f * U)%Z)%Q by (rewrite inject_Z_opp; unfold Qdiv; ring).
    apply frac; [nia|lia|]. assert (- (a * U - b * f) * (2 * N) <= (U - f) * f * (2 * N)) by (apply Z.mul_le_mono_nonneg_r; lia). lia.
Qed.
End Switch.

(** * Blocks of the cipher *)

Lemma blocks_length : Z.of_nat (length blocks) = 2 ^ 128.
Proof. unfold blocks. rewrite tuples_lists, lists_length. reflexivity. Qed.
Lemma in_blocks l : In l blocks <-> bytes 16 l.
Proof.
  unfold blocks. rewrite tuples_lists, lists_in. unfold bytes. split; intros (H1 & H2); (split; [exact H1|]);
    (eapply Forall_impl; [|exact H2]); intros x Hx; cbv beta in *; [apply in_range in Hx; exact Hx|apply in_range; exact Hx].
Qed.

Lemma cipher_uniform n (D : list (list Z) -> bool) : Z.of_nat n <= 2 ^ 128 ->
  (Qabs (prob (fun key => D (cipher_blocks key n)) blocks - prob D (lists n blocks)) <= advantage n D + birthday n)%Q.
Proof.
  intros Hn. pose proof blocks_length as HL. unfold advantage, permutations. revert HL. generalize blocks. intros L HL.
  assert (HN : Z.of_nat n <= Z.of_nat (length L)) by (rewrite HL; exact Hn).
  assert (H0 : 0 < Z.of_nat (length L)) by (rewrite HL; reflexivity).
  pose proof (perm_arr L n HN H0 D) as HP. pose proof (switch L n HN H0 D) as HS. rewrite HL in HS. change (2 * 2 ^ 128) with (2 ^ 129) in HS. fold (birthday n) in HS.
  setoid_replace (prob (fun key => D (cipher_blocks key n)) L - prob D (lists n L))%Q
    with ((prob (fun key => D (cipher_blocks key n)) L - prob (fun l => D (firstn n l)) (arrangements (length L) L)) + (prob D (arrangements n L) - prob D (lists n L)))%Q by (rewrite HP; ring).
  eapply Qle_trans; [apply Qabs_triangle|]. apply Qplus_le_compat; [apply Qle_refl|exact HS].
Qed.
Lemma cipher_bytes key n i : 0 <= i < 16 * Z.of_nat n -> byte_of (cipher_blocks key n) i = stream_byte key i.
Proof.
  intros Hi. unfold byte_of, stream_byte, cipher_blocks. f_equal. assert (Hd : 0 <= i / 16 < Z.of_nat n) by (split; [apply Z.div_pos; lia|apply Z.div_lt_upper_bound; lia]).
  rewrite (nth_indep _ [] (key_block key (Z.of_nat 0))) by (rewrite map_length, seq_length; lia).
  rewrite (map_nth (fun j => key_block key (Z.of_nat j))). rewrite seq_nth by lia. f_equal. lia.
Qed.

(** * Histories of calls *)

Lemma answers_stream key cs : forall pos, answers key pos cs = answers_in (stream_byte key) pos cs.
Proof. induction cs as [|c cs IH]; intros pos; [reflexivity|]. cbn [answers answers_in]. rewrite IH. f_equal; destruct c; reflexivity. Qed.
Lemma cost_pos c : 0 <= cost c.
Proof. destruct c; cbn [cost]; try lia. apply Z.div_pos; lia. Qed.
Lemma part_same s s' pos n hi : 0 <= pos -> (forall i, 0 <= i < hi -> s i = s' i) -> 4 * pos + Z.of_nat n <= hi -> part s pos n = part s' pos n.
Proof. intros Hp H Hh. apply map_ext_in. intros j Hj. apply in_seq in Hj. apply H. lia. Qed.
Lemma answers_same s s' hi : (forall i, 0 <= i < hi -> s i = s' i) -> forall cs pos, 0 <= pos -> 4 * (pos + costs cs) <= hi -> answers_in s pos cs = answers_in s' pos cs.
Proof.
  intros H. induction cs as [|c cs IH]; intros pos Hp Hh; [reflexivity|]. rewrite costs_cons in Hh. pose proof (cost_pos c). pose proof (costs_nonneg cs).
  cbn [answers_in]. rewrite IH by lia. f_equal. assert (H4 : 4 * (pos + cost c) <= hi) by lia. clear IH Hh.
  destruct c; cbn [answer_in cost] in *; try (apply (part_same s s' pos _ hi Hp H); lia).
  - apply (part_same s s' pos _ hi Hp H). pose proof (Z.div_mod (Z.of_nat n + 3) 4 ltac:(lia)). pose proof (Z.mod_pos_bound (Z.of_nat n + 3) 4 ltac:(lia)). lia.
  - rewrite H by lia. reflexivity.
  - apply map_ext_in. intros k Hk. apply in_seq in Hk. rewrite H by lia. reflexivity.
Qed.
Lemma history_blocks A seed cs n : bytes 16 seed -> costs cs <= 4 * Z.of_nat n -> costs cs <= capacity ->
  (let* g := prg_from_seed A seed in let* '(out, _) := prg_run A cs g in Some out) = Some (answers_in (byte_of (cipher_blocks seed n)) 0 cs).
Proof.
  intros Hk Hc Hcap. rewrite prg_history by exact Hk. assert (E : (costs cs <=? capacity) = true) by (apply Z.leb_le; exact Hcap). rewrite E. f_equal.
  rewrite answers_stream. symmetry. apply (answers_same _ _ (16 * Z.of_nat n)); [|lia|lia]. intros i Hi. apply cipher_bytes. exact Hi.
Qed.

(** * Programs *)

Section Programs.
Context {V : Type}.
Variables (m : forall St, rand_on St V) (A : arch) (normal : gaussian -> reader spec_float) (below : Z -> reader Z) (n : nat).
Hypothesis Hm : treelike m.

Lemma seeded_finishes seed v : bytes 16 seed -> finishes (m Z) normal below n (cipher_blocks seed n) = Some v -> seeded (m block_rng) A normal below seed = Some v.
Proof.
  intros Hk E. unfold finishes in E. destruct (m Z (stream_rng (byte_of (cipher_blocks seed n)) normal below) 0) as [| |[u pos]] eqn:ES; try discriminate E.
  destruct (Z.leb_spec pos (4 * Z.of_nat n)) as [Hp|]; [|discriminate E]. injection E as ->.
  destruct (all_own normal below m Hm _ _ _ _ ES) as (H0 & HO).
  assert (ER : m Z (stream_rng (stream_byte seed) normal below) 0 = Got (v, pos)) by (apply HO; intros i Hi; apply cipher_bytes; lia).
  unfold seeded. destruct (rep_start A seed Hk) as (g0 & E0 & _). rewrite E0. cbn [bind].
  assert (R0 : reached A seed 0 g0) by (exists []; split; [reflexivity|rewrite E0; reflexivity]).
  pose proof (seeded_stream m A seed normal below 0 g0 Hm Hk R0) as HA. rewrite ER in HA. unfold as_stream in HA.
  destruct (m block_rng (prg_rng A normal below) g0) as [| |[u g1]]; [discriminate HA|discriminate HA|]. destruct HA as (pos' & HA & _). injection HA as <- _. reflexivity.
Qed.
Lemma program_chance (D : V -> bool) : Z.of_nat n <= 2 ^ 128 ->
  (Qabs (prob (fun seed => passes D (seeded (m block_rng) A normal below seed)) blocks - prob (fun l => passes D (finishes (m Z) normal below n l)) (lists n blocks)) <=
   advantage n (fun l => passes D (finishes (m Z) normal below n l)) + advantage n (fun l => fails (finishes (m Z) normal below n l)) +
   2 * birthday n + prob (fun l => fails (finishes (m Z) normal below n l)) (lists n blocks))%Q.
Proof.
  intros Hn. pose proof (cipher_uniform n (fun l => passes D (finishes (m Z) normal below n l)) Hn) as H1.
  pose proof (cipher_uniform n (fun l => fails (finishes (m Z) normal below n l)) Hn) as H2. cbv beta in H1, H2.
  assert (H3 : (prob (fun seed => passes D (finishes (m Z) normal below n (cipher_blocks seed n))) blocks <= prob (fun seed => passes D (seeded (m block_rng) A normal below seed)) blocks)%Q).
  { apply prob_le. intros seed Hs HD. apply in_blocks in Hs. destruct (finishes (m Z) normal below n (cipher_blocks seed n)) as [v|] eqn:E; [|discriminate HD].
    rewrite (seeded_finishes seed v Hs E). exact HD. }
  assert (H4 : (prob (fun seed => passes D (seeded (m block_rng) A normal below seed)) blocks <= prob (fun seed => passes D (finishes (m Z) normal below n (cipher_blocks seed n))) blocks +
    prob (fun seed => fails (finishes (m Z) normal below n (cipher_blocks seed n))) blocks)%Q).
  { eapply Qle_trans; [|apply prob_or]. apply prob_le. intros seed Hs HD. apply in_blocks in Hs. destruct (finishes (m Z) normal below n (cipher_blocks seed n)) as [v|] eqn:E; [|reflexivity].
    rewrite (seeded_finishes seed v Hs E) in HD. cbn [fails]. rewrite orb_false_r. exact HD. }
  revert H1 H2 H3 H4. generalize (advantage n (fun l => passes D (finishes (m Z) normal below n l))) as a1, (advantage n (fun l => fails (finishes (m Z) normal below n l))) as a2.
  generalize (prob (fun seed => passes D (seeded (m block_rng) A normal below seed)) blocks) as r, (prob (fun seed => passes D (finishes (m Z) normal below n (cipher_blocks seed n))) blocks) as w,
    (prob (fun seed => fails (finishes (m Z) normal below n (cipher_blocks seed n))) blocks) as f, (prob (fun l => passes D (finishes (m Z) normal below n l)) (lists n blocks)) as u,
    (prob (fun l => fails (finishes (m Z) normal below n l)) (lists n blocks)) as uf, (birthday n) as b. clear.
  intros r w f u uf b a1 a2 H1 H2 H3 H4. apply Qabs_Qle_condition in H1. apply Qabs_Qle_condition in H2. apply Qabs_Qle_condition. lra.
Qed.
End Programs.

Lemma session_tl B F tbl P dv fuel ms : treelike (fun St => @session St B F tbl P dv fuel ms).
Proof. unfold session. tl. - apply key_pack_tl. - apply eval_key_tl. - apply encrypt_tl. Qed.
