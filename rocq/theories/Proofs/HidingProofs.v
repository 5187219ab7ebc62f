(** Proofs for C75. *)
From Coq Require Import ZArith List Bool Lia.
From Verif Require Import Spec.Basic Spec.Lattice Spec.Count Spec.Hiding Model.Base Model.Plaintext Model.Params Model.Lwe Model.SecretKey
  Proofs.Arith Proofs.LweProofs Proofs.RandomProofs.
Import ListNotations.
Local Open Scope Z_scope.

Lemma encrypted_masked B i j kp f : 0 <= i < j -> j < B <= 64 -> pp_t (kp_par kp) = 2 ^ i -> pp_q (kp_par kp) = 2 ^ j ->
  (forall h, 0 <= f h < 2 ^ i) ->
  forall rs got, Forall (fun d : list Z * Z => length (fst d) = length (kp_lwe kp)) rs ->
  encrypted B kp f got rs = Some (masked (2 ^ i) (2 ^ j) f got (lwe_samples (2 ^ j) (kp_lwe kp) rs)).
Proof.
  intros Hi Hj Ht Hq Hf. induction rs as [|[a e] rs IH]; intros got H; [reflexivity|].
  inversion H as [|x l Ha Hl]; subst. cbn [fst] in Ha. cbn [encrypted lwe_samples map masked la lb fst snd]. unfold kp_encrypt at 1. rewrite Ht, Hq.
  rewrite (encrypt_correct B i j Hi (proj1 Hj) (proj2 Hj) _ _ _ _ Ha (Hf got)). cbn [bind]. rewrite IH by exact Hl.
  rewrite Zplus_mod_idemp_l. reflexivity.
Qed.

Lemma masked_app t q f : forall cs got, exists tl, masked t q f got cs = got ++ tl /\ length tl = length cs /\ map la tl = map la cs.
Proof.
  induction cs as [|c cs IH]; intros got; cbn [masked].
  - exists []. now rewrite app_nil_r.
  - destruct (IH (got ++ [mk_lwe (la c) ((lb c + f got * (q / t)) mod q)])) as (tl & -> & L & M).
    eexists (_ :: tl). rewrite <- app_assoc. split; [reflexivity|]. cbn [length map la]. now rewrite L, M.
Qed.

(** Adding a constant to a uniform residue. *)
Lemma count_shift q c (P : Z -> Z) : 0 < q ->
  fold_right Z.add 0 (map (fun x => P ((x + c) mod q)) (range q)) = fold_right Z.add 0 (map P (range q)).
Proof.
  intros Hq. set (d := c mod q). pose proof (Z.mod_pos_bound c q Hq) as Hd. fold d in Hd.
  assert (A : forall l l', fold_right Z.add 0 (l ++ l') = fold_right Z.add 0 l + fold_right Z.add 0 l').
  { induction l as [|x l IH]; intros l'; cbn; [lia|]. rewrite IH. lia. }
  transitivity (fold_right Z.add 0 (map P (map (fun x => d + x) (range (q - d)))) + fold_right Z.add 0 (map P (range d))).
  - assert (E : range q = range ((q - d) + d)) by (f_equal; lia). rewrite E, range_add, map_app, A by lia. clear E. f_equal.
    + rewrite map_map. f_equal. apply map_ext_in. intros x Hx. apply in_range in Hx. f_equal.
      rewrite <- Zplus_mod_idemp_r. fold d. rewrite Z.mod_small; lia.
    + rewrite map_map. f_equal. apply map_ext_in. intros x Hx. apply in_range in Hx. f_equal.
      rewrite <- Zplus_mod_idemp_r. fold d. replace (q - d + x + d) with (x + 1 * q) by lia. rewrite Z.mod_add by lia. apply Z.mod_small. lia.
  - assert (E : range q = range (d + (q - d))) by (f_equal; lia). rewrite E, range_add, map_app, A by lia. clear E. lia.
Qed.

Lemma count_flat {A : Type} (D : A -> bool) (g : Z -> list A) l :
  count D (flat_map g l) = fold_right Z.add 0 (map (fun x => count D (g x)) l).
Proof. induction l as [|x l IH]; [reflexivity|]. cbn [flat_map map fold_right]. rewrite count_app, IH. reflexivity. Qed.

(** The masks hide perfectly when the bodies are uniform. *)
Lemma pad t q f : 0 < q -> forall rs got (D : list lwe -> bool),
  count (fun bs => D (masked t q f got (with_bodies rs bs))) (tuples (length rs) q) =
  count (fun bs => D (got ++ with_bodies rs bs)) (tuples (length rs) q).
Proof.
  intros Hq. induction rs as [|[a e] rs IH]; intros got D.
  - cbn [length tuples]. unfold with_bodies. cbn [combine map masked]. now rewrite app_nil_r.
  - cbn [length tuples]. rewrite !count_flat.
    set (P := fun x => count (fun bs => D ((got ++ [mk_lwe a x]) ++ with_bodies rs bs)) (tuples (length rs) q)).
    transitivity (fold_right Z.add 0 (map P (range q))).
    + rewrite <- (count_shift q (f got * (q / t)) P Hq). f_equal. apply map_ext. intros x. rewrite count_map.
      unfold with_bodies at 1. cbn [combine map masked fst snd la lb]. fold (with_bodies rs). unfold P. rewrite <- IH. reflexivity.
    + f_equal. apply map_ext. intros x. unfold P. rewrite count_map. apply count_ext_in. intros bs _.
      unfold with_bodies. cbn [combine map fst snd]. now rewrite <- app_assoc.
Qed.

Lemma count_prod {A C : Type} (D : A * C -> bool) l l' :
  count D (list_prod l l') = fold_right Z.add 0 (map (fun x => count (fun y => D (x, y)) l') l).
Proof. induction l as [|x l IH]; [reflexivity|]. cbn [list_prod map fold_right]. rewrite count_app, IH, count_map. reflexivity. Qed.

Section Game.
Variables (X : Type) (B i j : Z) (P : parameters) (k : nat) (ws : list (world X)).
Hypothesis (Hi : 0 <= i < j) (Hj : j < B <= 64) (Ht : pp_t P = 2 ^ i) (Hq : pp_q P = 2 ^ j) (Hw : Forall (world_ok P k) ws).
Notation q := (2 ^ j).

Lemma all_encrypted f : (forall h, 0 <= f h < 2 ^ i) -> forall w, In w ws ->
  encrypted B (pack w) f [] (draws w) = Some (masked (2 ^ i) q f [] (lwe_samples q (kp_lwe (pack w)) (draws w))).
Proof.
  intros Hf w Hin. rewrite Forall_forall in Hw. destruct (Hw w Hin) as (E & _ & F). apply encrypted_masked; try assumption.
  - now rewrite E.
  - now rewrite E.
  - eapply Forall_impl; [|exact F]. intros d Hd. apply Hd.
Qed.

Lemma accepted_eq f D : (forall x h, 0 <= f x h < 2 ^ i) ->
  accepted B ws f D = accepted_lwe q ws (fun x cs => D x (masked (2 ^ i) q (f x) [] cs)).
Proof. intros Hf. apply count_ext_in. intros w Hin. rewrite all_encrypted by auto. reflexivity. Qed.

Lemma uniform_eq f D : accepted_uniform q k ws (fun x cs => D x (masked (2 ^ i) q (f x) [] cs)) = accepted_uniform q k ws D.
Proof.
  unfold accepted_uniform. rewrite !count_prod. f_equal. apply map_ext_in. intros w Hin. cbn [fst snd].
  rewrite Forall_forall in Hw. destruct (Hw w Hin) as (_ & <- & _). apply (pad (2 ^ i) q (f (shown w)) (pow2_pos j ltac:(lia)) (draws w) [] (D (shown w))).
Qed.

Lemma hiding f g D : (forall x h, 0 <= f x h < 2 ^ i) -> (forall x h, 0 <= g x h < 2 ^ i) ->
  q ^ Z.of_nat k * (accepted B ws f D - accepted B ws g D) =
  lwe_gap q k ws (fun x cs => D x (masked (2 ^ i) q (f x) [] cs)) - lwe_gap q k ws (fun x cs => D x (masked (2 ^ i) q (g x) [] cs)).
Proof. intros Hf Hg. unfold lwe_gap. rewrite !uniform_eq, !accepted_eq by assumption. ring. Qed.
End Game.

Lemma reuse (B i j : Z) (kp : key_pack) (a : list Z) (e m m' : Z) :
  0 <= i < j -> j < B <= 64 -> pp_t (kp_par kp) = 2 ^ i -> pp_q (kp_par kp) = 2 ^ j -> length a = length (kp_lwe kp) ->
  0 <= m < 2 ^ i -> 0 <= m' < 2 ^ i ->
  exists c c', kp_encrypt B kp a e m = Some c /\ kp_encrypt B kp a e m' = Some c' /\ la c = la c' /\
    (lb c - lb c') mod 2 ^ j = ((m - m') * 2 ^ (j - i)) mod 2 ^ j /\ (c = c' <-> m = m').
Proof.
  intros Hi Hj Ht Hq Ha Hm Hm'. unfold kp_encrypt. rewrite Ht, Hq.
  rewrite (encrypt_correct B i j Hi (proj1 Hj) (proj2 Hj) _ _ _ _ Ha Hm), (encrypt_correct B i j Hi (proj1 Hj) (proj2 Hj) _ _ _ _ Ha Hm').
  do 2 eexists. split; [reflexivity|]. split; [reflexivity|]. cbn [la lb]. split; [reflexivity|].
  pose proof (pow2_pos j ltac:(lia)) as Q. pose proof (pow2_pos (j - i) ltac:(lia)) as Dp. rewrite (pow2_div i j) by lia.
  assert (E : ((dotz a (kp_lwe kp) + e + m * 2 ^ (j - i)) mod 2 ^ j - (dotz a (kp_lwe kp) + e + m' * 2 ^ (j - i)) mod 2 ^ j) mod 2 ^ j =
    ((m - m') * 2 ^ (j - i)) mod 2 ^ j).
  { rewrite <- Zminus_mod. f_equal. ring. }
  split; [exact E|]. split; [|intros ->; reflexivity]. intros C. injection C as C. rewrite C, Z.sub_diag, Zmod_0_l in E.
  symmetry in E. apply Z.mod_divide in E; [|lia]. destruct E as (z & E).
  replace (2 ^ j) with (2 ^ i * 2 ^ (j - i)) in E by (rewrite <- Z.pow_add_r by lia; f_equal; lia).
  assert (m - m' = z * 2 ^ i) by (apply (Z.mul_reg_r _ _ (2 ^ (j - i))); [lia|]; rewrite E; ring).
  assert (z = 0) by nia. subst z. lia.
Qed.
