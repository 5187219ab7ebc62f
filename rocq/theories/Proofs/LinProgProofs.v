(** Proofs about straight-line programs of linear operations on LWE ciphertexts. *)
From Coq Require Import ZArith List Lia Bool.
From Verif Require Import Spec.Basic Spec.Lattice Spec.LinProg Model.Base Model.PowOf2 Model.Plaintext Model.Lwe Proofs.Arith Proofs.LweProofs.
Import ListNotations.
Local Open Scope Z_scope.

Lemma Forall2_len {A C : Type} (R : A -> C -> Prop) l l' : Forall2 R l l' -> length l = length l'.
Proof. induction 1; cbn; congruence. Qed.

(** ** A relation between two runs *)
Section Rel.
  Context {A C : Type} (R : A -> C -> Prop).
  Lemma rel_nth l l' i v : Forall2 R l l' -> nth_error l' i = Some v -> exists x, nth_error l i = Some x /\ R x v.
  Proof.
    intros H. revert i. induction H as [|x y l l' Hxy H IH]; intros [|i] E; cbn in E; try discriminate; [injection E as <-; exists x; auto|].
    exact (IH i E).
  Qed.
  Lemma rel_set l l' i x v r' : Forall2 R l l' -> R x v -> set_reg i v l' = Some r' -> exists r, set_reg i x l = Some r /\ Forall2 R r r'.
  Proof.
    intros H Hx. revert i r'. induction H as [|y w l l' Hyw H IH]; intros i r' E; [destruct i; discriminate|]. destruct i as [|i]; cbn [set_reg] in E |- *.
    - injection E as <-. eexists. split; [reflexivity|]. constructor; assumption.
    - destruct (set_reg i v l') as [t|] eqn:Et; [|discriminate]. injection E as <-. destruct (IH i t Et) as (r & -> & Hr).
      eexists. split; [reflexivity|]. constructor; assumption.
  Qed.
  Definition sim2 (f : A -> A -> option A) (g : C -> C -> option C) : Prop :=
    forall a b c d v, R a c -> R b d -> g c d = Some v -> exists x, f a b = Some x /\ R x v.
  Definition sim1 (f : A -> option A) (g : C -> option C) : Prop := forall a c v, R a c -> g c = Some v -> exists x, f a = Some x /\ R x v.
  Lemma step_rel f1 f2 f3 f4 f5 f6 f7 g1 g2 g3 g4 g5 g6 g7 op r r' v : Forall2 R r r' -> sim2 f1 g1 -> sim2 f2 g2 -> sim2 f3 g3 -> sim2 f4 g4 -> sim1 f5 g5 ->
    (forall k, sim1 (fun a => f6 a k) (fun a => g6 a k)) -> (forall k, sim2 (fun a b => f7 a b k) (fun a b => g7 a b k)) ->
    step_with g1 g2 g3 g4 g5 g6 g7 op r' = Some v -> exists u, step_with f1 f2 f3 f4 f5 f6 f7 op r = Some u /\ Forall2 R u v.
  Proof.
    intros H S1 S2 S3 S4 S5 S6 S7 E.
    assert (P2 : forall f g x y, sim2 f g ->
      (forall w, match nth_error r' x with Some a => match nth_error r' y with Some b => g a b | None => None end | None => None end = Some w ->
       exists a b z, nth_error r x = Some a /\ nth_error r y = Some b /\ f a b = Some z /\ R z w)).
    { intros f g x y S w Ew. destruct (nth_error r' x) as [c|] eqn:Ex; [|discriminate]. destruct (nth_error r' y) as [d|] eqn:Ey; [|discriminate].
      destruct (rel_nth _ _ _ _ H Ex) as (a & Ea & Ha). destruct (rel_nth _ _ _ _ H Ey) as (b & Eb & Hb).
      destruct (S a b c d w Ha Hb Ew) as (z & Ez & Hz). exists a, b, z. auto. }
    assert (P1 : forall f g x, sim1 f g ->
      (forall w, match nth_error r' x with Some a => g a | None => None end = Some w -> exists a z, nth_error r x = Some a /\ f a = Some z /\ R z w)).
    { intros f g x S w Ew. destruct (nth_error r' x) as [c|] eqn:Ex; [|discriminate]. destruct (rel_nth _ _ _ _ H Ex) as (a & Ea & Ha).
      destruct (S a c w Ha Ew) as (z & Ez & Hz). exists a, z. auto. }
    assert (Q : forall x w, R x w -> Forall2 R (r ++ [x]) (r' ++ [w])) by (intros; apply Forall2_app; [assumption|repeat constructor; assumption]).
    destruct op as [x y|x y|x y|x y|x|x k|x y k]; cbn [step_with] in E |- *;
      destruct (nth_error r' x) as [c|] eqn:Ex; try discriminate; try (destruct (nth_error r' y) as [d|] eqn:Ey; [|discriminate]).
    - destruct (g1 c d) as [w|] eqn:Ew; [|discriminate]. injection E as <-. destruct (P2 f1 g1 x y S1 w) as (a & b & z & -> & -> & -> & Hz); [rewrite Ex, Ey; exact Ew|].
      eexists. split; [reflexivity|]. apply Q, Hz.
    - destruct (g2 c d) as [w|] eqn:Ew; [|discriminate]. destruct (P2 f2 g2 x y S2 w) as (a & b & z & -> & -> & -> & Hz); [rewrite Ex, Ey; exact Ew|].
      exact (rel_set _ _ _ _ _ _ H Hz E).
    - destruct (g3 c d) as [w|] eqn:Ew; [|discriminate]. injection E as <-. destruct (P2 f3 g3 x y S3 w) as (a & b & z & -> & -> & -> & Hz); [rewrite Ex, Ey; exact Ew|].
      eexists. split; [reflexivity|]. apply Q, Hz.
    - destruct (g4 c d) as [w|] eqn:Ew; [|discriminate]. destruct (P2 f4 g4 x y S4 w) as (a & b & z & -> & -> & -> & Hz); [rewrite Ex, Ey; exact Ew|].
      exact (rel_set _ _ _ _ _ _ H Hz E).
    - destruct (g5 c) as [w|] eqn:Ew; [|discriminate]. injection E as <-. destruct (P1 f5 g5 x S5 w) as (a & z & -> & -> & Hz); [rewrite Ex; exact Ew|].
      eexists. split; [reflexivity|]. apply Q, Hz.
    - destruct (g6 c k) as [w|] eqn:Ew; [|discriminate]. destruct (P1 _ _ x (S6 k) w) as (a & z & -> & Ez & Hz); [rewrite Ex; exact Ew|]. cbv beta in Ez. rewrite Ez.
      exact (rel_set _ _ _ _ _ _ H Hz E).
    - destruct (g7 c d k) as [w|] eqn:Ew; [|discriminate]. destruct (P2 _ _ x y (S7 k) w) as (a & b & z & -> & -> & Ez & Hz); [rewrite Ex, Ey; exact Ew|]. cbv beta in Ez. rewrite Ez.
      exact (rel_set _ _ _ _ _ _ H Hz E).
  Qed.
  Lemma run_rel (f : linop -> list A -> option (list A)) (g : linop -> list C -> option (list C)) p r r' v :
    (forall op r r' v, Forall2 R r r' -> g op r' = Some v -> exists u, f op r = Some u /\ Forall2 R u v) ->
    Forall2 R r r' -> run g p r' = Some v -> exists u, run f p r = Some u /\ Forall2 R u v.
  Proof.
    intros S. revert r r'. induction p as [|op p IH]; intros r r' H E; cbn [run] in E |- *; [injection E as <-; exists r; auto|].
    destruct (g op r') as [w|] eqn:Ew; [|discriminate]. destruct (S op r r' w H Ew) as (u & -> & Hu). exact (IH u w Hu E).
  Qed.
End Rel.

(** ** Ciphertexts against integers *)
Definition holds (q : Z) (s : list Z) (x : lwe) (u : Z) : Prop := lwe_wf q (length s) x /\ phase q s x = u mod q.

Lemma lwe_sim q O s op r r' v : modulus_ops q O -> Forall2 (holds q s) r r' -> int_step op r' = Some v ->
  exists u, lwe_step q O op r = Some u /\ Forall2 (holds q s) u v.
Proof.
  intros HO H E. apply modulus_ops_ok in HO as HK. assert (Hq : 0 < q) by (destruct HK; lia).
  refine (step_rel (holds q s) _ _ _ _ _ _ _ _ _ _ _ _ _ _ op r r' v H _ _ _ _ _ _ _ E).
  - intros a b c d w [Wa Pa] [Wb Pb] [= <-]. destruct (lwe_add_hom q O HK _ s a b Wa Wb eq_refl) as (z & Ez & Wz & Pz). exists z. split; [exact Ez|]. split; [exact Wz|].
    rewrite Pz, Pa, Pb. symmetry. apply Z.add_mod. lia.
  - intros a b c d w [Wa Pa] [Wb Pb] [= <-]. destruct (lwe_add_inplace_hom q O HK _ s a b Wa Wb eq_refl) as (z & Ez & Wz & Pz). exists z. split; [exact Ez|]. split; [exact Wz|].
    rewrite Pz, Pa, Pb. symmetry. apply Z.add_mod. lia.
  - intros a b c d w [Wa Pa] [Wb Pb] [= <-]. destruct (lwe_sub_hom q O HK _ s a b Wa Wb eq_refl) as (z & Ez & Wz & Pz). exists z. split; [exact Ez|]. split; [exact Wz|].
    rewrite Pz, Pa, Pb. symmetry. apply Zminus_mod.
  - intros a b c d w [Wa Pa] [Wb Pb] [= <-]. destruct (lwe_sub_inplace_hom q O HK _ s a b Wa Wb eq_refl) as (z & Ez & Wz & Pz). exists z. split; [exact Ez|]. split; [exact Wz|].
    rewrite Pz, Pa, Pb. symmetry. apply Zminus_mod.
  - intros a c w [Wa Pa] [= <-]. destruct (lwe_neg_hom q O HK _ s a Wa eq_refl) as (z & Ez & Wz & Pz). exists z. split; [exact Ez|]. split; [exact Wz|].
    rewrite Pz, Pa. rewrite <- !(Z.sub_0_l). rewrite Zminus_mod_idemp_r. reflexivity.
  - intros k a c w [Wa Pa] [= <-]. destruct (lwe_scalar_mul_hom q O HK (k mod q) (Z.mod_pos_bound k q Hq) _ s a Wa eq_refl) as (z & Ez & Wz & Pz).
    exists z. split; [exact Ez|]. split; [exact Wz|]. rewrite Pz, Pa, <- Z.mul_mod by lia. f_equal. ring.
  - intros k a b c d w [Wa Pa] [Wb Pb] [= <-]. destruct (lwe_add_scaled_hom q O HK (k mod q) (Z.mod_pos_bound k q Hq) _ s a b Wa Wb eq_refl) as (z & Ez & Wz & Pz).
    exists z. split; [exact Ez|]. split; [exact Wz|]. rewrite Pz, Pa, Pb. rewrite <- Z.add_mod_idemp_r, <- Z.mul_mod by lia. rewrite <- Z.add_mod by lia. f_equal. ring.
Qed.

Lemma run_phases q O s p cts us vs : modulus_ops q O -> Forall2 (holds q s) cts us -> run_int p us = Some vs ->
  exists out, run_lwe q O p cts = Some out /\ Forall2 (holds q s) out vs.
Proof.
  intros HO H E. apply (run_rel (holds q s) (lwe_step q O) int_step p cts us vs); [|exact H|exact E].
  intros op r r' v. apply lwe_sim. exact HO.
Qed.

(** ** Linearity of the integer run *)
Definition pstep : linop -> list (Z * Z) -> option (list (Z * Z)) :=
  step_with (fun a b => Some (fst a + fst b, snd a + snd b)) (fun a b => Some (fst a + fst b, snd a + snd b))
    (fun a b => Some (fst a - fst b, snd a - snd b)) (fun a b => Some (fst a - fst b, snd a - snd b)) (fun a => Some (- fst a, - snd a))
    (fun a k => Some (k * fst a, k * snd a)) (fun a b k => Some (fst a + k * fst b, snd a + k * snd b)).
Ltac sims R := try (intros a b x y w Y1 Y2 [= <-]; unfold R in *; eexists; split; [reflexivity|]; cbn [fst snd]; subst; ring);
  try (intros a x w Y1 [= <-]; unfold R in *; eexists; split; [reflexivity|]; cbn [fst snd]; subst; ring);
  try (intros k a x w Y1 [= <-]; unfold R in *; eexists; split; [reflexivity|]; cbn [fst snd]; subst; ring);
  try (intros k a b x y w Y1 Y2 [= <-]; unfold R in *; eexists; split; [reflexivity|]; cbn [fst snd]; subst; ring).

Definition rfst (x : Z * Z) (u : Z) : Prop := u = fst x.
Definition rsnd (x : Z * Z) (u : Z) : Prop := u = snd x.
Definition rlin (d : Z) (u : Z) (x : Z * Z) : Prop := u = d * fst x + snd x.
Lemma pstep_fst op r r' v : Forall2 rfst r r' -> int_step op r' = Some v -> exists u, pstep op r = Some u /\ Forall2 rfst u v.
Proof. intros H X. refine (step_rel rfst _ _ _ _ _ _ _ _ _ _ _ _ _ _ op r r' v H _ _ _ _ _ _ _ X); sims rfst. Qed.
Lemma pstep_snd op r r' v : Forall2 rsnd r r' -> int_step op r' = Some v -> exists u, pstep op r = Some u /\ Forall2 rsnd u v.
Proof. intros H X. refine (step_rel rsnd _ _ _ _ _ _ _ _ _ _ _ _ _ _ op r r' v H _ _ _ _ _ _ _ X); sims rsnd. Qed.
Lemma pstep_lin d op r r' v : Forall2 (rlin d) r r' -> pstep op r' = Some v -> exists u, int_step op r = Some u /\ Forall2 (rlin d) u v.
Proof. intros H X. refine (step_rel (rlin d) _ _ _ _ _ _ _ _ _ _ _ _ _ _ op r r' v H _ _ _ _ _ _ _ X); sims rlin. Qed.

Lemma int_pair d p ms es vs ns : run_int p ms = Some vs -> run_int p es = Some ns -> length ms = length es ->
  run_int p (map (fun me => d * fst me + snd me) (combine ms es)) = Some (map (fun me => d * fst me + snd me) (combine vs ns)) /\ length vs = length ns.
Proof.
  intros E1 E2 L.
  destruct (run_rel rfst pstep int_step p (combine ms es) ms vs pstep_fst) as (out & Eo & Ho); [|exact E1|].
  { clear -L. revert es L; induction ms; intros [|] L; cbn in *; try discriminate; constructor; [reflexivity|]. apply IHms. lia. }
  destruct (run_rel rsnd pstep int_step p (combine ms es) es ns pstep_snd) as (out' & Eo' & Ho'); [|exact E2|].
  { clear -L. revert es L; induction ms; intros [|] L; cbn in *; try discriminate; constructor; [reflexivity|]. apply IHms. lia. }
  rewrite Eo in Eo'. injection Eo' as <-.
  destruct (run_rel (rlin d) int_step pstep p (map (fun me => d * fst me + snd me) (combine ms es)) (combine ms es) out (pstep_lin d)) as (us & Eu & Hu).
  - clear. induction (combine ms es) as [|x l IH]; constructor; [reflexivity|exact IH].
  - exact Eo.
  - change (run int_step) with run_int in Eu. rewrite Eu.
    assert (C1 : vs = map fst out) by (clear -Ho; induction Ho; cbn; [reflexivity|f_equal; assumption]).
    assert (C2 : ns = map snd out) by (clear -Ho'; induction Ho'; cbn; [reflexivity|f_equal; assumption]).
    rewrite C1, C2. split; [|rewrite !map_length; reflexivity].
    assert (C : combine (map fst out) (map snd out) = out) by (clear; induction out as [|[a b] l IH]; cbn; congruence).
    rewrite C. f_equal. clear -Hu. induction Hu; cbn; [reflexivity|f_equal; assumption].
Qed.

(** ** Bounds *)
Definition rabs' (E : Z) (n w : Z) : Prop := Z.abs n <= w * E.
Lemma weight_sim E op r r' v : 0 <= E -> Forall2 (rabs' E) r r' -> weight_step op r' = Some v -> exists u, int_step op r = Some u /\ Forall2 (rabs' E) u v.
Proof.
  intros HE H X. refine (step_rel (rabs' E) _ _ _ _ _ _ _ _ _ _ _ _ _ _ op r r' v H _ _ _ _ _ _ _ X); unfold rabs';
    [intros a b x y w Y1 Y2 [= <-]|intros a b x y w Y1 Y2 [= <-]|intros a b x y w Y1 Y2 [= <-]|intros a b x y w Y1 Y2 [= <-]|intros a x w Y1 [= <-]|intros k a x w Y1 [= <-]|intros k a b x y w Y1 Y2 [= <-]];
    (eexists; split; [reflexivity|]); try lia.
  - rewrite Z.abs_mul, <- Z.mul_assoc. apply Z.mul_le_mono_nonneg_l; lia.
  - assert (Z.abs (k * b) <= Z.abs k * (y * E)) by (rewrite Z.abs_mul; apply Z.mul_le_mono_nonneg_l; lia). lia.
Qed.
Lemma weight_bound E p es ws : Forall (fun e => Z.abs e <= E) es -> run_weight p (map (fun _ => 1) es) = Some ws ->
  exists ns, run_int p es = Some ns /\ Forall2 (fun n w => Z.abs n <= w * E) ns ws.
Proof.
  intros HE W. assert (0 <= E \/ es = []) as [H0| ->] by (destruct HE; [right; reflexivity|left; lia]).
  - destruct (run_rel (rabs' E) int_step weight_step p es (map (fun _ => 1) es) ws) as (u & Eu & Hu).
    + intros op r r' v. apply weight_sim, H0.
    + clear -HE. induction HE; constructor; [unfold rabs'; lia|assumption].
    + exact W.
    + exists u. split; [exact Eu|exact Hu].
  - destruct p as [|op p]; cbn in W; [injection W as <-; exists []; split; [reflexivity|constructor]|].
    destruct op as [[|?] ?|[|?] ?|[|?] ?|[|?] ?|[|?]|[|?] ?|[|?] ? ?]; discriminate.
Qed.

(** ** Decryption *)
Section Dec.
  Variables B i j : Z.
  Hypothesis Hij : 0 <= i < j.
  Hypothesis HB : j < B <= 64.
  Let t := 2 ^ i.
  Let q := 2 ^ j.

  Lemma msg_phase v n : (v * 2 ^ (j - i) + n) mod q = (v mod t * 2 ^ (j - i) + n) mod q.
  Proof.
    pose proof (pow2_pos i ltac:(lia)). pose proof (pow2_pos j ltac:(lia)). unfold q, t. apply cong_iff; [lia|]. exists (v / 2 ^ i).
    pose proof (Z.div_mod v (2 ^ i) ltac:(lia)) as E. assert (HD : 2 ^ j = 2 ^ i * 2 ^ (j - i)) by (rewrite <- Z.pow_add_r by lia; f_equal; lia).
    rewrite HD. rewrite E at 1. ring.
  Qed.

  Lemma decrypt_of_phase M s ct v n : 2 ^ i - 1 <= msg_max M -> length (la ct) = length s -> canonical q (la ct) -> phase q s ct = (v * 2 ^ (j - i) + n) mod q ->
    (- q <= 2 * t * n < q -> decrypt M B t q s ct = Some (v mod t) /\ decrypt_with_noise M B t q s ct = Some (v mod t, Z.abs n)) /\
    (- q <= 2 * n < q -> ~ (- q <= 2 * t * n < q) -> decrypt M B t q s ct <> Some (v mod t)).
  Proof.
    intros HM L C Ph. pose proof (pow2_pos i ltac:(lia)) as Ht. pose proof (Z.mod_pos_bound v (2 ^ i) Ht) as Hm. rewrite msg_phase in Ph.
    assert (Same : forall ct', length (la ct') = length s -> phase q s ct' = phase q s ct -> decrypt M B t q s ct' = decrypt M B t q s ct).
    { intros ct' L' P'. unfold t, q in *. rewrite !(decrypt_correct B i j) by (try lia; assumption). rewrite P'. reflexivity. }
    split.
    - intros Hn. destruct (encrypt_roundtrip B i j M s (la ct) n (v mod t) Hij HB L C Hm ltac:(unfold t; lia) Hn) as (ct' & _ & W & La & P & D & N).
      assert (L' : length (la ct') = length s) by (rewrite La; exact L).
      assert (PP : phase q s ct' = phase q s ct) by (unfold q, t in *; rewrite P, Ph; reflexivity).
      pose proof (Same ct' L' PP) as SD. assert (D' : decrypt M B t q s ct = Some (v mod t)) by (rewrite <- SD; exact D). split; [exact D'|].
      rewrite <- N. unfold t, q in *.
      rewrite (decrypt_with_noise_correct B i j Hij ltac:(lia) ltac:(lia) M s ct _ L D' Hm), (decrypt_with_noise_correct B i j Hij ltac:(lia) ltac:(lia) M s ct' _ L' D Hm), PP. reflexivity.
    - intros Hc Hn. destruct (encrypt_tight B i j M s (la ct) n (v mod t) Hij HB L Hm Hc Hn) as (ct' & E & D).
      unfold t, q in *. rewrite (encrypt_correct B i j) in E by (try lia; assumption). injection E as <-.
      match type of D with decrypt _ _ _ _ _ ?c <> _ => rewrite <- (Same c); [exact D|exact L|] end. rewrite Ph. apply encrypt_phase, Hij.
  Qed.

  Lemma fresh_holds s a m e x : length a = length s -> canonical q a -> 0 <= m < t -> fresh B t q s x (a, m, e) -> holds q s x (2 ^ (j - i) * m + e).
  Proof.
    intros L C Hm F. unfold fresh, t, q in *. rewrite (encrypt_correct B i j) in F by (try lia; assumption). injection F as <-. split.
    - split; [exact L|]. split; [exact C|]. apply Z.mod_pos_bound, pow2_pos. lia.
    - rewrite encrypt_phase by lia. f_equal. ring.
  Qed.

  Lemma linear_program M s (ins : list (list Z * Z * Z)) p cts vs ns : 2 ^ i - 1 <= msg_max M ->
    Forall (fun '(a, m, e) => length a = length s /\ canonical q a /\ 0 <= m < t) ins -> Forall2 (fresh B t q s) cts ins ->
    run_int p (map (fun x => snd (fst x)) ins) = Some vs -> run_int p (map snd ins) = Some ns ->
    exists out, run_lwe q (p2_mops B (q - 1)) p cts = Some out /\ length vs = length out /\ length ns = length out /\
      forall r x v n, nth_error out r = Some x -> nth_error vs r = Some v -> nth_error ns r = Some n ->
        phase q s x = (v * 2 ^ (j - i) + n) mod q /\
        (- q <= 2 * t * n < q -> decrypt M B t q s x = Some (v mod t) /\ decrypt_with_noise M B t q s x = Some (v mod t, Z.abs n)) /\
        (- q <= 2 * n < q -> ~ (- q <= 2 * t * n < q) -> decrypt M B t q s x <> Some (v mod t)).
  Proof.
    intros HM HI HF Ev En.
    destruct (int_pair (2 ^ (j - i)) p _ _ vs ns Ev En ltac:(rewrite !map_length; reflexivity)) as (Eu & LL).
    assert (HO : modulus_ops q (p2_mops B (q - 1))) by (apply mod_pow2; lia).
    assert (HC : Forall2 (holds q s) cts (map (fun me => 2 ^ (j - i) * fst me + snd me) (combine (map (fun x => snd (fst x)) ins) (map snd ins)))).
    { clear -HI HF Hij HB. induction HF as [|x [[a m] e] cts ins F HF IH]; cbn [map combine]; [constructor|].
      pose proof (Forall_inv HI) as (L & C & Hm). pose proof (Forall_inv_tail HI) as HI'. constructor; [apply (fresh_holds s a); assumption|apply IH; exact HI']. }
    destruct (run_phases q _ s p cts _ _ HO HC Eu) as (out & Eo & Ho).
    exists out. split; [exact Eo|].
    assert (Lo : length out = length vs).
    { apply Forall2_len in Ho. rewrite map_length, combine_length in Ho. lia. }
    split; [lia|]. split; [lia|]. intros r x v n Ex Ev' En'.
    assert (HX : holds q s x (2 ^ (j - i) * v + n)).
    { clear -Ho Ex Ev' En'. revert vs ns r Ho Ev' En' Ex. induction out as [|y out IH]; intros [|v0 vs] [|n0 ns] r Ho Ev En Ex; destruct r as [|r]; cbn in *; try discriminate; try (inversion Ho; fail).
      - injection Ex as <-. injection Ev as <-. injection En as <-. inversion Ho; subst. assumption.
      - inversion Ho; subst. apply (IH vs ns r); assumption. }
    destruct HX as [(L & C & _) Ph]. assert (Ph' : phase q s x = (v * 2 ^ (j - i) + n) mod q) by (rewrite Ph; f_equal; ring).
    split; [exact Ph'|]. apply decrypt_of_phase; assumption.
  Qed.

  Lemma linear_program_bound M s (ins : list (list Z * Z * Z)) E p cts vs ws : 2 ^ i - 1 <= msg_max M ->
    Forall (fun '(a, m, e) => length a = length s /\ canonical q a /\ 0 <= m < t /\ Z.abs e <= E) ins -> Forall2 (fresh B t q s) cts ins ->
    run_int p (map (fun x => snd (fst x)) ins) = Some vs -> run_weight p (map (fun _ => 1) ins) = Some ws ->
    exists out, run_lwe q (p2_mops B (q - 1)) p cts = Some out /\ length vs = length out /\ length ws = length out /\
      forall r x v w, nth_error out r = Some x -> nth_error vs r = Some v -> nth_error ws r = Some w ->
        2 * t * (w * E) < q -> decrypt M B t q s x = Some (v mod t).
  Proof.
    intros HM HI HF Ev Ew.
    destruct (weight_bound E p (map snd ins) ws) as (ns & En & Wb); [|rewrite map_map; exact Ew|].
    { clear -HI. induction HI as [|[[a m] e] l (_ & _ & _ & He) HI IH]; constructor; assumption. }
    destruct (linear_program M s ins p cts vs ns HM) as (out & Eo & L1 & L2 & H); [|exact HF|exact Ev|exact En|].
    { eapply Forall_impl; [|exact HI]. intros [[a m] e] (A & C & D & _). auto. }
    exists out. split; [exact Eo|]. split; [exact L1|]. split; [apply Forall2_len in Wb; lia|].
    intros r x v w Ex Ev' Ew' Hw. destruct (rel_nth _ _ _ _ _ Wb Ew') as (n & En' & Hn).
    destruct (H r x v n Ex Ev' En') as (_ & D & _). apply D. pose proof (pow2_pos i ltac:(lia)) as Ht. unfold t in *.
    assert (2 * 2 ^ i * Z.abs n <= 2 * 2 ^ i * (w * E)) by (apply Z.mul_le_mono_nonneg_l; lia).
    assert (2 * 2 ^ i * Z.abs n = Z.abs (2 * 2 ^ i * n)) by (rewrite Z.abs_mul, (Z.abs_eq (2 * 2 ^ i)) by lia; reflexivity). lia.
  Qed.
End Dec.
