(** Polynomials with prescribed values at given points modulo a prime. *)
From Coq Require Import ZArith List Bool Arith Lia Znumtheory.
From Verif Require Import Spec.Basic Spec.Poly Proofs.Arith Proofs.NumTheory Proofs.PolyMath.
Import ListNotations.
Local Open Scope Z_scope.

Lemma mod_inverse p a : prime p -> ~ (p | a) -> exists b, cong p (a * b) 1.
Proof.
  intros Hp Ha. destruct (prime_rel_prime p Hp a Ha) as [_ _ _]. pose proof (prime_rel_prime p Hp a Ha) as R.
  destruct (rel_prime_bezout p a R) as [u v E]. exists v. exists (- u). lia.
Qed.

(** (X - x_1) ... (X - x_r). *)
Fixpoint vanish (l : list Z) : list Z :=
  match l with [] => [1] | x :: l' => padd (0 :: vanish l') (pscale (- x) (vanish l' ++ [0])) end.
Lemma pscale_length c a : length (pscale c a) = length a.
Proof. apply map_length. Qed.
Lemma vanish_length l : length (vanish l) = S (length l).
Proof.
  induction l as [|x l IH]; [reflexivity|]. cbn [vanish]. rewrite padd_length; cbn [length]; rewrite ?pscale_length, ?app_length, IH; cbn [length]; lia.
Qed.
Lemma vanish_ev l z : ev z (vanish l) = zprod (map (fun x => z - x) l).
Proof.
  induction l as [|x l IH]; [cbn [vanish ev map zprod]; ring|]. cbn [vanish map zprod]. rewrite ev_add by (cbn [length]; rewrite pscale_length, app_length, vanish_length; cbn [length]; lia).
  rewrite ev_scale, ev_app. cbn [ev]. rewrite IH. ring.
Qed.
Lemma zprod_zero l : In 0 l -> zprod l = 0.
Proof. induction l as [|x l IH]; intros H; [contradiction|]. cbn [zprod]. destruct H as [->|H]; [ring|]. rewrite (IH H). ring. Qed.
Lemma zprod_nz p l : prime p -> Forall (fun x => ~ (p | x)) l -> ~ (p | zprod l).
Proof.
  intros Hp. induction 1 as [|x l Hx H IH]; cbn [zprod]; [|apply prime_mul_nz; assumption].
  intros D. apply Z.divide_1_r in D. pose proof (prime_ge_2 p Hp). lia.
Qed.

Lemma interpolate p : prime p -> forall xs, incong p xs -> forall f : Z -> Z,
  exists R, length R = length xs /\ forall x, In x xs -> cong p (ev x R) (f x).
Proof.
  intros Hp. induction xs as [|x xs IH]; intros Hi f; [exists []; split; [reflexivity|intros x []]|].
  destruct Hi as [Hx Hi]. destruct (IH Hi f) as (R & LR & HR). set (v := zprod (map (fun y => x - y) xs)).
  assert (Hv : ~ (p | v)).
  { apply zprod_nz; [exact Hp|]. apply Forall_forall. intros d Hd. apply in_map_iff in Hd. destruct Hd as (y & <- & Hy). rewrite Forall_forall in Hx. exact (Hx y Hy). }
  destruct (mod_inverse p v Hp Hv) as (iv & Eiv). set (c := (f x - ev x R) * iv).
  exists (padd (R ++ [0]) (pscale c (vanish xs))).
  assert (LL : length (R ++ [0]) = length (pscale c (vanish xs))) by (rewrite pscale_length, vanish_length, app_length, LR; cbn [length]; lia).
  split; [rewrite padd_length by exact LL; rewrite app_length, LR; cbn [length]; lia|].
  intros y Hy. rewrite ev_add, ev_scale, ev_app, vanish_ev by exact LL. cbn [ev]. destruct Hy as [<-|Hy].
  - fold v. unfold c. transitivity (ev x R + (f x - ev x R) * (v * iv)); [apply cong_of_eq; ring|]. rewrite Eiv. apply cong_of_eq. ring.
  - rewrite (zprod_zero (map _ xs)); [|apply in_map_iff; exists y; split; [ring|exact Hy]]. rewrite <- (HR y Hy). apply cong_of_eq. ring.
Qed.
(** A polynomial of [n] coefficients whose coefficients from position [r] on are prescribed and which
    vanishes at up to [r] given points. *)
Lemma interpolate_high p r xs t : prime p -> incong p xs -> (length xs <= r)%nat ->
  exists Q, length Q = (r + length t)%nat /\ skipn r Q = t /\ forall x, In x xs -> cong p (ev x Q) 0.
Proof.
  intros Hp Hi Hr. destruct (interpolate p Hp xs Hi (fun x => - (npow x r * ev x t))) as (R & LR & HR).
  set (R' := R ++ repeat 0 (r - length xs)). assert (LR' : length R' = r) by (unfold R'; rewrite app_length, repeat_length, LR; lia).
  exists (R' ++ t). split; [rewrite app_length, LR'; reflexivity|].
  split; [rewrite skipn_app, LR', Nat.sub_diag, skipn_all2 by lia; reflexivity|].
  intros x Hx. rewrite ev_app, LR'. unfold R'. rewrite ev_app, ev_zeros. transitivity (ev x R + npow x r * ev x t); [apply cong_of_eq; ring|].
  rewrite (HR x Hx). apply cong_of_eq. ring.
Qed.
