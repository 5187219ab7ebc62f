(** Mean squares over independent draws. *)
From Coq Require Import ZArith List Bool Lia.
From Verif Require Import Spec.Moment.
Import ListNotations.
Local Open Scope Z_scope.

Section Wsum.
Context {A : Type}.
Implicit Types (D : dist A) (f g : A -> Z).
Definition nonneg D : Prop := Forall (fun xw => 0 <= snd xw) D.
Lemma wsum_app D D' f : wsum (D ++ D') f = wsum D f + wsum D' f.
Proof. induction D as [|[x w] D IH]; cbn [app wsum]; [ring|]. rewrite IH. ring. Qed.
Lemma wsum_ext D f g : (forall x w, In (x, w) D -> f x = g x) -> wsum D f = wsum D g.
Proof. induction D as [|[x w] D IH]; cbn [wsum]; intros H; [reflexivity|]. rewrite (H x w) by (left; reflexivity). rewrite IH; [reflexivity|]. intros y v Hy. apply (H y v). right. exact Hy. Qed.
Lemma wsum_add D f g : wsum D (fun x => f x + g x) = wsum D f + wsum D g.
Proof. induction D as [|[x w] D IH]; cbn [wsum]; [ring|]. rewrite IH. ring. Qed.
Lemma wsum_scale D c f : wsum D (fun x => c * f x) = c * wsum D f.
Proof. induction D as [|[x w] D IH]; cbn [wsum]; [ring|]. rewrite IH. ring. Qed.
Lemma wsum_const D c : wsum D (fun _ => c) = c * mass D.
Proof. unfold mass. rewrite <- wsum_scale. apply wsum_ext. intros. ring. Qed.
Lemma wsum_le D f g : nonneg D -> (forall x w, In (x, w) D -> f x <= g x) -> wsum D f <= wsum D g.
Proof.
  induction 1 as [|[x w] D Hw H IH]; cbn [wsum]; intros HF; [lia|]. cbn [snd] in Hw.
  assert (f x <= g x) by (apply (HF x w); left; reflexivity). assert (wsum D f <= wsum D g) by (apply IH; intros y v Hy; apply (HF y v); right; exact Hy).
  assert (w * f x <= w * g x) by (apply Z.mul_le_mono_nonneg_l; lia). lia.
Qed.
Lemma mass_nonneg D : nonneg D -> 0 <= mass D.
Proof. intros H. unfold mass. rewrite <- (Z.mul_0_l (mass D)), <- (wsum_const D 0). apply wsum_le; [exact H|]. intros. lia. Qed.
End Wsum.

Lemma wsum_map {A B : Type} (h : A -> B) (D : dist A) (f : B -> Z) : wsum (map (fun xw => (h (fst xw), snd xw)) D) f = wsum D (fun x => f (h x)).
Proof. induction D as [|[x w] D IH]; cbn [map wsum fst snd]; [reflexivity|]. rewrite IH. reflexivity. Qed.

Section Both.
Context {A B : Type}.
Variables (D : dist A) (D' : dist B).
Lemma wsum_both (f : A * B -> Z) : wsum (both D D') f = wsum D (fun x => wsum D' (fun y => f (x, y))).
Proof.
  unfold both. induction D as [|[x w] E IH]; cbn [flat_map wsum fst snd]; [reflexivity|]. rewrite wsum_app, IH. f_equal.
  clear IH E. induction D' as [|[y v] E IH]; cbn [map wsum fst snd]; [ring|]. rewrite IH. ring.
Qed.
Lemma mass_both : mass (both D D') = mass D * mass D'.
Proof. unfold mass at 1. rewrite wsum_both. change (wsum D' (fun _ => 1)) with (mass D'). rewrite wsum_const. ring. Qed.
Lemma nonneg_both : nonneg D -> nonneg D' -> nonneg (both D D').
Proof.
  unfold nonneg. rewrite !Forall_forall. intros H H' x Hx. unfold both in Hx. apply in_flat_map in Hx. destruct Hx as (xw & Hx & Hy).
  apply in_map_iff in Hy. destruct Hy as (yv & <- & Hy). cbn [snd]. apply Z.mul_nonneg_nonneg; [apply H; exact Hx|apply H'; exact Hy].
Qed.
Lemma in_both x y w : In ((x, y), w) (both D D') -> (exists v, In (x, v) D) /\ (exists v, In (y, v) D').
Proof.
  intros Hx. unfold both in Hx. apply in_flat_map in Hx. destruct Hx as ([x' v] & Hx & Hy).
  apply in_map_iff in Hy. destruct Hy as ([y' v'] & E & Hy). cbn [fst snd] in E. injection E as -> -> _. split; eexists; eassumption.
Qed.
End Both.

Section Each.
Context {A : Type}.
Variable D : dist A.
Lemma wsum_each_S n (f : list A -> Z) : wsum (each (S n) D) f = wsum D (fun x => wsum (each n D) (fun l => f (x :: l))).
Proof.
  cbn [each]. rewrite (wsum_map (fun xl => fst xl :: snd xl)). rewrite wsum_both. reflexivity.
Qed.
Lemma mass_each_S n : mass (each (S n) D) = mass D * mass (each n D).
Proof. unfold mass at 1. rewrite wsum_each_S. change (wsum (each n D) (fun _ => 1)) with (mass (each n D)). rewrite wsum_const. ring. Qed.
Lemma nonneg_each n : nonneg D -> nonneg (each n D).
Proof.
  intros H. induction n as [|n IH]; cbn [each]; [constructor; [cbn; lia|constructor]|].
  pose proof (nonneg_both D (each n D) H IH) as HB. unfold nonneg in *. rewrite Forall_forall in *. intros x Hx. apply in_map_iff in Hx.
  destruct Hx as (y & <- & Hy). cbn [snd]. apply HB. exact Hy.
Qed.
Lemma in_each n l w : In (l, w) (each n D) -> length l = n /\ Forall (fun x => exists v, In (x, v) D) l.
Proof.
  revert l w. induction n as [|n IH]; cbn [each]; intros l w H.
  - destruct H as [E|[]]. injection E as <- _. split; [reflexivity|constructor].
  - apply in_map_iff in H. destruct H as ([[x l'] v] & E & H). cbn [fst snd] in E. injection E as <- <-. apply in_both in H. destruct H as (Hx & (v' & Hl)).
    destruct (IH l' v' Hl) as (L & HF). split; [cbn [length]; congruence|]. constructor; assumption.
Qed.
End Each.

(** Zero mean and mean square at most [B]. *)
Definition sv {A : Type} (D : dist A) (f : A -> Z) (B : Z) : Prop :=
  wsum D f = 0 /\ wsum D (fun x => f x * f x) <= B * mass D.

Lemma sv_ext {A : Type} (D : dist A) f g B : (forall x w, In (x, w) D -> f x = g x) -> sv D f B -> sv D g B.
Proof.
  intros H (H1 & H2). split.
  - rewrite <- H1. symmetry. apply wsum_ext. exact H.
  - rewrite <- (wsum_ext D (fun x => f x * f x)); [exact H2|]. intros x w Hx. rewrite (H x w Hx). reflexivity.
Qed.
Lemma sv_weaken {A : Type} (D : dist A) f B B' : nonneg D -> B <= B' -> sv D f B -> sv D f B'.
Proof. intros HD HB (H1 & H2). split; [exact H1|]. etransitivity; [exact H2|]. apply Z.mul_le_mono_nonneg_r; [apply mass_nonneg; exact HD|exact HB]. Qed.
Lemma sv_zero {A : Type} (D : dist A) : sv D (fun _ => 0) 0.
Proof. split; rewrite wsum_const; lia. Qed.
Lemma sv_scale {A : Type} (D : dist A) c f B : sv D f B -> sv D (fun x => c * f x) (c * c * B).
Proof.
  intros (H1 & H2). split; [rewrite wsum_scale, H1; ring|].
  rewrite (wsum_ext D _ (fun x => (c * c) * (f x * f x))) by (intros; ring). rewrite wsum_scale. nia.
Qed.

(** The second summand may depend on the first draw. *)
Lemma sv_both {A B : Type} (D : dist A) (D' : dist B) f g V V' : nonneg D -> nonneg D' ->
  sv D f V -> (forall x w, In (x, w) D -> sv D' (g x) V') -> sv (both D D') (fun xy => f (fst xy) + g (fst xy) (snd xy)) (V + V').
Proof.
  intros HD HD' (F1 & F2) HG. split.
  - rewrite wsum_both. cbn [fst snd]. rewrite (wsum_ext D _ (fun x => mass D' * f x)).
    + rewrite wsum_scale, F1. ring.
    + intros x w Hx. rewrite wsum_add, wsum_const. destruct (HG x w Hx) as (-> & _). ring.
  - rewrite wsum_both. cbn [fst snd].
    apply Z.le_trans with (wsum D (fun x => mass D' * (f x * f x) + V' * mass D')).
    + apply wsum_le; [exact HD|]. intros x w Hx. destruct (HG x w Hx) as (G1 & G2).
      rewrite (wsum_ext D' _ (fun y => (f x * f x) + ((2 * f x) * g x y + g x y * g x y))) by (intros; ring).
      rewrite wsum_add, wsum_add, wsum_const, wsum_scale, G1. lia.
    + rewrite wsum_add, wsum_scale, wsum_const, mass_both. pose proof (mass_nonneg D' HD') as M'. nia.
Qed.

Lemma sv_each_S {A : Type} (D : dist A) n (f : A -> Z) (g : A -> list A -> Z) (h : list A -> Z) V V' : nonneg D ->
  sv D f V -> (forall x w, In (x, w) D -> sv (each n D) (g x) V') -> (forall x l, h (x :: l) = f x + g x l) -> sv (each (S n) D) h (V + V').
Proof.
  intros HD HF HG HE. destruct (sv_both D (each n D) f g V V' HD (nonneg_each D n HD) HF HG) as (H1 & H2). rewrite wsum_both in H1, H2. cbn [fst snd] in H1, H2.
  split.
  - rewrite wsum_each_S, <- H1. apply wsum_ext. intros x w _. apply wsum_ext. intros l v _. apply HE.
  - rewrite wsum_each_S, mass_each_S, <- mass_both. etransitivity; [|exact H2]. apply Z.eq_le_incl. apply wsum_ext. intros x w _. apply wsum_ext. intros l v _. rewrite HE. reflexivity.
Qed.

(** Rules shared by the bounds on the noise: [R D f B] says that [f] adds noise of size at most [B]. *)
Record calculus (R : forall A : Type, dist A -> (A -> Z) -> Z -> Prop) : Prop := {
  cal_ext : forall A (D : dist A) f g B, (forall x w, In (x, w) D -> f x = g x) -> R A D f B -> R A D g B;
  cal_weaken : forall A (D : dist A) f B B', nonneg D -> B <= B' -> R A D f B -> R A D f B';
  cal_zero : forall A (D : dist A), R A D (fun _ => 0) 0;
  cal_both : forall A B (D : dist A) (D' : dist B) f g V V', nonneg D -> nonneg D' -> R A D f V -> 0 <= V' ->
    (forall x w, In (x, w) D -> R B D' (g x) V') -> R (A * B)%type (both D D') (fun xy => f (fst xy) + g (fst xy) (snd xy)) (V + V');
  cal_each_S : forall A (D : dist A) n (f : A -> Z) (g : A -> list A -> Z) (h : list A -> Z) V V', nonneg D -> R A D f V -> 0 <= V' ->
    (forall x w, In (x, w) D -> R (list A) (each n D) (g x) V') -> (forall x l, h (x :: l) = f x + g x l) -> R (list A) (each (S n) D) h (V + V') }.
Lemma sv_calculus : calculus (@sv).
Proof.
  constructor.
  - intros A. apply sv_ext.
  - intros A. apply sv_weaken.
  - intros A. apply sv_zero.
  - intros A B D D' f g V V' HD HD' HF _ HG. apply sv_both; assumption.
  - intros A D n f g h V V' HD HF _ HG HE. exact (sv_each_S D n f g h V V' HD HF HG HE).
Qed.

(** Chebyshev. *)
Lemma chebyshev {A : Type} (D : dist A) (f : A -> Z) (bad : A -> bool) B T : nonneg D -> 0 <= T ->
  wsum D (fun x => f x * f x) <= B * mass D -> (forall x w, In (x, w) D -> bad x = true -> T <= Z.abs (f x)) ->
  wsum D (fun x => if bad x then 1 else 0) * (T * T) <= B * mass D.
Proof.
  intros HD HT HB H. rewrite Z.mul_comm, <- wsum_scale. etransitivity; [|exact HB]. apply wsum_le; [exact HD|]. intros x w Hx. specialize (H x w Hx).
  destruct (bad x); [|nia]. specialize (H eq_refl). rewrite <- (Z.abs_square (f x)). nia.
Qed.

Lemma nearest_cong p x : 0 < p -> (nearest p x) mod p = x mod p.
Proof.
  intros Hp. unfold nearest. cbv zeta. destruct (_ <? _); [apply Z.mod_mod; lia|].
  replace (x mod p - p) with (x mod p + (-1) * p) by ring. rewrite Z_mod_plus_full. apply Z.mod_mod. lia.
Qed.
Lemma nearest_le p x y : 0 < p -> x mod p = y mod p -> Z.abs (nearest p x) <= Z.abs y.
Proof.
  intros Hp E. unfold nearest. rewrite E. pose proof (Z.mod_pos_bound y p Hp). pose proof (Z.div_mod y p ltac:(lia)) as Ey. cbv zeta.
  destruct (Z.ltb_spec (2 * (y mod p)) p); destruct (Z.lt_trichotomy (y / p) 0) as [H1|[H1|H1]]; nia.
Qed.
