(** Specification vocabulary for ring ciphertexts.  The ring is Z_p[X]/(X^n + 1); elements are
    lists of [n] integers compared modulo [p]. *)
From Coq Require Import ZArith List.
From Verif Require Import Spec.Basic Spec.Poly Model.Field Model.Rlwe Model.Gadget.
Import ListNotations.
Local Open Scope Z_scope.

(** A well-formed RLWE ciphertext: dimension [n], canonical entries modulo [p]. *)
Definition rlwe_wf (p : Z) (n : nat) (x : rlwe) : Prop :=
  length (ra x) = n /\ length (rb x) = n /\ canonical p (ra x) /\ canonical p (rb x).

(** The phase b - a*s, before reduction modulo [p]. *)
Definition rphase (n : nat) (s : list Z) (x : rlwe) : list Z := psub (rb x) (negacyclic n (ra x) s).

(** The ring combination d_0 e_0 + d_1 e_1 + ... *)
Fixpoint lincomb (n : nat) (ds es : list (list Z)) : list Z :=
  match ds, es with
  | d :: ds', e :: es' => padd (negacyclic n d e) (lincomb n ds' es')
  | _, _ => repeat 0 n
  end.

(** [ds] are the [l] digit polynomials of [f] in base [b]: entries in [0, b), and coefficient by
    coefficient sum_j b^j ds_j = f. *)
Definition gadget_digits (b : Z) (l : nat) (f : list Z) (ds : list (list Z)) : Prop :=
  length ds = l /\
  Forall (fun d => length d = length f /\ Forall (fun x => 0 <= x < b) d) ds /\
  forall i, (i < length f)%nat -> digits_value b (map (fun d => nth i d 0) ds) = nth i f 0.

(** Row [i] of [rows] has phase b^i * m + e_i. *)
Definition gadget_encrypts (p : Z) (n : nat) (s : list Z) (b : Z) (m : list Z) (rows : list rlwe) (es : list (list Z)) : Prop :=
  length es = length rows /\
  forall i, (i < length rows)%nat -> length (nth i es []) = n /\
    pcong p (rphase n s (nth i rows (mk_rlwe [] []))) (padd (pscale (b ^ Z.of_nat i) m) (nth i es [])).

(** All coefficients are at most [E] in absolute value. *)
Definition bounded (E : Z) (a : list Z) : Prop := Forall (fun x => Z.abs x <= E) a.

(** The key (s_0, -s_{n-1}, ..., -s_1). *)
Definition revkey (s : list Z) : list Z := match s with [] => [] | s0 :: r => s0 :: pneg (rev r) end.

(** [s] padded with zeros to length [n]. *)
Definition pad (n : nat) (s : list Z) : list Z := s ++ repeat 0 (n - length s).

(** A well-formed gadget ciphertext for the basis [b]: [bs_len b] well-formed rows. *)
Definition gadget_wf (p : Z) (n : nat) (b : basis) (G : gadget) : Prop :=
  gb G = b /\ length (gd G) = bs_len b /\ Forall (rlwe_wf p n) (gd G).

(** [ct] is [x] plus the product of the gadget ciphertext with rows [rows] and the polynomial [f]:
    whatever the key and message, its phase is phase(x) + m*f plus the digit-weighted row noise. *)
Definition gadget_product (p : Z) (n : nat) (base : Z) (rows : list rlwe) (x : rlwe) (f : list Z) (ct : rlwe) : Prop :=
  rlwe_wf p n ct /\
  exists ds, gadget_digits base (length rows) f ds /\
  forall s m es, length s = n -> length m = n -> gadget_encrypts p n s base m rows es ->
    pcong p (rphase n s ct) (padd (rphase n s x) (padd (negacyclic n m f) (lincomb n ds es))).

(** RGSW encryption of [m]: rows of phase -s*m*b^i + e_i and m*b^i + e'_i. *)
Definition rgsw_wf (p : Z) (n : nat) (b : basis) (R : rgsw) : Prop := gadget_wf p n b (c_neg R) /\ gadget_wf p n b (c_m R).
Definition rgsw_encrypts (p : Z) (n : nat) (s : list Z) (base : Z) (m : list Z) (R : rgsw) (es es' : list (list Z)) : Prop :=
  gadget_encrypts p n s base (pneg (negacyclic n m s)) (gd (c_neg R)) es /\
  gadget_encrypts p n s base m (gd (c_m R)) es'.

(** [ct] is the external product of [x] and [R]. *)
Definition external_product (p : Z) (n : nat) (base : Z) (R : rgsw) (x ct : rlwe) : Prop :=
  rlwe_wf p n ct /\
  exists da db, gadget_digits base (length (gd (c_neg R))) (ra x) da /\ gadget_digits base (length (gd (c_m R))) (rb x) db /\
  forall s m es es', length s = n -> length m = n -> rgsw_encrypts p n s base m R es es' ->
    pcong p (rphase n s ct) (padd (negacyclic n m (rphase n s x)) (padd (lincomb n da es) (lincomb n db es'))).
