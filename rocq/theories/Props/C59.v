(** C59: decomposition into caller-supplied buffers. *)
From Coq Require Import ZArith List Bool Lia.
From Verif Require Import Spec.Basic Model.Base Model.Field Model.DecomposeAt.
From Verif Require Import Proofs.Arith Proofs.FieldProofs Proofs.DecomposeAtProofs.
Import ListNotations.
Local Open Scope Z_scope.

(** Whatever the buffers held, they end up holding the digits, which recompose to the polynomial, and
    the polynomial itself ends up zero. *)
Theorem C59_decompose_inplace (B p bits : Z) (F : field) (b : basis) (a : list Z) (dest : list (list Z)) :
  wwidth B -> 0 <= p -> derive_field B p = Some F -> 0 <= bits -> basis_new F bits = Some b ->
  canonical p a -> length dest = bs_len b -> Forall (fun d => length d = length a) dest ->
  exists ds, p_decompose_inplace F b a dest = Some (repeat 0 (length a), ds) /\ poly_decompose F b a = Some ds /\
    length ds = bs_len b /\ Forall (fun d => length d = length a) ds /\
    forall i, (i < length a)%nat ->
      Forall (fun x => 0 <= x < 2 ^ bits) (map (fun d => nth i d 0) ds) /\
      digits_value (2 ^ bits) (map (fun d => nth i d 0) ds) = nth i a 0.
Proof.
  intros HB Hp HF H0 Hb Ha Ld Hd. destruct (derive_field_ok B p F HB Hp HF) as (Hok & _ & <-).
  exists (pdigs bits (bs_len b) a). split; [now apply inplace_ok|]. split; [now apply poly_decompose_correct|].
  destruct (poly_decompose_full F bits b a Hok Hb H0 Ha) as (ds & E & L & FL & _). rewrite poly_decompose_correct with (bits := bits) in E by assumption.
  injection E as <-. split; [exact L|]. split; [exact FL|]. intros i Hi. rewrite map_nth_pdigs by exact Hi.
  assert (Hv : 0 <= nth i a 0 < fp F) by (unfold canonical in Ha; rewrite Forall_forall in Ha; apply Ha, nth_In, Hi).
  destruct (decompose_full F bits b _ Hok Hb H0 Hv) as (d & _ & _ & R & V & ->). split; [exact R|exact V].
Qed.
Print Assumptions C59_decompose_inplace.

(** One digit at a time: the buffer receives the lowest digit and the polynomial keeps the rest. *)
Theorem C59_lsb_inplace (B p bits : Z) (F : field) (b : basis) (a dest : list Z) :
  wwidth B -> 0 <= p -> derive_field B p = Some F -> 0 <= bits -> basis_new F bits = Some b -> length dest = length a ->
  p_lsb_inplace F b a dest = Some (map (fun v => v / 2 ^ bits) a, map (fun v => v mod 2 ^ bits) a).
Proof.
  intros HB Hp HF H0 Hb L. destruct (derive_field_ok B p F HB Hp HF) as (Hok & _ & _). now apply lsb_ok.
Qed.
Print Assumptions C59_lsb_inplace.

(** Buffers of the wrong number or size are refused. *)
Theorem C59_bad_buffers (F : field) (b : basis) (a d1 : list Z) (dest : list (list Z)) :
  (length dest <> bs_len b \/ (exists d, In d dest /\ length d <> length a) -> p_decompose_inplace F b a dest = None) /\
  (length d1 <> length a -> p_lsb_inplace F b a d1 = None).
Proof.
  unfold p_decompose_inplace, p_lsb_inplace, assert. split.
  - intros [H|H]; [destruct (Nat.eqb_spec (length dest) (bs_len b)); [contradiction|reflexivity]|].
    rewrite rows_bad by exact H. now destruct (length dest =? bs_len b)%nat.
  - intros H. destruct (Nat.eqb_spec (length d1) (length a)); [contradiction|reflexivity].
Qed.
Print Assumptions C59_bad_buffers.

Example C59_ex : exists F b, derive_field 32 132120577 = Some F /\ basis_new F 9 = Some b /\ bs_len b = 3%nat /\
  p_decompose_inplace F b [513; 132120576] [[9; 9]; [8; 8]; [7; 7]] = Some ([0; 0], [[1; 0]; [1; 0]; [0; 504]]) /\
  p_lsb_inplace F b [513; 132120576] [9; 9] = Some ([1; 258048], [1; 0]) /\ p_decompose_inplace F b [513] [[9]; [8; 8]; [7]] = None.
Proof. do 2 eexists. split; [vm_compute; reflexivity|]. split; [vm_compute; reflexivity|]. vm_compute. auto 10. Qed.
