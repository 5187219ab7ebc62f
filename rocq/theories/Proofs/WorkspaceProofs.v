(** Workspaces of the wrong length are refused. *)
From Coq Require Import ZArith List Arith Lia.
From Verif Require Import Model.Base Model.Field Model.NTT Model.Concrete Model.Poly Model.Rlwe Model.Gadget.
Import ListNotations.
Local Open Scope Z_scope.

Lemma loop_refuses F T step b dlen rows f acc :
  dlen <> length f -> rows <> [] -> gadget_loop F T step b dlen rows f acc = None.
Proof.
  intros Hd Hr. destruct rows as [|g rows]; [congruence|]. cbn [gadget_loop].
  apply Nat.eqb_neq in Hd. rewrite Hd. reflexivity.
Qed.

Lemma inplace_refuses step F tbl G f dlen plen dst :
  plen <> length f \/ (dlen <> length f /\ gd G <> []) ->
  ng_mul_polynomial_inplace_with step F tbl G f dlen plen dst = None.
Proof.
  intros H. unfold ng_mul_polynomial_inplace_with. destruct (lookup tbl f) as [T|]; [|reflexivity]. cbn [bind].
  destruct (Nat.eqb_spec plen (length f)) as [E|E]; [|reflexivity]. cbn [assert bind].
  destruct H as [H|[H H']]; [congruence|]. apply loop_refuses; assumption.
Qed.

Lemma add_refuses step F tbl x G f dlen plen :
  plen <> length f \/ (dlen <> length f /\ gd G <> []) ->
  nrlwe_add_gadget_mul_with step F tbl x G f dlen plen = None.
Proof.
  intros H. unfold nrlwe_add_gadget_mul_with. destruct (Nat.eqb_spec (length f) plen) as [E|E]; [|reflexivity]. cbn [assert bind].
  destruct (lookup tbl f) as [T|]; [|reflexivity]. cbn [bind].
  destruct H as [H|[H H']]; [congruence|]. apply loop_refuses; assumption.
Qed.

Lemma mapM_len {A C} (g : A -> option C) l r : mapM g l = Some r -> length r = length l.
Proof.
  revert r. induction l as [|x l IH]; intros r H; cbn in H; [injection H as <-; reflexivity|].
  destruct (g x); [|discriminate]. cbn in H. destruct (mapM g l); [|discriminate].
  cbn in H. injection H as <-. cbn. f_equal. apply IH. reflexivity.
Qed.

Lemma sub_refuses step F tbl x G f dlen :
  dlen <> length f -> gd G <> [] -> nrlwe_sub_gadget_mul_with step F tbl x G f dlen = None.
Proof.
  intros Hd Hg. unfold nrlwe_sub_gadget_mul_with. destruct (lookup tbl f) as [T|]; [|reflexivity]. cbn [bind].
  destruct (p_neg F f) as [g|] eqn:E; [|reflexivity]. cbn [bind].
  apply mapM_len in E. apply loop_refuses; congruence.
Qed.

Lemma workspace_main F tbl G f x dlen plen :
  (plen <> length f \/ (dlen <> length f /\ gd G <> []) ->
    ng_mul_polynomial_inplace F tbl G f dlen plen x = None /\
    ng_mul_polynomial_inplace_fast F tbl G f dlen plen x = None /\
    nrlwe_add_gadget_mul_assign F tbl x G f dlen plen = None /\
    nrlwe_add_gadget_mul_assign_fast F tbl x G f dlen plen = None) /\
  (dlen <> length f -> gd G <> [] ->
    nrlwe_add_gadget_mul_inplace_fast F tbl x G f dlen = None /\
    nrlwe_sub_gadget_mul F tbl x G f dlen = None /\
    nrlwe_sub_gadget_mul_fast F tbl x G f dlen = None).
Proof.
  split; [intros H|intros Hd Hg].
  - repeat split; [apply inplace_refuses|apply inplace_refuses|apply add_refuses|apply add_refuses]; exact H.
  - repeat split; [|apply sub_refuses; assumption|apply sub_refuses; assumption].
    unfold nrlwe_add_gadget_mul_inplace_fast. destruct (lookup tbl f) as [T|]; [|reflexivity]. cbn [bind].
    apply loop_refuses; assumption.
Qed.

Lemma workspace_rgsw F tbl R x med dst dlen plen :
  length (ra x) = length (rb x) ->
  plen <> length (ra x) \/ (dlen <> length (ra x) /\ (gd (c_neg R) <> [] \/ gd (c_m R) <> [])) ->
  rlwe_mul_ntt_rgsw_inplace F tbl x R dlen plen med dst = None /\
  rlwe_mul_assign_ntt_rgsw F tbl x R dlen plen med = None.
Proof.
  intros L H.
  enough (E : forall d, rlwe_mul_ntt_rgsw_inplace F tbl x R dlen plen med d = None).
  { split; [apply E|]. unfold rlwe_mul_assign_ntt_rgsw. apply E. }
  intros d. unfold rlwe_mul_ntt_rgsw_inplace, ng_mul_polynomial_inplace_fast, nrlwe_add_gadget_mul_assign_fast.
  destruct (ng_mul_polynomial_inplace_with _ F tbl (c_neg R) (ra x) dlen plen med) as [t|] eqn:E1; [|reflexivity].
  cbn [bind]. rewrite add_refuses; [reflexivity|]. rewrite <- L.
  destruct H as [H|[Hd [H|H]]]; [left; exact H| |right; split; assumption].
  rewrite inplace_refuses in E1; [discriminate|]. right; split; assumption.
Qed.
