(** What C76 says: the two build profiles. *)
From Coq Require Import ZArith List.
From Verif Require Import Model.Base Model.Lwe Model.Field Model.NTT Model.Concrete Model.Poly Model.Params Model.Boolean Model.OptArith Model.OptRing Model.OptScheme Spec.Gates.
Local Open Scope Z_scope.

(** Whenever the checked build returns, the optimised one returns the same value. *)
Definition agrees {A : Type} (checked optimised : option A) : Prop :=
  forall v, checked = Some v -> optimised = Some v.

(** The same for every operation of a modulus. *)
Definition moduli_agree (O O' : mops) : Prop :=
  (forall a b, agrees (o_add O a b) (o_add O' a b)) /\ (forall a b, agrees (o_sub O a b) (o_sub O' a b)) /\
  (forall a b, agrees (o_sub_assign O a b) (o_sub_assign O' a b)) /\ (forall a, agrees (o_neg O a) (o_neg O' a)) /\
  (forall a b, agrees (o_mul O a b) (o_mul O' a b)).

(** A circuit of gates run in the optimised build; as [crun] of [Spec.Gates]. *)
Fixpoint crun_o (B : Z) (F : field) (tbl : tables) (K : eval_key) (x : nat -> lwe) (c : circuit) : option lwe :=
  let run := crun_o B F tbl K x in
  match c with
  | CInput i => Some (x i)
  | CNot a => let* y := run a in g_not_o B K y
  | CNand a b => lift2 (g_nand_o B F tbl K) (run a) (run b)
  | CAnd a b => lift2 (g_and_o B F tbl K) (run a) (run b)
  | COr a b => lift2 (g_or_o B F tbl K) (run a) (run b)
  | CNor a b => lift2 (g_nor_o B F tbl K) (run a) (run b)
  | CXor a b => lift2 (g_xor_o B F tbl K) (run a) (run b)
  | CXnor a b => lift2 (g_xnor_o B F tbl K) (run a) (run b)
  | CMajority a b c => lift3 (g_majority_o B F tbl K) (run a) (run b) (run c)
  | CMux a b c => lift3 (g_mux_o B F tbl K) (run a) (run b) (run c)
  end.
