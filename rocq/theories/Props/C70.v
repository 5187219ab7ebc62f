(** C70: which field declarations are accepted, and that an accepted one has the declared modulus. *)
From Coq Require Import ZArith List Bool String.
From Verif Require Import Spec.Basic Spec.Decimal Spec.Declare Model.Base Model.Field Model.Derive Proofs.FieldProofs Proofs.DeriveProofs.
Import ListNotations.
Local Open Scope Z_scope.

(** [derive(Field)] accepts an item exactly when it is a structure around one unnamed u8, u16, u32 or u64 whose
    first integer modulus attribute is a number from 2 below a quarter of the range of the word. *)
Theorem C70_accepts (it : item) : lexed it ->
  ((exists F, derive_item it = Some F) <-> exists B p, declares it B p /\ 2 <= p < 2 ^ (B - 2)).
Proof. exact (derive_accepts it). Qed.
Print Assumptions C70_accepts.

(** The field type it makes has that word and that modulus, nothing truncated, and no other reading is possible. *)
Theorem C70_modulus (it : item) (F : field) (B p : Z) : lexed it -> derive_item it = Some F -> declares it B p ->
  fw F = B /\ fp F = p /\ derive_field B p = Some F.
Proof.
  intros HL E D. destruct (derive_declared it F HL E) as (D' & HF). destruct (declares_unique it B p _ _ D D') as (-> & ->). auto.
Qed.
Print Assumptions C70_modulus.

(** Every derive macro reads the same width and modulus: an integer that does not fit the word is an error. *)
Theorem C70_macros (it : item) (B p : Z) : lexed it -> (input_from_syn it = Some (B, p) <-> declares it B p /\ p < 2 ^ B).
Proof. exact (input_ok it B p). Qed.
Print Assumptions C70_macros.

(** A deciding literal that is not a sequence of digits is refused, without assuming that the compiler never hands one over. *)
Theorem C70_digits (it : item) (B p : Z) : input_from_syn it = Some (B, p) ->
  exists before a after ds, it_attrs it = before ++ a :: after /\ gives_modulus ds a /\ (forall b ds', In b before -> ~ gives_modulus ds' b) /\
    ds <> [] /\ Forall is_digit ds.
Proof. exact (input_digits it (B, p)). Qed.
Print Assumptions C70_digits.

(** A declaration with other attributes before the deciding one and another after it, and refused ones. *)
Definition ex_attr (digits : list Z) : attribute := mk_attribute (Some "modulus"%string) (MetaNameValue (ExprLit (LitInt digits ""))).
Definition ex_item (attrs : list attribute) (ty : string) : item := mk_item attrs (DataStruct [mk_struct_field None (TypePath ty)]).
Definition ex_12289 : list Z := [49; 50; 50; 56; 57].
Example C70_ex :
  let it := ex_item [mk_attribute (Some "doc"%string) (MetaNameValue (ExprLit LitOther)); mk_attribute (Some "modulus"%string) MetaList; ex_attr ex_12289; ex_attr [55]] "u16" in
  lexed it /\ declares it 16 12289 /\ (exists F, derive_item it = Some F /\ fp F = 12289) /\
  derive_item (ex_item [ex_attr ex_12289] "u8") = None /\ derive_item (ex_item [ex_attr [54; 52]] "u8") = None /\
  (exists F, derive_item (ex_item [ex_attr [54; 51]] "u8") = Some F) /\ derive_item (ex_item [ex_attr [49]] "u8") = None /\ derive_item (ex_item [] "u8") = None /\
  derive_item (ex_item [ex_attr [55]] "u128") = None /\ derive_item (mk_item [ex_attr [55]] (DataStruct [mk_struct_field (Some "x"%string) (TypePath "u8")])) = None /\
  derive_item (mk_item [ex_attr [55]] (DataStruct [mk_struct_field None (TypePath "u8"); mk_struct_field None (TypePath "u8")])) = None /\ derive_item (mk_item [ex_attr [55]] DataEnum) = None.
Proof.
  assert (D : Forall is_digit ex_12289) by (unfold ex_12289, is_digit; repeat constructor; discriminate).
  split; [|split; [|split]].
  - intros a ds s Hin Hm. destruct Hin as [<-|[<-|[<-|[<-|[]]]]]; try discriminate; injection Hm as <- <-; (split; [discriminate|]).
    + exact D.
    + repeat constructor; discriminate.
  - exists "u16"%string, [mk_attribute (Some "doc"%string) (MetaNameValue (ExprLit LitOther)); mk_attribute (Some "modulus"%string) MetaList], (ex_attr ex_12289), [ex_attr [55]], ex_12289.
    split; [right; left; split; reflexivity|]. split; [reflexivity|]. split; [reflexivity|]. split; [split; [reflexivity|exists ""%string; reflexivity]|].
    split; [|reflexivity]. intros b ds' [<-|[<-|[]]] (H & s & H'); discriminate.
  - eexists. split; [vm_compute; reflexivity|vm_compute; reflexivity].
  - split; [vm_compute; reflexivity|]. split; [vm_compute; reflexivity|]. split; [eexists; vm_compute; reflexivity|]. repeat (split; [vm_compute; reflexivity|]). vm_compute; reflexivity.
Qed.
