(** Declarations of field types as the derive macros receive them, and what they declare. *)
From Coq Require Import ZArith List String.
From Verif Require Import Spec.Decimal.
Import ListNotations.
Local Open Scope Z_scope.

(** An integer literal: its decimal digits as character codes and its type suffix. *)
Inductive literal := LitInt (digits : list Z) (suffix : string) | LitOther.
(** The right-hand side of [#[name = ...]]. *)
Inductive attr_expr := ExprLit (l : literal) | ExprOther.
(** [#[name]], [#[name(...)]] or [#[name = ...]]. *)
Inductive attr_meta := MetaPath | MetaList | MetaNameValue (e : attr_expr).
(** An attribute: its path when that is one identifier, and the rest. *)
Record attribute := mk_attribute { at_ident : option string; at_meta : attr_meta }.

(** The type of a field of the structure: a path, as its tokens print, or another type. *)
Inductive inner_type := TypePath (tokens : string) | TypeOther.
(** A field: its name, if it has one, and its type. *)
Record struct_field := mk_struct_field { sf_name : option string; sf_type : inner_type }.
(** What is declared. *)
Inductive item_data := DataStruct (fields : list struct_field) | DataEnum | DataUnion.
Record item := mk_item { it_attrs : list attribute; it_data : item_data }.

(** The supported word types. *)
Definition word_type (B : Z) (name : string) : Prop :=
  (B = 8 /\ name = "u8"%string) \/ (B = 16 /\ name = "u16"%string) \/ (B = 32 /\ name = "u32"%string) \/ (B = 64 /\ name = "u64"%string).

(** [#[modulus = n]] for an integer literal n. *)
Definition gives_modulus (ds : list Z) (a : attribute) : Prop :=
  at_ident a = Some "modulus"%string /\ exists suffix, at_meta a = MetaNameValue (ExprLit (LitInt ds suffix)).

(** The item is a structure around one unnamed word of [B] bits and its first such attribute gives [p]. *)
Definition declares (it : item) (B p : Z) : Prop :=
  exists name before a after ds,
    word_type B name /\ it_data it = DataStruct [mk_struct_field None (TypePath name)] /\
    it_attrs it = before ++ a :: after /\ gives_modulus ds a /\ (forall b ds', In b before -> ~ gives_modulus ds' b) /\
    read_decimal ds = p.

(** Literals as the compiler hands them over: at least one digit. *)
Definition lexed (it : item) : Prop :=
  forall a ds suffix, In a (it_attrs it) -> at_meta a = MetaNameValue (ExprLit (LitInt ds suffix)) -> ds <> [] /\ Forall is_digit ds.
