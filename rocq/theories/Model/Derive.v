(** What the derive macros accept. [algebra_derive/src/{ast,attr,field}.rs].

    The syntax tree of [syn] is the one of [Spec/Declare.v].  [None] is a compile error; the texts of the errors
    are not modelled. *)
From Coq Require Import ZArith List Bool String.
From Verif Require Import Spec.Declare Model.Base Model.Field.
Import ListNotations.
Local Open Scope Z_scope.

(** std [uN::from_str] on [LitInt::base10_digits()] ([attr.rs:79,91,103,115]): no digits is an error, every
    step is checked. *)
Fixpoint parse_digits (B acc : Z) (ds : list Z) : option Z :=
  match ds with
  | [] => Some acc
  | d :: ds' =>
      let* _ := assert ((48 <=? d) && (d <=? 57)) in
      let* t := umul B acc 10 in
      let* t := uadd B t (d - 48) in
      parse_digits B t ds'
  end.
(** std [uN::from_str] at [attr.rs:79,91,103,115]. *)
Definition parse_word (B : Z) (ds : list Z) : option Z :=
  match ds with [] => None | _ => parse_digits B 0 ds end.

(** [ModulusValue], [attr.rs:9-15]: width and value.  [parse_modulus_value], [attr.rs:71-138]. *)
Definition parse_modulus_value (ds : list Z) (ty : inner_type) : option (Z * Z) :=
  match ty with
  | TypePath name =>
      if (name =? "u8")%string then let* v := parse_word 8 ds in Some (8, v)
      else if (name =? "u16")%string then let* v := parse_word 16 ds in Some (16, v)
      else if (name =? "u32")%string then let* v := parse_word 32 ds in Some (32, v)
      else if (name =? "u64")%string then let* v := parse_word 64 ds in Some (64, v)
      else None
  | TypeOther => None
  end.

(** [path().is_ident("modulus")], [attr.rs:57]. *)
Definition is_modulus (a : attribute) : bool :=
  match at_ident a with Some s => (s =? "modulus")%string | None => false end.
(** [attr::get], [attr.rs:53-69]: attributes of another form are passed over, the first integer literal is
    decisive. *)
Fixpoint attr_get (attrs : list attribute) (ty : inner_type) : option (Z * Z) :=
  match attrs with
  | [] => None
  | a :: attrs' =>
      if is_modulus a then
        match at_meta a with
        | MetaNameValue (ExprLit (LitInt ds _)) => parse_modulus_value ds ty
        | _ => attr_get attrs' ty
        end
      else attr_get attrs' ty
  end.

(** [Field::from_syn], [ast.rs:53-64]. *)
Definition field_from_syn (f : struct_field) : option inner_type :=
  match sf_name f with Some _ => None | None => Some (sf_type f) end.
(** [Input::from_syn], [ast.rs:21-49], as used by all five macros ([field.rs:12-15], [prime.rs:7-11],
    [decomposable_field.rs:7-11], [fhe_field.rs:7-11], [ntt.rs:7-11]): width and value of the modulus. *)
Definition input_from_syn (it : item) : option (Z * Z) :=
  match it_data it with
  | DataStruct fields =>
      match fields with
      | [] => None
      | f :: rest =>
          let* _ := assert (match rest with [] => true | _ => false end) in
          let* ty := field_from_syn f in
          attr_get (it_attrs it) ty
      end
  | DataEnum | DataUnion => None
  end.

(** [#[derive(Field)]], [field.rs:12-22]: the size check and the constants of [derive_field]. *)
Definition derive_item (it : item) : option field :=
  let* '(B, p) := input_from_syn it in derive_field B p.
