(** Shoup factors. [algebra/src/modulus/shoup/{mod,internal_macros}.rs]. *)
From Coq Require Import ZArith List Bool.
From Verif Require Import Model.Base.
Local Open Scope Z_scope.

(** [shoup/mod.rs:9-15]. *)
Record shoup := mk_shoup { sh_value : Z; sh_quotient : Z }.

(** [internal_macros.rs:8-14]. *)
Definition shoup_new (B v m : Z) : option shoup :=
  let* _ := assert (v <? m) in
  let* q := udiv (v * 2 ^ B) m in
  Some (mk_shoup v (ucast B q)).

(** [internal_macros.rs:18-22]. *)
Definition shoup_set_modulus (B : Z) (s : shoup) (m : Z) : option shoup :=
  let* _ := assert (sh_value s <? m) in
  let* q := udiv (sh_value s * 2 ^ B) m in
  Some (mk_shoup (sh_value s) (ucast B q)).

(** [internal_macros.rs:28-31]. *)
Definition shoup_set (B : Z) (s : shoup) (v m : Z) : option shoup :=
  shoup_set_modulus B (mk_shoup v (sh_quotient s)) m.

(** [internal_macros.rs:49-54]. *)
Definition shoup_mul_lazy (B : Z) (s : shoup) (x m : Z) : Z :=
  let hw := widening_mul_hw B (sh_quotient s) x in
  wsub B (wmul B (sh_value s) x) (wmul B hw m).

(** [internal_macros.rs:72-80,90-98,110-113]. *)
Definition shoup_mul (B : Z) (s : shoup) (x m : Z) : option Z :=
  let tmp := shoup_mul_lazy B s x m in
  if m <=? tmp then usub tmp m else Some tmp.
