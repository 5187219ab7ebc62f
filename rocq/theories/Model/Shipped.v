(** The two parameter sets shipped, [bool/src/bfhe/parameters.rs].  Standard deviations are left out as in
    [Model.Params]; [DefaultFieldU32::MODULUS_VALUE] is 132120577, and ciphertext words have 16 bits. *)
From Coq Require Import ZArith.
From Verif Require Import Model.Params.
Local Open Scope Z_scope.

(** [DEFAULT_TERNARY_128_BITS_PARAMETERS], [bool/src/bfhe/parameters.rs:8-26]. *)
Definition default_set : const_params := mk_const_params 1024 4 1024 LTernary 1024 132120577 RTernary 3 BrKsMs 1.
(** [CUSTOM_TERNARY_128_BITS_PARAMETERS], [bool/src/bfhe/parameters.rs:29-47]. *)
Definition custom_set : const_params := mk_const_params 512 4 16384 LTernary 1024 132120577 RTernary 7 BrMsKs 7.
