(** Key switching. [fhe_core/src/key_switch/{lwe,rlwe}.rs], [lattice/src/utils/decompose_basis.rs]. *)
From Coq Require Import ZArith List Bool.
From Verif Require Import Model.Base Model.Barrett Model.PowOf2 Model.Reduce Model.Field Model.NTT Model.Poly Model.Lwe Model.Rlwe Model.Gadget.
Import ListNotations.
Local Open Scope Z_scope.

(** * Word decomposition *)

(** [decompose_basis.rs:6-14]. *)
Record wbasis := mk_wbasis { wb_basis : Z; wb_len : nat; wb_mask : Z; wb_bits : Z }.

(** [decompose_basis.rs:22-41], for words of [B] bits. *)
Definition wbasis_new (B bits q : Z) : option wbasis :=
  let mb := B - leading_zeros B q in
  let* mb := (if is_pow2 q then usub mb 1 else Some mb) in
  let* _ := assert (negb ((mb <? bits) || (bits =? B))) in
  let* _ := udiv mb bits in
  let* basis := ushl B 1 bits in
  let* mask := usub basis 1 in
  Some (mk_wbasis basis (Z.to_nat ((mb + bits - 1) / bits)) mask bits).

(** [decompose_basis.rs:75-88]: the destination and what the data become. *)
Definition decompose_lsb (B : Z) (wb : wbasis) (data : list Z) : option (list Z * list Z) :=
  let* rest := mapM (fun x => ushr B x (wb_bits wb)) data in
  Some (map (fun x => Z.land x (wb_mask wb)) data, rest).

(** * Switching with an LWE key: [key_switch/lwe.rs] *)

(** [lwe.rs:13-26]. *)
Record lwe_ks_key := mk_lwe_ks_key { lk_dim : nat; lk_mask : Z; lk_basis : wbasis; lk_key : list (list (list lwe)) }.

(** [lwe.rs:128-133]: one pass over the digits of one level. *)
Fixpoint lks_row (O : mops) (ds : list Z) (inner : list (list lwe)) (acc : lwe) : option lwe :=
  match ds, inner with
  | d :: ds', s :: inner' =>
      if d =? 0 then lks_row O ds' inner' acc
      else
        let* i := usub d 1 in
        let* ct := index s (Z.to_nat i) in
        let* acc := lwe_add_inplace O acc ct in
        lks_row O ds' inner' acc
  | _, _ => Some acc
  end.

(** [lwe.rs:125-134]. *)
Fixpoint lks_loop (B : Z) (O : mops) (wb : wbasis) (key : list (list (list lwe))) (a : list Z) (acc : lwe) : option lwe :=
  match key with
  | [] => Some acc
  | inner :: key' =>
      let* '(ds, a) := decompose_lsb B wb a in
      let* acc := lks_row O ds inner acc in
      lks_loop B O wb key' a acc
  end.

(** [lwe.rs:119-139]. *)
Definition lks_key_switch (B : Z) (K : lwe_ks_key) (ct : lwe) : option lwe :=
  let O := p2_mops B (lk_mask K) in
  let* acc := lks_loop B O (lk_basis K) (lk_key K) (la ct) (mk_lwe (repeat 0 (lk_dim K)) 0) in
  let* acc := lwe_neg O acc in
  Some (mk_lwe (la acc) (p2_add B (lk_mask K) (lb acc) (lb ct))).

(** [lwe.rs:48-58]: the ring secret, a field element per coefficient, becomes a word modulo [q]. *)
Definition to_word (neg_one v : Z) : Z := if v =? 0 then 0 else if v =? 1 then 1 else neg_one.

(** [lwe.rs:77-96]: the [while v < basis] loop; [rnd] holds the (uniform, noise) draws of the
    iterations [v], [v+1], ..., and the loop ends with it. *)
Fixpoint lks_entries (B mask : Z) (sk : list Z) (z v : Z) (rnd : list (list Z * Z)) : option (list lwe) :=
  match rnd with
  | [] => Some []
  | (a, e) :: rnd' =>
      let* c := lwe_zero_sample B mask sk a e in
      let c := mk_lwe (la c) (p2_add B mask (lb c) (p2_mul B mask v z)) in
      let* v := uadd B v 1 in
      let* r := lks_entries B mask sk z v rnd' in
      Some (c :: r)
  end.
(** [lwe.rs:74-98]: [basis_usize - 2] is a checked subtraction, the loop runs [basis - 1] times. *)
Definition lks_inner (B mask basis : Z) (sk zs : list Z) (rnd : list (list (list Z * Z))) : option (list (list lwe)) :=
  let* _ := assert (length zs =? length rnd)%nat in
  mapM2 (fun z r =>
    let* _ := usub basis 2 in
    let* _ := assert (Z.of_nat (length r) =? basis - 1) in
    lks_entries B mask sk z 1 r) zs rnd.
(** [lwe.rs:72-108]; the ring secret is multiplied by the basis between levels. *)
Fixpoint lks_levels (B mask basis : Z) (sk zs : list Z) (rnd : list (list (list (list Z * Z)))) : option (list (list (list lwe))) :=
  match rnd with
  | [] => Some []
  | r :: rnd' =>
      let* inner := lks_inner B mask basis sk zs r in
      let zs := match rnd' with [] => zs | _ => map (fun z => p2_mul B mask z basis) zs end in
      let* rest := lks_levels B mask basis sk zs rnd' in
      Some (inner :: rest)
  end.
(** [lwe.rs:30-116].  [sk] is the LWE secret, [ring_sk] the ring secret; their lengths stand for the dimensions
    that the code takes from the parameters. *)
Definition lks_generate (B q bits : Z) (sk ring_sk : list Z) (rnd : list (list (list (list Z * Z)))) : option lwe_ks_key :=
  let* mask := p2_new q in
  let* wb := wbasis_new B bits q in
  let* neg_one := usub q 1 in
  let* _ := assert (length rnd =? wb_len wb)%nat in
  let* key := lks_levels B mask (wb_basis wb) sk (map (to_word neg_one) ring_sk) rnd in
  Some (mk_lwe_ks_key (length sk) mask wb key).

(** * Switching with a ring key: [key_switch/rlwe.rs] *)

(** std [usize::next_power_of_two] (sizes far below the overflow).  [fhe_core/src/key_switch/rlwe.rs:35,122,147]. *)
Definition next_pow2 (n : nat) : nat := 2 ^ Nat.log2_up n.

(** std [chunks_exact]: the full chunks; a shorter tail is left out.  [fhe_core/src/key_switch/rlwe.rs:90,140,167]. *)
Fixpoint chunks_exact (fuel m : nat) (l : list Z) : list (list Z) :=
  match fuel with
  | O => []
  | S fuel' => if (m <=? length l)%nat then firstn m l :: chunks_exact fuel' m (skipn m l) else []
  end.
(** std [chunks_exact(m)] on the whole slice ([rlwe.rs:90,133,140,156,167]). *)
Definition chunks (m : nat) (l : list Z) : list (list Z) := chunks_exact (length l) m l.

(** [rlwe.rs:12-20]. *)
Record rlwe_ks_key := mk_rlwe_ks_key { rk_dim : nat; rk_key : list gadget }.

(** [rlwe.rs:130-131,134-137]: [chunk[0] = -chunk[0]; chunk[1..].reverse()]. *)
Definition neg_head_rev_tail (F : field) (l : list Z) : option (list Z) :=
  match l with [] => None | x :: r => let* y := f_neg F x in Some (y :: rev r) end.
(** [rlwe.rs:157-160,162-163]: [chunk[1..].reverse(); chunk[1..] negated]. *)
Definition rev_neg_tail (F : field) (l : list Z) : option (list Z) :=
  match l with [] => None | x :: r => let* t := mapM (f_neg F) (rev r) in Some (x :: t) end.

(** The loop of [rlwe.rs:181-189]. *)
Fixpoint rks_loop (F : field) (tbl : tables) (ext : nat) (key : list gadget) (cs : list (list Z)) (init : rlwe) : option rlwe :=
  match key, cs with
  | g :: key', c :: cs' =>
      let* init := nrlwe_sub_gadget_mul_fast F tbl init g c ext in
      rks_loop F tbl ext key' cs' init
  | _, _ => Some init
  end.
(** [rlwe.rs:172-192]. *)
Definition rks_inner (F : field) (tbl : tables) (K : rlwe_ks_key) (ext : nat) (init : rlwe) (cs : list (list Z)) : option lwe :=
  let* y := rks_loop F tbl ext (rk_key K) cs init in
  let* x := rlwe_from_ntt F tbl y in
  extract_partial_lwe_locally F x (rk_dim K).

(** [rlwe.rs:121-143].  The chunks are rewritten one by one and then iterated over, here both at
    once. *)
Definition rks_key_switch_rlwe (F : field) (tbl : tables) (K : rlwe_ks_key) (ct : rlwe) : option lwe :=
  let ext := next_pow2 (rk_dim K) in
  let* b0 := index (rb ct) 0 in
  let init := mk_rlwe (repeat 0 ext) (repeat b0 ext) in
  let* cs := (if (length (ra ct) =? ext)%nat then Some (chunks ext (ra ct))
              else let* a := neg_head_rev_tail F (ra ct) in mapM (neg_head_rev_tail F) (chunks ext a)) in
  rks_inner F tbl K ext init cs.
(** [rlwe.rs:146-170]. *)
Definition rks_key_switch_lwe (F : field) (tbl : tables) (K : rlwe_ks_key) (ct : lwe) : option lwe :=
  let ext := next_pow2 (rk_dim K) in
  let init := mk_rlwe (repeat 0 ext) (repeat (lb ct) ext) in
  let* cs := (if (length (la ct) =? ext)%nat then let* a := rev_neg_tail F (la ct) in Some (chunks ext a)
              else mapM (rev_neg_tail F) (chunks ext (la ct))) in
  rks_inner F tbl K ext init cs.

(** [rlwe.rs:44-52]: an LWE secret word becomes a field element. *)
Definition to_field (F : field) (v : Z) : option Z :=
  if v =? 0 then Some 0 else if v =? 1 then Some 1 else usub (fp F) 1.

(** [rlwe.rs:73-85,97-110]: the rows of one gadget; the secret is multiplied by the basis between
    rows. *)
Fixpoint rks_rows (F : field) (tbl : tables) (lwe_sk : list Z) (bv : Z) (z : list Z) (rnd : list (list Z * list Z)) : option (list rlwe) :=
  match rnd with
  | [] => Some []
  | (a, e) :: rnd' =>
      let* r := nrlwe_zero_sample F tbl lwe_sk a e in
      let* rb' := p_add_assign F (rb r) z in
      let* z := (match rnd' with [] => Some z | _ => p_mul_scalar F z bv end) in
      let* rest := rks_rows F tbl lwe_sk bv z rnd' in
      Some (mk_rlwe (ra r) rb' :: rest)
  end.

(** [rlwe.rs:24-118].  [sk]: LWE secret; [ring_sk], [ntt_ring_sk]: ring secret and its transform;
    one list of (uniform, noise) draws per gadget.  The lengths of the secrets stand for the dimensions that
    the code takes from the parameters. *)
Definition rks_generate (F : field) (tbl : tables) (bits : Z) (sk ring_sk ntt_ring_sk : list Z)
    (rnd : list (list (list Z * list Z))) : option rlwe_ks_key :=
  let n := length sk in
  let ext := next_pow2 n in
  let N := length ring_sk in
  let* _ := assert (ext <=? N)%nat in
  let* b := basis_new F bits in
  let* s := mapM (to_field F) sk in
  let* lwe_sk := into_ntt F tbl (s ++ repeat 0 (ext - n)) in
  let* bv := f_new F (bs_basis b) in
  let one := fun z r =>
    let* _ := assert (length r =? bs_len b)%nat in
    let* rows := rks_rows F tbl lwe_sk bv z r in Some (mk_gadget rows b) in
  let* key := (if (ext =? N)%nat then
      let* r := index rnd 0 in let* g := one ntt_ring_sk r in Some [g]
    else
      let cs := chunks ext ring_sk in
      let* _ := assert (length cs =? length rnd)%nat in
      mapM2 (fun z r => let* z := into_ntt F tbl z in one z r) cs rnd) in
  Some (mk_rlwe_ks_key n key).
