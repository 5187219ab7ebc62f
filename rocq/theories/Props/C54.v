(** C54: the seeded generator reads one key stream. *)
From Coq Require Import ZArith List Bool Arith.
From Verif Require Import Spec.Aes Spec.Stream Model.Base Model.Block Model.Aes Model.Prg Proofs.AesProofs Proofs.PrgProofs Props.C51.
Import ListNotations.
Local Open Scope Z_scope.

(** For every seed and every history of calls, in any order and of any sizes, the answers are the
    successive parts of the counter-mode key stream of the seed, the same on both architectures.  It panics
    exactly when the history needs more than the capacity of the stream. *)
Theorem C54_history (A : arch) (seed : list Z) (cs : list prg_call) : bytes 16 seed ->
  (let* g := prg_from_seed A seed in let* '(out, _) := prg_run A cs g in Some out) =
  if costs cs <=? capacity then Some (answers seed 0 cs) else None.
Proof. exact (prg_history A seed cs). Qed.
Print Assumptions C54_history.

(** No block is ever returned twice by a generator from which blocks are drawn. *)
Theorem C54_no_repeat (A : arch) (seed : list Z) (cs : list prg_call) (out : list (list Z)) :
  bytes 16 seed -> Forall block_call cs ->
  (let* g := prg_from_seed A seed in let* '(out, _) := prg_run A cs g in Some out) = Some out ->
  NoDup (cut (concat out)).
Proof. exact (prg_no_repeat A seed cs out). Qed.
Print Assumptions C54_no_repeat.

(** A generator seeded from another one in the middle of its history: its seed is the next block of the
    parent's stream, it answers by the stream of that seed, and the parent goes on right after the seed. *)
Theorem C54_from_rng (A : arch) (seed : list Z) (before child after : list prg_call) : bytes 16 seed ->
  (let* g := prg_from_seed A seed in let* '(o1, g) := prg_run A before g in let* '(c, g) := prg_from_rng A g in
   let* '(o2, _) := prg_run A child c in let* '(o3, _) := prg_run A after g in Some (o1, o2, o3)) =
  if (costs before + 4 + costs after <=? capacity) && (costs child <=? capacity)
  then Some (answers seed 0 before, answers (stream seed (4 * costs before) 16) 0 child, answers seed (costs before + 4) after) else None.
Proof. exact (prg_fork A seed before child after). Qed.
Print Assumptions C54_from_rng.

(** The capacity is more than 2^65 words; a history that crosses a buffer boundary in the middle of a
    64-bit answer and drops part of a word. *)
Example C54_ex : 2 ^ 65 <= capacity /\ Forall block_call [RandomBlock; RandomBlocks 3; RandomBlock] /\
  let cs := [FillBytes 121; NextU64; RandomBool; RandomBools 2; FillBytes 3; NextU32] in
  costs cs = 38 /\
  (let* g := prg_from_seed X86 fips_key in let* '(out, _) := prg_run X86 cs g in Some (tl out)) =
    Some [[195; 63; 131; 169; 103; 106; 70; 54]; [0]; [1; 1]; [211; 243; 33]; [208; 202; 194; 159]] /\
  (let* g := prg_from_seed X86 fips_key in let* '(_, g) := prg_run X86 [FillBytes 121] g in let* '(c, g) := prg_from_rng X86 g in
   let* '(o2, _) := prg_run X86 [NextU32] c in let* '(o3, _) := prg_run X86 [NextU32] g in Some (o2, o3)) = Some ([[120; 237; 19; 176]], [[160; 115; 186; 168]]).
Proof.
  split; [vm_compute; discriminate|]. split; [repeat constructor|]. split; [vm_compute; reflexivity|]. split; [vm_compute; reflexivity|vm_compute; reflexivity].
Qed.
