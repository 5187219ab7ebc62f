(** Hiding of messages, by counting.  A world fixes everything random before the adversary starts:
    what has been published (for instance an evaluation key), the secret keys, and the mask and noise
    of each coming encryption.  A finite list of worlds stands for their joint distribution; a
    probability is a count divided by the length of the list. *)
From Coq Require Import ZArith List Bool.
From Verif Require Import Spec.Basic Spec.Count Model.Base Model.Params Model.Lwe Model.SecretKey.
Import ListNotations.
Local Open Scope Z_scope.

(** Published data, key pack, masks with their noises. *)
Definition world (X : Type) : Type := (X * key_pack * list (list Z * Z))%type.
Definition shown {X} (w : world X) : X := fst (fst w).
Definition pack {X} (w : world X) : key_pack := snd (fst w).
Definition draws {X} (w : world X) : list (list Z * Z) := snd w.

(** The world uses parameters [P] and holds the draws of [k] encryptions: masks as long as the key,
    with entries below the modulus, and noises below the modulus. *)
Definition world_ok {X} (P : parameters) (k : nat) (w : world X) : Prop :=
  kp_par (pack w) = P /\ length (draws w) = k /\
  Forall (fun d => length (fst d) = length (kp_lwe (pack w)) /\ canonical (pp_q P) (fst d) /\ 0 <= snd d < pp_q P) (draws w).

(** The adversary reads the ciphertexts received so far and chooses the next message. *)
Definition strategy : Type := list lwe -> Z.

(** All messages chosen, encrypted one after the other with the user's [encrypt]. *)
Fixpoint encrypted (B : Z) (kp : key_pack) (f : strategy) (got : list lwe) (rs : list (list Z * Z)) : option (list lwe) :=
  match rs with
  | [] => Some got
  | (a, e) :: rs => let* c := kp_encrypt B kp a e (f got) in encrypted B kp f (got ++ [c]) rs
  end.

(** LWE samples of the key: a mask, and its inner product with the key plus noise. *)
Definition lwe_samples (q : Z) (s : list Z) (rs : list (list Z * Z)) : list lwe :=
  map (fun r => mk_lwe (fst r) ((dotz (fst r) s + snd r) mod q)) rs.
(** The same masks with bodies that have nothing to do with the key. *)
Definition with_bodies (rs : list (list Z * Z)) (bs : list Z) : list lwe :=
  map (fun rb => mk_lwe (fst (fst rb)) (snd rb)) (combine rs bs).

(** What the adversary does to samples it is handed, to use an attack on ciphertexts against samples:
    it adds the scaled message of its choice to each body.  It needs no secret. *)
Fixpoint masked (t q : Z) (f : strategy) (got : list lwe) (cs : list lwe) : list lwe :=
  match cs with
  | [] => got
  | c :: cs => masked t q f (got ++ [mk_lwe (la c) ((lb c + f got * (q / t)) mod q)]) cs
  end.

(** How many worlds the test accepts when it is shown encryptions of the chosen messages, *)
Definition accepted {X} (B : Z) (ws : list (world X)) (f : X -> strategy) (D : X -> list lwe -> bool) : Z :=
  count (fun w => match encrypted B (pack w) (f (shown w)) [] (draws w) with
                  | Some cs => D (shown w) cs
                  | None => false
                  end) ws.
(** when it is shown LWE samples, *)
Definition accepted_lwe {X} (q : Z) (ws : list (world X)) (D : X -> list lwe -> bool) : Z :=
  count (fun w => D (shown w) (lwe_samples q (kp_lwe (pack w)) (draws w))) ws.
(** and how many worlds with [k] uniform bodies it accepts. *)
Definition accepted_uniform {X} (q : Z) (k : nat) (ws : list (world X)) (D : X -> list lwe -> bool) : Z :=
  count (fun wb => D (shown (fst wb)) (with_bodies (draws (fst wb)) (snd wb))) (list_prod ws (tuples k q)).

(** The advantage of a test at telling LWE samples of the key from uniform bodies, times the number
    of worlds and of bodies. *)
Definition lwe_gap {X} (q : Z) (k : nat) (ws : list (world X)) (D : X -> list lwe -> bool) : Z :=
  q ^ Z.of_nat k * accepted_lwe q ws D - accepted_uniform q k ws D.
