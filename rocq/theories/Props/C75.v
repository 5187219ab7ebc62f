(** C75: encryptions hide the messages, however chosen, as well as LWE samples of the key look uniform. *)
From Coq Require Import ZArith List Bool Lia.
From Verif Require Import Spec.Basic Spec.Count Spec.Hiding Model.Base Model.Field Model.Params Model.Lwe Model.SecretKey
  Proofs.Arith Proofs.LweProofs Proofs.RandomProofs Proofs.HidingProofs.
Import ListNotations.
Local Open Scope Z_scope.

(** Any worlds (keys, published data [X], masks, noises) for parameters with [t = 2^i < q = 2^j]; any
    test [D] of the published data and of the ciphertexts; any two ways of choosing the [k] messages
    from the published data and the ciphertexts already received.  The two acceptance counts differ by
    exactly the difference of two LWE advantages: those of the tests that add the scaled messages to
    the bodies of the samples they are given and then run [D]. *)
Theorem C75_hiding (X : Type) (B i j : Z) (P : parameters) (k : nat) (ws : list (world X)) (f g : X -> strategy) (D : X -> list lwe -> bool) :
  0 <= i < j -> j < B <= 64 -> pp_t P = 2 ^ i -> pp_q P = 2 ^ j -> Forall (world_ok P k) ws ->
  (forall x got, 0 <= f x got < pp_t P) -> (forall x got, 0 <= g x got < pp_t P) ->
  pp_q P ^ Z.of_nat k * (accepted B ws f D - accepted B ws g D) =
    lwe_gap (pp_q P) k ws (fun x cs => D x (masked (pp_t P) (pp_q P) (f x) [] cs)) -
    lwe_gap (pp_q P) k ws (fun x cs => D x (masked (pp_t P) (pp_q P) (g x) [] cs)).
Proof. intros Hi Hj Ht Hq Hw Hf Hg. rewrite Ht in *. rewrite Hq. now apply (hiding X B i j P k ws Hi Hj Ht Hq Hw). Qed.
Print Assumptions C75_hiding.

(** So if no test of a class closed under that addition tells samples from uniform bodies by more than
    [eps], no test of the class tells the messages apart by more than twice [eps]. *)
Theorem C75_bound (X : Type) (B i j : Z) (P : parameters) (k : nat) (ws : list (world X)) (eps : Z) (C : (X -> list lwe -> bool) -> Prop)
    (f g : X -> strategy) (D : X -> list lwe -> bool) :
  0 <= i < j -> j < B <= 64 -> pp_t P = 2 ^ i -> pp_q P = 2 ^ j -> Forall (world_ok P k) ws ->
  (forall x got, 0 <= f x got < pp_t P) -> (forall x got, 0 <= g x got < pp_t P) ->
  (forall D', C D' -> Z.abs (lwe_gap (pp_q P) k ws D') <= eps) ->
  C (fun x cs => D x (masked (pp_t P) (pp_q P) (f x) [] cs)) -> C (fun x cs => D x (masked (pp_t P) (pp_q P) (g x) [] cs)) ->
  pp_q P ^ Z.of_nat k * Z.abs (accepted B ws f D - accepted B ws g D) <= 2 * eps.
Proof.
  intros Hi Hj Ht Hq Hw Hf Hg H Cf Cg. pose proof (C75_hiding X B i j P k ws f g D Hi Hj Ht Hq Hw Hf Hg) as E.
  assert (0 <= pp_q P ^ Z.of_nat k) by (rewrite Hq; apply Z.pow_nonneg, Z.pow_nonneg; lia).
  rewrite <- (Z.abs_eq (pp_q P ^ Z.of_nat k)) at 1 by assumption. rewrite <- Z.abs_mul, E.
  pose proof (H _ Cf). pose proof (H _ Cg). lia.
Qed.
Print Assumptions C75_bound.

(** No encryption panics, and the adversary receives exactly the samples with the messages added. *)
Theorem C75_received (X : Type) (B i j : Z) (P : parameters) (k : nat) (w : world X) (f : strategy) :
  0 <= i < j -> j < B <= 64 -> pp_t P = 2 ^ i -> pp_q P = 2 ^ j -> world_ok P k w -> (forall got, 0 <= f got < pp_t P) ->
  exists cs, encrypted B (pack w) f [] (draws w) = Some cs /\ length cs = k /\ map la cs = map fst (draws w) /\
    cs = masked (pp_t P) (pp_q P) f [] (lwe_samples (pp_q P) (kp_lwe (pack w)) (draws w)).
Proof.
  intros Hi Hj Ht Hq Hw Hf. rewrite Ht in *. rewrite Hq.
  rewrite (all_encrypted X B i j P k [w] Hi Hj Ht Hq (Forall_cons _ Hw (Forall_nil _)) f Hf w (or_introl eq_refl)).
  eexists. split; [reflexivity|]. destruct (masked_app (2 ^ i) (2 ^ j) f (lwe_samples (2 ^ j) (kp_lwe (pack w)) (draws w)) []) as (tl & E & L & M).
  rewrite E. cbn [app]. unfold lwe_samples in L, M. rewrite map_length in L. rewrite map_map in M. cbn [la] in M.
  split; [rewrite L; apply Hw|]. split; [exact M|reflexivity].
Qed.
Print Assumptions C75_received.

(** With uniform bodies the messages are hidden perfectly, whatever the test. *)
Theorem C75_pad (X : Type) (i j : Z) (P : parameters) (k : nat) (ws : list (world X)) (f g : X -> strategy) (D : X -> list lwe -> bool) :
  0 <= i < j -> pp_t P = 2 ^ i -> pp_q P = 2 ^ j -> Forall (world_ok P k) ws ->
  accepted_uniform (pp_q P) k ws (fun x cs => D x (masked (pp_t P) (pp_q P) (f x) [] cs)) =
  accepted_uniform (pp_q P) k ws (fun x cs => D x (masked (pp_t P) (pp_q P) (g x) [] cs)).
Proof. intros Hi Ht Hq Hw. rewrite Ht, Hq. now rewrite !(uniform_eq X i j P k ws Hi Hw). Qed.
Print Assumptions C75_pad.

(** Draws must be fresh: two encryptions with the same mask and noise coincide exactly when the
    messages do, and the bodies differ by the scaled difference of the messages. *)
Theorem C75_reuse (B i j : Z) (kp : key_pack) (a : list Z) (e m m' : Z) :
  0 <= i < j -> j < B <= 64 -> pp_t (kp_par kp) = 2 ^ i -> pp_q (kp_par kp) = 2 ^ j -> length a = length (kp_lwe kp) ->
  0 <= m < 2 ^ i -> 0 <= m' < 2 ^ i ->
  exists c c', kp_encrypt B kp a e m = Some c /\ kp_encrypt B kp a e m' = Some c' /\ la c = la c' /\
    (lb c - lb c') mod 2 ^ j = ((m - m') * 2 ^ (j - i)) mod 2 ^ j /\ (c = c' <-> m = m').
Proof. apply reuse. Qed.
Print Assumptions C75_reuse.

(** One-dimensional binary key, noise in {0, 1, -1}, all masks, two encryptions, and one published
    value that depends on key and noise.  The first messages are the constants 0 and 0, the others 1
    and then the parity of the first body.  (The toy key is easily attacked: the counts differ.) *)
Definition C75_par : parameters := mk_parameters 1 2 8 LBinary 8 17 RBinary (mk_basis 2 2 1 1) 1 BrMsKs.
Definition C75_worlds : list (world Z) :=
  flat_map (fun e => flat_map (fun s => flat_map (fun a => map (fun b =>
    (((e + s) mod 2, mk_key_pack [s] [] [] C75_par), [([a], e); ([b], (e + a) mod 8)])) (range 8)) (range 8)) (range 2)) [0; 1; 7].
Definition C75_f (x : Z) (got : list lwe) : Z := 0.
Definition C75_g (x : Z) (got : list lwe) : Z := match got with [] => 1 | c :: _ => lb c mod 2 end.
Definition C75_D (x : Z) (cs : list lwe) : bool :=
  match cs with [c; d] => (lb c - x * hd 0 (la c) <? 3) && (lb d - x * hd 0 (la d) <? 7) | _ => false end.
Example C75_ex :
  Forall (world_ok C75_par 2) C75_worlds /\ (forall x got, 0 <= C75_f x got < 2) /\ (forall x got, 0 <= C75_g x got < 2) /\
  length C75_worlds = 384%nat /\ accepted 16 C75_worlds C75_f C75_D = 248 /\ accepted 16 C75_worlds C75_g C75_D = 169 /\
  accepted_uniform 8 2 C75_worlds C75_D = 13293.
Proof.
  split; [|split; [|split; [|vm_compute; auto]]].
  - apply Forall_forall. intros w Hw. unfold C75_worlds in Hw.
    apply in_flat_map in Hw. destruct Hw as (e & He & Hw). apply in_flat_map in Hw. destruct Hw as (s & Hs & Hw).
    apply in_flat_map in Hw. destruct Hw as (a & Ha & Hw). apply in_map_iff in Hw. destruct Hw as (b & <- & Hb).
    apply in_range in Ha, Hb. assert (0 <= e < 8) by (cbn in He; lia). pose proof (Z.mod_pos_bound (e + a) 8 ltac:(lia)).
    split; [reflexivity|]. split; [reflexivity|]. cbn [draws pack snd fst kp_lwe C75_par pp_q].
    repeat (constructor; [cbn [fst snd]; split; [reflexivity|]; split; [repeat constructor; lia|lia]|]). constructor.
  - intros x got. unfold C75_f. lia.
  - intros x [|c l]; cbn [C75_g]; [lia|]. apply Z.mod_pos_bound. lia.
Qed.
