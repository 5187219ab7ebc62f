(** C41: the Boolean gates. *)
From Coq Require Import ZArith List Bool Znumtheory Lia.
From Verif Require Import Spec.Basic Spec.Poly Spec.Lattice Spec.Ring Spec.Blind Spec.Switch Spec.Gates.
From Verif Require Import Model.Base Model.Plaintext Model.Field Model.NTT Model.Concrete Model.Poly Model.Lwe Model.Rlwe Model.Gadget Model.BlindRotation Model.KeySwitch Model.Params Model.Boolean.
From Verif Require Import Proofs.GateProofs Proofs.ExampleTac Props.C35.
Import ListNotations.
Local Open Scope Z_scope.

(** In every setting ([gate_setting]: any field, dimensions, keys with noise at most E and W, any of
    the three processing orders, binary or ternary keys), not is exact and only negates the noise. *)
Theorem C41_not (BF p : Z) (k : nat) (F : field) (tbl : tables) (B j bits : Z) (K : eval_key) (s z : list Z) (E W : Z) (m : bool) (e : Z) (c : lwe) :
  gate_setting BF p k F tbl B j bits K s z E W -> bit_ct (2 ^ j) z m e c ->
  exists y, g_not B K c = Some y /\ bit_ct (2 ^ j) z (negb m) (- e) y.
Proof. intros HS H. exact (gate_not BF p k F tbl B j bits K s z E W HS m e c H). Qed.
Print Assumptions C41_not.

(** nand, and, or, nor: correct whenever the sum of the input noises is below q/8 by the error of the
    first switch; the output noise e satisfies 2*p*|e| <= [out_noise], whatever the input noise. *)
Theorem C41_two_inputs (BF p : Z) (k : nat) (F : field) (tbl : tables) (B j bits : Z) (K : eval_key) (s z : list Z) (E W : Z) (m0 m1 : bool) (e0 e1 : Z) (c0 c1 : lwe) :
  gate_setting BF p k F tbl B j bits K s z E W -> let q := 2 ^ j in let N := Z.of_nat (2 ^ k) in
  bit_ct q z m0 e0 c0 -> bit_ct q z m1 e1 c1 -> 8 * N * Z.abs (e0 + e1) + 2 * first_switch N q z < q * N ->
  let out m r := exists y e, r = Some y /\ bit_ct q z m e y /\ 2 * p * Z.abs e <= out_noise p k j bits K s z E W in
  out (negb (m0 && m1)) (g_nand B F tbl K c0 c1) /\ out (m0 && m1) (g_and B F tbl K c0 c1) /\
  out (m0 || m1) (g_or B F tbl K c0 c1) /\ out (negb (m0 || m1)) (g_nor B F tbl K c0 c1).
Proof. intros HS q N H0 H1 Hn. exact (gates2 BF p k F tbl B j bits K s z E W HS m0 m1 e0 e1 c0 c1 H0 H1 Hn). Qed.
Print Assumptions C41_two_inputs.

Theorem C41_xor (BF p : Z) (k : nat) (F : field) (tbl : tables) (B j bits : Z) (K : eval_key) (s z : list Z) (E W : Z) (m0 m1 : bool) (e0 e1 : Z) (c0 c1 : lwe) :
  gate_setting BF p k F tbl B j bits K s z E W -> let q := 2 ^ j in let N := Z.of_nat (2 ^ k) in
  bit_ct q z m0 e0 c0 -> bit_ct q z m1 e1 c1 -> 8 * N * Z.abs (e0 - e1) + first_switch N q z < q * N ->
  let out m r := exists y e, r = Some y /\ bit_ct q z m e y /\ 2 * p * Z.abs e <= out_noise p k j bits K s z E W in
  out (xorb m0 m1) (g_xor B F tbl K c0 c1) /\ out (negb (xorb m0 m1)) (g_xnor B F tbl K c0 c1).
Proof. intros HS q N H0 H1 Hn. exact (gates_x BF p k F tbl B j bits K s z E W HS m0 m1 e0 e1 c0 c1 H0 H1 Hn). Qed.
Print Assumptions C41_xor.

Theorem C41_majority (BF p : Z) (k : nat) (F : field) (tbl : tables) (B j bits : Z) (K : eval_key) (s z : list Z) (E W : Z) (m0 m1 m2 : bool) (e0 e1 e2 : Z) (c0 c1 c2 : lwe) :
  gate_setting BF p k F tbl B j bits K s z E W -> let q := 2 ^ j in let N := Z.of_nat (2 ^ k) in
  bit_ct q z m0 e0 c0 -> bit_ct q z m1 e1 c1 -> bit_ct q z m2 e2 c2 ->
  8 * N * Z.abs (e0 + e1 + e2) + 2 * first_switch N q z < q * N ->
  exists y e, g_majority B F tbl K c0 c1 c2 = Some y /\ bit_ct q z (m0 && m1 || m1 && m2 || m2 && m0) e y /\
    2 * p * Z.abs e <= out_noise p k j bits K s z E W.
Proof. intros HS q N H0 H1 H2 Hn. exact (gate_maj BF p k F tbl B j bits K s z E W HS m0 m1 m2 e0 e1 e2 c0 c1 c2 H0 H1 H2 Hn). Qed.
Print Assumptions C41_majority.

(** mux runs two ands and an or, so the gates' own output noise has to fit the budget as well. *)
Theorem C41_mux (BF p : Z) (k : nat) (F : field) (tbl : tables) (B j bits : Z) (K : eval_key) (s z : list Z) (E W : Z) (m0 m1 m2 : bool) (e0 e1 e2 : Z) (c0 c1 c2 : lwe) :
  gate_setting BF p k F tbl B j bits K s z E W -> let q := 2 ^ j in let N := Z.of_nat (2 ^ k) in
  bit_ct q z m0 e0 c0 -> bit_ct q z m1 e1 c1 -> bit_ct q z m2 e2 c2 ->
  8 * N * Z.abs (e0 + e1) + 2 * first_switch N q z < q * N -> 8 * N * Z.abs (e2 - e0) + 2 * first_switch N q z < q * N ->
  8 * N * out_noise p k j bits K s z E W + 2 * first_switch N q z * p < q * N * p ->
  exists y e, g_mux B F tbl K c0 c1 c2 = Some y /\ bit_ct q z (if m0 then m1 else m2) e y /\
    2 * p * Z.abs e <= out_noise p k j bits K s z E W.
Proof. intros HS q N H0 H1 H2 Hn1 Hn2 Hn3. exact (gate_mux BF p k F tbl B j bits K s z E W HS m0 m1 m2 e0 e1 e2 c0 c1 c2 H0 H1 H2 Hn1 Hn2 Hn3). Qed.
Print Assumptions C41_mux.

(** On arbitrary well-formed ciphertexts, however noisy or wrong, the gates do not panic, and every
    bootstrapped output is some bit with no more than the noise of a gate output. *)
Theorem C41_any_ciphertext (BF p : Z) (k : nat) (F : field) (tbl : tables) (B j bits : Z) (K : eval_key) (s z : list Z) (E W : Z) (c0 c1 c2 : lwe) :
  gate_setting BF p k F tbl B j bits K s z E W -> let q := 2 ^ j in
  lwe_wf q (length z) c0 -> lwe_wf q (length z) c1 -> lwe_wf q (length z) c2 ->
  let out r := exists m y e, r = Some y /\ bit_ct q z m e y /\ 2 * p * Z.abs e <= out_noise p k j bits K s z E W in
  out (g_nand B F tbl K c0 c1) /\ out (g_and B F tbl K c0 c1) /\ out (g_or B F tbl K c0 c1) /\ out (g_nor B F tbl K c0 c1) /\
  out (g_xor B F tbl K c0 c1) /\ out (g_xnor B F tbl K c0 c1) /\ out (g_majority B F tbl K c0 c1 c2) /\ out (g_mux B F tbl K c0 c1 c2) /\
  exists y, g_not B K c0 = Some y /\ lwe_wf q (length z) y.
Proof.
  intros HS q W0 W1 W2 out. pose proof (gates_any BF p k F tbl B j bits K s z E W HS c0 c1 c2 W0 W1 W2) as (G1 & G2 & G3 & G4 & G5 & G6 & G7).
  repeat (split; [assumption|]). split; [exact (mux_any BF p k F tbl B j bits K s z E W HS c0 c1 c2 W0 W1 W2)|].
  exact (not_any BF p k F tbl B j bits K s z E W HS c0 W0).
Qed.
Print Assumptions C41_any_ciphertext.

(** A bit with noise below q/8 decrypts, for every message type, with the key words z mod q and t = 4. *)
Theorem C41_decrypts (BF p : Z) (k : nat) (F : field) (tbl : tables) (B j bits : Z) (K : eval_key) (s z : list Z) (E W : Z) (M : msg_type) (m : bool) (e : Z) (y : lwe) :
  gate_setting BF p k F tbl B j bits K s z E W -> let q := 2 ^ j in
  bit_ct q z m e y -> 8 * Z.abs e < q -> decrypt M B 4 q (map (fun x => x mod q) z) y = Some (if m then 1 else 0).
Proof. intros HS q H He. exact (decrypt_bit BF p k F tbl B j bits K s z E W HS M m e y H He). Qed.
Print Assumptions C41_decrypts.

(** Circuits of any size and depth: when a noise level D, at least that of a gate output, fits the
    budget (three of them for majority), inputs within D stay within D through every gate and the
    result decrypts to the value of the circuit. *)
Theorem C41_circuits (BF p : Z) (k : nat) (F : field) (tbl : tables) (B j bits : Z) (K : eval_key) (s z : list Z) (E W D : Z)
    (v : nat -> bool) (x : nat -> lwe) (e : nat -> Z) (c : circuit) (M : msg_type) :
  gate_setting BF p k F tbl B j bits K s z E W -> let q := 2 ^ j in let N := Z.of_nat (2 ^ k) in
  out_noise p k j bits K s z E W <= D -> 12 * N * D + 2 * first_switch N q z * p < q * N * p ->
  (forall i, bit_ct q z (v i) (e i) (x i) /\ 2 * p * Z.abs (e i) <= D) ->
  exists y f, crun B F tbl K x c = Some y /\ bit_ct q z (cval v c) f y /\ 2 * p * Z.abs f <= D /\
    decrypt M B 4 q (map (fun x => x mod q) z) y = Some (if cval v c then 1 else 0).
Proof.
  intros HS q N HD HN Hin. destruct (circuit_ok BF p k F tbl B j bits K s z E W HS D v x e HD HN Hin c) as (y & f & H1 & H2 & H3).
  exists y, f. split; [exact H1|]. split; [exact H2|]. split; [exact H3|].
  apply (decrypt_bit BF p k F tbl B j bits K s z E W HS M _ f y H2).
  apply (circuit_room BF p k F tbl B j bits K s z E W HS D f HN H3).
Qed.
Print Assumptions C41_circuits.

(** The default field, N = 8, q = 1024, u16 words, a binary secret used on both sides (BrMs), base 2^7:
    a generated key with noise in {-1, 0, 1}.  The budget for circuits holds, and a nand of two ones
    is computed. *)
Definition C41_s : list Z := [1; 0; 0; 0; 0; 0; 0; 1].
Definition C41_a : list Z := [5; 0; 132120000; 7; 77777; 3; 1000; 9].
Definition C41_r : list (list Z * list Z) :=
  [(C41_a, [1; 0; 0; 0; 132120576; 0; 0; 1]); (C41_a, [0; 1; 0; 0; 0; 0; 0; 0]); (C41_a, [0; 0; 0; 0; 0; 0; 0; 1]); (C41_a, [1; 1; 0; 0; 0; 0; 0; 0])].
Definition C41_c : lwe := mk_lwe [100; 3; 900; 0; 1; 77; 1023; 512] 870.
Example C41_ex : exists F tbl K s z y, gate_setting 32 132120577 3 F tbl 16 10 7 K s z 1 0 /\
  12 * 8 * out_noise 132120577 3 10 7 K s z 1 0 + 2 * first_switch 8 1024 z * 132120577 < 1024 * 8 * 132120577 /\
  bit_ct 1024 z true 2 C41_c /\ g_nand 16 F tbl K C41_c C41_c = Some y /\
  decrypt MBool 16 4 1024 (map (fun x => x mod 1024) z) y = Some 0.
Proof.
  assert (W32 : wwidth 32) by (exists 16; split; [discriminate|reflexivity]).
  destruct (derive_field 32 132120577) as [F|] eqn:HF; [|vm_compute in HF; discriminate]. pose proof HF as HF'.
  vm_compute in HF'. injection HF' as EF.
  assert (HT : exists T, serves F (fun _ => Some T) 3 /\ generate_table F None (fun _ => 5) 3 = Some (Ok T)).
  { subst F. eexists. split; [ex_serves|vm_compute; reflexivity]. }
  destruct HT as (T & HT & ET). destruct (basis_new F 7) as [b|] eqn:Hb; [|rewrite <- EF in Hb; vm_compute in Hb; discriminate].
  pose proof Hb as Hb'. rewrite <- EF in Hb'. vm_compute in Hb'. injection Hb' as Eb.
  rewrite <- EF in ET. vm_compute in ET. injection ET as ET.
  destruct (into_ntt F (fun _ => Some T) C41_s) as [sk|] eqn:Hsk; [|rewrite <- EF, <- ET in Hsk; vm_compute in Hsk; discriminate].
  destruct (C35_generate 32 132120577 3 F (fun _ => Some T) 7 b C41_s sk C41_s 1 (repeat (C41_r, C41_r) 8)
    W32 prime_default HF HT ltac:(lia) ltac:(lia) Hb eq_refl ltac:(ex_canon) Hsk ltac:(repeat (constructor; [auto|]); constructor) eq_refl) as (key & Ek & Hk).
  { assert (D : drawn_small 132120577 8 1 (bs_len b) C41_r) by (rewrite <- Eb; unfold C41_r, C41_a; ex_drawn).
    repeat (constructor; [split; exact D|]). constructor. }
  rewrite <- EF, <- ET in Hsk. vm_compute in Hsk. injection Hsk as Esk.
  rewrite <- EF, <- ET, <- Esk, <- Eb in Ek. vm_compute in Ek. injection Ek as Ek.
  exists F, (fun _ => Some T), (mk_eval_key (BrBinary key) KsNone (mk_parameters 8 4 1024 LBinary 8 132120577 RBinary b 1 BrMs)), C41_s, C41_s.
  eexists. split.
  { split; [|split; [|split]].
    - split; [exact W32|]. split; [exact prime_default|]. split; [reflexivity|]. split; [exact HF|]. split; [exact HT|lia].
    - repeat split; vm_compute; congruence.
    - split; [reflexivity|]. split; [reflexivity|]. split; [lia|exact Hb].
    - split; [reflexivity|]. split; [lia|]. split; [exact Hk|]. split; reflexivity. }
  rewrite <- EF, <- ET, <- Ek, <- Eb. split; [vm_compute; reflexivity|]. split; [split; [unfold C41_c; ex_wf|vm_compute; reflexivity]|].
  split; [vm_compute; reflexivity|]. vm_compute. reflexivity.
Qed.
