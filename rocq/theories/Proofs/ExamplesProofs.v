(** The example programs. *)
From Coq Require Import ZArith Znumtheory List Bool Lia SpecFloat.
From Verif Require Import Spec.Basic Spec.Poly Spec.Lattice Spec.Ring Spec.Blind Spec.Switch Spec.Gates Spec.KeyGen Spec.Gauss Spec.Sampled Spec.OneStream Spec.Aes Spec.Stream Spec.Machine Spec.Example.
From Verif Require Import Model.Base Model.PowOf2 Model.Plaintext Model.Field Model.NTT Model.Poly Model.Lwe Model.Gadget Model.Params Model.Boolean Model.ModSwitch Model.Sample Model.SecretKey Model.Gaussian Model.Sampled Model.Stream Model.Prg Model.Seeded Model.Example.
From Verif Require Import Proofs.Arith Proofs.NumTheory Proofs.PowOf2Proofs Proofs.FieldProofs Proofs.LweProofs Proofs.ModSwitchProofs Proofs.GateProofs Proofs.KeyGenProofs Proofs.SampledProofs Proofs.StreamProofs Proofs.StreamSource Proofs.StreamKeys Proofs.StreamMain Proofs.Reify Proofs.MachineProofs Proofs.MachineMain Props.C16 Props.C17 Props.C22 Props.C27 Props.C28 Props.C41 Props.C49.
Import ListNotations.
Local Open Scope Z_scope.

Lemma noise_max_ok B j : 4 <= j < 64 -> j < B -> noise_max B (2 ^ j) = 2 ^ (j - 4).
Proof.
  intros Hj HB.
  assert (H : noise_max B (2 ^ j) = Z.min (2 ^ B - 1) (2 ^ (j - 4))).
  { assert (Hc : exists n, (n < 60)%nat /\ j = 4 + Z.of_nat n) by (exists (Z.to_nat (j - 4)); lia). destruct Hc as (n & Hn & ->). clear Hj HB.
    do 60 (destruct n as [|n]; [reflexivity|]). lia. }
  rewrite H. apply Z.min_r. assert (2 ^ (j - 4) < 2 ^ B) by (apply Z.pow_lt_mono_r; lia). lia.
Qed.

Section Rounds.
Variables (BF p : Z) (k : nat) (F : field) (tbl : tables) (B j bits : Z) (K : eval_key) (s z : list Z) (E W D : Z) (kp : key_pack).
Let q := 2 ^ j.
Let N := Z.of_nat (2 ^ k).
Hypothesis HS : gate_setting BF p k F tbl B j bits K s z E W.
Hypothesis HD : out_noise p k j bits K s z E W <= D.
Hypothesis HB : 12 * N * D + 2 * first_switch N q z * p < q * N * p.
Hypothesis Hkp : pp_t (kp_par kp) = 4 /\ pp_q (kp_par kp) = q /\ kp_lwe kp = map (fun x => x mod q) z.

Lemma some_room : 4 <= j.
Proof.
  pose proof HS as ((_ & Hp & _ & _ & _ & Hk) & (_ & Hj & _) & (_ & _ & Hb & _) & (Ls & HE & _ & HW)). pose proof (prime_ge_2 p Hp) as P2.
  assert (W0 : 0 <= W).
  { unfold switching_key in HW. destruct (pp_steps (ek_par K)).
    - destruct HW as (wb & key & noise & Ek & H0 & _ & _ & _ & _ & _ & ->). nia.
    - destruct HW as (b & key & zs & kk & Ek & H0 & H1 & _ & _ & _ & _ & _ & _ & _ & _ & ->).
      assert (1 <= 2 ^ pp_ks_bits (ek_par K)) by (apply (Z.pow_le_mono_r 2 0); lia).
      repeat (apply Z.mul_nonneg_nonneg; try lia).
    - destruct HW as (_ & ->). lia. }
  assert (R0 : 0 <= rotation_noise (2 ^ k) (pp_basis (ek_par K)) bits E z (ek_br K)).
  { unfold rotation_noise. assert (1 <= 2 ^ bits) by (apply (Z.pow_le_mono_r 2 0); lia).
    repeat (apply Z.mul_nonneg_nonneg; try lia). destruct (ek_br K); lia. }
  assert (Q0 : 0 < q) by (apply Z.pow_pos_nonneg; lia).
  assert (N0 : 0 < N) by (unfold N; rewrite Nat2Z.inj_pow; apply Z.pow_pos_nonneg; lia).
  assert (PD : p <= D).
  { etransitivity; [|exact HD]. unfold out_noise, gate_noise, boot_noise. fold q.
    set (R := rotation_noise _ _ _ _ _ _) in *. assert (0 <= p * q / 2 ^ 49) by (apply Z.div_pos; [nia|reflexivity]).
    set (d := p * q / 2 ^ 49) in *. pose proof (norm1_nonneg s). pose proof (norm1_nonneg z).
    assert (0 <= q * R) by nia. assert (0 <= q * W) by nia. assert (0 <= p * W) by nia.
    assert (0 <= (p + d + 1) * norm1 s) by nia. assert (0 <= (p + d + 1) * norm1 z) by nia.
    destruct (pp_steps (ek_par K)); nia. }
  assert (Hfs : 0 <= first_switch N q z).
  { unfold first_switch. destruct (_ =? 0); [lia|]. pose proof (norm1_nonneg z). nia. }
  destruct (Z_lt_le_dec j 4); [|lia]. assert (j = 3) by lia.
  assert (q = 8) by (unfold q; replace j with 3 by lia; reflexivity).
  assert (N * p <= N * D) by (apply Z.mul_le_mono_nonneg_l; lia). nia.
Qed.

(** Bits within the noise level: what the program holds. *)
Definition holds (m : bool) (y : lwe) : Prop := exists e, bit_ct q z m e y /\ 2 * p * Z.abs e <= D.

Lemma small e : 2 * p * Z.abs e <= D -> 24 * Z.abs e < q.
Proof.
  intros He. pose proof HS as ((_ & Hp & _) & _). pose proof (prime_ge_2 p Hp) as P2.
  assert (N0 : 0 < N) by (unfold N; rewrite Nat2Z.inj_pow; apply Z.pow_pos_nonneg; lia).
  assert (Q0 : 0 < q) by (pose proof some_room; apply Z.pow_pos_nonneg; lia).
  assert (Hfs : 0 <= first_switch N q z).
  { unfold first_switch. destruct (_ =? 0); [lia|]. pose proof (norm1_nonneg z). nia. }
  assert (0 <= first_switch N q z * p) by (apply Z.mul_nonneg_nonneg; lia).
  assert (12 * N * (2 * p * Z.abs e) <= 12 * N * D) by (apply Z.mul_le_mono_nonneg_l; lia).
  assert (X : 24 * Z.abs e * (N * p) < q * (N * p)) by lia. apply Z.mul_lt_mono_pos_r in X; [lia|]. apply Z.mul_pos_pos; lia.
Qed.

Lemma with_noise M m e y : bit_ct q z m e y -> 2 * p * Z.abs e <= D ->
  kp_decrypt_with_noise M B kp y = Some (b2z m, Z.abs e) /\ 24 * Z.abs e < q.
Proof.
  intros Hy He. pose proof (small e He) as Hs. split; [|exact Hs]. pose proof some_room as Hj.
  pose proof HS as (_ & (HB64 & Hj' & _) & _). destruct Hkp as (Et & Eq & Ez). unfold kp_decrypt_with_noise. rewrite Et, Eq, Ez.
  pose proof (decrypt_bit BF p k F tbl B j bits K s z E W HS M m e y Hy ltac:(fold q; lia)) as Hd. fold q in Hd. destruct Hy as (Wy & Py).
  assert (Q0 : 0 < q) by (apply Z.pow_pos_nonneg; lia).
  change 4 with (2 ^ 2) in Hd |- *. unfold q in *.
  rewrite (decrypt_with_noise_correct B 2 j ltac:(lia) ltac:(lia) ltac:(lia) M _ y (bz m)); [|rewrite map_length; exact (proj1 Wy)|exact Hd|destruct m; cbn; lia].
  rewrite phase_mod, Py by lia. rewrite Zminus_mod_idemp_l, Zminus_mod_idemp_r.
  assert (EM : bz m * (2 ^ j / 2 ^ 2) = if m then 2 ^ j / 4 else 0) by (change (2 ^ 2) with 4; destruct m; cbn [bz]; lia).
  rewrite EM. set (w := if m then _ else _). replace (w + e - w) with e by lia. replace (w - (w + e)) with (- e) by lia.
  rewrite min_dist by lia. destruct m; reflexivity.
Qed.

Lemma check_ok m y : holds m y -> check B kp y m = Some m.
Proof.
  intros (e & Hy & He). destruct (with_noise MBool m e y Hy He) as (H1 & H2). unfold check. rewrite H1. cbn [bind].
  pose proof some_room. pose proof HS as (_ & (HB64 & Hj' & Hj49 & _) & _). destruct Hkp as (_ & -> & _). unfold q. rewrite noise_max_ok by lia.
  assert (EQ : q = 16 * 2 ^ (j - 4)) by (unfold q; replace j with (4 + (j - 4)) at 1 by lia; rewrite Z.pow_add_r by lia; reflexivity).
  destruct (Z.ltb_spec (Z.abs e) (2 ^ (j - 4))); [|lia]. destruct m; reflexivity.
Qed.

Lemma gates_hold a b c x y w : holds a x -> holds b y -> holds c w ->
  (exists r, g_not B K x = Some r /\ holds (u_not a) r) /\ (exists r, g_and B F tbl K x y = Some r /\ holds (u_and a b) r) /\
  (exists r, g_nand B F tbl K x y = Some r /\ holds (u_nand a b) r) /\ (exists r, g_or B F tbl K x y = Some r /\ holds (u_or a b) r) /\
  (exists r, g_nor B F tbl K x y = Some r /\ holds (u_nor a b) r) /\ (exists r, g_xor B F tbl K x y = Some r /\ holds (u_xor a b) r) /\
  (exists r, g_xnor B F tbl K x y = Some r /\ holds (u_xnor a b) r) /\ (exists r, g_majority B F tbl K x y w = Some r /\ holds (u_majority a b c) r) /\
  (exists r, g_mux B F tbl K x y w = Some r /\ holds (if a then b else c) r).
Proof.
  intros (e0 & H0 & D0) (e1 & H1 & D1) (e2 & H2 & D2).
  set (v i := match i with O => a | S O => b | _ => c end). set (ct i := match i with O => x | S O => y | _ => w end). set (e i := match i with O => e0 | S O => e1 | _ => e2 end).
  assert (HI : forall i, bit_ct q z (v i) (e i) (ct i) /\ 2 * p * Z.abs (e i) <= D) by (intros [|[|i]]; (split; assumption)).
  pose proof (circuit_ok BF p k F tbl B j bits K s z E W HS D v ct e HD HB HI) as C.
  assert (EM : u_majority a b c = cval v (CMajority (CInput 0) (CInput 1) (CInput 2))) by (destruct a, b, c; reflexivity).
  assert (C' : forall g, exists r, crun B F tbl K ct g = Some r /\ holds (cval v g) r).
  { intros g. destruct (C g) as (r & f & A1 & A2 & A3). exists r. split; [exact A1|]. exists f. split; assumption. }
  rewrite EM. split; [exact (C' (CNot (CInput 0)))|]. split; [exact (C' (CAnd (CInput 0) (CInput 1)))|]. split; [exact (C' (CNand (CInput 0) (CInput 1)))|].
  split; [exact (C' (COr (CInput 0) (CInput 1)))|]. split; [exact (C' (CNor (CInput 0) (CInput 1)))|]. split; [exact (C' (CXor (CInput 0) (CInput 1)))|].
  split; [exact (C' (CXnor (CInput 0) (CInput 1)))|]. split; [exact (C' (CMajority (CInput 0) (CInput 1) (CInput 2)))|exact (C' (CMux (CInput 0) (CInput 1) (CInput 2)))].
Qed.

Lemma round_ok a b c x y w : holds a x -> holds b y -> holds c w ->
  exists x' y' w', bfhe_round B F tbl K kp (((a, b), c), ((x, y), w)) = Some (((if a then b else c, u_majority a b c), u_xor a b), ((x', y'), w')) /\
    holds (if a then b else c) x' /\ holds (u_majority a b c) y' /\ holds (u_xor a b) w'.
Proof.
  intros H0 H1 H2. destruct (gates_hold a b c x y w H0 H1 H2) as ((r0 & G0 & A0) & (r1 & G1 & A1) & (r2 & G2 & A2) & (r3 & G3 & A3) & (r4 & G4 & A4) & (r5 & G5 & A5) & (r6 & G6 & A6) & (r7 & G7 & A7) & (r8 & G8 & A8)).
  exists r8, r7, r5. split; [|split; [exact A8|split; [exact A7|exact A5]]].
  unfold bfhe_round. rewrite G0. cbn [bind]. rewrite (check_ok _ _ A0). cbn [bind]. rewrite G1, G2, G3, G4, G5, G6, G7, G8. cbn [bind].
  rewrite (check_ok _ _ A7). cbn [bind]. rewrite (check_ok _ _ A1). cbn [bind]. rewrite (check_ok _ _ A2). cbn [bind]. rewrite (check_ok _ _ A5). cbn [bind].
  rewrite (check_ok _ _ A6). cbn [bind]. rewrite (check_ok _ _ A3). cbn [bind]. rewrite (check_ok _ _ A4). cbn [bind]. rewrite (check_ok _ _ A8). reflexivity.
Qed.
End Rounds.

Lemma iter_out {A : Type} (f : A -> A) n x : Nat.iter (S n) f x = Nat.iter n f (f x).
Proof. induction n as [|n IH]; [reflexivity|]. change (f (Nat.iter (S n) f x) = f (Nat.iter n f (f x))). rewrite IH. reflexivity. Qed.
Lemma rounds_ok BF p k F tbl B j bits K s z E W D kp n : gate_setting BF p k F tbl B j bits K s z E W -> out_noise p k j bits K s z E W <= D ->
  12 * Z.of_nat (2 ^ k) * D + 2 * first_switch (Z.of_nat (2 ^ k)) (2 ^ j) z * p < 2 ^ j * Z.of_nat (2 ^ k) * p ->
  pp_t (kp_par kp) = 4 /\ pp_q (kp_par kp) = 2 ^ j /\ kp_lwe kp = map (fun x => x mod 2 ^ j) z ->
  forall a b c x y w, holds p j z D a x -> holds p j z D b y -> holds p j z D c w ->
  exists xyz, iterM n (bfhe_round B F tbl K kp) (((a, b), c), ((x, y), w)) = Some (Nat.iter n in_the_clear ((a, b), c), xyz).
Proof.
  intros HS HD HB Hkp. induction n as [|n IH]; intros a b c x y w H0 H1 H2; [eexists; reflexivity|].
  destruct (round_ok BF p k F tbl B j bits K s z E W D kp HS HD HB Hkp a b c x y w H0 H1 H2) as (x' & y' & w' & ER & A0 & A1 & A2).
  cbn [iterM]. rewrite ER. cbn [bind]. destruct (IH _ _ _ x' y' w' A0 A1 A2) as (xyz & EI). exists xyz. rewrite EI.
  rewrite iter_out. cbn [in_the_clear].
  replace (u_majority a b c) with (a && b || b && c || c && a) by (destruct a, b, c; reflexivity). reflexivity.
Qed.

Section Drawn.
Variables (BF p : Z) (k : nat) (F : field) (tbl : tables) (B j bits : Z) (P : parameters) (dv : deviations) (E Ek Ee D : Z).
Hypothesis HS : sampled_setting BF p k F tbl B j bits P dv E Ek Ee D.
Let q := 2 ^ j.
Let N := Z.of_nat (2 ^ k).

Definition fine (kp : key_pack) (K : eval_key) : Prop := exists s z W, gate_setting BF p k F tbl B j bits K s z E W /\ out_noise p k j bits K s z E W <= D /\
  12 * N * D + 2 * first_switch N q z * p < q * N * p /\
  (pp_t (kp_par kp) = 4 /\ pp_q (kp_par kp) = q /\ kp_lwe kp = map (fun x => x mod q) z) /\
  forall (H : generator) fuel m a x c, gen_ok H -> kp_encrypt_g B dv fuel kp (b2z m) H a = Got (x, c) -> holds p j z D m x.

Lemma keys_fine kp K (H : generator) fuel a c : pack_fine p k F tbl P dv kp -> gen_ok H -> eval_key_new_g B F tbl dv fuel kp H a = Got (K, c) -> fine kp K.
Proof.
  intros (words & rwords & gx & gauss & (Hw & Hrw) & (Hgx & HSK) & Hg & HKP) HGen EK. pose proof HS as (HG & (HE & HEp) & HK & Hk0 & (HEe & HEq) & HD & HDe & HB).
  pose proof (eval_run BF p k F tbl B j bits P HG dv E Ek HE HEp HK Hk0 H fuel True HGen (or_introl I) words rwords gauss kp Hw Hrw Hg HKP a) as HR.
  rewrite EK in HR. destruct HR as (X & _ & HX & HEK).
  assert (EP : kp_par kp = P) by apply (pack_lengths BF p k F tbl B j bits P HG words rwords gauss kp Hw Hrw Hg HKP).
  assert (E0 : 0 <= E) by exact (E_nonneg dv E HE).
  pose proof (sampled_draws_ok BF p k F tbl B j bits P HG dv E Ek HE HEp HK True X) as HDr.
  unfold sampled_eval_key in HEK. rewrite EP in HEK. destruct (sampled_draws B F P dv X) as [| |R]; try discriminate HEK. cbn [dbind] in HEK.
  assert (DS : draws_small F k j P E Ek R). { apply HDr. eapply sources_mono; [| |exact HX]; intros y Hy; (split; [exact Hy|right; exact I]). }
  destruct (C49_keys BF p k F tbl B j bits P words rwords gauss E Ek R HG Hw Hrw Hg E0 Hk0 DS) as (kp' & K' & s & z & W & E1 & E2 & _ & Ez & Es & Lz & _ & GS & Ls & HO & HF).
  assert (kp' = kp) by congruence. subst kp'. rewrite E2 in HEK. cbn in HEK. assert (K' = K) by congruence. subst K'.
  pose proof HG as ((_ & Hp & _) & (HB64 & Hj & _) & (_ & Eq & Et & _ & _ & Hn) & _). pose proof (prime_ge_2 p Hp) as P2.
  pose proof (weight_le (kp_lwe kp)) as Wl. rewrite Ez, map_length, Lz, Z2Nat.id in Wl by exact Hn. rewrite <- Ez in Wl.
  pose proof (weight_le (kp_ring kp)) as Wr. rewrite Es, map_length, Ls in Wr. rewrite <- Es in Wr.
  assert (Q0 : 0 < q) by (apply Z.pow_pos_nonneg; lia).
  assert (HD' : out_noise p k j bits K s z E W <= D).
  { rewrite HO. etransitivity; [|exact HD]. unfold key_noise. cbv zeta. fold q. set (d := p + p * q / 2 ^ 49 + 1).
    assert (0 <= d) by (unfold d; assert (0 <= p * q / 2 ^ 49) by (apply Z.div_pos; [apply Z.mul_nonneg_nonneg; lia|reflexivity]); lia).
    apply Z.add_le_mono_r. destruct (pp_steps P).
    + apply Z.add_le_mono_r, Z.add_le_mono_l, Z.mul_le_mono_nonneg_l; lia.
    + apply Z.add_le_mono_l, Z.mul_le_mono_nonneg_l; lia.
    + apply Z.add_le_mono_l, Z.mul_le_mono_nonneg_l; lia. }
  assert (HB' : 12 * N * D + 2 * first_switch N q z * p < q * N * p).
  { unfold N, q. rewrite HF. eapply Z.le_lt_trans; [|exact HB]. apply Z.add_le_mono_l, Z.mul_le_mono_nonneg_r; [lia|]. apply Z.mul_le_mono_nonneg_l; [lia|].
    fold q. unfold key_first_switch. destruct (_ =? 0); [lia|]. apply Z.mul_le_mono_nonneg_l; lia. }
  exists s, z, W. split; [exact GS|]. split; [exact HD'|]. split; [exact HB'|]. split; [rewrite EP; split; [exact Et|split; [exact Eq|exact Ez]]|].
  intros H' fuel' m a' x c' HGen' EX.
  pose proof (encrypt_run BF p k F tbl B j bits P HG dv H' fuel' True HGen' (or_introl I) words rwords gauss kp Hw Hrw Hg HKP Ee HEe HEq (b2z m) a') as HR.
  rewrite EX in HR. destruct HR as (y & _ & Hy & SE). destruct (distribution _ _ HEe) as (g & Eg & Em & Fm & Fi & Mx & M5 & Cb & _).
  unfold sampled_encrypt in SE. rewrite Eg, EP, Eq in SE. cbn [dbind] in SE.
  assert (QB : 0 < 2 ^ j < 2 ^ B) by (split; [exact Q0|apply Z.pow_lt_mono_r; lia]).
  pose proof (word_noise (dv_lwe dv) Ee g Em Fm Fi Mx M5 True B (2 ^ j) _ _ ltac:(lia) QB HEq Hy (or_intror I)) as HN.
  destruct (lwe_draws B (2 ^ j) g y) as [| |[u ee]]; [discriminate SE|discriminate SE|]. cbn [dbind dspec fst snd] in SE, HN. destruct HN as ((Lu & Cu) & e & -> & He).
  assert (He' : 2 * p * Z.abs e <= D) by (etransitivity; [|exact HDe]; apply Z.mul_le_mono_nonneg_l; lia).
  exists e. split; [|exact He']. pose proof (circuit_room BF p k F tbl B j bits K s z E W GS D e HB' He') as Hroom.
  destruct (C28_roundtrip B 2 j MU64 (map (fun x => x mod q) z) u e (b2z m)) as (ct & Ec & Wc & _ & Pc & _).
  - lia.
  - lia.
  - rewrite map_length, Lu, Lz. reflexivity.
  - exact Cu.
  - change (2 ^ 2) with 4. destruct m; cbn; lia.
  - destruct m; vm_compute; discriminate.
  - change (2 * 2 ^ 2) with 8. fold q. lia.
  - unfold kp_encrypt in SE. rewrite EP, Et, Eq, Ez in SE. change 4 with (2 ^ 2) in SE. fold q in Ec. fold q in SE. rewrite Ec in SE. cbn in SE. assert (ct = x) by congruence. subst ct.
    split; [rewrite map_length in Wc; exact Wc|]. fold q. fold q in Pc. rewrite phase_mod in Pc by exact Q0. rewrite Pc. f_equal. f_equal.
    replace (q / 4) with (2 ^ (j - 2)); [destruct m; cbn [b2z]; ring|].
    change 4 with (2 ^ 2). unfold q. rewrite Z.pow_sub_r by lia. reflexivity.
Qed.

Lemma keys_tl fuel : treelike (fun St => @example_keys St B F tbl P dv fuel).
Proof. unfold example_keys. tl. - apply key_pack_tl. - apply eval_key_tl. Qed.
Lemma inputs_tl fuel kp a b c : treelike (fun St => @example_inputs St B dv fuel kp a b c).
Proof. unfold example_inputs. tl; apply encrypt_tl. Qed.

Lemma keys_counter (G : generator) fuel L a : gen_ok G -> L \/ lively G F dv fuel ->
  match example_keys B F tbl P dv fuel G a with Got ((kp, K), _) => fine kp K | Panicked => False | Looping => L end.
Proof.
  intros HG HL. unfold example_keys, rbind. pose proof (pack_main BF p k F tbl B j bits P dv E Ek Ee D HS G fuel L a HG HL) as R1.
  destruct (key_pack_new_g F tbl P dv fuel G a) as [| |[kp b]]; [exact R1|exact R1|].
  pose proof (eval_main BF p k F tbl B j bits P dv E Ek Ee D HS kp G fuel L b R1 HG HL) as R2.
  destruct (eval_key_new_g B F tbl dv fuel kp G b) as [| |[K c]] eqn:EK; [exact R2|exact R2|]. cbn [rret]. exact (keys_fine kp K G fuel b c R1 HG EK).
Qed.
Lemma inputs_counter (G H : generator) fuel fuel' L a b c i i' kp K i1 : gen_ok G -> gen_ok H -> L \/ lively H F dv fuel' -> example_keys B F tbl P dv fuel G i = Got ((kp, K), i1) ->
  forall z, (forall (H : generator) fuel m a x c, gen_ok H -> kp_encrypt_g B dv fuel kp (b2z m) H a = Got (x, c) -> holds p j z D m x) ->
  match example_inputs B dv fuel' kp a b c H i' with Got (((x, y), w), _) => holds p j z D a x /\ holds p j z D b y /\ holds p j z D c w | Panicked => False | Looping => L end.
Proof.
  intros HG HH HL EK z HZ. unfold example_keys, rbind in EK. pose proof (pack_main BF p k F tbl B j bits P dv E Ek Ee D HS G fuel True i HG (or_introl I)) as R1.
  destruct (key_pack_new_g F tbl P dv fuel G i) as [| |[kp' b']]; [discriminate EK|discriminate EK|].
  pose proof (eval_main BF p k F tbl B j bits P dv E Ek Ee D HS kp' G fuel True b' R1 HG (or_introl I)) as R2.
  destruct (eval_key_new_g B F tbl dv fuel kp' G b') as [| |[K' c']]; [discriminate EK|discriminate EK|]. cbn [rret] in EK. injection EK as -> -> _.
  destruct R2 as (R2 & _). assert (R3 : forall m s, match kp_encrypt_g B dv fuel' kp (b2z m) H s with Panicked => False | Looping => L | Got _ => True end).
  { intros m s. pose proof (R2 H fuel' L (b2z m) s HH HL ltac:(destruct m; cbn; lia)) as R. destruct (kp_encrypt_g B dv fuel' kp (b2z m) H s); exact R. }
  unfold example_inputs, rbind.
  pose proof (R3 a i') as T1. destruct (kp_encrypt_g B dv fuel' kp (b2z a) H i') as [| |[x i2]] eqn:E1; [exact T1|exact T1|].
  pose proof (R3 b i2) as T2. destruct (kp_encrypt_g B dv fuel' kp (b2z b) H i2) as [| |[y i3]] eqn:E2; [exact T2|exact T2|].
  pose proof (R3 c i3) as T3. destruct (kp_encrypt_g B dv fuel' kp (b2z c) H i3) as [| |[w i4]] eqn:E3; [exact T3|exact T3|].
  cbn [rret]. split; [exact (HZ H fuel' a i' x i2 HH E1)|]. split; [exact (HZ H fuel' b i2 y i3 HH E2)|exact (HZ H fuel' c i3 w i4 HH E3)].
Qed.

Lemma bfhe_ok {St St' : Type} (n fuel : nat) (a b c : bool) (R : rng St) s (R' : rng St') s' : rng_ok R -> rng_ok R' ->
  match bfhe_main n B F tbl P dv fuel a b c R s R' s' with
  | Got r => r = Nat.iter n in_the_clear ((a, b), c)
  | Panicked => refuses R s \/ refuses R' s'
  | Looping => True
  end.
Proof.
  intros HR HR'. unfold bfhe_main.
  destruct (example_keys B F tbl P dv fuel R s) as [| |[[kp K] s1]] eqn:EK; cbn [dbind]; [exact I| |].
  { left. apply (lift_panic _ R s (keys_tl fuel) HR); [|exact EK]. intros G HG E1. pose proof (keys_counter G fuel True 0 HG (or_introl I)) as H. cbv beta in E1. rewrite E1 in H. exact H. }
  destruct (lift_got _ R s (kp, K) s1 (keys_tl fuel) HR EK) as (G & i1 & HG & EG). cbv beta in EG.
  pose proof (keys_counter G fuel True 0 HG (or_introl I)) as HF. rewrite EG in HF. destruct HF as (sk & z & W & GS & HD & HB & Hkp & HZ).
  assert (HI : forall (H : generator), gen_ok H -> match example_inputs B dv fuel kp a b c H 0%nat with Got (((x, y), w), _) => holds p j z D a x /\ holds p j z D b y /\ holds p j z D c w | Panicked => False | Looping => True end).
  { intros H HH. exact (inputs_counter G H fuel fuel True a b c 0 0 kp K i1 HG HH (or_introl I) EG z HZ). }
  destruct (example_inputs B dv fuel kp a b c R' s') as [| |[[[x y] w] s2]] eqn:EX; cbn [dbind]; [exact I| |].
  { right. apply (lift_panic _ R' s' (inputs_tl fuel kp a b c) HR'); [|exact EX]. intros H HH E1. pose proof (HI H HH) as H1. cbv beta in E1. rewrite E1 in H1. exact H1. }
  destruct (lift_got _ R' s' _ s2 (inputs_tl fuel kp a b c) HR' EX) as (H & i2 & HH & EH). cbv beta in EH.
  pose proof (HI H HH) as H1. rewrite EH in H1. destruct H1 as (A0 & A1 & A2).
  destruct (rounds_ok BF p k F tbl B j bits K sk z E W D kp n GS HD HB Hkp a b c x y w A0 A1 A2) as (xyz & EI). cbn [fst]. rewrite EI. reflexivity.
Qed.

Lemma bfhe_completes (n fuel : nat) (a b c : bool) (G H : generator) i i' : gen_ok G -> gen_ok H -> lively G F dv fuel -> lively H F dv fuel ->
  bfhe_main n B F tbl P dv fuel a b c G i H i' = Got (Nat.iter n in_the_clear ((a, b), c)).
Proof.
  intros HG HH LG LH. unfold bfhe_main. pose proof (keys_counter G fuel False i HG (or_intror LG)) as HF.
  destruct (example_keys B F tbl P dv fuel G i) as [| |[[kp K] i1]] eqn:EG; [contradiction|contradiction|]. destruct HF as (sk & z & W & GS & HD & HB & Hkp & HZ). cbn [dbind].
  pose proof (inputs_counter G H fuel fuel False a b c i i' kp K i1 HG HH (or_intror LH) EG z HZ) as HI.
  destruct (example_inputs B dv fuel kp a b c H i') as [| |[[[x y] w] i2]]; [contradiction|contradiction|]. destruct HI as (A0 & A1 & A2). cbn [dbind fst].
  destruct (rounds_ok BF p k F tbl B j bits K sk z E W D kp n GS HD HB Hkp a b c x y w A0 A1 A2) as (xyz & EI). rewrite EI. reflexivity.
Qed.

Lemma bfhe_seeded (n fuel : nat) (a b c : bool) A seed seed' normal below pos pos' g g' : bytes 16 seed -> bytes 16 seed' -> reached A seed pos g -> reached A seed' pos' g' ->
  bfhe_main n B F tbl P dv fuel a b c (prg_rng A normal below) g (prg_rng A normal below) g' =
  bfhe_main n B F tbl P dv fuel a b c (stream_rng (stream_byte seed) normal below) pos (stream_rng (stream_byte seed') normal below) pos'.
Proof.
  intros Hk Hk' R R'. unfold bfhe_main. pose proof (seeded_stream _ A seed normal below pos g (keys_tl fuel) Hk R) as H1. cbv beta in H1. unfold as_stream in H1.
  destruct (example_keys B F tbl P dv fuel (prg_rng A normal below) g) as [| |[[kp K] g1]]; [rewrite H1; reflexivity|rewrite H1; reflexivity|]. destruct H1 as (pos1 & -> & _). cbn [dbind].
  pose proof (seeded_stream _ A seed' normal below pos' g' (inputs_tl fuel kp a b c) Hk' R') as H2. cbv beta in H2. unfold as_stream in H2.
  destruct (example_inputs B dv fuel kp a b c (prg_rng A normal below) g') as [| |[xyz g2]]; [rewrite H2; reflexivity|rewrite H2; reflexivity|]. destruct H2 as (pos2 & -> & _). reflexivity.
Qed.

Lemma count_tl fuel a b c : treelike (fun St => @count_main St B F tbl P dv fuel a b c).
Proof.
  unfold count_main. apply (tl_bind (fun St => @example_keys St B F tbl P dv fuel) (fun St kpK => let '(kp, K) := kpK in let% xyz := example_inputs B dv fuel kp a b c in
    let '((x, y), z) := xyz in let% ct := rlift (g_nand B F tbl K x y) in let% m := rlift (check B kp ct (u_nand a b)) in
    let% ct := rlift (g_mux B F tbl K x y z) in let% m' := rlift (check B kp ct (if a then b else c)) in rret (m, m'))); [apply keys_tl|].
  intros [kp K]. apply (tl_bind (fun St => @example_inputs St B dv fuel kp a b c) (fun St xyz => let '((x, y), z) := xyz in let% ct := rlift (g_nand B F tbl K x y) in
    let% m := rlift (check B kp ct (u_nand a b)) in let% ct := rlift (g_mux B F tbl K x y z) in let% m' := rlift (check B kp ct (if a then b else c)) in rret (m, m'))); [apply inputs_tl|].
  intros [[x y] z]. tl.
Qed.

Lemma count_counter (G : generator) fuel a b c i : gen_ok G ->
  match count_main B F tbl P dv fuel a b c G i with Got (r, _) => r = (negb (a && b), if a then b else c) | Panicked => False | Looping => True end.
Proof.
  intros HG. unfold count_main, rbind. pose proof (keys_counter G fuel True i HG (or_introl I)) as HF.
  destruct (example_keys B F tbl P dv fuel G i) as [| |[[kp K] i1]] eqn:EG; [exact I|exact HF|]. destruct HF as (sk & z & W & GS & HD & HB & Hkp & HZ).
  pose proof (inputs_counter G G fuel fuel True a b c i i1 kp K i1 HG HG (or_introl I) EG z HZ) as HI.
  destruct (example_inputs B dv fuel kp a b c G i1) as [| |[[[x y] w] i2]]; [exact I|exact HI|]. destruct HI as (A0 & A1 & A2).
  destruct (gates_hold BF p k F tbl B j bits K sk z E W D GS HD HB a b c x y w A0 A1 A2) as (_ & _ & (r2 & G2 & B2) & _ & _ & _ & _ & _ & (r8 & G8 & B8)).
  rewrite G2. cbn [rlift]. rewrite (check_ok BF p k F tbl B j bits K sk z E W D kp GS HD HB Hkp _ _ B2). cbn [rlift]. rewrite G8. cbn [rlift].
  rewrite (check_ok BF p k F tbl B j bits K sk z E W D kp GS HD HB Hkp _ _ B8). reflexivity.
Qed.

Lemma count_ok {St : Type} (fuel : nat) (a b c : bool) (R : rng St) s : rng_ok R ->
  match count_main B F tbl P dv fuel a b c R s with
  | Got (r, _) => r = (negb (a && b), if a then b else c)
  | Panicked => refuses R s
  | Looping => True
  end.
Proof.
  intros HR. destruct (count_main B F tbl P dv fuel a b c R s) as [| |[r s1]] eqn:EC; [exact I| |].
  - apply (lift_panic _ R s (count_tl fuel a b c) HR); [|exact EC]. intros G HG E1. pose proof (count_counter G fuel a b c 0 HG) as H. cbv beta in E1. rewrite E1 in H. exact H.
  - destruct (lift_got _ R s r s1 (count_tl fuel a b c) HR EC) as (G & i1 & HG & EG). cbv beta in EG. pose proof (count_counter G fuel a b c 0 HG) as H. rewrite EG in H. exact H.
Qed.
End Drawn.

(** [encode.rs]. *)
Lemma encode_ok (M : msg_type) (B i j : Z) : 0 <= i < j -> j <= 63 -> j < B -> 2 ^ i - 1 <= msg_max M -> encode_main M B (2 ^ i) (2 ^ j) = Some tt.
Proof.
  intros Hi Hj HB HM. unfold encode_main. pose proof (pow2_pos i ltac:(lia)) as I0. pose proof (pow2_pos j ltac:(lia)) as J0.
  assert (EJ : 2 ^ j = 2 ^ i * 2 * 2 ^ (j - i - 1)).
  { replace j with (i + (1 + (j - i - 1))) at 1 by lia. rewrite Z.pow_add_r, (Z.pow_add_r 2 1) by lia. change (2 ^ 1) with 2. ring. }
  pose proof (pow2_pos (j - i - 1) ltac:(lia)) as D0. set (d := 2 ^ (j - i - 1)) in *.
  assert (JB : 2 ^ j < 2 ^ B) by (apply Z.pow_lt_mono_r; lia). assert (J64 : 2 ^ j < 2 ^ 64) by (apply Z.pow_lt_mono_r; lia).
  unfold umul. destruct (Z.ltb_spec (2 ^ i * 2) (2 ^ 64)); [|nia]. cbn [bind]. unfold udiv. destruct (Z.eqb_spec (2 ^ i * 2) 0); [lia|]. cbn [bind].
  assert (ED : 2 ^ j / (2 ^ i * 2) = d) by (rewrite EJ at 1; rewrite Z.mul_comm, Z.div_mul by lia; reflexivity). rewrite ED.
  unfold ucast. rewrite (Z.mod_small (2 ^ j)) by lia. rewrite (Z.mod_small d) by nia. assert (EM : p2_new (2 ^ j) = Some (2 ^ j - 1)) by (apply p2_new_correct; [lia|]; exists j; lia). rewrite EM. cbn [bind].
  assert (HC : forall m, 0 <= m < 2 ^ i -> encode_case M B (2 ^ i) (2 ^ j) (2 ^ j - 1) d m = Some tt).
  { intros m Hm. unfold encode_case. destruct (Z.leb_spec m (msg_max M)); [|lia]. cbn [assert bind].
    assert (HE : forall e, - d <= e < d -> exists c, encode B m (2 ^ i) (2 ^ j) = Some c /\ decode M ((c + e) mod 2 ^ j) (2 ^ i) (2 ^ j) = Some m).
    { intros e He. apply (C27_decode_type B i j m e M); nia. }
    destruct (HE 0 ltac:(lia)) as (c & EC & E0). rewrite EC. cbn [bind].
    assert (C0 : 0 <= c < 2 ^ j).
    { pose proof (proj1 (C27_encode B i j m ltac:(lia) Hj ltac:(lia) ltac:(lia)) ltac:(lia)) as X. rewrite EC in X. injection X as ->.
      replace (2 ^ (j - i)) with (2 * d) by (unfold d; rewrite <- Z.pow_succ_r by lia; f_equal; lia). nia. }
    rewrite Z.add_0_r, Z.mod_small in E0 by exact C0. rewrite E0. cbn [bind]. rewrite Z.eqb_refl. cbn [assert bind].
    unfold usub. destruct (Z.leb_spec 1 d); [|lia]. cbn [bind].
    destruct (HE (d - 1) ltac:(lia)) as (c1 & EC1 & E1). destruct (HE (- (d - 1)) ltac:(lia)) as (c2 & EC2 & E2).
    assert (c1 = c) by congruence. assert (c2 = c) by congruence. subst c1 c2.
    rewrite (proj1 (proj2 (p2_ops_correct B j c (d - 1) ltac:(lia)))), E1. cbn [bind]. rewrite Z.eqb_refl. cbn [assert bind].
    rewrite (proj1 (proj2 (proj2 (p2_ops_correct B j c (d - 1) ltac:(lia))))). replace (c - (d - 1)) with (c + - (d - 1)) by ring. rewrite E2. cbn [bind]. rewrite Z.eqb_refl. reflexivity. }
  assert (HF : forall l s, Z.of_nat s + Z.of_nat l <= 2 ^ i -> foldM (fun _ i0 => encode_case M B (2 ^ i) (2 ^ j) (2 ^ j - 1) d (Z.of_nat i0)) tt (seq s l) = Some tt).
  { induction l as [|l IH]; intros s Hs; [reflexivity|]. cbn [seq foldM]. rewrite HC by lia. cbn [bind]. apply IH. lia. }
  apply HF. lia.
Qed.

(** [field.rs]. *)
Lemma first_nonzero_ok p draws : canonical p draws -> match first_nonzero draws with
  | Got b => 0 < b < p | Panicked => False | Looping => Forall (fun x => x = 0) draws end.
Proof.
  intros H. induction H as [|x l Hx _ IH]; [constructor|]. cbn [first_nonzero]. destruct (Z.eqb_spec x 0) as [->|Hn]; [|lia].
  destruct (first_nonzero l); [constructor; [reflexivity|exact IH]|exact IH|exact IH].
Qed.

Lemma field_ok (B p : Z) (k : nat) (F : field) (tbl : tables) (a : Z) (draws pa pb : list Z) :
  wwidth B -> prime p -> 9 < p -> derive_field B p = Some F -> serves F tbl k -> (1 <= k)%nat ->
  0 <= a < p -> canonical p draws -> length pa = (2 ^ k)%nat -> length pb = (2 ^ k)%nat -> canonical p pa -> canonical p pb ->
  match field_main F tbl a draws pa pb with
  | Got (r, c) => (a = 0 -> r = 0) /\ (a <> 0 -> 0 <= r < p /\ cong p (r * (- a) ^ 5) 1) /\ c = pmod p (negacyclic (2 ^ k) pa pb)
  | Panicked => False
  | Looping => Forall (fun x => x = 0) draws
  end.
Proof.
  intros HB Hp H9 HF HT Hk Ha Hd La Lb Ca Cb. pose proof (prime_ge_2 p Hp) as P2. unfold field_main.
  destruct (derive_field_ok B p F HB ltac:(lia) HF) as (_ & _ & Ep). unfold f_new. rewrite Ep. destruct (Z.ltb_spec 9 p); [|lia]. cbn [bind assert dlift dbind Z.eqb Pos.eqb].
  destruct (gauss_new (S754_zero false) (S754_finite false 7205759403792794 (-51))) as [g|] eqn:EG; [|vm_compute in EG; discriminate EG]. cbn [dlift dbind].
  pose proof (first_nonzero_ok p draws Hd) as HN. destruct (first_nonzero draws) as [| |b]; cbn [dbind]; [exact HN|exact HN|].
  destruct (C16_ring_ops B p a b F HB ltac:(lia) HF Ha ltac:(lia)) as (E1 & E2 & _ & _ & E3).
  destruct (C16_div B p a b F HB Hp HF Ha HN) as (d & E4 & _). rewrite E1, E2, E3, E4. cbn [bind].
  pose proof (Z.mod_pos_bound (a + b) p ltac:(lia)) as B1.
  destruct (C16_ring_ops B p ((a + b) mod p) b F HB ltac:(lia) HF B1 ltac:(lia)) as (_ & _ & E5 & _ & _). rewrite E5. cbn [bind].
  replace (((a + b) mod p - b) mod p) with a by (rewrite Zminus_mod_idemp_l; replace (a + b - b) with a by ring; symmetry; apply Z.mod_small; exact Ha).
  rewrite E3. cbn [bind]. pose proof (Z.mod_pos_bound (a * b) p ltac:(lia)) as B2.
  destruct (C16_div B p ((a * b) mod p) b F HB Hp HF B2 HN) as (d' & E6 & B3 & E7). rewrite E6. cbn [bind].
  assert (d' = a).
  { assert (X : cong p (d' * b) (a * b)) by (apply cong_iff; [lia|exact E7]). unfold cong in X. replace (d' * b - a * b) with ((d' - a) * b) in X by ring.
    apply prime_mult in X; [|exact Hp]. destruct X as [X|X].
    - destruct X as (t & X). assert (C : t <= -1 \/ t = 0 \/ 1 <= t) by lia. destruct C as [C|[->|C]]; nia.
    - apply Z.divide_pos_le in X; lia. }
  subst d'. destruct (C16_ring_ops B p a b F HB ltac:(lia) HF Ha ltac:(lia)) as (_ & _ & _ & E8 & _). rewrite E8. cbn [bind].
  rewrite (C22_mul B p k F tbl pa pb HB Hp HF HT Hk La Lb Ca Cb).
  destruct (Z.eq_dec a 0) as [->|Hn].
  - cbn [Z.opp]. rewrite Zmod_0_l. destruct (C17_inv_zero_refuted B p F HB ltac:(lia) HF) as (E9 & _). rewrite E9. cbn [bind].
    rewrite (C16_pow B p 0 5 F HB ltac:(lia) HF ltac:(lia) ltac:(lia)). cbn [bind dlift]. split; [intros _; reflexivity|]. split; [congruence|reflexivity].
  - assert (B4 : 0 < (- a) mod p < p) by (replace ((- a) mod p) with (p - a) by (apply (Z.mod_unique _ _ (-1)); lia); lia).
    destruct (C16_inv B p _ F HB Hp HF B4) as (r & E9 & B5 & E10). rewrite E9. cbn [bind].
    rewrite (C16_pow B p r 5 F HB ltac:(lia) HF B5 ltac:(lia)). cbn [bind dlift]. split; [congruence|]. split; [|reflexivity].
    intros _. split; [apply Z.mod_pos_bound; lia|].
    assert (X : cong p (r * (- a)) 1).
    { apply cong_iff; [lia|]. rewrite Z.mul_mod_idemp_r in E10 by lia. rewrite E10. symmetry. apply Z.mod_small. lia. }
    assert (Y : cong p (r ^ 5 mod p) (r ^ 5)) by (apply cong_mod; lia). rewrite Y. rewrite <- Z.pow_mul_l.
    replace ((r * - a) ^ 5) with ((r * - a) * (r * - a) * (r * - a) * (r * - a) * (r * - a)) by ring. rewrite !X. reflexivity.
Qed.

(** ** The assertions alone *)

Lemma check_sound B kp c want r : check B kp c want = Some r -> r = want.
Proof.
  unfold check. destruct (kp_decrypt_with_noise _ _ _ _) as [[m noise]|]; [|discriminate]. cbn [bind].
  unfold assert. destruct (Bool.eqb (m =? 1) want) eqn:E; [|discriminate]. cbn [bind].
  destruct (_ <? _); [|discriminate]. cbn [bind]. intros H. injection H as <-. apply eqb_prop. exact E.
Qed.

Lemma round_sound B F tbl K kp v v' : bfhe_round B F tbl K kp v = Some v' -> fst v' = in_the_clear (fst v).
Proof.
  destruct v as [[[a b] c] [[x y] z]]. unfold bfhe_round. intros H.
  repeat match type of H with
  | bind (check ?B ?kp ?c ?w) _ = _ => let E := fresh "E" in destruct (check B kp c w) eqn:E; cbn [bind] in H; [apply check_sound in E|discriminate]
  | bind ?o _ = _ => destruct o; cbn [bind] in H; [|discriminate]
  end.
  injection H as <-. cbn [fst]. subst. destruct a, b, c; reflexivity.
Qed.

Lemma rounds_sound B F tbl K kp n v v' : iterM n (bfhe_round B F tbl K kp) v = Some v' -> fst v' = Nat.iter n in_the_clear (fst v).
Proof.
  revert v. induction n as [|n IH]; intros v H.
  - cbn in H. injection H as <-. reflexivity.
  - cbn [iterM] in H. destruct (bfhe_round B F tbl K kp v) as [w|] eqn:E; cbn [bind] in H; [|discriminate].
    rewrite (IH w H), (round_sound _ _ _ _ _ _ _ E). symmetry. apply iter_out.
Qed.

Lemma bfhe_sound {St St' : Type} n B F tbl P dv fuel a b c (R : rng St) s (R' : rng St') s' r :
  bfhe_main n B F tbl P dv fuel a b c R s R' s' = Got r -> r = Nat.iter n in_the_clear ((a, b), c).
Proof.
  unfold bfhe_main. destruct (example_keys _ _ _ _ _ _ _ _) as [| |[[kp K] u]]; try discriminate. cbn [dbind].
  destruct (example_inputs _ _ _ _ _ _ _ _ _) as [| |xyz]; try discriminate. cbn [dbind].
  destruct (iterM _ _ _) as [v|] eqn:E; [|discriminate]. cbn [dlift dbind]. intros H. injection H as <-.
  exact (rounds_sound _ _ _ _ _ _ _ _ E).
Qed.

Lemma count_sound {St : Type} B F tbl P dv fuel a b c (R : rng St) s r s' :
  count_main B F tbl P dv fuel a b c R s = Got (r, s') -> r = (negb (a && b), if a then b else c).
Proof.
  unfold count_main, rbind, rlift, rret. destruct (example_keys _ _ _ _ _ _ _ _) as [| |[[kp K] u]]; try discriminate.
  destruct (example_inputs _ _ _ _ _ _ _ _ _) as [| |[[[x y] z] u']]; try discriminate.
  destruct (g_nand _ _ _ _ _ _) as [ct|]; [|discriminate].
  destruct (check _ _ ct _) as [m|] eqn:E1; [|discriminate].
  destruct (g_mux _ _ _ _ _ _ _) as [ct'|]; [|discriminate].
  destruct (check _ _ ct' _) as [m'|] eqn:E2; [|discriminate].
  intros H. injection H as <- _. rewrite (check_sound _ _ _ _ _ E1), (check_sound _ _ _ _ _ E2). reflexivity.
Qed.

Lemma case_sound M B t q mask nmax i : encode_case M B t q mask nmax i = Some tt ->
  i <= msg_max M /\ 1 <= nmax /\ exists x, encode B i t q = Some x /\ decode M x t q = Some i /\
  decode M (p2_add B mask x (nmax - 1)) t q = Some i /\ decode M (p2_sub B mask x (nmax - 1)) t q = Some i.
Proof.
  unfold encode_case, assert, usub. destruct (i <=? msg_max M) eqn:E0; [|discriminate]. cbn [bind].
  destruct (encode B i t q) as [x|] eqn:E1; [|discriminate]. cbn [bind].
  destruct (decode M x t q) as [d|] eqn:E2; [|discriminate]. cbn [bind].
  destruct (d =? i) eqn:E3; [|discriminate]. cbn [bind].
  destruct (1 <=? nmax) eqn:E4; [|discriminate]. cbn [bind].
  destruct (decode M (p2_add _ _ _ _) t q) as [d1|] eqn:E5; [|discriminate]. cbn [bind].
  destruct (d1 =? i) eqn:E6; [|discriminate]. cbn [bind].
  destruct (decode M (p2_sub _ _ _ _) t q) as [d2|] eqn:E7; [|discriminate]. cbn [bind].
  destruct (d2 =? i) eqn:E8; [|discriminate]. intros _.
  apply Z.leb_le in E0, E4. apply Z.eqb_eq in E3, E6, E8. subst d d1 d2. split; [exact E0|]. split; [exact E4|].
  exists x. tauto.
Qed.

Lemma fold_sound {A} (f : A -> option unit) l : foldM (fun _ i => f i) tt l = Some tt -> forall x, In x l -> f x = Some tt.
Proof.
  induction l as [|y l IH]; intros H x []; cbn [foldM] in H; destruct (f y) as [[]|] eqn:E; try discriminate; cbn [bind] in H.
  - subst. exact E.
  - exact (IH H x H0).
Qed.

Lemma encode_sound M B t q i : encode_main M B t q = Some tt -> 0 <= i < t ->
  exists mask x, p2_new (ucast B q) = Some mask /\ encode B i t q = Some x /\ decode M x t q = Some i /\
  let d := ucast B (q / (2 * t)) in 1 <= d /\
  decode M (p2_add B mask x (d - 1)) t q = Some i /\ decode M (p2_sub B mask x (d - 1)) t q = Some i.
Proof.
  unfold encode_main, umul. destruct (t * 2 <? 2 ^ 64); [|discriminate]. cbn [bind].
  unfold udiv. destruct (t * 2 =? 0); [discriminate|]. cbn [bind].
  destruct (p2_new (ucast B q)) as [mask|]; [|discriminate]. cbn [bind]. intros H Hi.
  assert (HI : In (Z.to_nat i) (seq 0 (Z.to_nat t))) by (apply in_seq; lia).
  pose proof (fold_sound (fun i => encode_case M B t q mask (ucast B (q / (t * 2))) (Z.of_nat i)) _ H _ HI) as Hc. cbn beta in Hc.
  rewrite Z2Nat.id in Hc by lia. apply case_sound in Hc. destruct Hc as (_ & Hd & x & H1 & H2 & H3 & H4).
  exists mask, x. rewrite (Z.mul_comm 2 t). cbv zeta. tauto.
Qed.
