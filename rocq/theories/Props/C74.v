(** C74: what the transform counters can reveal: the number and order of the transforms of a gate and of
    key generation are a function of the parameters and of the mask of the ciphertext. *)
From Coq Require Import ZArith List Bool Arith Lia.
From Verif Require Import Spec.Basic Spec.Lattice Spec.Switch Spec.KeyGen Spec.Counting Spec.Calls.
From Verif Require Import Model.Base Model.PowOf2 Model.Field Model.NTT Model.Concrete Model.Poly Model.Lwe Model.Rlwe Model.Gadget Model.BlindRotation Model.KeySwitch Model.ModSwitch Model.Params Model.Boolean Model.Sample Model.SecretKey Model.Count Model.Tally.
From Verif Require Import Proofs.TallyProofs Proofs.CountProofs Props.C39 Props.C49 Props.C58.
Import ListNotations.
Local Open Scope Z_scope.

(** Forgetting the calls gives back the functions of the other properties, for every argument. *)
Theorem C74_same_function (B : Z) (F : field) (tbl : tables) (K : eval_key) (kp : key_pack) (R : key_draws) (P : parameters) (words rwords : nat -> Z) (gauss : list Z) (c c0 c1 c2 : lwe) (lut : list Z) :
  erase (key_pack_new_c F tbl P words rwords gauss) = key_pack_new F tbl P words rwords gauss /\
  erase (eval_key_new_c B F tbl kp R) = eval_key_new B F tbl kp R /\
  erase (bootstrap_c B F tbl K c lut) = bootstrap B F tbl K c lut /\
  erase (g_nand_c B F tbl K c0 c1) = g_nand B F tbl K c0 c1 /\ erase (g_and_c B F tbl K c0 c1) = g_and B F tbl K c0 c1 /\
  erase (g_or_c B F tbl K c0 c1) = g_or B F tbl K c0 c1 /\ erase (g_nor_c B F tbl K c0 c1) = g_nor B F tbl K c0 c1 /\
  erase (g_xor_c B F tbl K c0 c1) = g_xor B F tbl K c0 c1 /\ erase (g_xnor_c B F tbl K c0 c1) = g_xnor B F tbl K c0 c1 /\
  erase (g_majority_c B F tbl K c0 c1 c2) = g_majority B F tbl K c0 c1 c2 /\ erase (g_mux_c B F tbl K c0 c1 c2) = g_mux B F tbl K c0 c1 c2.
Proof.
  split; [apply er_key_pack|]. split; [apply er_eval_key|]. split; [apply er_bootstrap|]. split; [apply er_nand|]. split; [apply er_and|].
  split; [apply er_or|]. split; [apply er_nor|]. split; [apply er_xor|]. split; [apply er_xnor|]. split; [apply er_majority|apply er_mux].
Qed.
Print Assumptions C74_same_function.

(** A product of polynomials: two forward transforms and one inverse one, whatever the operands. *)
Theorem C74_product (F : field) (tbl : tables) (a b c : list Z) : all_own tbl ->
  erase (p_mul_assign_c F tbl a b) = p_mul_assign F tbl a b /\
  (p_mul_assign F tbl a b = Some c -> p_mul_assign_c F tbl a b = Some ([Fwd; Fwd; Inv], c)).
Proof.
  intros Ho. split; [apply er_p_mul|]. intros E. pose proof (makes_some _ _ _ _ (er_p_mul F tbl a b) (mk_p_mul F tbl _ (own_ticks F tbl Ho) a b) E) as H.
  rewrite flat_map_one in H. exact H.
Qed.
Print Assumptions C74_product.

(** Generating keys makes forward transforms only, as many as the parameters say, whatever the secrets
    and the noise. *)
Theorem C74_keygen (B : Z) (F : field) (tbl : tables) (P : parameters) (words rwords : nat -> Z) (gauss : list Z) (kp : key_pack) (R : key_draws) (K : eval_key) :
  all_own tbl ->
  (key_pack_new F tbl P words rwords gauss = Some kp -> key_pack_new_c F tbl P words rwords gauss = Some ([Fwd], kp)) /\
  (enough_draws (kp_par kp) (length (kp_lwe kp)) R -> eval_key_new B F tbl kp R = Some K ->
   eval_key_new_c B F tbl kp R = Some (repeat Fwd (key_forward F (kp_par kp) (length (kp_ring kp)) (length (kp_lwe kp))), K)).
Proof.
  intros Ho. pose proof (own_ticks F tbl Ho) as Hw. split.
  - intros E. pose proof (makes_some _ _ _ _ (er_key_pack F tbl P words rwords gauss) (mk_key_pack F tbl _ Hw P words rwords gauss) E) as H.
    exact H.
  - intros Hd E. pose proof (makes_some _ _ _ _ (er_eval_key B F tbl kp R) (mk_eval_key F tbl _ Hw B kp R Hd) E) as H.
    rewrite flat_map_one in H. exact H.
Qed.
Print Assumptions C74_keygen.

(** Bootstrapping under generated keys: per entry of the switched mask that is not zero, 2l forward and
    two inverse transforms; then those of the ring key switch, if there is one. *)
Theorem C74_bootstrap (B : Z) (F : field) (tbl : tables) (kp : key_pack) (R : key_draws) (K : eval_key) (c : lwe) (lut : list Z) (y : lwe) :
  let P := kp_par kp in let n := length (kp_lwe kp) in let N := length (kp_ring kp) in
  all_own tbl -> enough_draws P n R -> eval_key_new B F tbl kp R = Some K -> 0 <= pp_N P < 2 ^ 63 -> length lut = N ->
  bootstrap B F tbl K c lut = Some y ->
  exists c', lwe_modulus_switch_assign B (pp_q P) (2 * pp_N P) c = Some c' /\
    bootstrap_c B F tbl K c lut = Some (bootstrap_calls F P N n (nonzeros (firstn n (la c'))), y).
Proof.
  cbv zeta. intros Ho Hd HK HN Hl E. destruct (ek_shape_of F tbl B kp R K Hd HK) as (EP & Hs). rewrite <- EP in HN |- *.
  destruct (bootstrap_run F tbl _ (own_ticks F tbl Ho) B K c lut _ _ y Hs Hl HN E) as (c' & Hc & Hr).
  rewrite flat_map_one in Hr. exists c'. split; assumption.
Qed.
Print Assumptions C74_bootstrap.

(** The entries that count, from the mask itself: those that do not round to a multiple of 2N. *)
Theorem C74_mask (B : Z) (F : field) (tbl : tables) (kp : key_pack) (R : key_draws) (K : eval_key) (c : lwe) (lut : list Z) (y : lwe) :
  let P := kp_par kp in let n := length (kp_lwe kp) in let N := length (kp_ring kp) in
  all_own tbl -> enough_draws P n R -> eval_key_new B F tbl kp R = Some K -> length lut = N ->
  0 < B <= 64 -> 0 < pp_q P < 2 ^ 64 -> 0 < 2 * pp_N P < 2 ^ B -> (pp_q P - 1) * (2 * pp_N P) < 2 ^ 52 -> lwe_wf (pp_q P) n c ->
  bootstrap B F tbl K c lut = Some y ->
  bootstrap_c B F tbl K c lut =
    Some (bootstrap_calls F P N n (nonzeros (map (fun v => round_div (v * (2 * pp_N P)) (pp_q P) mod (2 * pp_N P)) (la c))), y).
Proof.
  cbv zeta. intros Ho Hd HK Hl HB Hq HN Hr Hc E.
  assert (HN' : 0 <= pp_N (kp_par kp) < 2 ^ 63).
  { assert (2 ^ B <= 2 ^ 64) by (apply Z.pow_le_mono_r; lia). change (2 ^ 64) with 18446744073709551616 in *. change (2 ^ 63) with 9223372036854775808. lia. }
  destruct (C74_bootstrap B F tbl kp R K c lut y Ho Hd HK HN' Hl E) as (c' & Hc' & H).
  destruct (C39_ciphertext B (pp_q (kp_par kp)) (2 * pp_N (kp_par kp)) (length (kp_lwe kp)) c c [] HB Hq HN Hr Hc (proj1 Hc))
    as (c1 & _ & _ & E1 & La & _ & (Ln & _) & _).
  rewrite E1 in Hc'. inversion Hc'. subst c1. rewrite <- La. rewrite firstn_all2 in H by lia. exact H.
Qed.
Print Assumptions C74_mask.

(** Nothing secret shows: two key packs, two evaluation keys, two ciphertexts under the same
    parameters. Key generation and, for the same mask, bootstrapping make the same calls. *)
Theorem C74_oblivious (B : Z) (F : field) (tbl : tables) (kp kp' : key_pack) (R R' : key_draws) (K K' : eval_key) (t t' : list dir) :
  all_own tbl -> kp_par kp = kp_par kp' -> length (kp_lwe kp) = length (kp_lwe kp') -> length (kp_ring kp) = length (kp_ring kp') ->
  enough_draws (kp_par kp) (length (kp_lwe kp)) R -> enough_draws (kp_par kp') (length (kp_lwe kp')) R' ->
  eval_key_new_c B F tbl kp R = Some (t, K) -> eval_key_new_c B F tbl kp' R' = Some (t', K') ->
  t = t' /\
  forall (a : list Z) (b b' : Z) (lut lut' : list Z) (u u' : list dir) (y y' : lwe),
    0 <= pp_N (kp_par kp) < 2 ^ 63 -> length lut = length (kp_ring kp) -> length lut' = length (kp_ring kp) ->
    bootstrap_c B F tbl K (mk_lwe a b) lut = Some (u, y) -> bootstrap_c B F tbl K' (mk_lwe a b') lut' = Some (u', y') -> u = u'.
Proof.
  intros Ho EP En EN Hd Hd' E E'.
  assert (HK : eval_key_new B F tbl kp R = Some K) by (rewrite <- er_eval_key, E; reflexivity).
  assert (HK' : eval_key_new B F tbl kp' R' = Some K') by (rewrite <- er_eval_key, E'; reflexivity).
  split.
  - pose proof (proj2 (C74_keygen B F tbl (kp_par kp) (fun _ => 0) (fun _ => 0) [] kp R K Ho) Hd HK) as H.
    pose proof (proj2 (C74_keygen B F tbl (kp_par kp) (fun _ => 0) (fun _ => 0) [] kp' R' K' Ho) Hd' HK') as H'.
    rewrite E in H. rewrite E' in H'. inversion H. inversion H'. now rewrite EP, En, EN.
  - intros a b b' lut lut' u u' y y' HN Hl Hl' G G'.
    assert (Hb : bootstrap B F tbl K (mk_lwe a b) lut = Some y) by (rewrite <- er_bootstrap, G; reflexivity).
    assert (Hb' : bootstrap B F tbl K' (mk_lwe a b') lut' = Some y') by (rewrite <- er_bootstrap, G'; reflexivity).
    destruct (C74_bootstrap B F tbl kp R K _ lut y Ho Hd HK HN Hl Hb) as (c & Hc & H).
    rewrite EP in HN. rewrite EN in Hl'.
    destruct (C74_bootstrap B F tbl kp' R' K' _ lut' y' Ho Hd' HK' HN Hl' Hb') as (c' & Hc' & H').
    rewrite G in H. rewrite G' in H'. inversion H. inversion H'. rewrite EP, En, EN. do 3 f_equal.
    rewrite EP in Hc. clear - Hc Hc'. unfold lwe_modulus_switch_assign in Hc, Hc'. cbn [la lb] in Hc, Hc'.
    destruct (mapM _ a) as [a'|]; [|discriminate]. cbn [bind] in Hc, Hc'. destruct (ms_switch _ _ _ b); [|discriminate].
    destruct (ms_switch _ _ _ b'); [|discriminate]. inversion Hc. inversion Hc'. reflexivity.
Qed.
Print Assumptions C74_oblivious.

(** The two-input gates and majority: one bootstrapping of the sum, of the doubled difference or of the
    sum of the three. *)
Theorem C74_gates (B : Z) (F : field) (tbl : tables) (kp : key_pack) (R : key_draws) (K : eval_key) (c0 c1 c2 : lwe) (t : list dir) (y : lwe) :
  let P := kp_par kp in let n := length (kp_lwe kp) in let N := length (kp_ring kp) in
  all_own tbl -> enough_draws P n R -> eval_key_new B F tbl kp R = Some K -> 0 <= pp_N P < 2 ^ 63 -> Z.to_nat (pp_N P) = N ->
  let one x := exists x' c', x = Some x' /\ lwe_modulus_switch_assign B (pp_q P) (2 * pp_N P) x' = Some c' /\
    t = bootstrap_calls F P N n (nonzeros (firstn n (la c'))) in
  let sum := let* O := lwe_ops B P in lwe_add O c0 c1 in
  let twice := let* O := lwe_ops B P in let* x := lwe_sub O c0 c1 in lwe_scalar_mul O x 2 in
  (g_nand_c B F tbl K c0 c1 = Some (t, y) -> one sum) /\ (g_and_c B F tbl K c0 c1 = Some (t, y) -> one sum) /\
  (g_or_c B F tbl K c0 c1 = Some (t, y) -> one sum) /\ (g_nor_c B F tbl K c0 c1 = Some (t, y) -> one sum) /\
  (g_xor_c B F tbl K c0 c1 = Some (t, y) -> one twice) /\ (g_xnor_c B F tbl K c0 c1 = Some (t, y) -> one twice) /\
  (g_majority_c B F tbl K c0 c1 c2 = Some (t, y) -> one (let* O := lwe_ops B P in let* x := lwe_add O c0 c1 in lwe_add_inplace O x c2)).
Proof.
  cbv zeta. intros Ho Hd HK HB HN. destruct (ek_shape_of F tbl B kp R K Hd HK) as (EP & Hs). rewrite <- EP in *.
  destruct (init_lens F) as (I1 & I2 & I3 & I4 & I5 & I6).
  assert (G : forall x init, is_init F init -> gate_c B F tbl K x init = Some (t, y) ->
    exists x' c', x = Some x' /\ lwe_modulus_switch_assign B (pp_q (ek_par K)) (2 * pp_N (ek_par K)) x' = Some c' /\
      t = bootstrap_calls F (ek_par K) (length (kp_ring kp)) (length (kp_lwe kp)) (nonzeros (firstn (length (kp_lwe kp)) (la c')))).
  { intros x init Hi Hg. destruct (gate_run_ok F tbl _ (own_ticks F tbl Ho) B K _ _ x init t y Hs HN HB Hi Hg) as (x' & c' & E & Hc & Ht).
    rewrite flat_map_one in Ht. exists x', c'. split; [exact E|]. split; [exact Hc|exact Ht]. }
  split; [exact (G _ _ I1)|]. split; [exact (G _ _ I2)|]. split; [exact (G _ _ I3)|]. split; [exact (G _ _ I4)|]. split; [exact (G _ _ I5)|].
  split; [exact (G _ _ I6)|exact (G _ _ I2)].
Qed.
Print Assumptions C74_gates.

(** Mux: the calls of two ands, then of the bootstrapping of the sum of their results. *)
Theorem C74_mux (B : Z) (F : field) (tbl : tables) (kp : key_pack) (R : key_draws) (K : eval_key) (c0 c1 c2 : lwe) (t : list dir) (y : lwe) :
  let P := kp_par kp in let n := length (kp_lwe kp) in let N := length (kp_ring kp) in
  all_own tbl -> enough_draws P n R -> eval_key_new B F tbl kp R = Some K -> 0 <= pp_N P < 2 ^ 63 -> Z.to_nat (pp_N P) = N ->
  g_mux_c B F tbl K c0 c1 c2 = Some (t, y) ->
  exists n0 t0 t1 y0 y1 O s, g_not B K c0 = Some n0 /\ g_and_c B F tbl K c0 c1 = Some (t0, y0) /\ g_and_c B F tbl K n0 c2 = Some (t1, y1) /\
    lwe_ops B P = Some O /\ lwe_add_inplace O y0 y1 = Some s /\
    exists c', lwe_modulus_switch_assign B (pp_q P) (2 * pp_N P) s = Some c' /\
      t = t0 ++ t1 ++ bootstrap_calls F P N n (nonzeros (firstn n (la c'))).
Proof.
  cbv zeta. intros Ho Hd HK HB HN E. destruct (ek_shape_of F tbl B kp R K Hd HK) as (EP & Hs). rewrite <- EP in *.
  unfold g_mux_c in E. destruct (lwe_ops B (ek_par K)) as [O|] eqn:EO; [|cbn [Tally.quiet cbind] in E; discriminate]. cbn [Tally.quiet cbind] in E.
  destruct (g_not B K c0) as [n0|] eqn:En; [|cbn [Tally.quiet cbind] in E; discriminate]. cbn [Tally.quiet cbind] in E.
  destruct (g_and_c B F tbl K c0 c1) as [[t0 y0]|] eqn:E0; [|cbn [Tally.quiet cbind] in E; discriminate]. cbn [cbind] in E.
  destruct (g_and_c B F tbl K n0 c2) as [[t1 y1]|] eqn:E1; [|cbn [Tally.quiet cbind] in E; discriminate]. cbn [cbind] in E.
  destruct (gate_c B F tbl K (lwe_add_inplace O y0 y1) init_or_lut) as [[t2 y2]|] eqn:E2; [|cbn [Tally.quiet cbind] in E; discriminate]. cbn [app] in E. inversion E. clear E. subst y2.
  destruct (gate_run_ok F tbl _ (own_ticks F tbl Ho) B K _ _ _ _ t2 y Hs HN HB (proj1 (proj2 (proj2 (init_lens F)))) E2) as (s & c' & Es & Hc & Ht).
  rewrite flat_map_one in Ht. exists n0, t0, t1, y0, y1, O, s. repeat (split; [assumption || reflexivity|]). exists c'.
  split; [exact Hc|]. now rewrite <- Ht.
Qed.
Print Assumptions C74_mux.

(** Through the counters: threads bootstrapping one ciphertext after another while counting is on,
    under any schedule. [z] is the number of entries that count for the call. *)
Theorem C74_counters (B : Z) (F : field) (tbl : tables) (kp : key_pack) (R : key_draws) (K : eval_key) (d : dir) (c : counters) (s : list nat)
    (jobs : list (list (lwe * list Z))) (calls : list (list (list dir))) (zs : list (list nat)) :
  let P := kp_par kp in let n := length (kp_lwe kp) in let N := length (kp_ring kp) in
  all_own tbl -> enough_draws P n R -> eval_key_new B F tbl kp R = Some K -> 0 <= pp_N P < 2 ^ 63 ->
  Forall (Forall (fun j => length (snd j) = N)) jobs ->
  Forall2 (Forall2 (fun j t => exists y, bootstrap_c B F tbl K (fst j) (snd j) = Some (t, y))) jobs calls ->
  Forall2 (Forall2 (fun j z => exists c', lwe_modulus_switch_assign B (pp_q P) (2 * pp_N P) (fst j) = Some c' /\ z = nonzeros (firstn n (la c')))) jobs zs ->
  ct_on c = true -> 0 <= ct_get d c < 2 ^ 32 ->
  let w := cschedule s (c, cstart (map (fun ts => map Transform (concat ts)) calls)) in
  done (snd w) ->
  ct_get d (fst w) = (ct_get d c + zsum (map (fun l => zsum (map (bootstrap_count d F P N n) l)) zs)) mod 2 ^ 32.
Proof.
  cbv zeta. intros Ho Hd HK HN Hl Hc Hz On Rg D.
  assert (Q : Forall only_counts (map (fun ts => map Transform (concat ts)) calls)).
  { apply Forall_forall. intros p Hp. apply in_map_iff in Hp. destruct Hp as (ts & <- & _). apply only_counts_map. }
  rewrite (proj2 (C58_schedule d c _ s On Rg Q) D). f_equal. f_equal. clear D On Rg Q s c.
  revert calls zs Hl Hc Hz. induction jobs as [|js jobs IH]; intros calls zs Hl Hc Hz.
  { inversion Hc. inversion Hz. reflexivity. }
  destruct calls as [|ts calls']; [inversion Hc|]. destruct zs as [|l zs']; [inversion Hz|].
  apply F2_cons in Hc. destruct Hc as (Hts & Hc'). apply F2_cons in Hz. destruct Hz as (Hls & Hz'). apply F1_cons in Hl. destruct Hl as (Hl0 & Hl'). cbn [map total fold_right zsum]. fold (total d (map (fun ts => map Transform (concat ts)) calls')).
  rewrite (IH calls' zs' Hl' Hc' Hz'). f_equal. rewrite transforms_calls. clear IH Hc' Hz' Hl' jobs calls' zs'.
  revert ts l Hl0 Hts Hls. induction js as [|[x lut] js IH]; intros ts l Hl Hts Hls.
  { inversion Hts. inversion Hls. reflexivity. }
  destruct ts as [|t ts']; [inversion Hts|]. destruct l as [|z l']; [inversion Hls|].
  apply F2_cons in Hts. destruct Hts as (Ht & Hts'). apply F2_cons in Hls. destruct Hls as (Hz & Hls'). apply F1_cons in Hl. destruct Hl as (Hl0 & Hl'). cbn [concat map zsum fold_right]. rewrite calls_app, (IH ts' l' Hl' Hts' Hls'). f_equal.
  destruct Ht as (y & Ht). destruct Hz as (c' & Hc' & ->). cbn [fst snd] in *.
  assert (Hb : bootstrap B F tbl K x lut = Some y) by (rewrite <- er_bootstrap, Ht; reflexivity).
  destruct (C74_bootstrap B F tbl kp R K x lut y Ho Hd HK HN Hl0 Hb) as (c1 & Hc1 & H). rewrite Hc' in Hc1. inversion Hc1. subst c1.
  rewrite Ht in H. inversion H. unfold bootstrap_calls, bootstrap_count. rewrite calls_app, calls_rotation.
  destruct (pp_steps (kp_par kp)); rewrite ?calls_switch, ?Nat2Z.inj_mul; destruct d; rewrite ?calls_nil; ring.
Qed.
Print Assumptions C74_counters.

(** With the external crate's tables the counters never move. *)
Theorem C74_external (B : Z) (F : field) (tbl : tables) (kp : key_pack) (R : key_draws) (K : eval_key) (P : parameters) (words rwords : nat -> Z) (gauss : list Z) (c : lwe) (lut : list Z) (t : list dir) :
  all_external tbl ->
  (forall k, key_pack_new_c F tbl P words rwords gauss = Some (t, k) -> t = []) /\
  (enough_draws (kp_par kp) (length (kp_lwe kp)) R ->
    (forall k, eval_key_new_c B F tbl kp R = Some (t, k) -> t = []) /\
    (eval_key_new B F tbl kp R = Some K -> 0 <= pp_N (kp_par kp) < 2 ^ 63 -> length lut = length (kp_ring kp) ->
     forall y, bootstrap_c B F tbl K c lut = Some (t, y) -> t = [])).
Proof.
  intros He. pose proof (external_ticks F tbl He) as Hw. split.
  - intros k E. rewrite (mk_key_pack F tbl _ Hw P words rwords gauss t k E). reflexivity.
  - intros Hd. split.
    + intros k E. rewrite (mk_eval_key F tbl _ Hw B kp R Hd t k E). apply flat_map_none.
    + intros HK HN Hl y E. destruct (ek_shape_of F tbl B kp R K Hd HK) as (EP & Hs). rewrite <- EP in HN.
      assert (Hb : bootstrap B F tbl K c lut = Some y) by (rewrite <- er_bootstrap, E; reflexivity).
      destruct (bootstrap_run F tbl _ Hw B K c lut _ _ y Hs Hl HN Hb) as (c' & _ & Hr). rewrite E, flat_map_none in Hr. now inversion Hr.
Qed.
Print Assumptions C74_external.

(** The parameter sets of [C49_ex] meet the hypotheses. *)
Example C74_ex : exists F T1 T3 b,
  let tbl k := match k with 1%nat => Some T1 | _ => Some T3 end in
  derive_field 32 132120577 = Some F /\ all_own tbl /\
  forall st, enough_draws (C49_par b st) (Z.to_nat (pp_n (C49_par b st))) C49_R /\ 0 <= pp_N (C49_par b st) < 2 ^ 63.
Proof.
  assert (H : exists F, derive_field 32 132120577 = Some F) by (eexists; vm_compute; reflexivity). destruct H as (F & HF). pose proof HF as HF'.
  vm_compute in HF'. injection HF' as EF.
  assert (H : exists T, generate_table F None (fun _ => 5) 1 = Some (Ok (OwnTable T))) by (rewrite <- EF; eexists; vm_compute; reflexivity).
  destruct H as (T1 & _).
  assert (H : exists T, generate_table F None (fun _ => 5) 3 = Some (Ok (OwnTable T))) by (rewrite <- EF; eexists; vm_compute; reflexivity).
  destruct H as (T3 & _).
  assert (H : exists b, basis_new F 7 = Some b /\ bs_len b = 4%nat) by (rewrite <- EF; eexists; split; [vm_compute; reflexivity|vm_compute; reflexivity]).
  destruct H as (b & _ & Eb).
  exists F, (OwnTable T1), (OwnTable T3), b. intros tbl. split; [exact HF|]. split.
  - intros k T E. unfold tbl in E. destruct k as [|[|k]]; inversion E; eexists; reflexivity.
  - intros st. unfold enough_draws. destruct st; cbn [C49_par pp_key pp_basis pp_n pp_N]; rewrite Eb; (split; [split; [reflexivity|]|split; [lia|vm_compute; reflexivity]]);
      repeat (constructor; [cbn [fst snd]; repeat split; vm_compute; repeat constructor|]); constructor.
Qed.
(** Keys and one nand of ciphertexts under each: forward transforms of key generation; forward and inverse
    transforms of the gate (1, 1 and 4 entries of the masks count; the second switches four blocks). *)
Example C74_run :
  match derive_field 32 132120577 with
  | Some F =>
    match generate_table F None (fun _ => 5) 1, generate_table F None (fun _ => 5) 3, basis_new F 7 with
    | Some (Ok T1), Some (Ok T3), Some b =>
      let tbl k := match k with 1%nat => Some T1 | _ => Some T3 end in
      map (fun st =>
        let P := C49_par b st in
        match key_pack_new F tbl P C49_words C49_words C49_a with
        | Some kp =>
          match eval_key_new_c 16 F tbl kp C49_R with
          | Some (t, K) =>
              let c := mk_lwe (firstn (Z.to_nat (pp_n P)) [8000; 500; 2; 9000; 0; 16383; 511; 4097]) 77 in
              match g_nand_c 16 F tbl K c c with
              | Some (u, _) => [calls_of Fwd t; calls_of Inv t; calls_of Fwd u; calls_of Inv u]
              | None => []
              end
          | None => []
          end
        | None => []
        end) [BrMsKs; BrKsMs; BrMs]
    | _, _, _ => []
    end
  | None => []
  end = [[32; 0; 8; 2]; [53; 0; 24; 4]; [64; 0; 32; 8]].
Proof. vm_compute. reflexivity. Qed.
