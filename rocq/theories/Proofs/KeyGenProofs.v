(** Key generation. *)
From Coq Require Import ZArith Znumtheory List Bool Arith Lia.
From Verif Require Import Spec.Basic Spec.Poly Spec.Lattice Spec.Ring Spec.Blind Spec.Switch Spec.Gates Spec.KeyGen.
From Verif Require Import Model.Base Model.Field Model.NTT Model.Concrete Model.Poly Model.Plaintext Model.Lwe Model.Rlwe Model.Gadget Model.BlindRotation Model.KeySwitch Model.Params Model.Boolean Model.Sample Model.SecretKey.
From Verif Require Import Proofs.Arith Proofs.NumTheory Proofs.FieldProofs Proofs.PolyMath Proofs.PolyMain Proofs.NTTProofs Proofs.PolyProofs Proofs.BlindKeyProofs Proofs.LweSwitchProofs Proofs.GateProofs.
From Verif Require Import Props.C28 Props.C37 Props.C38 Props.C41 Props.C44.
Import ListNotations.
Local Open Scope Z_scope.

Definition small3 (x : Z) : Prop := x = 0 \/ x = 1 \/ x = -1.
Definition small2 (x : Z) : Prop := x = 0 \/ x = 1.
Definition centre (m x : Z) : Z := if x <=? 1 then x else x - m.

Lemma m1_mod m : 2 < m -> (-1) mod m = m - 1.
Proof. intros Hm. replace (-1) with (m - 1 + (-1) * m) by ring. rewrite Z.mod_add, Z.mod_small by lia. reflexivity. Qed.
Lemma centre_ok m x : 2 < m -> x = 0 \/ x = 1 \/ x = m - 1 -> small3 (centre m x) /\ centre m x mod m = x.
Proof.
  intros Hm H. unfold centre, small3. destruct H as [->|[->| ->]].
  - split; [left; reflexivity|]. apply Z.mod_small. lia.
  - split; [right; left; reflexivity|]. apply Z.mod_small. cbn. lia.
  - destruct (Z.leb_spec (m - 1) 1); [lia|]. split; [lia|]. replace (m - 1 - m) with (m - 1 + (-1) * m) by ring.
    rewrite Z.mod_add, Z.mod_small by lia. reflexivity.
Qed.
Lemma centre_list m l : 2 < m -> Forall (fun x => x = 0 \/ x = 1 \/ x = m - 1) l ->
  Forall small3 (map (centre m) l) /\ map (fun x => x mod m) (map (centre m) l) = l.
Proof.
  intros Hm H. induction H as [|x l Hx H (IH1 & IH2)]; [split; [constructor|reflexivity]|]. cbn [map].
  destruct (centre_ok m x Hm Hx) as (C1 & C2). split; [constructor; assumption|]. rewrite C2, IH2. reflexivity.
Qed.
Lemma small2_mod m l : 2 < m -> Forall small2 l -> map (fun x => x mod m) l = l.
Proof.
  intros Hm H. induction H as [|x l Hx H IH]; [reflexivity|]. cbn [map]. rewrite IH, Z.mod_small; [reflexivity|].
  destruct Hx; subst; lia.
Qed.
Lemma small2_3 l : Forall small2 l -> Forall small3 l.
Proof. apply Forall_impl. unfold small2, small3. tauto. Qed.
Lemma small3_norm l : Forall small3 l -> norm1 l <= Z.of_nat (length l).
Proof.
  induction 1 as [|x l Hx H IH]; [cbn; lia|]. cbn [norm1 length]. assert (Z.abs x <= 1) by (destruct Hx as [->|[->| ->]]; lia). lia.
Qed.

Lemma weight_norm m l : 2 < m -> Forall small3 l -> weight (map (fun x => x mod m) l) = norm1 l.
Proof.
  intros Hm H. unfold weight. induction H as [|x l Hx H IH]; [reflexivity|]. cbn [map filter norm1]. rewrite <- IH.
  destruct Hx as [->|[->| ->]].
  - rewrite Z.mod_0_l by lia. reflexivity.
  - rewrite Z.mod_1_l by lia. cbn [Z.eqb negb length]. lia.
  - rewrite m1_mod by lia. destruct (Z.eqb_spec (m - 1) 0); [lia|]. cbn [negb length]. lia.
Qed.
Lemma weight_le l : 0 <= weight l <= Z.of_nat (length l).
Proof. unfold weight. induction l as [|x l IH]; cbn [filter length]; [lia|]. destruct (negb _); cbn [length]; lia. Qed.

Lemma nth_forall2 {A} (Q : A -> Prop) (d : A) l : Q d -> Forall Q l -> forall i, Q (nth i l d).
Proof.
  intros Hd H i. destruct (Nat.lt_ge_cases i (length l)) as [L|L].
  - rewrite Forall_forall in H. apply H. apply nth_In. exact L.
  - rewrite nth_overflow by exact L. exact Hd.
Qed.

Lemma split_blocks m : forall d (s : list Z), length s = (d * m)%nat ->
  exists zs, s = concat zs /\ length zs = d /\ Forall (fun z => length z = m) zs.
Proof.
  induction d as [|d IH]; intros s L.
  - exists []. destruct s; [|discriminate]. repeat constructor.
  - destruct (IH (skipn m s)) as (zs & E & Lz & F). { rewrite skipn_length. lia. }
    exists (firstn m s :: zs). cbn [concat length]. rewrite <- E, firstn_skipn. split; [reflexivity|]. split; [lia|].
    constructor; [|exact F]. rewrite firstn_length. lia.
Qed.

Lemma phase_mod q z y : 0 < q -> phase q (map (fun x => x mod q) z) y = phase q z y.
Proof.
  intros Hq. unfold phase. apply cong_iff; [lia|].
  assert (D : forall a s, cong q (dotz a (map (fun x => x mod q) s)) (dotz a s)).
  { induction a as [|v a0 IH]; intros [|u s0]; cbn [map dotz]; try reflexivity. rewrite IH.
    assert (C : cong q (u mod q) u) by (apply cong_mod; lia). rewrite C. reflexivity. }
  rewrite D. reflexivity.
Qed.
Lemma lwe_switch_key_mod q s base len z noise key : 0 < q ->
  lwe_switch_key q (map (fun x => x mod q) s) base len z noise key -> lwe_switch_key q s base len z noise key.
Proof.
  intros Hq (L & H). split; [exact L|]. intros j inner E. destruct (H j inner E) as (L' & H'). split; [exact L'|].
  intros i row Er v Hv. destruct (H' i row Er v Hv) as (ct & E1 & W & C). exists ct. split; [exact E1|].
  rewrite map_length in W. rewrite phase_mod in C by exact Hq. auto.
Qed.

Section Gen.
Variables (BF p : Z) (k : nat) (F : field) (tbl : tables) (B j bits : Z) (P : parameters).
Hypothesis HG : good_params BF p k F tbl B j bits P.
Notation q := (2 ^ j).
Notation n := (Z.to_nat (pp_n P)).

Lemma q_big : 8 <= q.
Proof. destruct HG as (_ & (_ & Hj & _) & _). change 8 with (2 ^ 3). apply Z.pow_le_mono_r; lia. Qed.

Lemma ctx_ok : exists w, fok F /\ fp F = p /\ ctx F tbl k w /\ 2 < p.
Proof.
  destruct HG as ((HB & Hp & _ & HF & Hs & Hk) & _). destruct (field_ctx BF p k F tbl HB Hp HF Hs) as (Hok & E & w & C).
  exists w. split; [exact Hok|]. split; [exact E|]. split; [exact C|]. rewrite <- E. apply C.
Qed.

Lemma lwe_key_ok words : words32 words ->
  exists z, create_lwe_secret_key P words = Some (map (fun x => x mod q) z) /\ length z = n /\ Forall small3 z /\
    (pp_key P = LBinary -> Forall small2 z).
Proof.
  intros Hw. pose proof q_big as Q. destruct HG as (_ & _ & (_ & Eq & _) & _). unfold create_lwe_secret_key. destruct (pp_key P).
  - destruct (C44_binary_outputs F n words Hw) as (v & E & _ & L & V). exists v. rewrite small2_mod by (try lia; exact V).
    split; [exact E|]. split; [exact L|]. split; [apply small2_3; exact V|]. intros _; exact V.
  - destruct (C44_ternary_outputs (pp_q P) n words ltac:(lia) Hw) as (v & E & _ & L & V). rewrite Eq in *.
    exists (map (centre q) v). assert (V' : Forall (fun x => x = 0 \/ x = 1 \/ x = q - 1) v) by (eapply Forall_impl; [|exact V]; cbn; intros; tauto).
    destruct (centre_list q v ltac:(lia) V') as (C1 & C2). rewrite C2. split; [exact E|]. split; [rewrite map_length; exact L|].
    split; [exact C1|discriminate].
Qed.

(** The ring key, with a small representative where the processing order needs one. *)
Lemma ring_key_ok z rwords gauss : Forall small3 z -> length z = n -> words32 rwords -> ring_draw p k gauss ->
  exists s, create_ring_secret_key F P (map (fun x => x mod q) z) rwords gauss = Some (map (fun x => x mod p) s) /\
    length s = (2 ^ k)%nat /\
    match pp_steps P with BrMsKs => Forall small3 s | BrKsMs => canonical p s | BrMs => s = z end.
Proof.
  intros Hz Lz Hw (Lg & Cg). destruct ctx_ok as (w & Hok & Ep & C & P2). pose proof q_big as Q.
  destruct HG as (_ & _ & (EN & _) & HS). unfold create_ring_secret_key. rewrite EN, Nat2Z.id.
  destruct (C44_binary_outputs F (2 ^ k) rwords Hw) as (vb & _ & Eb & Lb & Vb).
  destruct (C44_ternary_outputs p (2 ^ k) rwords ltac:(lia) Hw) as (vt & _ & Et & Lt & Vt).
  specialize (Et F Ep).
  assert (Vt' : Forall (fun x => x = 0 \/ x = 1 \/ x = p - 1) vt) by (eapply Forall_impl; [|exact Vt]; cbn; intros; tauto).
  assert (Ct : canonical p vt) by (eapply Forall_impl; [|exact Vt]; cbn; intros; tauto).
  assert (Cb : canonical p vb) by (eapply Forall_impl; [|exact Vb]; cbn; intros x [->| ->]; lia).
  destruct (centre_list p vt P2 Vt') as (C1 & C2).
  assert (CM : forall v, canonical p v -> map (fun x => x mod p) v = v).
  { clear. induction 1 as [|x l Hx H IH]; [reflexivity|]. cbn [map]. rewrite IH, Z.mod_small by exact Hx. reflexivity. }
  destruct (pp_steps P).
  - destruct HS as (HR & _). destruct (pp_ring_key P); [| |congruence].
    + exists vb. rewrite CM by exact Cb. split; [exact Eb|]. split; [exact Lb|]. apply small2_3. exact Vb.
    + exists (map (centre p) vt). rewrite C2. split; [exact Et|]. split; [rewrite map_length; exact Lt|exact C1].
  - destruct (pp_ring_key P).
    + exists vb. rewrite CM by exact Cb. auto.
    + exists vt. rewrite CM by exact Ct. auto.
    + exists gauss. rewrite CM by exact Cg. auto.
  - destruct HS as (HR & En). exists z. split.
    + assert (EA : match pp_ring_key P with RGaussian => false | _ => true end = true) by (destruct (pp_ring_key P); congruence).
      rewrite EA. rewrite En, EN, Z.eqb_refl. cbn [assert bind].
      clear Lz. induction Hz as [|x z Hx Hz IH]; [reflexivity|]. cbn [map mapM]. rewrite IH.
      replace (convert F (x mod q)) with (Some (x mod p)); [reflexivity|].
      unfold convert, usub. rewrite Ep. destruct Hx as [->|[->| ->]].
      * rewrite !Z.mod_small by lia. reflexivity.
      * rewrite !Z.mod_small by lia. reflexivity.
      * rewrite !m1_mod by lia. destruct (Z.eqb_spec (q - 1) 0), (Z.eqb_spec (q - 1) 1); try lia. destruct (Z.leb_spec 1 p); [|lia]. reflexivity.
    + split; [|reflexivity]. rewrite Lz, En, EN. apply Nat2Z.id.
Qed.

Lemma ntt_mod w s : ctx F tbl k w -> fok F -> fp F = p -> length s = (2 ^ k)%nat ->
  into_ntt F tbl (map (fun x => x mod p) s) = Some (ntt_of F w k s).
Proof.
  intros C Hok Ep L. pose proof (fp_range F Hok) as (P2 & _). rewrite <- Ep.
  rewrite (into_ntt_canon F Hok tbl k w C); [|rewrite map_length; exact L|].
  - f_equal. unfold ntt_of. apply map_ext. intros i. apply cong_iff; [lia|]. apply (ev_pmod (fp F)). lia.
  - apply Forall_forall. intros x Hx. apply in_map_iff in Hx. destruct Hx as (y & <- & _). apply Z.mod_pos_bound. lia.
Qed.

Lemma br_key_ok w s z S E Ek R zq :
  ctx F tbl k w -> fok F -> fp F = p -> length s = (2 ^ k)%nat -> S = ntt_of F w k s -> length z = n -> Forall small3 z ->
  (pp_key P = LBinary -> Forall small2 z) -> zq = map (fun x => x mod q) z -> draws_small F k j P E Ek R ->
  exists key, br_key_generate F tbl (mk_key_pack zq (map (fun x => x mod p) s) S P) R = Some key /\
    rotation_key F tbl (2 ^ k) (pp_basis P) s E z key /\
    rotation_noise (2 ^ k) (pp_basis P) bits E z key =
    pp_n P * (2 * (Z.of_nat (bs_len (pp_basis P)) * (Z.of_nat (2 ^ k) * ((2 ^ bits - 1) * match pp_key P with LBinary => E | LTernary => 2 * E end)))).
Proof.
  intros C Hok Ep Ls -> Lz Hz Hb -> (HD & _). pose proof q_big as Q.
  destruct HG as ((_ & Hp & _ & _ & _ & Hk) & _ & (_ & _ & _ & H0 & HB & Hn) & _). rewrite <- Ep in Hp.
  unfold br_key_generate, rotation_noise. cbn [kp_par kp_lwe kp_ntt]. rewrite Lz, Z2Nat.id by exact Hn. destruct (pp_key P).
  - destruct HD as (L & D). specialize (Hb eq_refl). rewrite small2_mod by (try lia; exact Hb).
    destruct (binary_generate_correct F Hok Hp tbl k w C ltac:(lia) (pp_basis P) bits HB H0 s Ls E z (kd_bin R) Hb (eq_trans L (eq_sym Lz)) D) as (key & E1 & K).
    rewrite E1. cbn [bind]. exists (BrBinary key). split; [reflexivity|]. split; [exact K|reflexivity].
  - destruct HD as (L & D).
    assert (D' : Forall (fun r : rgsw_rnd * rgsw_rnd => (drawn_small (fp F) (2 ^ k) E (bs_len (pp_basis P)) (fst (fst r)) /\ drawn_small (fp F) (2 ^ k) E (bs_len (pp_basis P)) (snd (fst r))) /\
        drawn_small (fp F) (2 ^ k) E (bs_len (pp_basis P)) (fst (snd r)) /\ drawn_small (fp F) (2 ^ k) E (bs_len (pp_basis P)) (snd (snd r))) (kd_ter R)) by exact D.
    destruct (ternary_generate_correct F Hok Hp tbl k w C ltac:(lia) (pp_basis P) bits HB H0 s Ls E q z (kd_ter R) ltac:(lia) Hz (eq_trans L (eq_sym Lz)) D') as (key & E1 & K).
    rewrite E1. cbn [bind]. exists (BrTernary key). split; [reflexivity|]. split; [exact K|reflexivity].
Qed.

Lemma ks_key_ok w s z S E Ek R zq :
  ctx F tbl k w -> fok F -> fp F = p -> length s = (2 ^ k)%nat -> S = ntt_of F w k s -> length z = n -> Forall small3 z -> zq = map (fun x => x mod q) z ->
  match pp_steps P with BrMsKs => Forall small3 s | BrKsMs => canonical p s | BrMs => s = z end -> 0 <= Ek ->
  draws_small F k j P E Ek R ->
  exists K, match pp_steps P with
    | BrMsKs => let* K := lks_generate B (pp_q P) (pp_ks_bits P) zq (map (fun x => x mod p) s) (kd_lwe R) in Some (KsLwe K)
    | BrKsMs => let* K := rks_generate F tbl (pp_ks_bits P) zq (map (fun x => x mod p) s) S (kd_ring R) in Some (KsRlwe K)
    | BrMs => Some KsNone
    end = Some K /\ switching_key B F tbl P s z (key_switch_noise F k j P Ek) K.
Proof.
  intros C Hok Ep Ls ES Lz Hz -> Hs HE (_ & HD). pose proof q_big as Q.
  destruct HG as ((HBF & Hp & _ & HF & Hsv & Hk) & (_ & Hj & _) & (_ & Eq & _ & _ & _ & Hn) & HS). pose proof (proj1 C) as P2. rewrite Ep in P2.
  unfold switching_key, key_switch_noise. rewrite Eq. destruct (pp_steps P).
  - destruct HD as (HD & Hsm). destruct HS as (_ & Hb).
    set (kb := pp_ks_bits P) in *.
    destruct (C37_generate B kb j p (map (fun x => x mod q) z) s (kd_lwe R) Hb ltac:(lia) P2 Hs) as (wb & key & E1 & E2 & HN).
    { rewrite map_length, Lz, Ls. exact HD. }
    rewrite E2. cbn [bind]. eexists. split; [reflexivity|].
    set (noise := fun l i v => cen q Ek (drawn_noise (kd_lwe R) l i v)).
    assert (Hlen : wb_len wb = Z.to_nat ((j + kb - 1) / kb)).
    { rewrite wbasis_new_pow2 in E1 by lia. destruct ((1 <=? kb) && (kb <=? j)); [|discriminate]. injection E1 as <-. reflexivity. }
    exists wb, key, noise, Ek. split; [exact HE|]. split; [lia|]. split; [exact E1|]. split; [rewrite map_length; reflexivity|].
    split.
    { assert (HK := HN noise). eapply lwe_switch_key_mod; [lia|]. apply HK. intros l i v. unfold noise, cen. destruct (_ <=? Ek); [apply cong_refl|]. exists (-1). ring. }
    split.
    { intros l i v. unfold noise, drawn_noise.
      assert (H : 0 <= snd (nth (Z.to_nat (v - 1)) (nth i (nth l (kd_lwe R) []) []) ([], 0)) <= Ek \/ q - Ek <= snd (nth (Z.to_nat (v - 1)) (nth i (nth l (kd_lwe R) []) []) ([], 0)) < q).
      { apply (nth_forall2 (fun ae : list Z * Z => 0 <= snd ae <= Ek \/ q - Ek <= snd ae < q)); [cbn; lia|].
        apply (nth_forall2 (Forall (fun ae : list Z * Z => 0 <= snd ae <= Ek \/ q - Ek <= snd ae < q))); [constructor|].
        apply (nth_forall2 (Forall (Forall (fun ae : list Z * Z => 0 <= snd ae <= Ek \/ q - Ek <= snd ae < q)))); [constructor|exact Hsm]. }
      unfold cen. destruct (Z.leb_spec (snd (nth (Z.to_nat (v - 1)) (nth i (nth l (kd_lwe R) []) []) ([], 0))) Ek); lia. }
    rewrite Hlen, Ls, Z2Nat.id; [reflexivity|]. apply Z.div_pos; lia.
  - destruct HS as (H0 & (b & Hb) & Hk' & Hsv'). set (k' := Nat.log2_up (Z.to_nat (pp_n P))) in *. cbv zeta in HD. destruct HD as (b' & Hb' & Lr & Dr).
    assert (b' = b) by congruence. subst b'. fold k' in Lr, Dr.
    assert (EM : map (fun x => x mod p) s = s).
    { clear -Hs. induction Hs as [|x l Hx H IH]; [reflexivity|]. cbn [map]. rewrite IH, Z.mod_small by exact Hx. reflexivity. }
    destruct (split_blocks (2 ^ k') (2 ^ (k - k')) s) as (zs & Ez & Lzs & Fz).
    { rewrite Ls, <- Nat.pow_add_r. f_equal. lia. }
    assert (Hpos : (0 < 2 ^ (k - k'))%nat) by (apply Nat.neq_0_lt_0, Nat.pow_nonzero; lia).
    destruct (C38_generate BF p k' F tbl (pp_ks_bits P) b q z Ek zs S (kd_ring R)) as (key & E1 & K); try assumption; try lia.
    + unfold k'. rewrite Lz. reflexivity.
    + rewrite <- Ez. exact Hs.
    + intros _. rewrite <- Ez, ES, <- EM at 1. apply ntt_mod; assumption.
    + rewrite <- Ep. exact Dr.
    + rewrite EM. rewrite <- Ez in E1. rewrite E1. cbn [bind]. eexists. split; [reflexivity|].
      exists b, key, zs, k', Ek. split; [exact HE|]. split; [exact H0|]. split; [exact Hb|]. split; [unfold k'; rewrite Lz; reflexivity|].
      split; [lia|]. split; [exact Hsv'|]. split; [reflexivity|]. split; [exact Ez|]. split; [lia|]. split; [exact K|].
      rewrite Hb, Lzs. replace k with ((k - k') + k')%nat at 1 by lia. rewrite Nat.pow_add_r, Nat2Z.inj_mul. ring.
  - eexists. split; [reflexivity|]. split; [exact Hs|reflexivity].
Qed.

Theorem keys_ok words rwords gauss E Ek R : words32 words -> words32 rwords -> ring_draw p k gauss ->
  0 <= E -> 0 <= Ek -> draws_small F k j P E Ek R ->
  exists kp K s z W, key_pack_new F tbl P words rwords gauss = Some kp /\ eval_key_new B F tbl kp R = Some K /\
    kp_par kp = P /\ kp_lwe kp = map (fun x => x mod q) z /\ kp_ring kp = map (fun x => x mod p) s /\
    length z = n /\ Forall (fun x => x = 0 \/ x = 1 \/ x = -1) z /\
    gate_setting BF p k F tbl B j bits K s z E W /\
    length s = (2 ^ k)%nat /\
    out_noise p k j bits K s z E W = key_noise F p k j bits P E Ek (weight (kp_ring kp)) (weight (kp_lwe kp)) /\
    first_switch (Z.of_nat (2 ^ k)) q z = key_first_switch (Z.of_nat (2 ^ k)) q (weight (kp_lwe kp)).
Proof.
  intros Hw Hrw Hg HE HEk HD. destruct ctx_ok as (w & Hok & Ep & C & P2). pose proof q_big as Q.
  destruct (lwe_key_ok words Hw) as (z & E1 & Lz & Hz & Hb).
  destruct (ring_key_ok z rwords gauss Hz Lz Hrw Hg) as (s & E2 & Ls & Hs).
  pose proof (ntt_mod w s C Hok Ep Ls) as E3.
  destruct (br_key_ok w s z _ E Ek R _ C Hok Ep Ls eq_refl Lz Hz Hb eq_refl HD) as (br & E4 & RK & RN).
  destruct (ks_key_ok w s z _ E Ek R _ C Hok Ep Ls eq_refl Lz Hz eq_refl Hs HEk HD) as (ks & E5 & SK).
  set (W := key_switch_noise F k j P Ek) in *.
  exists (mk_key_pack (map (fun x => x mod q) z) (map (fun x => x mod p) s) (ntt_of F w k s) P), (mk_eval_key br ks P), s, z, W.
  split. { unfold key_pack_new. rewrite E1. cbn [bind]. rewrite E2. cbn [bind]. rewrite E3. reflexivity. }
  split. { unfold eval_key_new. rewrite E4. cbn [bind kp_par kp_lwe kp_ring kp_ntt]. rewrite E5. reflexivity. }
  split; [reflexivity|]. split; [reflexivity|]. split; [reflexivity|]. split; [exact Lz|]. split; [exact Hz|].
  pose proof (weight_norm q z ltac:(lia) Hz) as Nz. cbn [kp_ring kp_lwe]. rewrite Nz.
  destruct HG as (G1 & G2 & (G3 & G4 & G5 & G6 & G7 & G8) & GS).
  split.
  { unfold gate_setting. cbn [ek_par ek_br ek_ks]. split; [exact G1|]. split; [exact G2|].
    split; [repeat split; assumption|]. split; [exact Ls|]. split; [exact HE|]. split; assumption. }
  split; [exact Ls|]. split; [|reflexivity].
  unfold out_noise, gate_noise, boot_noise, key_noise. cbn [ek_par ek_br]. rewrite RN. fold W. cbv zeta.
  destruct (pp_steps P).
  - rewrite (weight_norm p s P2 Hs). reflexivity.
  - reflexivity.
  - subst s. reflexivity.
Qed.
End Gen.
