(** Generation of ring key-switching keys. *)
From Coq Require Import ZArith Znumtheory List Bool Arith Lia Setoid Morphisms.
From Verif Require Import Spec.Basic Spec.Poly Spec.Ring Spec.Lattice Spec.Blind Spec.Switch Model.Base Model.Field Model.NTT Model.Concrete Model.Poly Model.Lwe Model.Rlwe Model.Gadget Model.KeySwitch
  Proofs.Arith Proofs.BarrettProofs Proofs.NumTheory Proofs.FieldProofs Proofs.PolyMath Proofs.NTTProofs Proofs.NTTTableProofs
  Proofs.PolyProofs Proofs.MonomialProofs Proofs.LweProofs Proofs.RingProofs Proofs.GadgetProofs Proofs.RlweProofs Proofs.GadgetMain Proofs.RgswProofs Proofs.SampleProofs Proofs.BlindProofs Proofs.BlindKeyProofs Proofs.RingSwitchProofs.
Import ListNotations.
Local Open Scope Z_scope.

Lemma chunks_exact_concat m zs : (0 < m)%nat -> Forall (fun x => length x = m) zs -> forall fuel, (length zs <= fuel)%nat -> chunks_exact fuel m (concat zs) = zs.
Proof.
  intros Hm H. induction H as [|z zs Lz H IH]; intros fuel Hf.
  - destruct fuel; [reflexivity|]. cbn [chunks_exact concat length]. destruct (Nat.leb_spec m 0); [lia|reflexivity].
  - cbn [length] in Hf. destruct fuel; [lia|]. cbn [chunks_exact concat]. rewrite app_length, Lz. destruct (Nat.leb_spec m (m + length (concat zs))); [|lia].
    rewrite <- Lz, firstn_app, Nat.sub_diag, firstn_all, skipn_app, skipn_all, Nat.sub_diag. cbn [firstn skipn app]. rewrite app_nil_r, Lz. f_equal. apply IH. lia.
Qed.
Lemma chunks_concat m zs : (0 < m)%nat -> Forall (fun x => length x = m) zs -> chunks m (concat zs) = zs.
Proof. intros Hm H. unfold chunks. apply chunks_exact_concat; [exact Hm|exact H|]. rewrite (concat_len m) by exact H. nia. Qed.

Section Field.
Variable F : field.
Hypothesis Hok : fok F.
Local Notation p := (fp F).
Hypothesis Hp : prime p.
Variables (tbl : tables) (k : nat) (w : Z).
Hypothesis C : ctx F tbl k w.
Hypothesis Hk : (0 < k)%nat.
Local Notation n := (2 ^ k)%nat.
Local Notation ntt := (ntt_of F w k).
Local Notation nform := (nform F k w).
Variables (b : basis) (bits : Z).
Hypothesis Hb : basis_new F bits = Some b.
Hypothesis Hbits : 0 <= bits.
Variable E : Z.
Variable t : list Z.
Hypothesis Lt : length t = n.

Lemma rks_rows_correct z bv : length z = n -> 0 <= bv < p -> cong p bv (2 ^ bits) -> forall rnd c zc, rnd_ok F k rnd ->
  canonical p zc -> pcong p zc (ntt (pscale c z)) ->
  exists rows, rks_rows F tbl (ntt t) bv zc rnd = Some (map nform rows) /\ length rows = length rnd /\ Forall (rlwe_wf p n) rows /\
    genc p n t (2 ^ bits) c z rows (map snd rnd).
Proof.
  intros Lz Hbv Cbv. pose proof (p0 F tbl k w C) as P0. induction rnd as [|[a e] rnd IH]; intros c zc Hr Cz Pz.
  - exists []. cbn. auto.
  - inversion Hr as [|? ? (Wa & We) Hr']; subst. cbn [fst snd] in *. destruct (ntt_surj F Hok tbl k w C a (proj1 Wa) (proj2 Wa)) as (A & LA & CA & ->).
    cbn [rks_rows]. rewrite (nzero_sample_correct F Hok tbl k w C Hk t Lt A e (conj LA CA) We). cbn [bind]. unfold GadgetProofs.nform at 1 2. cbn [ra rb].
    pose proof (proj1 We) as Le.
    assert (Lzc : length zc = n) by (rewrite (pcong_length _ _ _ Pz); apply ntt_of_length).
    rewrite (p_add_assign_correct F Hok) by (first [rewrite ntt_of_length; congruence | apply (ntt_canon F Hok) | exact Cz]). cbn [bind].
    assert (HR : exists rows, (let* z0 := match rnd with [] => Some zc | _ :: _ => p_mul_scalar F zc bv end in rks_rows F tbl (ntt t) bv z0 rnd) = Some (map nform rows) /\
       length rows = length rnd /\ Forall (rlwe_wf p n) rows /\ genc p n t (2 ^ bits) (c * 2 ^ bits) z rows (map snd rnd)).
    { destruct rnd as [|r rnd]; [exists []; cbn; auto|]. rewrite (p_mul_scalar_correct F Hok) by assumption. cbn [bind].
      apply IH; [exact Hr'|apply pmod_canonical; exact P0|]. rewrite (pcong_pmod p) by lia.
      apply (ntt_ext F Hok); [rewrite pscale_length; exact Lzc|]. intros i Hi. rewrite nth_pscale.
      rewrite (pcong_nth_inv p _ _ i Pz). rewrite (ntt_nth F Hok k w _ i Hi), !ev_scale. rewrite Cbv. apply cong_of_eq. ring. }
    destruct HR as (rows & E1 & Lr & Wr & G).
    destruct (match rnd with [] => Some zc | _ :: _ => p_mul_scalar F zc bv end) as [z0|]; [|discriminate E1]. cbn [bind] in *. rewrite E1. cbn [bind].
    exists (mk_rlwe A (pmod p (padd (padd e (negacyclic n A t)) (pscale c z))) :: rows). split.
    { cbn [map]. do 2 f_equal. unfold GadgetProofs.nform. cbn [ra rb]. f_equal. apply (pcong_eq p); [apply pmod_canonical; exact P0|apply (ntt_canon F Hok)|].
      rewrite (pcong_pmod p) by lia. rewrite (ntt_pmod F Hok). eapply pcong_trans; [|rewrite (ntt_pmod F Hok); apply (ntt_add F Hok k w); len n].
      apply padd_proper; [apply pcong_refl|exact Pz]. }
    split; [cbn [length]; lia|]. split; [constructor; [|exact Wr]; split; [exact LA|]; split; [len n|]; split; [exact CA|apply pmod_canonical; exact P0]|].
    cbn [map snd genc]. split; [exact Le|]. split; [|exact G].
    apply (row_phase F Hp tbl k w C t Lt); [exact LA|len n|len n|]. rewrite (pcong_pmod p) by lia.
    apply (EQ_pcong p w k Hp (Hp2 F tbl k w C) (Hw F tbl k w C)); [len n|len n|]. intros x Hx. rewrite !ev_add by len n. apply cong_of_eq. ring.
Qed.

Lemma one_gadget z bv rnd : length z = n -> 0 <= bv < p -> cong p bv (2 ^ bits) -> drawn_small p n E (bs_len b) rnd ->
  exists rows, rks_rows F tbl (ntt t) bv (ntt z) rnd = Some rows /\ gadget_of F tbl n b t E z (mk_gadget rows b).
Proof.
  intros Lz Hbv Cbv Hr. destruct (small_rnd F k b E rnd Hr) as (Hrnd & Lr).
  destruct (rks_rows_correct z bv Lz Hbv Cbv rnd 1 (ntt z) Hrnd (ntt_canon F Hok k w z)) as (rows & E1 & L1 & W1 & G1).
  { rewrite (ntt_proper F Hok k w (pscale 1 z) z); [apply pcong_refl|]. apply pcong_nth; [apply pscale_length|]. intros i _. rewrite nth_pscale. apply cong_of_eq. ring. }
  exists (map nform rows). split; [exact E1|]. exists (mk_gadget rows b), (cens F E rnd).
  split; [apply (gadget_to_ntt_correct F Hok tbl k w C); exact W1|]. split; [split; [reflexivity|]; split; [cbn [gd]; congruence|exact W1]|].
  split; [|apply (cens_bounded F tbl k w C b E); exact Hr]. rewrite (base_eq F Hok b bits Hb Hbits). cbn [gd].
  apply (enc_cens F k bits t E). apply genc_elim. exact G1.
Qed.
End Field.

Section Gen.
Variable F : field.
Hypothesis Hok : fok F.
Local Notation p := (fp F).
Hypothesis Hp : prime p.
Variables (tbl : tables) (k : nat) (w : Z).
Hypothesis C : ctx F tbl k w.
Hypothesis Hk : (0 < k)%nat.
Local Notation n := (2 ^ k)%nat.
Local Notation ntt := (ntt_of F w k).
Variables (b : basis) (bits : Z).
Hypothesis Hb : basis_new F bits = Some b.
Hypothesis Hbits : 0 <= bits.

Lemma to_field_correct q x : 2 < q -> x = 0 \/ x = 1 \/ x = -1 -> to_field F (x mod q) = Some (x mod p).
Proof.
  intros Hq Hx. pose proof (Hp2 F tbl k w C) as H2. unfold to_field. destruct Hx as [-> | [-> | ->]].
  - rewrite !Z.mod_0_l by lia. reflexivity.
  - rewrite !Z.mod_1_l by lia. reflexivity.
  - assert (Em : -1 mod q = q - 1) by (symmetry; apply (Z.mod_unique _ _ (-1)); lia).
    assert (Ep : -1 mod p = p - 1) by (symmetry; apply (Z.mod_unique _ _ (-1)); lia). rewrite Em, Ep.
    replace (q - 1 =? 1) with false by (symmetry; apply Z.eqb_neq; lia). replace (q - 1 =? 0) with false by (symmetry; apply Z.eqb_neq; lia).
    unfold usub. destruct (Z.leb_spec 1 p); [reflexivity|lia].
Qed.

Lemma rks_generate_correct E q s zs nring rnd : 2 < q -> Forall (fun x => x = 0 \/ x = 1 \/ x = -1) s -> next_pow2 (length s) = n -> (length s <= n)%nat ->
  Forall (fun z => length z = n) zs -> (0 < length zs)%nat -> canonical p (concat zs) -> (length zs = 1%nat -> into_ntt F tbl (concat zs) = Some nring) ->
  length rnd = length zs -> Forall (drawn_small p n E (bs_len b)) rnd ->
  exists key, rks_generate F tbl bits (map (fun x => x mod q) s) (concat zs) nring rnd = Some (mk_rlwe_ks_key (length s) key) /\
    ring_switch_key F tbl n b s E zs key.
Proof.
  intros Hq Hs Hext Ls Hz Hz0 Cz HN Lr Hr. pose proof (p0 F tbl k w C) as P0. assert (Hn : (0 < n)%nat) by (pose proof (Nat.pow_nonzero 2 k); lia).
  unfold rks_generate. rewrite map_length, Hext, Hb. pose proof (concat_len n zs Hz) as Lc. rewrite assert_true by (apply Nat.leb_le; nia). cbn [bind].
  assert (Es : mapM (to_field F) (map (fun x => x mod q) s) = Some (pmod p s)).
  { rewrite (mapM_some (to_field F) (fun y => if y =? 0 then 0 else if y =? 1 then 1 else p - 1)).
    - f_equal. unfold pmod. rewrite map_map. apply map_ext_in. intros x Hx. rewrite Forall_forall in Hs. pose proof (to_field_correct q x Hq (Hs x Hx)) as Ef.
      unfold to_field, usub in Ef. destruct (x mod q =? 0); [congruence|]. destruct (x mod q =? 1); [congruence|]. destruct (Z.leb_spec 1 p); [congruence|lia].
    - intros y _. unfold to_field. destruct (y =? 0); [reflexivity|]. destruct (y =? 1); [reflexivity|]. unfold usub. destruct (Z.leb_spec 1 p); [reflexivity|lia]. }
  rewrite Es. cbn [bind].
  assert (Ep : pmod p s ++ repeat 0 (n - length s) = pmod p (pad n s)).
  { unfold pad. rewrite pmod_app. f_equal. symmetry. apply pmod_id. apply Forall_forall. intros x Hx. apply repeat_spec in Hx. lia. }
  assert (Lp : length (pad n s) = n) by (unfold pad; rewrite app_length, repeat_length; lia).
  rewrite Ep. rewrite (into_ntt_canon F Hok tbl k w C) by (rewrite ?pmod_length; assumption || (apply pmod_canonical; exact P0)). cbn [bind].
  rewrite (ntt_pmod F Hok). pose proof (basis_bits F bits b Hok Hb Hbits) as HBB. rewrite (base_eq F Hok b bits Hb Hbits).
  assert (Hw2 : 0 <= 2 ^ bits < 2 ^ fw F).
  { split; [apply Z.pow_nonneg; lia|]. apply Z.pow_lt_mono_r; lia. }
  rewrite (f_new_correct F Hok) by exact Hw2. cbn [bind].
  assert (Hbv : 0 <= 2 ^ bits mod p < p) by (apply Z.mod_pos_bound; exact P0). assert (Cbv : cong p (2 ^ bits mod p) (2 ^ bits)) by (apply cong_mod; lia).
  set (one := fun z r => let* _ := assert (length r =? bs_len b)%nat in let* rows := rks_rows F tbl (ntt (pad n s)) (2 ^ bits mod p) z r in Some (mk_gadget rows b)).
  assert (Hone : forall z r, length z = n -> drawn_small p n E (bs_len b) r -> exists g, one (ntt z) r = Some g /\ gadget_of F tbl n b (pad n s) E z g).
  { intros z r Lz Hsm. unfold one. rewrite assert_true by (apply Nat.eqb_eq; apply Hsm). cbn [bind].
    destruct (one_gadget F Hok Hp tbl k w C Hk b bits Hb Hbits E (pad n s) Lp z (2 ^ bits mod p) r Lz Hbv Cbv Hsm) as (rows & E1 & G). rewrite E1. cbn [bind]. eexists. split; [reflexivity|exact G]. }
  rewrite chunks_concat by assumption.
  assert (HKey : exists key, (if (n =? length (concat zs))%nat then let* r := index rnd 0 in let* g := one nring r in Some [g]
     else let* _ := assert (length zs =? length rnd)%nat in mapM2 (fun z r => let* z0 := into_ntt F tbl z in one z0 r) zs rnd) = Some key /\ ring_switch_key F tbl n b s E zs key).
  { destruct (Nat.eqb_spec n (length (concat zs))) as [En|En].
    - assert (L1 : length zs = 1%nat) by nia. specialize (HN L1). destruct zs as [|z [|? ?]]; try discriminate L1. destruct rnd as [|r [|? ?]]; try discriminate Lr.
      inversion Hz as [|? ? Lz _]; subst. inversion Hr as [|? ? Hr0 _]; subst. cbn [concat] in *. rewrite app_nil_r in *.
      rewrite (into_ntt_canon F Hok tbl k w C z Lz Cz) in HN. injection HN as <-. cbn [index nth_error bind].
      destruct (Hone z r Lz Hr0) as (g & E1 & G). unfold index. cbn [nth_error bind]. rewrite E1. cbn [bind]. eexists. split; [reflexivity|].
      constructor; [split; [exact Lz|exact G]|constructor].
    - rewrite assert_true by (apply Nat.eqb_eq; congruence). cbn [bind]. apply canonical_concat in Cz. clear HN En Lc Hz0. revert rnd Lr Hr. induction Hz as [|z zs Lz Hz IH]; intros [|r rnd] Lr Hr; try discriminate Lr.
      + exists []. split; [reflexivity|constructor].
      + injection Lr as Lr. inversion Hr as [|? ? Hr0 Hr']; subst. inversion Cz as [|? ? Cz0 Cz']; subst. destruct (IH Cz' rnd Lr Hr') as (key & E1 & K).
        cbn [mapM2]. rewrite (into_ntt_canon F Hok tbl k w C z Lz Cz0). cbn [bind]. destruct (Hone z r Lz Hr0) as (g & E2 & G). rewrite E2. cbn [bind]. rewrite E1. cbn [bind].
        eexists. split; [reflexivity|]. constructor; [split; [exact Lz|exact G]|exact K]. }
  destruct HKey as (key & EK & K). unfold one in EK. rewrite EK. cbn [bind]. exists key. split; [reflexivity|exact K].
Qed.
End Gen.
