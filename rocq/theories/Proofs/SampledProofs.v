(** Keys and ciphertexts whose noise comes from the Gaussian samplers. *)
From Coq Require Import ZArith QArith Qabs List Bool Lia Lqa SpecFloat.
From Verif Require Import Spec.Basic Spec.Poly Spec.Lattice Spec.Ring Spec.Blind Spec.Switch Spec.Gates Spec.KeyGen Spec.Gauss Spec.Sampled.
From Verif Require Import Model.Base Model.Field Model.NTT Model.Concrete Model.Poly Model.Lwe Model.Rlwe Model.Gadget Model.BlindRotation Model.KeySwitch Model.Params Model.Boolean Model.Sample Model.SecretKey Model.Gaussian Model.Sampled.
From Verif Require Import Proofs.Arith Proofs.FieldProofs Proofs.GaussProofs Proofs.KeyGenProofs Props.C55 Props.C49.
Import ListNotations.
Local Open Scope Z_scope.

Definition dspec {A : Type} (o : drawn A) (Q : A -> Prop) (L : Prop) : Prop :=
  match o with Got a => Q a | Panicked => False | Looping => L end.
Lemma dspec_bind {A C : Type} (o : drawn A) (f : A -> drawn C) Q Q' L : dspec o Q L -> (forall a, Q a -> dspec (f a) Q' L) -> dspec (dbind o f) Q' L.
Proof. destruct o; cbn; auto. Qed.
Lemma dspec_weak {A : Type} (o : drawn A) (Q Q' : A -> Prop) L : dspec o Q L -> (forall a, Q a -> Q' a) -> dspec o Q' L.
Proof. destruct o; cbn; auto. Qed.
Lemma dspec_map {A C : Type} (f : A -> drawn C) Q L (l : list A) : Forall (fun x => dspec (f x) Q L) l ->
  dspec (dmap f l) (fun ys => length ys = length l /\ Forall Q ys) L.
Proof.
  induction 1 as [|x l Hx _ IH]; cbn [dmap]; [cbn; split; [reflexivity|constructor]|].
  eapply dspec_bind; [exact Hx|]. intros y Hy. eapply dspec_bind; [exact IH|]. intros ys (H1 & H2). cbn. split; [congruence|constructor; assumption].
Qed.

Lemma small_near p E l : 0 < p -> E < p -> Forall (fun x => exists e, x = e mod p /\ Z.abs e <= E) l -> canonical p l /\ near_zero p E l.
Proof.
  intros Hp HE H. split; (eapply Forall_impl; [|exact H]); intros x (e & -> & He); cbn beta; [apply Z.mod_pos_bound; exact Hp|].
  destruct (Z_lt_ge_dec e 0); [right|left].
  - replace (e mod p) with (e + p) by (apply (Z.mod_unique _ _ (-1)); lia). lia.
  - rewrite Z.mod_small by lia. lia.
Qed.

Lemma distribution dev E : dev_bound dev E -> exists g, noise_distribution dev = Got g /\ gs_mean g = S754_zero false /\ is_f64 (gs_max g) /\ ffinite (gs_max g) /\
  (fval (gs_max g) <= inject_Z E + (1 # 2))%Q /\ (5 * fval dev <= fval (gs_max g))%Q /\ (gs_cbd g = true -> 21 <= E) /\ 0 <= E.
Proof.
  intros (Hf & Hr & H6 & Hc). destruct (C55_bound (S754_zero false) dev Hf Hr) as (g & Eg & Em & Fm & Fi & Ab & Cb).
  exists g. unfold noise_distribution. rewrite Eg. split; [reflexivity|]. split; [exact Em|]. split; [exact Fm|]. split; [exact Fi|].
  apply Qabs_Qle_condition in Ab. destruct Ab as (A1 & A2). destruct Hr as (R1 & R2).
  assert (D0 : (0 < fval dev)%Q) by (eapply Qlt_le_trans; [|exact R1]; reflexivity).
  set (d := fval dev) in *. set (m := fval (gs_max g)) in *. set (u := (1 # 2 ^ 53)%Q) in *.
  assert (U0 : (0 < u)%Q) by reflexivity. assert (U1 : (6 * u <= 1)%Q) by (vm_compute; discriminate).
  assert (DU : (6 * d * u <= d)%Q) by (setoid_replace (6 * d * u)%Q with (d * (6 * u))%Q by ring; setoid_replace d with (d * 1)%Q at 2 by ring; apply Qmult_le_l; [exact D0|exact U1]).
  split; [|split; [|split]].
  - setoid_replace (6 * d * (1 + u))%Q with (6 * d + 6 * d * u)%Q in H6 by ring. lra.
  - lra.
  - intros H. apply Hc. apply Cb. exact H.
  - assert (H0 : (0 < inject_Z E + (1 # 2))%Q).
    { eapply Qlt_le_trans; [|exact H6]. assert (0 < d * u)%Q by (apply Qmult_lt_0_compat; assumption). setoid_replace (6 * d * (1 + u))%Q with (6 * d + 6 * (d * u))%Q by ring. lra. }
    unfold Qlt, Qplus, inject_Z in H0. cbn [Qnum Qden] in H0. lia.
Qed.

Section Noise.
Variables (BF p : Z) (F : field).
Hypothesis HBF : wwidth BF.
Hypothesis Hp : 0 < p.
Hypothesis HF : derive_field BF p = Some F.
Variables (dev : spec_float) (E : Z) (g : gaussian).
Hypothesis Em : gs_mean g = S754_zero false.
Hypothesis Fm : is_f64 (gs_max g).
Hypothesis Fi : ffinite (gs_max g).
Hypothesis Mx : (fval (gs_max g) <= inject_Z E + (1 # 2))%Q.
Hypothesis M5 : (5 * fval dev <= fval (gs_max g))%Q.
Hypothesis Cb : gs_cbd g = true -> 21 <= E.
Variable L : Prop.

Lemma ring_noise n x : E < p -> (forall i, 0 <= src_bytes x i < 256) -> Forall is_f64 (src_normals x) -> plenty dev n x \/ L ->
  dspec (random_with_gaussian F n g (src_bytes x) (src_normals x)) (fun e => length e = n /\ canonical p e /\ near_zero p E e) L.
Proof.
  intros HE Hb Hn HL. pose proof (C55_vector BF p F n g false (src_bytes x) (src_normals x) E HBF ltac:(lia) HF Em Fm Fi HE) as H.
  assert (Hc : if gs_cbd g then 21 <= E else (fval (gs_max g) <= inject_Z E + (1 # 2))%Q) by (destruct (gs_cbd g); [apply Cb; reflexivity|exact Mx]).
  specialize (H Hc Hb Hn). destruct (random_with_gaussian F n g (src_bytes x) (src_normals x)) as [| |e]; cbn [dspec].
  - destruct HL as [(l & N & Ll & Hl)|HL]; [|exact HL]. specialize (H l N). exfalso. apply (Nat.lt_irrefl n). rewrite <- Ll at 1. apply H.
    intros i Hi. destruct (Hl i Hi) as (H1 & H2 & H3). split; [exact H1|]. split; [exact H2|]. eapply Qlt_le_trans; [exact H3|exact M5].
  - exact H.
  - destruct H as (H1 & H2). split; [exact H1|]. apply small_near; assumption.
Qed.
Lemma ring_draws_ok n x : E < p -> source_ok p n x -> plenty dev n x \/ L ->
  dspec (ring_draws F n g x) (fun ae => (length (fst ae) = n /\ canonical p (fst ae)) /\ (length (snd ae) = n /\ canonical p (snd ae) /\ near_zero p E (snd ae))) L.
Proof.
  intros HE (Hm & Hb & Hn) HL. unfold ring_draws. eapply dspec_bind; [apply ring_noise; assumption|]. intros e He. cbn. split; assumption.
Qed.

Lemma word_noise B q n x : 0 < B -> 0 < q < 2 ^ B -> E < q -> source_ok q n x -> plenty dev 1 x \/ L ->
  dspec (lwe_draws B q g x) (fun ae => (length (fst ae) = n /\ canonical q (fst ae)) /\ exists e, snd ae = e mod q /\ Z.abs e <= E) L.
Proof.
  intros HB Hq HE (Hm & _ & Hn) HL. unfold lwe_draws, gauss_sample_word.
  assert (S : dspec (gauss_loop (gauss_word B q) g (src_normals x)) (fun xr => exists e, fst xr = e mod q /\ Z.abs e <= E) (Forall (fun v => accepts g v = false) (src_normals x))).
  { clear HL Hm. induction Hn as [|v l Hv _ IH]; cbn [gauss_loop]; [constructor|]. destruct (accepts g v) eqn:A.
    - pose proof (proj1 (accepts_iff g false v Em Fm Fi Hv) A) as I. pose proof (round_small _ _ _ _ I Mx (round_spec v)) as R.
      rewrite word_ok by lia. cbn. eexists. split; [reflexivity|exact R].
    - destruct (gauss_loop (gauss_word B q) g l); cbn in *; [constructor; assumption|exact IH|exact IH]. }
  destruct (gauss_loop (gauss_word B q) g (src_normals x)) as [| |xr]; cbn [dspec dbind] in *; [|exact S|].
  - destruct HL as [(l & N & Ll & Hl)|HL]; [|exact HL]. destruct l as [|i l]; [discriminate Ll|]. destruct (Hl i (or_introl eq_refl)) as (H1 & H2 & H3).
    set (v := nth i (src_normals x) S754_nan) in *. assert (Iv : In v (src_normals x)) by (apply nth_In; exact H1).
    rewrite Forall_forall in S, Hn. specialize (S v Iv). assert (A : accepts g v = true); [|congruence].
    apply (accepts_iff g false v Em Fm Fi (Hn v Iv)). split; [exact H2|]. eapply Qlt_le_trans; [exact H3|exact M5].
  - split; [exact Hm|exact S].
Qed.
End Noise.

Section Keys.
Variables (BF p : Z) (k : nat) (F : field) (tbl : tables) (B j bits : Z) (P : parameters).
Hypothesis HG : good_params BF p k F tbl B j bits P.
Variables (dv : deviations) (E Ek : Z).
Hypothesis HE : dev_bound (dv_ring dv) E.
Hypothesis HEp : E < p.
Hypothesis HK : pp_steps P <> BrMs -> dev_bound (dv_ks dv) Ek /\ Ek < switch_modulus p j P.
Variable L : Prop.

Lemma base_facts : wwidth BF /\ 0 < p /\ derive_field BF p = Some F /\ fp F = p /\ 0 < B /\ 0 < 2 ^ j < 2 ^ B /\ Z.to_nat (pp_N P) = (2 ^ k)%nat /\ pp_q P = 2 ^ j.
Proof.
  destruct HG as ((W & Hp & _ & HF & _) & (HB & Hj & _) & (EN & Eq & _) & _). pose proof (Znumtheory.prime_ge_2 p Hp) as P2.
  destruct (derive_field_ok BF p F W ltac:(lia) HF) as (_ & _ & Ep).
  split; [exact W|]. split; [lia|]. split; [exact HF|]. split; [exact Ep|]. split; [lia|]. split; [|split; [rewrite EN; apply Nat2Z.id|exact Eq]].
  split; [apply Z.pow_pos_nonneg; lia|apply Z.pow_lt_mono_r; lia].
Qed.

Definition Q1 (x : source) : Prop := source_ok p (2 ^ k) x /\ (plenty (dv_ring dv) (2 ^ k) x \/ L).
Definition Q2 (x : source) : Prop := source_ok (switch_modulus p j P) (switch_length P) x /\ (plenty (dv_ks dv) (switch_count P) x \/ L).

Lemma sampled_draws_ok X : key_sources_are F k j P Q1 Q2 X -> dspec (sampled_draws B F P dv X) (draws_small F k j P E Ek) L.
Proof.
  intros (HX1 & HX2). destruct base_facts as (W & P0 & HF & Ep & B0 & Q0 & EN & Eq).
  set (n := Z.to_nat (pp_n P)) in *. set (l := bs_len (pp_basis P)) in *.
  unfold sampled_draws.
  eapply (dspec_bind _ _ (fun br => match pp_key P with
    | LBinary => length (fst br) = n /\ Forall (fun r => drawn_small p (2 ^ k) E l (fst r) /\ drawn_small p (2 ^ k) E l (snd r)) (fst br)
    | LTernary => length (snd br) = n /\ Forall (fun r => (drawn_small p (2 ^ k) E l (fst (fst r)) /\ drawn_small p (2 ^ k) E l (snd (fst r))) /\
                       (drawn_small p (2 ^ k) E l (fst (snd r)) /\ drawn_small p (2 ^ k) E l (snd (snd r)))) (snd br) end)).
  - unfold br_draws. destruct (distribution _ _ HE) as (g & Eg & Em & Fm & Fi & Mx & M5 & Cb & _). rewrite Eg. cbn [dbind]. rewrite EN.
    assert (RG : forall x, (length (fst x) = l /\ Forall Q1 (fst x)) /\ (length (snd x) = l /\ Forall Q1 (snd x)) ->
      dspec (rgsw_draws F (2 ^ k) g x) (fun r => drawn_small p (2 ^ k) E l (fst r) /\ drawn_small p (2 ^ k) E l (snd r)) L).
    { intros x ((L0 & H0) & (L1 & H1)). unfold rgsw_draws.
      assert (R1 : forall xs, Forall Q1 xs -> dspec (dmap (ring_draws F (2 ^ k) g) xs) (fun ys => length ys = length xs /\ Forall (fun ae => (length (fst ae) = (2 ^ k)%nat /\ canonical p (fst ae)) /\ (length (snd ae) = (2 ^ k)%nat /\ canonical p (snd ae) /\ near_zero p E (snd ae))) ys) L).
      { intros xs Hxs. apply dspec_map. eapply Forall_impl; [|exact Hxs]. intros y (Hy & HL). apply (ring_draws_ok BF p F W P0 HF (dv_ring dv) E g Em Fm Fi Mx M5 Cb L); assumption. }
      eapply dspec_bind; [apply R1; exact H0|]. intros r0 (A0 & A1). eapply dspec_bind; [apply R1; exact H1|]. intros r1 (A2 & A3). cbn. split; split; congruence || assumption. }
    destruct (pp_key P); destruct HX1 as (LX & HX1).
    + eapply dspec_bind; [apply dspec_map; eapply Forall_impl; [|exact HX1]; intros x Hx; apply RG; exact Hx|]. intros r (A0 & A1). cbn. split; [exact (eq_trans A0 LX)|exact A1].
    + eapply dspec_bind.
      { apply (dspec_map _ (fun r => (drawn_small p (2 ^ k) E l (fst (fst r)) /\ drawn_small p (2 ^ k) E l (snd (fst r))) /\
                       (drawn_small p (2 ^ k) E l (fst (snd r)) /\ drawn_small p (2 ^ k) E l (snd (snd r))))).
        eapply Forall_impl; [|exact HX1]. intros x (Hx & Hx'). eapply dspec_bind; [apply RG; exact Hx|]. intros r0 A0. eapply dspec_bind; [apply RG; exact Hx'|]. intros r1 A1. cbn. split; assumption. }
      intros r (A0 & A1). cbn. split; [exact (eq_trans A0 LX)|exact A1].
  - intros br Hbr. unfold Q2, switch_count, switch_modulus, switch_length in *. unfold switch_key_draws, draws_small. rewrite Ep. fold n l. destruct (pp_steps P) eqn:ES; cbn [dbind].
    + destruct (HK ltac:(discriminate)) as (HD & HEk). destruct (distribution _ _ HD) as (g & Eg & Em & Fm & Fi & Mx & M5 & Cb & E0). rewrite Eg. cbn [dbind]. rewrite Eq.
      destruct HX2 as (LX & HX2).
      eapply (dspec_bind _ _ (fun sw => length (fst sw) = length (ks_lwe X) /\ Forall (fun level => length level = (2 ^ k)%nat /\ Forall (fun row => Z.of_nat (length row) = 2 ^ pp_ks_bits P - 1 /\
            Forall (fun ae => (length (fst ae) = n /\ canonical (2 ^ j) (fst ae)) /\ exists e, snd ae = e mod 2 ^ j /\ Z.abs e <= Ek) row) level) (fst sw))).
      { eapply dspec_bind.
        { apply (dspec_map _ (fun level => length level = (2 ^ k)%nat /\ Forall (fun row => Z.of_nat (length row) = 2 ^ pp_ks_bits P - 1 /\
            Forall (fun ae => (length (fst ae) = n /\ canonical (2 ^ j) (fst ae)) /\ exists e, snd ae = e mod 2 ^ j /\ Z.abs e <= Ek) row) level)).
          eapply Forall_impl; [|exact HX2]. intros level (Ll & Hl). eapply dspec_weak; [apply (dspec_map _ (fun row => Z.of_nat (length row) = 2 ^ pp_ks_bits P - 1 /\
            Forall (fun ae => (length (fst ae) = n /\ canonical (2 ^ j) (fst ae)) /\ exists e, snd ae = e mod 2 ^ j /\ Z.abs e <= Ek) row)); eapply Forall_impl; [|exact Hl]|].
          - intros row (Lr & Hr). eapply dspec_weak; [apply dspec_map; eapply Forall_impl; [|exact Hr]|].
            + intros x (Hx & HL). apply (word_noise (dv_ks dv) Ek g Em Fm Fi Mx M5 L B (2 ^ j) n x B0 Q0 HEk Hx HL).
            + intros r (A0 & A1). cbn beta. split; [rewrite A0; exact Lr|exact A1].
          - intros r (A0 & A1). cbn beta. split; [congruence|exact A1]. }
        intros r Hr. cbn. exact Hr. }
      intros sw (A0 & A1). cbn. split; [exact Hbr|]. split.
      * split; [congruence|]. eapply Forall_impl; [|exact A1]. intros level (Ll & Hl). split; [exact Ll|]. eapply Forall_impl; [|exact Hl]. intros row (Lr & Hr). split; [exact Lr|].
        eapply Forall_impl; [|exact Hr]. intros ae (H & _). exact H.
      * eapply Forall_impl; [|exact A1]. intros level (_ & Hl). eapply Forall_impl; [|exact Hl]. intros row (_ & Hr). eapply Forall_impl; [|exact Hr]. intros ae (_ & e & Ee & Be).
        assert (Hs : Forall (fun x => exists e, x = e mod 2 ^ j /\ Z.abs e <= Ek) [snd ae]) by (constructor; [exists e; split; assumption|constructor]).
        apply (small_near (2 ^ j) Ek) in Hs; [|lia|exact HEk]. destruct Hs as (_ & Hs). inversion Hs; subst. assumption.
    + destruct (HK ltac:(discriminate)) as (HD & HEk). destruct (distribution _ _ HD) as (g & Eg & Em & Fm & Fi & Mx & M5 & Cb & E0). rewrite Eg. cbn [dbind].
      destruct HX2 as (b & Hb & LX & HX2). fold n. set (k' := Nat.log2_up n) in *.
      eapply (dspec_bind _ _ (fun sw => length (snd sw) = length (ks_ring X) /\ Forall (drawn_small p (2 ^ k') Ek (bs_len b)) (snd sw))).
      { eapply dspec_bind.
        { apply (dspec_map _ (drawn_small p (2 ^ k') Ek (bs_len b))). eapply Forall_impl; [|exact HX2]. intros xs (Lx & Hx).
          eapply dspec_weak; [apply dspec_map; eapply Forall_impl; [|exact Hx]|].
          - intros x (Hx' & HL). apply (ring_draws_ok BF p F W P0 HF (dv_ks dv) Ek g Em Fm Fi Mx M5 Cb L (2 ^ k') x HEk Hx' HL).
          - intros r (A0 & A1). split; [congruence|exact A1]. }
        intros r Hr. cbn. exact Hr. }
      intros sw (A0 & A1). cbn. split; [exact Hbr|]. exists b. split; [exact Hb|]. split; [congruence|exact A1].
    + cbn. split; [exact Hbr|exact I].
Qed.

Variables (words rwords : nat -> Z) (gx : source) (X : key_sources) (Ee D : Z).
Hypothesis Hw : words32 words.
Hypothesis Hrw : words32 rwords.
Hypothesis Hgx : pp_steps P = BrKsMs -> pp_ring_key P = RGaussian -> errors_ok gx /\ (plenty (dv_ring dv) (2 ^ k) gx \/ L).
Hypothesis HX : key_sources_are F k j P Q1 Q2 X.
Hypothesis Hk0 : 0 <= Ek.
Hypothesis HEe : dev_bound (dv_lwe dv) Ee.
Hypothesis HEq : Ee < 2 ^ j.
Hypothesis HD : key_noise F p k j bits P E Ek (Z.of_nat (2 ^ k)) (pp_n P) <= D.
Hypothesis HDe : 2 * p * Ee <= D.
Hypothesis HB : 12 * Z.of_nat (2 ^ k) * D + 2 * key_first_switch (Z.of_nat (2 ^ k)) (2 ^ j) (pp_n P) * p < 2 ^ j * Z.of_nat (2 ^ k) * p.

Lemma pack_ok gauss : ring_draw p k gauss -> exists kp, key_pack_new F tbl P words rwords gauss = Some kp /\ kp_par kp = P.
Proof.
  intros Hg. destruct (ctx_ok BF p k F tbl B j bits P HG) as (w & Hok & Ep & C & _).
  destruct (lwe_key_ok BF p k F tbl B j bits P HG words Hw) as (z & E1 & Lz & Hz & _).
  destruct (ring_key_ok BF p k F tbl B j bits P HG z rwords gauss Hz Lz Hrw Hg) as (s & E2 & Ls & _).
  pose proof (ntt_mod _ k F tbl w s C Hok Ep Ls) as E3.
  eexists. unfold key_pack_new. rewrite E1. cbn [bind]. rewrite E2. cbn [bind]. rewrite E3. split; reflexivity.
Qed.

Lemma pack_spec : dspec (sampled_key_pack F tbl P dv words rwords gx)
  (fun kp => kp_par kp = P /\ exists gauss, ring_draw p k gauss /\ key_pack_new F tbl P words rwords gauss = Some kp) L.
Proof.
  destruct base_facts as (W & P0 & HF & Ep & _ & _ & EN & _).
  assert (N0 : (forall z, create_ring_secret_key F P z rwords [] = create_ring_secret_key F P z rwords (repeat 0 (2 ^ k))) ->
     dspec (dlift (key_pack_new F tbl P words rwords [])) (fun kp => kp_par kp = P /\ exists gauss, ring_draw p k gauss /\ key_pack_new F tbl P words rwords gauss = Some kp) L).
  { intros HZ. assert (HR : ring_draw p k (repeat 0 (2 ^ k))).
    { split; [apply repeat_length|]. apply Forall_forall. intros x Hx. apply repeat_spec in Hx. subst x. lia. }
    destruct (pack_ok _ HR) as (kp & E1 & E2). assert (E3 : key_pack_new F tbl P words rwords [] = Some kp).
    { rewrite <- E1. unfold key_pack_new. destruct (create_lwe_secret_key P words); cbn [bind]; [|reflexivity]. rewrite HZ. reflexivity. }
    rewrite E3. cbn. split; [exact E2|]. exists (repeat 0 (2 ^ k)). split; assumption. }
  unfold sampled_key_pack. unfold create_ring_secret_key in N0. destruct (pp_steps P) eqn:ES.
  - apply N0. reflexivity.
  - destruct (pp_ring_key P) eqn:ER; [apply N0; reflexivity|apply N0; reflexivity|].
    destruct (distribution _ _ HE) as (g & Eg & Em & Fm & Fi & Mx & M5 & Cb & _). rewrite Eg. cbn [dbind]. rewrite EN.
    destruct (Hgx eq_refl eq_refl) as ((Hb & Hn) & HL).
    eapply dspec_bind; [apply (ring_noise BF p F W P0 HF (dv_ring dv) E g Em Fm Fi Mx M5 Cb L (2 ^ k) gx HEp Hb Hn HL)|].
    intros gauss (Lg & Cg & _). destruct (pack_ok gauss (conj Lg Cg)) as (kp & E1 & E2). rewrite E1. cbn. split; [exact E2|]. exists gauss. split; [split; assumption|exact E1].
  - apply N0. reflexivity.
Qed.

Definition near_int (q x : Z) : Z := if x <=? Ee then x else x - q.
Lemma near_int_ok q e : 0 < q -> Ee < q -> Z.abs e <= Ee -> near_int q (e mod q) mod q = e mod q /\ Z.abs (near_int q (e mod q)) <= Ee.
Proof.
  intros Hq HE' He. unfold near_int. destruct (Z_lt_ge_dec e 0).
  - replace (e mod q) with (e + q) by (apply (Z.mod_unique _ _ (-1)); lia). destruct (Z.leb_spec (e + q) Ee).
    + split; [apply Z.mod_small; lia|lia].
    + split; [|lia]. replace (e + q - q) with e by lia. symmetry. apply (Z.mod_unique _ _ (-1)); lia.
  - rewrite (Z.mod_small e) by lia. destruct (Z.leb_spec e Ee); [|lia]. split; [apply Z.mod_small; lia|lia].
Qed.

Theorem sampled_ok : dspec (sampled_key_pack F tbl P dv words rwords gx) (fun kp =>
  dspec (sampled_eval_key B F tbl kp dv X) (fun K =>
    forall (v : nat -> bool) (y : nat -> source), (forall i, source_ok (2 ^ j) (Z.to_nat (pp_n P)) (y i) /\ (plenty (dv_lwe dv) 1 (y i) \/ L)) ->
      (forall i, dspec (sampled_encrypt B kp dv (if v i then 1 else 0) (y i)) (fun _ => True) L) /\
      forall x, (forall i, sampled_encrypt B kp dv (if v i then 1 else 0) (y i) = Got (x i)) ->
        forall (c : circuit) (M : Plaintext.msg_type), exists r, crun B F tbl K x c = Some r /\ kp_decrypt M B kp r = Some (if cval v c then 1 else 0)) L) L.
Proof.
  destruct base_facts as (W & P0 & HF & Ep & B0 & Q0 & EN & Eq).
  eapply dspec_weak; [exact pack_spec|]. intros kp (EP & gauss & Hg & Ekp). unfold sampled_eval_key. rewrite EP.
  eapply dspec_bind; [exact (sampled_draws_ok X HX)|]. intros R HR.
  destruct (distribution _ _ HE) as (_ & _ & _ & _ & _ & _ & _ & _ & E0).
  destruct (C49_any_key BF p k F tbl B j bits P words rwords gauss E Ek R D HG Hw Hrw Hg E0 Hk0 HR HD HB) as (kp' & K & E1 & E2 & HC).
  assert (kp' = kp) by congruence. subst kp'. rewrite E2. cbn [dlift dspec].
  intros v y Hy. destruct (distribution _ _ HEe) as (g & Eg & Em & Fm & Fi & Mx & M5 & Cb & _). unfold sampled_encrypt. rewrite Eg, EP, Eq. cbn [dbind].
  assert (HN : forall i, dspec (lwe_draws B (2 ^ j) g (y i)) (fun ae => (length (fst ae) = Z.to_nat (pp_n P) /\ canonical (2 ^ j) (fst ae)) /\ exists e, snd ae = e mod 2 ^ j /\ Z.abs e <= Ee) L).
  { intros i. destruct (Hy i) as (H1 & H2). apply (word_noise (dv_lwe dv) Ee g Em Fm Fi Mx M5 L B (2 ^ j) _ _ B0 Q0 HEq H1 H2). }
  split.
  - intros i. eapply dspec_bind; [apply HN|]. intros ae ((La & Ca) & e & Ee' & Be).
    destruct (HC (fun _ => v i) (fun _ => fst ae) (fun _ => e)) as (x & Hx & _).
    { intros _. split; [exact La|]. split; [exact Ca|]. etransitivity; [|exact HDe]. apply Z.mul_le_mono_nonneg_l; lia. }
    rewrite Ee', (Hx 0%nat). exact I.
  - intros x Hx c M.
    set (ae i := match lwe_draws B (2 ^ j) g (y i) with Got ae => ae | _ => ([], 0) end).
    assert (HA : forall i, lwe_draws B (2 ^ j) g (y i) = Got (ae i) /\ length (fst (ae i)) = Z.to_nat (pp_n P) /\ canonical (2 ^ j) (fst (ae i)) /\
      near_int (2 ^ j) (snd (ae i)) mod 2 ^ j = snd (ae i) /\ Z.abs (near_int (2 ^ j) (snd (ae i))) <= Ee).
    { intros i. specialize (Hx i). specialize (HN i). unfold ae. destruct (lwe_draws B (2 ^ j) g (y i)) as [| |r]; [discriminate Hx|discriminate Hx|].
      destruct HN as ((La & Ca) & e & Ee' & Be). split; [reflexivity|]. split; [exact La|]. split; [exact Ca|]. rewrite Ee'. apply near_int_ok; lia. }
    destruct (HC v (fun i => fst (ae i)) (fun i => near_int (2 ^ j) (snd (ae i)))) as (x' & Hx' & HCC).
    { intros i. destruct (HA i) as (_ & H1 & H2 & _ & H4). split; [exact H1|]. split; [exact H2|]. etransitivity; [|exact HDe]. apply Z.mul_le_mono_nonneg_l; lia. }
    assert (XE : forall i, x' i = x i).
    { intros i. destruct (HA i) as (H0 & _ & _ & H3 & _). specialize (Hx i). specialize (Hx' i). rewrite H0 in Hx. cbn [dbind] in Hx. rewrite H3 in Hx'. rewrite Hx' in Hx. cbn in Hx. congruence. }
    destruct (HCC c M) as (r & H1 & H2). exists r. split; [|exact H2]. rewrite <- H1.
    clear - XE. induction c; cbn [crun]; try (rewrite ?IHc, ?IHc1, ?IHc2, ?IHc3; reflexivity). rewrite XE. reflexivity.
Qed.
End Keys.

Lemma sources_mono F k j P (A A' C C' : source -> Prop) X : (forall x, A x -> A' x) -> (forall x, C x -> C' x) ->
  key_sources_are F k j P A C X -> key_sources_are F k j P A' C' X.
Proof.
  intros HA HC (H1 & H2).
  assert (FA : forall l, Forall A l -> Forall A' l) by (intros l; apply Forall_impl; exact HA).
  assert (FC : forall l, Forall C l -> Forall C' l) by (intros l; apply Forall_impl; exact HC).
  split; [clear H2|clear H1].
  - destruct (pp_key P).
    + destruct H1 as (L & H). split; [exact L|]. eapply Forall_impl; [|exact H]. intros x ((a & b) & (c & d)). auto.
    + destruct H1 as (L & H). split; [exact L|]. eapply Forall_impl; [|exact H]. intros x (((a & b) & (c & d)) & ((e & f) & (g & h))). auto 10.
  - destruct (pp_steps P); [| |exact I].
    + destruct H2 as (L & H). split; [exact L|]. eapply Forall_impl; [|exact H]. intros x (a & H'). split; [exact a|]. eapply Forall_impl; [|exact H']. intros y (c & d). auto.
    + destruct H2 as (b & Hb & L & H). exists b. split; [exact Hb|]. split; [exact L|]. eapply Forall_impl; [|exact H]. intros x (a & d). auto.
Qed.

Lemma sampled_main BF p k F tbl B j bits P dv E Ek Ee D (Qs : spec_float -> nat -> source -> Prop) L words rwords gx X :
  (forall d n x, Qs d n x -> plenty d n x \/ L) ->
  sampled_setting BF p k F tbl B j bits P dv E Ek Ee D -> pair_sources F p k j P dv Qs words rwords gx X ->
  dspec (sampled_key_pack F tbl P dv words rwords gx) (fun kp =>
  dspec (sampled_eval_key B F tbl kp dv X) (fun K =>
    forall (v : nat -> bool) (y : nat -> source), (forall i, source_ok (2 ^ j) (Z.to_nat (pp_n P)) (y i) /\ Qs (dv_lwe dv) 1%nat (y i)) ->
      (forall i, dspec (sampled_encrypt B kp dv (if v i then 1 else 0) (y i)) (fun _ => True) L) /\
      forall x, (forall i, sampled_encrypt B kp dv (if v i then 1 else 0) (y i) = Got (x i)) ->
        forall (c : circuit) (M : Plaintext.msg_type), exists r, crun B F tbl K x c = Some r /\ kp_decrypt M B kp r = Some (if cval v c then 1 else 0)) L) L.
Proof.
  intros HQ (HG & (HE & HEp) & HK & Hk0 & (HEe & HEq) & HD & HDe & HB) (Hw & Hrw & Hg & HX).
  eapply dspec_weak; [apply (sampled_ok BF p k F tbl B j bits P HG dv E Ek HE HEp HK L words rwords gx X Ee D Hw Hrw)|]; try assumption.
  - intros a b. destruct (Hg a b) as (H1 & H2). split; [exact H1|apply HQ; exact H2].
  - eapply sources_mono; [| |exact HX]; intros x (H1 & H2); (split; [exact H1|apply HQ; exact H2]).
  - intros kp H. eapply dspec_weak; [exact H|]. intros K HK' v y Hy. apply HK'. intros i. destruct (Hy i) as (H1 & H2). split; [exact H1|apply HQ; exact H2].
Qed.
