(** Key generation and encryption on one generator, and the same on the sources read from it. *)
From Coq Require Import ZArith QArith List Bool Lia SpecFloat.
From Verif Require Import Spec.Basic Spec.Poly Spec.Gauss Spec.Blind Spec.Switch Spec.Gates Spec.KeyGen Spec.Sampled Spec.OneStream.
From Verif Require Import Model.Base Model.PowOf2 Model.Plaintext Model.Field Model.NTT Model.Poly Model.Lwe Model.Rlwe Model.Gadget Model.BlindRotation Model.KeySwitch Model.Params Model.Boolean Model.Sample Model.SecretKey Model.Gaussian Model.Sampled Model.Stream.
From Verif Require Import Proofs.Arith Proofs.FieldProofs Proofs.NTTProofs Proofs.PolyProofs Proofs.PolyMain Proofs.LweProofs Proofs.PowOf2Proofs Proofs.LweSwitchProofs Proofs.RingSwitchProofs Proofs.KeyGenProofs Proofs.SampledProofs Proofs.StreamProofs Proofs.StreamSource.
Import ListNotations.
Local Open Scope Z_scope.

(** * Reading into a pair *)
Section Inject.
Variables (G : generator) (Pn L : Prop).
Lemma fol_some {A C D : Type} (o : option C) v (m : C -> rand A) (read : rand D) ok d :
  o = Some v -> fol G Pn L (m v) read ok d -> fol G Pn L (let% x := rlift o in m x) read ok d.
Proof. intros -> H i. apply (H i). Qed.
Definition image {D D' : Type} (f : D -> D') (ok : D -> Prop) (y : D') : Prop := exists x, ok x /\ y = f x.
Lemma fol_inj {A D D' : Type} (m : rand A) (read : rand D) ok (d : D -> option A) (f : D -> D') d' :
  fol G Pn L m read ok d -> (forall x, d' (f x) = d x) -> fol G Pn L m (let% r := read in rret (f r)) (image f ok) d'.
Proof.
  intros H HE i. unfold rbind, rret. specialize (H i). destruct (m G i) as [| |[v j]]; [exact H| |].
  - destruct H as [H|(x & Hx & E)]; [left; exact H|right]. exists (f x). split; [exists x; split; [exact Hx|reflexivity]|]. rewrite HE. exact E.
  - destruct H as (x & E1 & E2). rewrite E1. exists (f x). split; [reflexivity|]. rewrite HE. exact E2.
Qed.
Lemma rd_inj {D D' : Type} (read : rand D) ok (f : D -> D') : rd G Pn L read ok -> rd G Pn L (let% r := read in rret (f r)) (image f ok).
Proof. intros H i. unfold rbind, rret. specialize (H i). destruct (read G i) as [| |[x j]]; [exact H|exact H|]. exists x. split; [exact H|reflexivity]. Qed.
Lemma image_ex {D D' : Type} (f : D -> D') ok : (exists x, ok x) -> exists y, image f ok y.
Proof. intros (x & H). exists (f x), x. split; [exact H|reflexivity]. Qed.
Lemma src_inj {D D' S S' : Type} (r : rand D) A O (f : S -> drawn D) (inj : D -> D') (prj : S' -> S) (mk : S -> S') :
  (forall s, prj (mk s) = s) -> src G r A O f ->
  src G (let% x := r in rret (inj x)) (fun a b s => A a b (prj s)) (fun s => O (prj s)) (fun s => dbind (f (prj s)) (fun x => Got (inj x))).
Proof.
  intros HP H a x b E. unfold rbind, rret in E. destruct (r G a) as [| |[v c]] eqn:E1; try discriminate E. injection E as <- <-.
  destruct (H _ _ _ E1) as (s & (A1 & O1) & F1). exists (mk s). rewrite HP, F1. split; [split; assumption|reflexivity].
Qed.
Lemma src_ext {D S : Type} (r : rand D) A O (f f' : S -> drawn D) : src G r A O f -> (forall s, f s = f' s) -> src G r A O f'.
Proof. intros H HE a x b E. destruct (H _ _ _ E) as (s & H1 & H2). exists s. rewrite <- HE. split; assumption. Qed.
End Inject.

Section Keys.
Variables (BF p : Z) (k : nat) (F : field) (tbl : tables) (B j bits : Z) (P : parameters).
Hypothesis HG : good_params BF p k F tbl B j bits P.
Variables (dv : deviations) (E Ek : Z).
Hypothesis HE : dev_bound (dv_ring dv) E.
Hypothesis HEp : E < p.
Hypothesis HK : pp_steps P <> BrMs -> dev_bound (dv_ks dv) Ek /\ Ek < switch_modulus p j P.
Hypothesis Hk0 : 0 <= Ek.
Variables (G : generator) (fuel : nat) (L : Prop).
Hypothesis HGen : gen_ok G.
Hypothesis HL : L \/ lively G F dv fuel.
Notation n := (Z.to_nat (pp_n P)).
Notation rdG := (rd G False L).
Notation folG := (fol G False L).

Lemma sampler dev D : dev_bound dev D -> exists g, gauss_new (S754_zero false) dev = Some g.
Proof.
  intros H. destruct (distribution _ _ H) as (g & Eg & _). exists g. unfold noise_distribution in Eg. destruct (gauss_new (S754_zero false) dev); cbn in Eg; [congruence|discriminate Eg].
Qed.
Lemma E_nonneg : 0 <= E.
Proof. destruct (distribution _ _ HE) as (g & _ & _ & _ & _ & _ & _ & _ & H). exact H. Qed.

(** * The secrets *)
Definition ws (a i : nat) : Z := gn_word G 32 (a + i)%nat.
Lemma ws_ok a : words32 (ws a).
Proof. intros i. apply HGen. lia. Qed.
Definition lwe_end (a : nat) : nat := (a + S (Nat.div n (match pp_key P with LBinary => 32 | LTernary => 16 end)))%nat.
Lemma lwe_run a : create_lwe_secret_key_g P G a = match create_lwe_secret_key P (ws a) with Some z => Got (z, lwe_end a) | None => Panicked end.
Proof.
  unfold create_lwe_secret_key_g, create_lwe_secret_key, lwe_end, sample_binary_values_g, sample_ternary_values_g, sample_binary_values, sample_ternary_values. destruct (pp_key P).
  - apply symbols_run. reflexivity.
  - unfold rbind, rlift. destruct (usub (pp_q P) 1); cbn [bind]; [|reflexivity]. apply symbols_run. reflexivity.
Qed.

Lemma pack_run a : match key_pack_new_g F tbl P dv fuel G a with
  | Got (kp, c) => exists rwords gx, pack_at G P dv a c (ws a) rwords gx /\ words32 rwords /\
      (pp_steps P = BrKsMs -> pp_ring_key P = RGaussian -> errors_ok gx) /\ sampled_key_pack F tbl P dv (ws a) rwords gx = Got kp
  | Panicked => False
  | Looping => L
  end.
Proof.
  destruct (base_facts BF p k F tbl B j bits P HG) as (W & P0 & HF & Ep & B0 & Q0 & EN & Eq).
  set (b := lwe_end a).
  assert (NG : (pp_steps P = BrKsMs -> pp_ring_key P <> RGaussian) -> forall c,
    (forall z, create_ring_secret_key_g F P (dv_ring dv) fuel z G b = match create_ring_secret_key F P z (ws b) [] with Some s => Got (s, c) | None => Panicked end) ->
    (pack_at G P dv a c (ws a) (ws b) (mk_source [] (fun _ => 0) [])) ->
    match key_pack_new_g F tbl P dv fuel G a with
    | Got (kp, c) => exists rwords gx, pack_at G P dv a c (ws a) rwords gx /\ words32 rwords /\
        (pp_steps P = BrKsMs -> pp_ring_key P = RGaussian -> errors_ok gx) /\ sampled_key_pack F tbl P dv (ws a) rwords gx = Got kp
    | Panicked => False
    | Looping => L
    end).
  { intros HN c HR HA.
    pose proof (pack_spec BF p k F tbl B j bits P HG dv E Ek HE HEp HK True (ws a) (ws b) (mk_source [] (fun _ => 0) []) (ws_ok a) (ws_ok b)) as HS.
    assert (HS' : dspec (sampled_key_pack F tbl P dv (ws a) (ws b) (mk_source [] (fun _ => 0) [])) (fun _ => True) False).
    { assert (EQ : sampled_key_pack F tbl P dv (ws a) (ws b) (mk_source [] (fun _ => 0) []) = dlift (key_pack_new F tbl P (ws a) (ws b) [])).
      { unfold sampled_key_pack. destruct (pp_steps P); try reflexivity. destruct (pp_ring_key P); try reflexivity. exfalso. apply HN; reflexivity. }
      rewrite EQ in HS |- *. specialize (HS ltac:(intros H1 H2; exfalso; exact (HN H1 H2))). destruct (key_pack_new F tbl P (ws a) (ws b) []); [exact I|exact HS]. }
    assert (EQ : sampled_key_pack F tbl P dv (ws a) (ws b) (mk_source [] (fun _ => 0) []) = dlift (key_pack_new F tbl P (ws a) (ws b) [])).
    { unfold sampled_key_pack. destruct (pp_steps P); try reflexivity. destruct (pp_ring_key P); try reflexivity. exfalso. apply HN; reflexivity. }
    unfold key_pack_new_g, rbind, rret. rewrite lwe_run. fold b. rewrite EQ in HS'. unfold key_pack_new in HS', EQ.
    destruct (create_lwe_secret_key P (ws a)) as [z|]; cbn [bind] in *; [|exact HS'].
    rewrite HR. destruct (create_ring_secret_key F P z (ws b) []) as [s|]; cbn [bind] in *; [|exact HS'].
    unfold rlift. destruct (into_ntt F tbl s) as [S|]; cbn [bind] in *; [|exact HS'].
    exists (ws b), (mk_source [] (fun _ => 0) []). split; [exact HA|]. split; [apply ws_ok|]. split; [intros H1 H2; exfalso; exact (HN H1 H2)|]. exact EQ. }
  assert (WA : words_at G a b (ws a)) by (intros i Hi; reflexivity).
  assert (BV : forall N i, sample_binary_field_vec_g F N G i = match sample_binary_field_vec F N (ws i) with Some l => Got (l, (i + S (Nat.div N 32))%nat) | None => Panicked end).
  { intros N i. apply symbols_run. reflexivity. }
  assert (TV : forall N i, sample_ternary_field_vec_g F N G i = match sample_ternary_field_vec F N (ws i) with Some l => Got (l, (i + S (Nat.div N 16))%nat) | None => Panicked end).
  { intros N i. unfold sample_ternary_field_vec_g, sample_ternary_field_vec, rbind, rlift. destruct (usub (fp F) 1); cbn [bind]; [|reflexivity]. apply symbols_run. reflexivity. }
  unfold create_ring_secret_key_g, create_ring_secret_key, pack_at in NG. unfold pack_at. cbv zeta in NG |- *. fold (lwe_end a) in NG |- *. fold b in NG |- *.
  destruct HG as (_ & _ & _ & HS).
  destruct (pp_steps P) eqn:ES.
  - destruct HS as (HR & _). destruct (pp_ring_key P) eqn:ER; [| |congruence].
    + apply (NG ltac:(discriminate) (b + S (Nat.div (Z.to_nat (pp_N P)) 32))%nat); [intros z; apply BV|]. split; [exact WA|]. split; [reflexivity|]. intros i Hi. reflexivity.
    + apply (NG ltac:(discriminate) (b + S (Nat.div (Z.to_nat (pp_N P)) 16))%nat); [intros z; apply TV|]. split; [exact WA|]. split; [reflexivity|]. intros i Hi. reflexivity.
  - destruct (pp_ring_key P) eqn:ER.
    + apply (NG ltac:(discriminate) (b + S (Nat.div (Z.to_nat (pp_N P)) 32))%nat); [intros z; apply BV|]. split; [exact WA|]. split; [reflexivity|]. intros i Hi. reflexivity.
    + apply (NG ltac:(discriminate) (b + S (Nat.div (Z.to_nat (pp_N P)) 16))%nat); [intros z; apply TV|]. split; [exact WA|]. split; [reflexivity|]. intros i Hi. reflexivity.
    + clear NG. unfold key_pack_new_g, rbind, rret. rewrite lwe_run. fold b.
      destruct (lwe_key_ok BF p k F tbl B j bits P HG (ws a) (ws_ok a)) as (z & Ez & _). rewrite Ez. unfold create_ring_secret_key_g. rewrite ES, ER.
      destruct (sampler _ _ HE) as (g & Eg). unfold rbind, rlift. rewrite Eg.
      pose proof (rwg_run G F fuel (Z.to_nat (pp_N P)) g b []) as H1.
      pose proof (rwg_fine G HGen BF p F W P0 HF dv fuel L HL (dv_ring dv) E g HE ltac:(cbn; tauto) Eg (Z.to_nat (pp_N P)) b HEp) as H2.
      destruct (random_with_gaussian_g F fuel (Z.to_nat (pp_N P)) g G b) as [| |[s c]]; [exact H2|exact H2|]. cbv zeta in H1. destruct H1 as (H1 & H3).
      set (gx := mk_source [] (bytes_from G b) (map (gn_normal G g) (requests b c))) in *.
      destruct (pack_ok BF p k F tbl B j bits P HG (ws a) (ws b) (ws_ok a) (ws_ok b) s) as (kp & E1 & E2). { unfold ring_draw. rewrite <- EN. exact H2. }
      assert (E3 := E1). unfold key_pack_new, create_ring_secret_key in E3. rewrite Ez, ES, ER in E3. cbn [bind] in E3. destruct (into_ntt F tbl s) as [S|]; [|discriminate E3]. cbn [bind] in E3.
      exists (ws b), gx. split; [split; [exact WA|]|].
      * exists g. split; [exact Eg|exact H1].
      * split; [apply ws_ok|]. split; [intros _ _; apply errors_fine; exact HGen|].
        unfold sampled_key_pack. rewrite ES, ER. unfold noise_distribution. rewrite Eg. cbn [dlift dbind]. rewrite H3. cbn [dbind]. rewrite E1. cbn. congruence.
  - destruct HS as (HR & En). apply (NG ltac:(discriminate) b).
    + intros z. unfold rbind, rlift. destruct (assert _); cbn [bind]; [|reflexivity]. destruct (assert (pp_n P =? pp_N P)); cbn [bind]; [|reflexivity]. destruct (mapM (convert F) z); reflexivity.
    + split; [exact WA|reflexivity].
Qed.

(** * The evaluation key *)
Variables (words rwords : nat -> Z) (gauss : list Z) (kp : key_pack).
Hypothesis Hw : words32 words.
Hypothesis Hrw : words32 rwords.
Hypothesis Hg : ring_draw p k gauss.
Hypothesis Hkp : key_pack_new F tbl P words rwords gauss = Some kp.

Lemma pack_lengths : kp_par kp = P /\ length (kp_lwe kp) = n /\ length (kp_ring kp) = (2 ^ k)%nat /\ length (kp_ntt kp) = (2 ^ k)%nat.
Proof.
  destruct (ctx_ok BF p k F tbl B j bits P HG) as (w & Hok & Ep & C & _).
  destruct (lwe_key_ok BF p k F tbl B j bits P HG words Hw) as (z & E1 & Lz & Hz & _).
  destruct (ring_key_ok BF p k F tbl B j bits P HG z rwords gauss Hz Lz Hrw Hg) as (s & E2 & Ls & _).
  pose proof (ntt_mod _ k F tbl w s C Hok Ep Ls) as E3.
  assert (H := Hkp). unfold key_pack_new in H. rewrite E1 in H. cbn [bind] in H. rewrite E2 in H. cbn [bind] in H. rewrite E3 in H. injection H as <-. cbn.
  split; [reflexivity|]. rewrite !map_length. split; [exact Lz|]. split; [exact Ls|]. unfold ntt_of. rewrite map_length, seq_length. reflexivity.
Qed.

Notation ring_rows := (list (list Z * list Z)).
Notation br_data := (list rgsw_rnd * list (rgsw_rnd * rgsw_rnd))%type.
Notation sw_data := (list (list (list (list Z * Z))) * list ring_rows)%type.
Notation br_srcs := (list (list source * list source) * list ((list source * list source) * (list source * list source)))%type.
Notation sw_srcs := (list (list (list source)) * list (list source))%type.
Notation row := (with_dev (dv_ring dv) (ring_at G F (Z.to_nat (pp_N P)))).

Definition br_small (x : br_data) : Prop :=
  let l := bs_len (pp_basis P) in
  match pp_key P with
  | LBinary => length (fst x) = n /\ Forall (fun r => drawn_small p (2 ^ k) E l (fst r) /\ drawn_small p (2 ^ k) E l (snd r)) (fst x)
  | LTernary => length (snd x) = n /\ Forall (fun r => (drawn_small p (2 ^ k) E l (fst (fst r)) /\ drawn_small p (2 ^ k) E l (snd (fst r))) /\
                       (drawn_small p (2 ^ k) E l (fst (snd r)) /\ drawn_small p (2 ^ k) E l (snd (snd r)))) (snd x)
  end.
Definition br_at (a b : nat) (s : br_srcs) : Prop :=
  match pp_key P with
  | LBinary => laid (pair_at (laid row) (laid row)) a b (fst s)
  | LTernary => laid (pair_at (pair_at (laid row) (laid row)) (pair_at (laid row) (laid row))) a b (snd s)
  end.
Definition br_shape (s : br_srcs) : Prop :=
  let rows xs := length xs = bs_len (pp_basis P) /\ Forall (source_ok p (2 ^ k)) xs in
  match pp_key P with
  | LBinary => length (fst s) = n /\ Forall (fun x => rows (fst x) /\ rows (snd x)) (fst s)
  | LTernary => length (snd s) = n /\
      Forall (fun x => (rows (fst (fst x)) /\ rows (snd (fst x))) /\ (rows (fst (snd x)) /\ rows (snd (snd x)))) (snd s)
  end.

Lemma ring_ok_ex m e : 0 <= e -> exists x, ring_ok p e m x.
Proof.
  intros H0. destruct (base_facts BF p k F tbl B j bits P HG) as (_ & P0 & _). exists (repeat 0 m, repeat 0 m).
  assert (R : forall (A : Z -> Prop), A 0 -> Forall A (repeat 0 m)) by (intros A HA; apply Forall_forall; intros x Hx; apply repeat_spec in Hx; subst x; exact HA).
  unfold ring_ok. cbn [fst snd]. rewrite repeat_length. split; (split; [reflexivity|]); [apply R; lia|]. split; [apply R; lia|]. apply R. left. lia.
Qed.

Lemma br_part : exists (read : rand br_data) (ok : br_data -> Prop),
  folG (br_key_generate_g F tbl (dv_ring dv) fuel kp) read ok (fun x => br_key_generate F tbl kp (mk_key_draws (fst x) (snd x) [] [])) /\
  rdG read ok /\ (exists x, ok x) /\ (forall x, ok x -> br_small x) /\
  src G read br_at br_shape (fun s => br_draws F P (dv_ring dv) (mk_key_sources (fst s) (snd s) [] [])).
Proof.
  destruct (base_facts BF p k F tbl B j bits P HG) as (W & P0 & HF & Ep & B0 & Q0 & EN & Eq).
  destruct pack_lengths as (EP & Lz & Ls & LS). destruct (sampler _ _ HE) as (g & Eg).
  set (r1 := @ring_draws_g nat F g fuel (length (kp_ntt kp))). set (ok1 := ring_ok p E (2 ^ k)).
  assert (R1 : rdG r1 ok1). { unfold r1, ok1. rewrite LS. apply (ring_rd G HGen BF p F W P0 HF dv fuel L HL (dv_ring dv) E g HE ltac:(cbn; tauto) Eg); exact HEp. }
  assert (X1 : exists x, ok1 x) by (apply ring_ok_ex; exact E_nonneg).
  set (l := bs_len (pp_basis P)).
  assert (S1 : src G r1 row (source_ok p (2 ^ k)) (ring_draws F (2 ^ k) g)).
  { unfold r1. rewrite LS, EN. eapply src_impl; [apply (ring_src G HGen BF p F W P0 HF g fuel (2 ^ k))| |intros s Hs; exact Hs]. intros a b s Hs. exists g. split; [exact Eg|exact Hs]. }
  assert (S2 : src G (rpair (rtimes l r1) (rtimes l r1)) (pair_at (laid row) (laid row)) (okpair (allok l (source_ok p (2 ^ k))) (allok l (source_ok p (2 ^ k)))) (rgsw_draws F (2 ^ k) g)).
  { apply (src_pair G _ _ _ _ _ _ _ _ (src_times G _ _ _ _ l S1) (src_times G _ _ _ _ l S1)). }
  unfold br_key_generate_g. rewrite EP. unfold br_small, br_at, br_shape, br_draws, br_key_generate, noise_distribution. rewrite EP, Eg. fold l. cbn [dlift dbind ks_bin ks_ter kd_bin kd_ter]. rewrite EN in S2 |- *. destruct (pp_key P).
  - set (read := rtimes n (rgsw_read F g fuel (kp_ntt kp) (pp_basis P))). set (ok := allok n (rgsw_ok (pp_basis P) ok1)).
    exists (let% r := read in rret (r, [])), (image (fun r => (r, [])) ok).
    assert (RR : rdG read ok) by (apply rd_times, rgsw_rd; exact R1).
    split; [|split; [|split; [|split]]].
    + apply (fol_some G False L _ g); [reflexivity|].
      apply (fol_inj G False L _ read ok (fun x => let* k := binary_generate F tbl (kp_lwe kp) (kp_ntt kp) (pp_basis P) x in Some (BrBinary k))); [|reflexivity].
      apply fol_ret. unfold read, ok. rewrite <- Lz. apply binary_fol; assumption.
    + apply rd_inj. exact RR.
    + apply image_ex. unfold ok. apply allok_ex. apply rgsw_ex. exact X1.
    + intros x (y & (Ly & Fy) & ->). cbn [fst]. split; [exact Ly|exact Fy].
    + eapply src_impl; [eapply src_ext; [eapply (src_inj G read _ _ _ (fun r => (r, [])) fst (fun s => (s, []))); [reflexivity|apply (src_times G _ _ _ _ n S2)]|reflexivity]|intros a b s Hs; exact Hs|intros s Hs; exact Hs].
  - set (read := rtimes n (rpair (rgsw_read F g fuel (kp_ntt kp) (pp_basis P)) (rgsw_read F g fuel (kp_ntt kp) (pp_basis P)))). set (ok := allok n (okpair (rgsw_ok (pp_basis P) ok1) (rgsw_ok (pp_basis P) ok1))).
    exists (let% r := read in rret ([], r)), (image (fun r => ([], r)) ok).
    assert (RR : rdG read ok) by (apply rd_times, rd_pair; apply rgsw_rd; exact R1).
    split; [|split; [|split; [|split]]].
    + apply (fol_some G False L _ g); [reflexivity|].
      apply (fol_inj G False L _ read ok (fun x => let* k := ternary_generate F tbl (kp_lwe kp) (kp_ntt kp) (pp_basis P) x in Some (BrTernary k))); [|reflexivity].
      apply fol_ret. unfold read, ok. rewrite <- Lz. apply ternary_fol; assumption.
    + apply rd_inj. exact RR.
    + apply image_ex. unfold ok. apply allok_ex, okpair_ex; apply rgsw_ex; exact X1.
    + intros x (y & (Ly & Fy) & ->). cbn [snd]. split; [exact Ly|exact Fy].
    + eapply src_impl; [eapply src_ext; [eapply (src_inj G read _ _ _ (fun r => ([], r)) snd (fun s => ([], s))); [reflexivity|apply (src_times G _ _ _ _ n (src_pair G _ _ _ _ _ _ _ _ S2 S2))]|reflexivity]|intros a b s Hs; exact Hs|intros s Hs; exact Hs].
Qed.

Definition sw_small (x : sw_data) : Prop :=
  match pp_steps P with
  | BrMsKs =>
      switch_draws (2 ^ j) n (2 ^ pp_ks_bits P) (Z.to_nat ((j + pp_ks_bits P - 1) / pp_ks_bits P)) (2 ^ k) (fst x) /\
      Forall (Forall (Forall (fun ae => 0 <= snd ae <= Ek \/ 2 ^ j - Ek <= snd ae < 2 ^ j))) (fst x)
  | BrKsMs => exists b, basis_new F (pp_ks_bits P) = Some b /\
      length (snd x) = (2 ^ (k - Nat.log2_up n))%nat /\ Forall (drawn_small p (2 ^ Nat.log2_up n) Ek (bs_len b)) (snd x)
  | BrMs => True
  end.
Definition sw_at (a b : nat) (s : sw_srcs) : Prop :=
  match pp_steps P with
  | BrMsKs => laid (laid (laid (with_dev (dv_ks dv) (lwe_at G (pp_q P) n)))) a b (fst s)
  | BrKsMs => laid (laid (with_dev (dv_ks dv) (ring_at G F (2 ^ Nat.log2_up n)))) a b (snd s)
  | BrMs => b = a
  end.
Definition sw_shape (s : sw_srcs) : Prop :=
  let Q := source_ok (switch_modulus p j P) (switch_length P) in
  match pp_steps P with
  | BrMsKs => length (fst s) = Z.to_nat ((j + pp_ks_bits P - 1) / pp_ks_bits P) /\
      Forall (fun level => length level = (2 ^ k)%nat /\ Forall (fun row => Z.of_nat (length row) = 2 ^ pp_ks_bits P - 1 /\ Forall Q row) level) (fst s)
  | BrKsMs => exists b, basis_new F (pp_ks_bits P) = Some b /\
      length (snd s) = (2 ^ (k - Nat.log2_up n))%nat /\ Forall (fun xs => length xs = bs_len b /\ Forall Q xs) (snd s)
  | BrMs => True
  end.
Definition sw_make (x : sw_data) : option ks_key :=
  match pp_steps P with
  | BrMsKs => let* K := lks_generate B (pp_q P) (pp_ks_bits P) (kp_lwe kp) (kp_ring kp) (fst x) in Some (KsLwe K)
  | BrKsMs => let* K := rks_generate F tbl (pp_ks_bits P) (kp_lwe kp) (kp_ring kp) (kp_ntt kp) (snd x) in Some (KsRlwe K)
  | BrMs => Some KsNone
  end.
Definition sw_make_g : rand ks_key :=
  match pp_steps P with
  | BrMsKs => let% K := lks_generate_g B (pp_q P) (pp_ks_bits P) (dv_ks dv) fuel (kp_lwe kp) (kp_ring kp) in rret (KsLwe K)
  | BrKsMs => let% K := rks_generate_g F tbl (pp_ks_bits P) (dv_ks dv) fuel (kp_lwe kp) (kp_ring kp) (kp_ntt kp) in rret (KsRlwe K)
  | BrMs => rret KsNone
  end.

Lemma q_mask : p2_new (2 ^ j) = Some (2 ^ j - 1).
Proof. destruct HG as (_ & (_ & Hj & _) & _). apply p2_new_correct; [pose proof (pow2_pos j ltac:(lia)); lia|]. exists j. lia. Qed.
Lemma lks_fol wb gk ok : wbasis_new B (pp_ks_bits P) (2 ^ j) = Some wb -> 1 <= wb_basis wb -> gauss_new (S754_zero false) (dv_ks dv) = Some gk ->
  rdG (lwe_draws_g B (2 ^ j) gk fuel (length (kp_lwe kp))) ok -> (exists x, ok x) ->
  folG (lks_generate_g B (2 ^ j) (pp_ks_bits P) (dv_ks dv) fuel (kp_lwe kp) (kp_ring kp))
    (rtimes (wb_len wb) (rtimes (2 ^ k) (row_read B (2 ^ j) gk fuel (kp_lwe kp) (wb_basis wb)))) (allok (wb_len wb) (allok (2 ^ k) (row_ok ok (wb_basis wb))))
    (lks_generate B (2 ^ j) (pp_ks_bits P) (kp_lwe kp) (kp_ring kp)).
Proof.
  intros Ewb Hb Eg HR HX. destruct pack_lengths as (_ & _ & Ls & _). destruct (base_facts BF p k F tbl B j bits P HG) as (_ & _ & _ & _ & _ & Q0 & _).
  assert (Eu : usub (2 ^ j) 1 = Some (2 ^ j - 1)) by (unfold usub; destruct (Z.leb_spec 1 (2 ^ j)); [reflexivity|lia]).
  unfold lks_generate_g.
  apply (fol_some G False L _ (2 ^ j - 1)); [exact q_mask|]. apply (fol_some G False L _ gk); [exact Eg|]. apply (fol_some G False L _ wb); [exact Ewb|]. apply (fol_some G False L _ (2 ^ j - 1)); [exact Eu|].
  eapply fol_ext; [apply fol_ret; apply (levels_fol G False L B (2 ^ j - 1) (2 ^ j) gk fuel (kp_lwe kp) ok HR HX (wb_basis wb) (wb_len wb) Hb (2 ^ k)); rewrite map_length; exact Ls|unfold row_read, row_ok; do 3 apply rd_times; exact HR|].
  intros x (Lx & _). unfold lks_generate. rewrite q_mask, Ewb, Eu. cbn [bind]. rewrite Lx, Nat.eqb_refl. reflexivity.
Qed.

Lemma rks_fol b gk ok : pp_steps P = BrKsMs -> basis_new F (pp_ks_bits P) = Some b -> gauss_new (S754_zero false) (dv_ks dv) = Some gk ->
  rdG (ring_draws_g F gk fuel (2 ^ Nat.log2_up n)) ok -> (exists x, ok x) ->
  folG (rks_generate_g F tbl (pp_ks_bits P) (dv_ks dv) fuel (kp_lwe kp) (kp_ring kp) (kp_ntt kp))
    (rtimes (2 ^ (k - Nat.log2_up n)) (rtimes (bs_len b) (ring_draws_g F gk fuel (2 ^ Nat.log2_up n)))) (allok (2 ^ (k - Nat.log2_up n)) (allok (bs_len b) ok))
    (rks_generate F tbl (pp_ks_bits P) (kp_lwe kp) (kp_ring kp) (kp_ntt kp)).
Proof.
  intros ES Eb Eg HR HX. destruct pack_lengths as (_ & Lz & Ls & _). destruct (base_facts BF p k F tbl B j bits P HG) as (W & P0 & HF & Ep & _).
  assert (HS := HG). destruct HS as ((_ & Hpp & _) & _ & _ & HS). rewrite ES in HS. destruct HS as (_ & _ & (Hk1 & Hk2) & Hsv).
  set (k' := Nat.log2_up n) in *. destruct (field_ctx BF p k' F tbl W Hpp HF Hsv) as (Hok & _ & w & C).
  assert (EXT : next_pow2 (length (kp_lwe kp)) = (2 ^ k')%nat) by (unfold next_pow2; rewrite Lz; reflexivity).
  assert (Ln : (length (kp_lwe kp) <= 2 ^ k')%nat). { rewrite Lz. unfold k'. destruct (Nat.le_gt_cases n 1) as [H|H]; [pose proof (Nat.pow_nonzero 2 (Nat.log2_up n)); lia|]. apply Nat.log2_up_spec. exact H. }
  assert (Lk : (2 ^ k' <= 2 ^ k)%nat) by (apply Nat.pow_le_mono_r; lia).
  assert (ES' : exists s, mapM (to_field F) (kp_lwe kp) = Some s /\ length s = length (kp_lwe kp) /\ canonical p s).
  { clear Lz Ln EXT. induction (kp_lwe kp) as [|x l IH]; [exists []; split; [reflexivity|split; [reflexivity|constructor]]|]. destruct IH as (s & E1 & L1 & C1). cbn [mapM]. rewrite E1.
    pose proof (Znumtheory.prime_ge_2 p Hpp) as P2. assert (T : exists y, to_field F x = Some y /\ 0 <= y < p).
    { unfold to_field. destruct (x =? 0); [exists 0; split; [reflexivity|lia]|]. destruct (x =? 1); [exists 1; split; [reflexivity|lia]|]. exists (p - 1). unfold usub. rewrite Ep. destruct (Z.leb_spec 1 p); [split; [reflexivity|lia]|lia]. }
    destruct T as (y & -> & Hy). exists (y :: s). split; [reflexivity|]. split; [cbn; congruence|constructor; assumption]. }
  destruct ES' as (s & E1 & L1 & C1). set (ps := s ++ repeat 0 (2 ^ k' - length (kp_lwe kp))).
  assert (Lps : length ps = (2 ^ k')%nat) by (unfold ps; rewrite app_length, repeat_length; lia).
  assert (E2 : into_ntt F tbl ps = Some (ntt_of F w k' ps)).
  { apply (into_ntt_canon F Hok tbl k' w C); [exact Lps|]. rewrite Ep. apply Forall_app. split; [exact C1|]. apply Forall_forall. intros x Hx. apply repeat_spec in Hx. lia. }
  set (lsk := ntt_of F w k' ps) in *. assert (Llsk : length lsk = (2 ^ k')%nat) by (unfold lsk, ntt_of; rewrite map_length, seq_length; reflexivity).
  assert (HR' : rdG (ring_draws_g F gk fuel (length lsk)) ok) by (rewrite Llsk; exact HR).
  set (r1 := rtimes (bs_len b) (@ring_draws_g nat F gk fuel (2 ^ k'))). set (ok1 := allok (bs_len b) ok).
  assert (R1 : rdG r1 ok1) by (apply rd_times; exact HR). assert (X1 : exists x, ok1 x) by (apply allok_ex; exact HX).
  assert (ONE : forall bv z, folG (let% rows := rks_rows_g F tbl gk fuel lsk bv z (bs_len b) in rret (mk_gadget rows b)) r1 ok1
    (fun r => let* _ := assert (length r =? bs_len b)%nat in let* rows := rks_rows F tbl lsk bv z r in Some (mk_gadget rows b))).
  { intros bv z. eapply fol_ext; [apply fol_ret|exact R1|].
    - pose proof (rks_rows_fol G False L F tbl gk fuel lsk ok HR' HX bv (bs_len b) z) as H. rewrite Llsk in H. exact H.
    - intros r (Lr & _). rewrite Lr, Nat.eqb_refl. reflexivity. }
  unfold rks_generate_g. cbv zeta. rewrite EXT, Ls. rewrite (proj2 (Nat.leb_le _ _) Lk).
  apply (fol_some G False L _ tt); [reflexivity|]. apply (fol_some G False L _ gk); [exact Eg|]. apply (fol_some G False L _ b); [exact Eb|]. apply (fol_some G False L _ s); [exact E1|]. apply (fol_some G False L _ lsk); [exact E2|].
  assert (RC : rdG (rtimes (2 ^ (k - k')) r1) (allok (2 ^ (k - k')) ok1)) by (apply rd_times; exact R1).
  eapply fol_ext; [apply (fol_pre G False L (f_new F (bs_basis b)) _ _ _ (fun bv rnd =>
      let* key := (if (2 ^ k' =? 2 ^ k)%nat then
          let* r := index rnd 0 in let* g := (let* _ := assert (length r =? bs_len b)%nat in let* rows := rks_rows F tbl lsk bv (kp_ntt kp) r in Some (mk_gadget rows b)) in Some [g]
        else mapM2 (fun z r => let* z := into_ntt F tbl z in let* _ := assert (length r =? bs_len b)%nat in let* rows := rks_rows F tbl lsk bv z r in Some (mk_gadget rows b)) (chunks (2 ^ k') (kp_ring kp)) rnd) in
      Some (mk_rlwe_ks_key (length (kp_lwe kp)) key)))|exact RC|].
  - apply allok_ex. exact X1.
  - intros bv _. apply fol_ret. destruct (Nat.eqb_spec (2 ^ k') (2 ^ k)) as [EK|NK].
    + apply Nat.pow_inj_r in EK; [|lia]. replace (k - k')%nat with 0%nat by lia. change (2 ^ 0)%nat with 1%nat.
      eapply fol_ext; [apply (fol_cons G False L _ (fun x => rret [x]) r1 ok1 _ 0 (fun r _ => let* g := (let* _ := assert (length r =? bs_len b)%nat in let* rows := rks_rows F tbl lsk bv (kp_ntt kp) r in Some (mk_gadget rows b)) in Some [g]) (ONE bv (kp_ntt kp)) R1 X1)|apply rd_times; exact R1|].
      * intros x v Hx Ev. apply fol_nil. rewrite Ev. reflexivity.
      * intros x xs _ Ev. rewrite Ev. reflexivity.
      * intros [|r xs] (Lx & _); [discriminate Lx|]. reflexivity.
    + assert (LC : length (chunks (2 ^ k') (kp_ring kp)) = (2 ^ (k - k'))%nat).
      { apply (chunks_spec (2 ^ k') (2 ^ (k - k'))); [pose proof (Nat.pow_nonzero 2 k'); lia|]. rewrite Ls, <- Nat.pow_add_r. f_equal. lia. }
      rewrite <- LC. apply fol_map; [|exact R1|exact X1]. intros z.
      apply (fol_pre G False L (into_ntt F tbl z) _ _ _ (fun z r => let* _ := assert (length r =? bs_len b)%nat in let* rows := rks_rows F tbl lsk bv z r in Some (mk_gadget rows b))); [exact X1|].
      intros z' _. apply ONE.
  - intros rnd (Lr & _). unfold rks_generate. cbv zeta. rewrite EXT, Ls, (proj2 (Nat.leb_le _ _) Lk), Eb, E1. cbn [assert bind]. fold ps. rewrite E2. cbn [bind].
    destruct (f_new F (bs_basis b)) as [bv|]; cbn [bind]; [|reflexivity].
    destruct (Nat.eqb_spec (2 ^ k') (2 ^ k)) as [EK|NK]; [reflexivity|].
    assert (LC : length (chunks (2 ^ k') (kp_ring kp)) = (2 ^ (k - k'))%nat).
    { apply (chunks_spec (2 ^ k') (2 ^ (k - k'))); [pose proof (Nat.pow_nonzero 2 k'); lia|]. rewrite Ls, <- Nat.pow_add_r. f_equal. lia. }
    rewrite LC, Lr, Nat.eqb_refl. reflexivity.
Qed.

Lemma sw_part : exists (read : rand sw_data) (ok : sw_data -> Prop),
  folG sw_make_g read ok sw_make /\ rdG read ok /\ (exists x, ok x) /\ (forall x, ok x -> sw_small x) /\
  src G read sw_at sw_shape (fun s => switch_key_draws B F P (dv_ks dv) (mk_key_sources [] [] (fst s) (snd s))).
Proof.
  destruct (base_facts BF p k F tbl B j bits P HG) as (W & P0 & HF & Ep & B0 & Q0 & EN & Eq).
  destruct pack_lengths as (EP & Lz & Ls & LS).
  unfold sw_make_g, sw_make, sw_small, sw_at, sw_shape, switch_modulus, switch_length, switch_key_draws, noise_distribution in *. cbv zeta. cbn [ks_lwe ks_ring]. rewrite Eq.
  destruct (pp_steps P) eqn:ES.
  - destruct (HK ltac:(discriminate)) as (HD & HEk). destruct (sampler _ _ HD) as (gk & Eg). rewrite Eg. cbn [dlift dbind].
    assert (HS := HG). destruct HS as (_ & (_ & Hj & _) & _ & HS). rewrite ES in HS. destruct HS as (_ & Hb). set (kb := pp_ks_bits P) in *.
    set (wb := mk_wbasis (2 ^ kb) (Z.to_nat ((j + kb - 1) / kb)) (2 ^ kb - 1) kb).
    assert (Ewb : wbasis_new B kb (2 ^ j) = Some wb). { rewrite wbasis_new_pow2 by lia. destruct (Z.leb_spec 1 kb); [|lia]. destruct (Z.leb_spec kb j); [reflexivity|lia]. }
    pose proof (pow2_pos kb ltac:(lia)) as Hb2.
    set (ok := word_ok' Ek (2 ^ j) n). set (r1 := @lwe_draws_g nat B (2 ^ j) gk fuel (length (kp_lwe kp))).
    assert (R1 : rdG r1 ok). { unfold r1, ok. rewrite Lz. apply (word_rd G HGen F dv fuel L HL (dv_ks dv) Ek gk HD ltac:(cbn; tauto) Eg); assumption. }
    assert (X1 : exists x, ok x).
    { exists (repeat 0 n, 0). split; cbn [fst snd]; [split; [apply repeat_length|]; apply Forall_forall; intros x Hx; apply repeat_spec in Hx; lia|]. exists 0. rewrite Z.mod_0_l by lia. split; [reflexivity|cbn; lia]. }
    set (read := rtimes (wb_len wb) (rtimes (2 ^ k) (row_read B (2 ^ j) gk fuel (kp_lwe kp) (wb_basis wb)))).
    set (oks := allok (wb_len wb) (allok (2 ^ k) (row_ok ok (wb_basis wb)))).
    exists (let% r := read in rret (r, [])), (image (fun r => (r, [])) oks).
    split; [|split; [|split; [|split]]].
    + apply (fol_inj G False L _ read oks (fun x => let* K := lks_generate B (2 ^ j) kb (kp_lwe kp) (kp_ring kp) x in Some (KsLwe K))); [|reflexivity].
      apply fol_ret. apply lks_fol; try assumption. cbn [wb wb_basis]. lia.
    + apply rd_inj. unfold read, oks, row_read, row_ok. do 3 apply rd_times. exact R1.
    + apply image_ex. unfold oks, row_ok. do 3 apply allok_ex. exact X1.
    + intros x (y & (Ly & Fy) & ->). cbn [fst]. cbn [wb wb_len wb_basis] in *. split.
      * split; [exact Ly|]. eapply Forall_impl; [|exact Fy]. intros level (Ll & Fl). split; [exact Ll|]. eapply Forall_impl; [|exact Fl]. intros row' (Lr & Fr). split; [lia|].
        eapply Forall_impl; [|exact Fr]. intros ae (H & _). exact H.
      * eapply Forall_impl; [|exact Fy]. intros level (Ll & Fl). eapply Forall_impl; [|exact Fl]. intros row' (Lr & Fr). eapply Forall_impl; [|exact Fr]. intros ae (_ & e & Ee' & Be).
        assert (Hs : Forall (fun x => exists e, x = e mod 2 ^ j /\ Z.abs e <= Ek) [snd ae]) by (constructor; [exists e; split; assumption|constructor]).
        apply (small_near (2 ^ j) Ek) in Hs; [|lia|exact HEk]. destruct Hs as (_ & Hs). inversion Hs; subst. assumption.
    + assert (S1 : src G r1 (with_dev (dv_ks dv) (lwe_at G (2 ^ j) n)) (source_ok (2 ^ j) n) (lwe_draws B (2 ^ j) gk)).
      { unfold r1. rewrite Lz. eapply src_impl; [apply (lwe_src G HGen B (2 ^ j) gk fuel n); lia| |intros s Hs; exact Hs]. intros a b s Hs. exists gk. split; [exact Eg|exact Hs]. }
      eapply src_impl; [eapply src_ext; [eapply (src_inj G read _ _ _ (fun r => (r, [])) fst (fun s => (s, []))); [reflexivity|apply (src_times G _ _ _ _ (wb_len wb) (src_times G _ _ _ _ (2 ^ k) (src_times G _ _ _ _ (Z.to_nat (wb_basis wb - 1)) S1)))]|reflexivity]|intros a b s Hs; exact Hs|].
      intros s (Hl & Hf). cbn [wb wb_len wb_basis] in *. split; [exact Hl|]. eapply Forall_impl; [|exact Hf]. intros level (Ll & Fl). split; [exact Ll|]. eapply Forall_impl; [|exact Fl]. intros row' (Lr & Fr). split; [lia|exact Fr].
  - destruct (HK ltac:(discriminate)) as (HD & HEk). destruct (sampler _ _ HD) as (gk & Eg). rewrite Eg. cbn [dlift dbind].
    assert (HS := HG). destruct HS as (_ & _ & _ & HS). rewrite ES in HS. destruct HS as (_ & (b & Eb) & _). set (k' := Nat.log2_up n) in *.
    set (ok := ring_ok p Ek (2 ^ k')). set (r1 := @ring_draws_g nat F gk fuel (2 ^ k')).
    assert (R1 : rdG r1 ok) by (apply (ring_rd G HGen BF p F W P0 HF dv fuel L HL (dv_ks dv) Ek gk HD ltac:(cbn; tauto) Eg); exact HEk).
    assert (X1 : exists x, ok x) by (apply ring_ok_ex; exact Hk0).
    set (read := rtimes (2 ^ (k - k')) (rtimes (bs_len b) r1)). set (oks := allok (2 ^ (k - k')) (allok (bs_len b) ok)).
    exists (let% r := read in rret ([], r)), (image (fun r => ([], r)) oks).
    split; [|split; [|split; [|split]]].
    + apply (fol_inj G False L _ read oks (fun x => let* K := rks_generate F tbl (pp_ks_bits P) (kp_lwe kp) (kp_ring kp) (kp_ntt kp) x in Some (KsRlwe K))); [|reflexivity].
      apply fol_ret. apply (rks_fol b gk ok ES Eb Eg R1 X1).
    + apply rd_inj. do 2 apply rd_times. exact R1.
    + apply image_ex. do 2 apply allok_ex. exact X1.
    + intros x (y & (Ly & Fy) & ->). cbn [snd]. exists b. split; [exact Eb|]. split; [exact Ly|exact Fy].
    + assert (S1 : src G r1 (with_dev (dv_ks dv) (ring_at G F (2 ^ k'))) (source_ok p (2 ^ k')) (ring_draws F (2 ^ k') gk)).
      { eapply src_impl; [apply (ring_src G HGen BF p F W P0 HF gk fuel (2 ^ k'))| |intros s Hs; exact Hs]. intros a c s Hs. exists gk. split; [exact Eg|exact Hs]. }
      eapply src_impl; [eapply src_ext; [eapply (src_inj G read _ _ _ (fun r => ([], r)) snd (fun s => ([], s))); [reflexivity|apply (src_times G _ _ _ _ (2 ^ (k - k')) (src_times G _ _ _ _ (bs_len b) S1))]|reflexivity]|intros a c s Hs; exact Hs|].
      intros s (Hl & Hf). exists b. split; [exact Eb|]. split; [exact Hl|exact Hf].
  - exists (rret ([], [])), (fun _ => True). split; [|split; [|split; [|split]]].
    + intros i. cbn. exists ([], []). split; reflexivity.
    + intros i. exact I.
    + exists ([], []). exact I.
    + intros x _. exact I.
    + intros a x b Ex. injection Ex as <- <-. exists ([], []). split; [split; [reflexivity|exact I]|reflexivity].
Qed.

Lemma eval_run a : match eval_key_new_g B F tbl dv fuel kp G a with
  | Got (K, c) => exists X, key_at G F P dv a c X /\
      key_sources_are F k j P (source_ok p (2 ^ k)) (source_ok (switch_modulus p j P) (switch_length P)) X /\ sampled_eval_key B F tbl kp dv X = Got K
  | Panicked => False
  | Looping => L
  end.
Proof.
  destruct (base_facts BF p k F tbl B j bits P HG) as (W & P0 & HF & Ep & B0 & Q0 & EN & Eq). destruct pack_lengths as (EP & _).
  destruct br_part as (r1 & ok1 & F1 & R1 & X1 & O1 & S1). destruct sw_part as (r2 & ok2 & F2 & R2 & X2 & O2 & S2).
  pose proof (fol_both G False L _ _ r1 r2 ok1 ok2 _ _ (fun br ks => mk_eval_key br ks P) F1 F2 R1 X2 a) as H.
  pose proof (src_pair G _ _ _ _ _ _ _ _ S1 S2) as HS.
  unfold eval_key_new_g. cbv zeta. rewrite EP. fold sw_make_g.
  destruct ((let% br := br_key_generate_g F tbl (dv_ring dv) fuel kp in let% ks := sw_make_g in rret (mk_eval_key br ks P)) G a) as [| |[K c]]; [exact H| |].
  - destruct H as [H|((x1 & x2) & (H1 & H2) & H3)]; [exact H|]. cbn [fst snd] in *.
    set (R := mk_key_draws (fst x1) (snd x1) (fst x2) (snd x2)).
    assert (DS : draws_small F k j P E Ek R).
    { unfold draws_small. rewrite Ep. cbv zeta. cbn [kd_bin kd_ter kd_lwe kd_ring R]. split; [exact (O1 _ H1)|exact (O2 _ H2)]. }
    destruct (keys_ok BF p k F tbl B j bits P HG words rwords gauss E Ek R Hw Hrw Hg E_nonneg Hk0 DS) as (kp' & K & s & z & W' & E1 & E2 & _).
    assert (kp' = kp) by congruence. subst kp'. unfold eval_key_new in E2. rewrite EP in E2.
    assert (EB : br_key_generate F tbl kp R = br_key_generate F tbl kp (mk_key_draws (fst x1) (snd x1) [] [])) by reflexivity.
    rewrite EB in E2. cbn [R kd_lwe kd_ring] in E2. fold (sw_make x2) in E2.
    destruct (br_key_generate F tbl kp (mk_key_draws (fst x1) (snd x1) [] [])) as [br|]; cbn [bind] in *; [|discriminate E2].
    assert (E3 : (let* ks := sw_make x2 in Some (mk_eval_key br ks P)) = Some K) by exact E2. rewrite E3 in H3. discriminate H3.
  - destruct H as ((x1 & x2) & H1 & H2). destruct (HS a (x1, x2) c H1) as ((s1 & s2) & (A1 & (O3 & O4)) & H3). cbn [fst snd] in *.
    destruct A1 as (b & A1 & A2). cbn [fst snd] in *.
    exists (mk_key_sources (fst s1) (snd s1) (fst s2) (snd s2)). split; [|split].
    + exists b. split; [exact A1|exact A2].
    + split; [exact O3|exact O4].
    + unfold sampled_eval_key, sampled_draws. rewrite EP.
      assert (D1 : br_draws F P (dv_ring dv) (mk_key_sources (fst s1) (snd s1) (fst s2) (snd s2)) = br_draws F P (dv_ring dv) (mk_key_sources (fst s1) (snd s1) [] [])) by reflexivity.
      assert (D2 : switch_key_draws B F P (dv_ks dv) (mk_key_sources (fst s1) (snd s1) (fst s2) (snd s2)) = switch_key_draws B F P (dv_ks dv) (mk_key_sources [] [] (fst s2) (snd s2))) by reflexivity.
      rewrite D1, D2. destruct (br_draws F P (dv_ring dv) (mk_key_sources (fst s1) (snd s1) [] [])) as [| |y1]; try discriminate H3. cbn [dbind] in *.
      destruct (switch_key_draws B F P (dv_ks dv) (mk_key_sources [] [] (fst s2) (snd s2))) as [| |y2]; try discriminate H3. cbn [dbind] in *. injection H3 as -> ->.
      unfold eval_key_new. rewrite EP.
      assert (EB : br_key_generate F tbl kp (mk_key_draws (fst x1) (snd x1) (fst x2) (snd x2)) = br_key_generate F tbl kp (mk_key_draws (fst x1) (snd x1) [] [])) by reflexivity.
      rewrite EB. cbn [kd_lwe kd_ring]. destruct (br_key_generate F tbl kp (mk_key_draws (fst x1) (snd x1) [] [])) as [br|]; cbn [bind] in *; [|discriminate H2].
      assert (E3 : forall o : option eval_key, (let* ks := sw_make x2 in Some (mk_eval_key br ks P)) = o -> dlift o = Got K) by (intros o <-; rewrite H2; reflexivity). apply E3. reflexivity.
Qed.

(** * Ciphertexts *)
Variables (Ee : Z).
Hypothesis HEe : dev_bound (dv_lwe dv) Ee.
Hypothesis HEq : Ee < 2 ^ j.
Lemma encrypt_run m a : match kp_encrypt_g B dv fuel kp m G a with
  | Got (x, c) => exists y, with_dev (dv_lwe dv) (lwe_at G (2 ^ j) n) a c y /\ source_ok (2 ^ j) n y /\ sampled_encrypt B kp dv m y = Got x
  | Panicked => exists u e, (length u = n /\ canonical (2 ^ j) u) /\ Z.abs e <= Ee /\ kp_encrypt B kp u (e mod 2 ^ j) m = None
  | Looping => L
  end.
Proof.
  destruct (base_facts BF p k F tbl B j bits P HG) as (W & P0 & HF & Ep & B0 & Q0 & EN & Eq). destruct pack_lengths as (EP & Lz & _).
  destruct (sampler _ _ HEe) as (g & Eg). unfold sampled_encrypt, noise_distribution, kp_encrypt, encrypt, kp_encrypt_g, lwe_zero_sample_g. cbv zeta. rewrite EP, Eq, Eg. cbn [dlift dbind].
  unfold rbind, rlift, rret. rewrite q_mask, Lz. cbn [bind].
  pose proof (word_rd G HGen F dv fuel L HL (dv_lwe dv) Ee g HEe ltac:(cbn; tauto) Eg B (2 ^ j) n B0 Q0 HEq a) as HR.
  pose proof (lwe_src G HGen B (2 ^ j) g fuel n ltac:(lia) a) as HS.
  destruct (lwe_draws_g B (2 ^ j) g fuel n G a) as [| |[ae c]]; [exact HR|contradiction|].
  destruct (HS ae c eq_refl) as (y & (A1 & O1) & D1). destruct HR as (H1 & e & H2 & H3).
  destruct (lwe_zero_sample B (2 ^ j - 1) (kp_lwe kp) (fst ae) (snd ae)) as [z|] eqn:EZ.
  - destruct (encode B m (pp_t P) (2 ^ j)) as [cc|] eqn:EC.
    + exists y. split; [exists g; split; [exact Eg|exact A1]|]. split; [exact O1|]. rewrite D1. cbn [dbind]. rewrite EZ. cbn [bind dlift]. reflexivity.
    + exists (fst ae), e. split; [exact H1|]. split; [exact H3|]. rewrite <- H2, EZ. reflexivity.
  - exists (fst ae), e. split; [exact H1|]. split; [exact H3|]. rewrite <- H2, EZ. reflexivity.
Qed.
End Keys.
