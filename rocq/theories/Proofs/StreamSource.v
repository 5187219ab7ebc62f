(** The samplers on one generator: where their draws lie, and that they are those of [Model/Sampled]. *)
From Coq Require Import ZArith QArith Qabs List Bool Lia SpecFloat.
From Verif Require Import Spec.Basic Spec.Poly Spec.Gauss Spec.Blind Spec.Sampled Spec.OneStream.
From Verif Require Import Model.Base Model.Field Model.Params Model.Sample Model.Gaussian Model.Sampled Model.Stream.
From Verif Require Import Proofs.Arith Proofs.FieldProofs Proofs.RandomProofs Proofs.GaussProofs Proofs.SampledProofs Proofs.StreamProofs Props.C43.
Import ListNotations.
Local Open Scope Z_scope.

Lemma requests_cons a b : (a < b)%nat -> requests a b = a :: requests (S a) b.
Proof. intros H. unfold requests. replace (b - a)%nat with (S (b - S a)) by lia. reflexivity. Qed.
Lemma requests_app a b c : (a <= b)%nat -> (b <= c)%nat -> requests a c = requests a b ++ requests b c.
Proof. intros H1 H2. unfold requests. replace (c - a)%nat with ((b - a) + (c - b))%nat by lia. rewrite seq_app. f_equal. f_equal. lia. Qed.

Lemma laid_impl {A : Type} (P Q : nat -> nat -> A -> Prop) : (forall a b x, P a b x -> Q a b x) -> forall a b l, laid P a b l -> laid Q a b l.
Proof. intros H a b l HL. induction HL; econstructor; [apply H; eassumption|assumption]. Qed.
Lemma laid_all {A : Type} (P : nat -> nat -> A -> Prop) (Q : A -> Prop) : (forall a b x, P a b x -> Q x) -> forall a b l, laid P a b l -> Forall Q l.
Proof. intros H a b l HL. induction HL; constructor; [eapply H; eassumption|assumption]. Qed.

Section Gen.
Variable G : generator.

Lemma times_laid {A : Type} (m : rand A) (P : nat -> nat -> A -> Prop) : (forall a v b, m G a = Got (v, b) -> P a b v) ->
  forall n a l b, rtimes n m G a = Got (l, b) -> length l = n /\ laid P a b l.
Proof.
  intros H. induction n as [|n IH]; intros a l b E; cbn [rtimes] in E.
  - injection E as <- <-. split; [reflexivity|constructor].
  - unfold rbind, rret in E. destruct (m G a) as [| |[v c]] eqn:E1; try discriminate E. destruct (rtimes n m G c) as [| |[l' d]] eqn:E2; try discriminate E. injection E as <- <-.
    destruct (IH _ _ _ E2) as (L1 & L2). split; [cbn; congruence|]. econstructor; [apply H; exact E1|exact L2].
Qed.

(** * Words *)
Lemma chunks_run w s per : forall c i words, (forall t, (t < c)%nat -> words t = gn_word G 32 (i + t)%nat) ->
  fill_chunks_g w s per c G i = match fill_chunks w s per c words with Some l => Got (l, (i + c)%nat) | None => Panicked end.
Proof.
  induction c as [|c IH]; intros i words Hw; cbn [fill_chunks_g fill_chunks].
  - rewrite Nat.add_0_r. reflexivity.
  - unfold rbind, next_u32, rlift, rret; cbn [counter rn_word]. rewrite (Hw 0%nat) by lia. rewrite Nat.add_0_r. destruct (fill w s per (gn_word G 32 i)) as [x|]; cbn [bind]; [|reflexivity].
    rewrite (IH (S i) (fun t => words (S t))) by (intros t Ht; rewrite Hw by lia; f_equal; lia).
    destruct (fill_chunks w s per c (fun t => words (S t))); cbn [bind]; [|reflexivity]. do 2 f_equal. lia.
Qed.
Lemma symbols_run w s per len i words : (forall t, (t < S (Nat.div len per))%nat -> words t = gn_word G 32 (i + t)%nat) ->
  sample_symbols_g w s per len G i = match sample_symbols w s per len words with Some l => Got (l, (i + S (Nat.div len per))%nat) | None => Panicked end.
Proof.
  intros Hw. unfold sample_symbols_g, sample_symbols, rbind, next_u32, rlift, rret; cbn [counter rn_word].
  rewrite (chunks_run w s per _ i words) by (intros t Ht; apply Hw; lia). destruct (fill_chunks w s per (Nat.div len per) words) as [l|]; cbn [bind]; [|reflexivity].
  rewrite (Hw (Nat.div len per)) by lia. destruct (fill w s (Nat.modulo len per) (gn_word G 32 (i + Nat.div len per)%nat)); cbn [bind]; [|reflexivity]. do 2 f_equal. lia.
Qed.

Lemma uniform_run F th fuel : forall a, let try t := uniform_try F th (gn_word G (sample_width F) t) in
  match uniform_g F th fuel G a with
  | Got (v, b) => (a < b)%nat /\ try (b - 1)%nat = Some (Some v) /\ forall t, (a <= t < b - 1)%nat -> try t = Some None
  | Panicked => exists t, try t = None
  | Looping => forall t, (a <= t < a + fuel)%nat -> try t = Some None
  end.
Proof.
  induction fuel as [|fuel IH]; intros a try; cbn [uniform_g]; [intros t Ht; lia|].
  unfold rbind, rlift; cbn [counter rn_word]. fold (try a). destruct (try a) as [[v|]|] eqn:E; [cbn|specialize (IH (S a)); cbv zeta in IH; fold try in IH|exists a; exact E].
  - split; [lia|]. split; [replace (a - 0)%nat with a by lia; exact E|]. intros t Ht. lia.
  - destruct (uniform_g F th fuel G (S a)) as [| |[v b]]; [| exact IH|].
    + intros t Ht. destruct (Nat.eq_dec t a) as [->|N]; [exact E|]. apply IH. lia.
    + destruct IH as (H1 & H2 & H3). split; [lia|]. split; [exact H2|]. intros t Ht. destruct (Nat.eq_dec t a) as [->|N]; [exact E|]. apply H3. lia.
Qed.
Lemma loop_none F th : forall k a, (forall t, (a <= t < a + k)%nat -> uniform_try F th (gn_word G (sample_width F) t) = Some None) ->
  uniform_loop F th (map (gn_word G (sample_width F)) (seq a k)) = None.
Proof. induction k as [|k IH]; intros a H; [reflexivity|]. cbn [seq map uniform_loop]. rewrite H by lia. cbn [bind]. apply IH. intros t Ht. apply H. lia. Qed.
Lemma loop_some F th v : forall k a, (forall t, (a <= t < a + k)%nat -> uniform_try F th (gn_word G (sample_width F) t) = Some None) ->
  uniform_try F th (gn_word G (sample_width F) (a + k)%nat) = Some (Some v) ->
  uniform_loop F th (map (gn_word G (sample_width F)) (seq a (S k))) = Some v.
Proof.
  induction k as [|k IH]; intros a H E; cbn [seq map uniform_loop].
  - rewrite Nat.add_0_r in E. rewrite E. reflexivity.
  - rewrite H by lia. cbn [bind]. apply (IH (S a)); [intros t Ht; apply H; lia|]. rewrite <- E. do 2 f_equal. lia.
Qed.
Lemma random_run F fuel n a l b : random_g F fuel n G a = Got (l, b) -> length l = n /\ laid (uniform_at G F) a b l.
Proof.
  unfold random_g, rbind, rlift. destruct (thresh F) as [th|] eqn:ET; [|discriminate]. apply times_laid. clear a l b. intros a v b E.
  pose proof (uniform_run F th fuel a) as H. cbv zeta in H. rewrite E in H. destruct H as (H1 & H2 & H3).
  split; [exact H1|]. unfold uniform_sample. rewrite ET. cbn [bind]. split.
  - unfold requests. replace (b - a)%nat with (S (b - 1 - a)) by lia. apply loop_some; [intros t Ht; apply H3; lia|]. replace (a + (b - 1 - a))%nat with (b - 1)%nat by lia. exact H2.
  - intros c Hc. apply loop_none. intros t Ht. apply H3. lia.
Qed.

(** * Normal draws *)
Lemma gauss_run conv g fuel : forall a, match gauss_loop_g conv g fuel G a with
  | Got (x, b) => (a < b)%nat /\ forall rest, gauss_loop conv g (map (gn_normal G g) (requests a b) ++ rest) = Got (x, rest)
  | Panicked => exists b, gauss_loop conv g (map (gn_normal G g) (requests a b)) = Panicked
  | Looping => forall t, (a <= t < a + fuel)%nat -> accepts g (gn_normal G g t) = false
  end.
Proof.
  induction fuel as [|fuel IH]; intros a; cbn [gauss_loop_g]; [intros t Ht; lia|].
  unfold rbind, rlift; cbn [counter rn_normal]. destruct (accepts g (gn_normal G g a)) eqn:E.
  - destruct (conv (gn_normal G g a)) as [x|] eqn:EC.
    + split; [lia|]. intros rest. rewrite requests_cons by lia. unfold requests. rewrite Nat.sub_diag. cbn [seq map app gauss_loop]. rewrite E, EC. reflexivity.
    + exists (S a). rewrite requests_cons by lia. cbn [map gauss_loop]. rewrite E, EC. reflexivity.
  - specialize (IH (S a)). destruct (gauss_loop_g conv g fuel G (S a)) as [| |[x b]].
    + intros t Ht. destruct (Nat.eq_dec t a) as [->|N]; [exact E|]. apply IH. lia.
    + destruct IH as (b & IH). destruct (Nat.lt_ge_cases a b) as [Hb|Hb].
      * exists b. rewrite requests_cons by exact Hb. cbn [map gauss_loop]. rewrite E. exact IH.
      * exfalso. unfold requests in IH. replace (b - S a)%nat with 0%nat in IH by lia. discriminate IH.
    + destruct IH as (H1 & H2). split; [lia|]. intros rest. rewrite requests_cons by lia. cbn [map app gauss_loop]. rewrite E. apply H2.
Qed.
Lemma take_run conv g fuel n : forall a, match rtimes n (gauss_loop_g conv g fuel) G a with
  | Got (l, b) => (a <= b)%nat /\ forall rest, gauss_take conv g n (map (gn_normal G g) (requests a b) ++ rest) = Got l
  | Panicked => exists b, gauss_take conv g n (map (gn_normal G g) (requests a b)) = Panicked
  | Looping => exists i, forall t, (i <= t < i + fuel)%nat -> accepts g (gn_normal G g t) = false
  end.
Proof.
  induction n as [|n IH]; intros a; cbn [rtimes gauss_take]; [split; [lia|reflexivity]|].
  unfold rbind, rret. pose proof (gauss_run conv g fuel a) as H. destruct (gauss_loop_g conv g fuel G a) as [| |[x b]].
  - exists a. exact H.
  - destruct H as (b & H). exists b. rewrite H. reflexivity.
  - destruct H as (H1 & H2). specialize (IH b). destruct (rtimes n (gauss_loop_g conv g fuel) G b) as [| |[l c]].
    + exact IH.
    + destruct IH as (c & IH). destruct (Nat.le_gt_cases b c) as [Hc|Hc].
      * exists c. rewrite (requests_app a b c) by lia. rewrite map_app, H2, IH. reflexivity.
      * exists b. rewrite <- (app_nil_r (map _ _)), H2. unfold requests in IH. replace (c - b)%nat with 0%nat in IH by lia. cbn [seq map] in IH. rewrite IH. reflexivity.
    + destruct IH as (H3 & H4). split; [lia|]. intros rest. rewrite (requests_app a b c) by lia. rewrite map_app, <- app_assoc, H2, H4. reflexivity.
Qed.

(** * Bytes *)
Definition bytes_from (a : nat) (t : nat) : Z := gn_byte G (a + Nat.div t 6)%nat (Nat.modulo t 6).
Lemma cbd_run F : forall n a bytes, (forall t, bytes t = bytes_from a t) ->
  sample_cbd_field_vec_g F n G a = match sample_cbd_field_vec F n bytes with Some l => Got (l, (a + n)%nat) | None => Panicked end.
Proof.
  unfold sample_cbd_field_vec_g. set (m := rbind _ _).
  assert (Hm : forall a, m G a = match cbd_value F (gn_byte G a 0) (gn_byte G a 1) (gn_byte G a 2) (gn_byte G a 3) (gn_byte G a 4) (gn_byte G a 5) with Some v => Got (v, S a) | None => Panicked end) by reflexivity.
  clearbody m. induction n as [|n IH]; intros a bytes Hb; cbn [rtimes sample_cbd_field_vec].
  - rewrite Nat.add_0_r. reflexivity.
  - unfold rbind at 1. rewrite Hm, !Hb. unfold bytes_from. cbn [Nat.div Nat.modulo Nat.divmod fst snd Nat.sub]. rewrite !Nat.add_0_r.
    destruct (cbd_value F _ _ _ _ _ _) as [x|]; cbn [bind]; [|reflexivity].
    unfold rbind, rret. rewrite (IH (S a) (fun i => bytes (6 + i)%nat)).
    + destruct (sample_cbd_field_vec F n (fun i => bytes (6 + i)%nat)); cbn [bind]; [|reflexivity]. do 2 f_equal. lia.
    + intros t. rewrite Hb. unfold bytes_from. replace (6 + t)%nat with (t + 1 * 6)%nat by lia. rewrite Nat.div_add, Nat.mod_add by lia. f_equal. lia.
Qed.

Lemma rwg_run F fuel n g a m : match random_with_gaussian_g F fuel n g G a with
  | Got (e, b) => let x := mk_source m (bytes_from a) (map (gn_normal G g) (requests a b)) in
      errors_at G n g a b x /\ random_with_gaussian F n g (src_bytes x) (src_normals x) = Got e
  | Panicked => exists b, random_with_gaussian F n g (bytes_from a) (map (gn_normal G g) (requests a b)) = Panicked
  | Looping => exists i, forall t, (i <= t < i + fuel)%nat -> accepts g (gn_normal G g t) = false
  end.
Proof.
  unfold random_with_gaussian_g, random_with_gaussian, errors_at. destruct (gs_cbd g).
  - rewrite (cbd_run F n a (bytes_from a)) by reflexivity. destruct (sample_cbd_field_vec F n (bytes_from a)) as [l|] eqn:E; [|exists 0%nat; reflexivity].
    cbn [src_bytes src_normals]. rewrite E. split; [|reflexivity]. split; [reflexivity|]. intros i t Hi Ht. unfold bytes_from.
    replace (6 * i + t)%nat with (t + i * 6)%nat by lia. rewrite Nat.div_add, Nat.mod_add, Nat.div_small, Nat.mod_small by lia. reflexivity.
  - pose proof (take_run (gauss_field F) g fuel n a) as H. destruct (rtimes n (gauss_loop_g (gauss_field F) g fuel) G a) as [| |[e b]]; [exact H|exact H|].
    destruct H as (H1 & H2). cbn [src_bytes src_normals]. split; [split; [exact H1|reflexivity]|]. specialize (H2 []). rewrite app_nil_r in H2. exact H2.
Qed.

(** * Sources *)
Definition src {D S : Type} (r : rand D) (A : nat -> nat -> S -> Prop) (O : S -> Prop) (f : S -> drawn D) : Prop :=
  forall a x b, r G a = Got (x, b) -> exists s, (A a b s /\ O s) /\ f s = Got x.
Lemma src_times {D S : Type} (r : rand D) A O (f : S -> drawn D) k : src r A O f -> src (rtimes k r) (laid A) (allok k O) (dmap f).
Proof.
  intros H. induction k as [|k IH]; intros a x b E; cbn [rtimes] in E.
  - injection E as <- <-. exists []. split; [split; [constructor|split; [reflexivity|constructor]]|reflexivity].
  - unfold rbind, rret in E. destruct (r G a) as [| |[v c]] eqn:E1; try discriminate E. destruct (rtimes k r G c) as [| |[l d]] eqn:E2; try discriminate E. injection E as <- <-.
    destruct (H _ _ _ E1) as (s & (A1 & O1) & F1). destruct (IH _ _ _ E2) as (ss & (A2 & L2 & O2) & F2).
    exists (s :: ss). split; [split; [econstructor; eassumption|split; [cbn; congruence|constructor; assumption]]|]. cbn [dmap]. rewrite F1. cbn [dbind]. rewrite F2. reflexivity.
Qed.
Lemma src_pair {D D' S S' : Type} (r : rand D) (r' : rand D') A A' O O' (f : S -> drawn D) (f' : S' -> drawn D') : src r A O f -> src r' A' O' f' ->
  src (rpair r r') (pair_at A A') (okpair O O') (fun s => dbind (f (fst s)) (fun x => dbind (f' (snd s)) (fun y => Got (x, y)))).
Proof.
  intros H H' a x b E. unfold rpair, rbind, rret in E. destruct (r G a) as [| |[v c]] eqn:E1; try discriminate E. destruct (r' G c) as [| |[w d]] eqn:E2; try discriminate E. injection E as <- <-.
  destruct (H _ _ _ E1) as (s & (A1 & O1) & F1). destruct (H' _ _ _ E2) as (s' & (A2 & O2) & F2).
  exists (s, s'). split; [split; [exists c; split; assumption|split; assumption]|]. cbn [fst snd]. rewrite F1. cbn [dbind]. rewrite F2. reflexivity.
Qed.
Lemma src_impl {D S : Type} (r : rand D) (A A' : nat -> nat -> S -> Prop) (O O' : S -> Prop) (f : S -> drawn D) : src r A O f -> (forall a b s, A a b s -> A' a b s) -> (forall s, O s -> O' s) -> src r A' O' f.
Proof. intros H HA HO a x b E. destruct (H _ _ _ E) as (s & (A1 & O1) & F1). exists s. split; [split; auto|exact F1]. Qed.

Hypothesis HGen : gen_ok G.
Variables (BF p : Z) (F : field).
Hypothesis HBF : wwidth BF.
Hypothesis Hp : 0 < p.
Hypothesis HF : derive_field BF p = Some F.

Lemma width_max : sample_width F = Z.max 32 BF.
Proof. destruct (derive_field_ok BF p F HBF ltac:(lia) HF) as (_ & <- & _). unfold sample_width. destruct (Z.leb_spec (fw F) 32); lia. Qed.
Lemma words_ok l : Forall (fun r => 0 <= r < 2 ^ Z.max 32 BF) (map (gn_word G (sample_width F)) l).
Proof. rewrite width_max. apply Forall_forall. intros x Hx. apply in_map_iff in Hx. destruct Hx as (t & <- & _). apply HGen. lia. Qed.
Lemma uniform_canon a b v : uniform_at G F a b v -> 0 <= v < p.
Proof.
  intros (_ & E & _). destruct (C43_sample BF p F _ HBF ltac:(lia) HF (words_ok (requests a b))) as (th & _ & H).
  apply H in E. destruct E as (_ & _ & _ & _ & _ & _ & E). exact E.
Qed.
Lemma uniform_no_panic th t : thresh F = Some th -> uniform_try F th (gn_word G (sample_width F) t) <> None.
Proof. intros ET. apply (proj2 (proj2 (C43_acceptance BF p F th HBF ltac:(lia) HF ET))). rewrite <- width_max. apply HGen. rewrite width_max. lia. Qed.
Lemma errors_fine m c a b g : errors_ok (mk_source m (bytes_from c) (map (gn_normal G g) (requests a b))).
Proof.
  destruct HGen as (_ & H1 & H2 & _). split; cbn [src_bytes src_normals]; [intros i; apply H1|].
  apply Forall_forall. intros x Hx. apply in_map_iff in Hx. destruct Hx as (t & <- & _). apply H2.
Qed.

Lemma ring_src g fuel n : src (ring_draws_g F g fuel n) (ring_at G F n g) (source_ok p n) (ring_draws F n g).
Proof.
  intros a x b E. unfold ring_draws_g, rbind, rret in E. destruct (random_g F fuel n G a) as [| |[u c]] eqn:E1; try discriminate E.
  pose proof (rwg_run F fuel n g c u) as H. destruct (random_with_gaussian_g F fuel n g G c) as [| |[e d]]; try discriminate E. injection E as <- <-.
  cbv zeta in H. destruct H as (H1 & H2). destruct (random_run _ _ _ _ _ _ E1) as (L1 & L2).
  exists (mk_source u (bytes_from c) (map (gn_normal G g) (requests c d))). split; [split|].
  - exists c. split; [exact L2|exact H1].
  - split; [|apply errors_fine]. split; [exact L1|]. apply (laid_all _ _ uniform_canon _ _ _ L2).
  - unfold ring_draws. rewrite H2. reflexivity.
Qed.
Lemma below_run q : forall n a, rtimes n (fun R => rn_below R q) G a = Got (map (gn_below G q) (requests a (a + n)), (a + n)%nat).
Proof.
  induction n as [|n IH]; intros a; cbn [rtimes].
  - unfold requests. rewrite Nat.add_0_r, Nat.sub_diag. reflexivity.
  - unfold rbind, rret; cbn [counter rn_below]. rewrite IH. rewrite (requests_cons a) by lia. cbn [map]. rewrite <- plus_n_Sm. reflexivity.
Qed.
Lemma lwe_src B q g fuel n : 0 < q -> src (lwe_draws_g B q g fuel n) (lwe_at G q n g) (source_ok q n) (lwe_draws B q g).
Proof.
  intros Hq a x b E. unfold lwe_draws_g, rbind, rret in E. rewrite below_run in E.
  pose proof (gauss_run (gauss_word B q) g fuel (a + n)%nat) as H. destruct (gauss_loop_g (gauss_word B q) g fuel G (a + n)%nat) as [| |[e c]]; try discriminate E. injection E as <- <-.
  destruct H as (H1 & H2). exists (mk_source (map (gn_below G q) (requests a (a + n))) (bytes_from (a + n)) (map (gn_normal G g) (requests (a + n) c))). split; [split|].
  - split; [reflexivity|]. split; [exact H1|reflexivity].
  - split; [|apply errors_fine]. cbn [src_mask]. split; [rewrite map_length; unfold requests; rewrite seq_length; lia|].
    apply Forall_forall. intros y Hy. apply in_map_iff in Hy. destruct Hy as (t & <- & _). apply HGen. exact Hq.
  - unfold lwe_draws, gauss_sample_word. cbn [src_normals src_mask]. specialize (H2 []). rewrite app_nil_r in H2. rewrite H2. reflexivity.
Qed.

(** * No panics, and no endless loops with a lively generator *)
Variables (dv : deviations) (fuel : nat) (L : Prop).
Hypothesis HL : L \/ lively G F dv fuel.

Lemma uniform_lively i : (forall th, thresh F = Some th -> forall t, (i <= t < i + fuel)%nat -> uniform_try F th (gn_word G (sample_width F) t) = Some None) -> L.
Proof.
  intros H. destruct HL as [HL'|HL']; [exact HL'|]. destruct (HL' i) as ((t & Ht & v & E) & _). exfalso. unfold uniform_sample in E.
  destruct (thresh F) as [th|]; [|discriminate E]. cbn [bind uniform_loop] in E. rewrite (H th eq_refl t Ht) in E. discriminate E.
Qed.
Lemma random_fine n a : match random_g F fuel n G a with Got _ => True | Panicked => False | Looping => L end.
Proof.
  unfold random_g, rbind at 1, rlift at 1.
  destruct (C43_sample BF p F [] HBF ltac:(lia) HF (Forall_nil _)) as (th & ET & _). rewrite ET.
  revert a. induction n as [|n IH]; intros a; cbn [rtimes]; [exact I|]. unfold rbind, rret.
  pose proof (uniform_run F th fuel a) as H. cbv zeta in H. destruct (uniform_g F th fuel G a) as [| |[v b]].
  - apply (uniform_lively a). intros th' ET'. rewrite ET in ET'. injection ET' as <-. exact H.
  - destruct H as (t & H). exact (uniform_no_panic th t ET H).
  - specialize (IH b). destruct (rtimes n (uniform_g F th fuel) G b) as [| |[l c]]; [exact IH|exact IH|exact I].
Qed.

Variables (dev : spec_float) (E : Z) (g : gaussian).
Hypothesis HD : dev_bound dev E.
Hypothesis Hin : In dev [dv_lwe dv; dv_ring dv; dv_ks dv].
Hypothesis Eg : gauss_new (S754_zero false) dev = Some g.

Lemma dist_facts : gs_mean g = S754_zero false /\ is_f64 (gs_max g) /\ ffinite (gs_max g) /\
  (fval (gs_max g) <= inject_Z E + (1 # 2))%Q /\ (5 * fval dev <= fval (gs_max g))%Q /\ (gs_cbd g = true -> 21 <= E) /\ 0 <= E.
Proof.
  destruct (distribution _ _ HD) as (g' & E' & H). unfold noise_distribution in E'. rewrite Eg in E'. injection E' as <-. exact H.
Qed.
Lemma normal_lively i : (forall t, (i <= t < i + fuel)%nat -> accepts g (gn_normal G g t) = false) -> L.
Proof.
  intros H. destruct HL as [HL'|HL']; [exact HL'|]. destruct (HL' i) as (_ & H'). destruct (H' dev g Hin Eg) as (t & Ht & F1 & F2). exfalso.
  destruct dist_facts as (Em & Fm & Fi & Mx & M5 & _). assert (A : accepts g (gn_normal G g t) = true); [|rewrite H in A by exact Ht; discriminate A].
  apply (accepts_iff g false _ Em Fm Fi); [apply HGen|]. split; [exact F1|]. eapply Qlt_le_trans; [exact F2|exact M5].
Qed.

Definition ring_ok (n : nat) (ae : list Z * list Z) : Prop :=
  (length (fst ae) = n /\ canonical p (fst ae)) /\ (length (snd ae) = n /\ canonical p (snd ae) /\ near_zero p E (snd ae)).
Lemma rwg_fine n a : E < p -> match random_with_gaussian_g F fuel n g G a with Got (e, _) => length e = n /\ canonical p e | Panicked => False | Looping => L end.
Proof.
  intros HE. destruct dist_facts as (Em & Fm & Fi & Mx & M5 & Cb & _). pose proof (rwg_run F fuel n g a []) as H.
  assert (N : forall b, dspec (random_with_gaussian F n g (bytes_from a) (map (gn_normal G g) (requests a b))) (fun e => length e = n /\ canonical p e /\ near_zero p E e) True).
  { intros b. destruct (errors_fine [] a a b g) as (E1 & E2). apply (ring_noise BF p F HBF Hp HF dev E g Em Fm Fi Mx M5 Cb True n _ HE E1 E2). right. exact I. }
  destruct (random_with_gaussian_g F fuel n g G a) as [| |[e b]].
  - destruct H as (i & H). exact (normal_lively i H).
  - destruct H as (b & H). specialize (N b). rewrite H in N. exact N.
  - cbv zeta in H. destruct H as (_ & H). specialize (N b). cbn [src_bytes src_normals] in H. rewrite H in N. cbn in N. tauto.
Qed.
Lemma ring_rd n : E < p -> rd G False L (ring_draws_g F g fuel n) (ring_ok n).
Proof.
  intros HE i. destruct dist_facts as (Em & Fm & Fi & Mx & M5 & Cb & _).
  destruct (ring_draws_g F g fuel n G i) as [| |[x b]] eqn:EX.
  - unfold ring_draws_g, rbind, rret in EX. pose proof (random_fine n i) as H1. destruct (random_g F fuel n G i) as [| |[u c]]; [exact H1|discriminate EX|].
    pose proof (rwg_fine n c HE) as H2. destruct (random_with_gaussian_g F fuel n g G c) as [| |[e d]]; [exact H2|discriminate EX|discriminate EX].
  - unfold ring_draws_g, rbind, rret in EX. pose proof (random_fine n i) as H1. destruct (random_g F fuel n G i) as [| |[u c]]; [discriminate EX|exact H1|].
    pose proof (rwg_fine n c HE) as H2. destruct (random_with_gaussian_g F fuel n g G c) as [| |[e d]]; [discriminate EX|exact H2|discriminate EX].
  - destruct (ring_src g fuel n i x b EX) as (s & (_ & Os) & Fs).
    pose proof (ring_draws_ok BF p F HBF Hp HF dev E g Em Fm Fi Mx M5 Cb True n s HE Os (or_intror I)) as H. rewrite Fs in H. exact H.
Qed.
Definition word_ok' (q : Z) (n : nat) (ae : list Z * Z) : Prop := (length (fst ae) = n /\ canonical q (fst ae)) /\ exists e, snd ae = e mod q /\ Z.abs e <= E.
Lemma word_rd B q n : 0 < B -> 0 < q < 2 ^ B -> E < q -> rd G False L (lwe_draws_g B q g fuel n) (word_ok' q n).
Proof.
  intros HB Hq HE i. destruct dist_facts as (Em & Fm & Fi & Mx & M5 & Cb & _).
  destruct (lwe_draws_g B q g fuel n G i) as [| |[x b]] eqn:EX.
  - unfold lwe_draws_g, rbind, rret in EX. rewrite below_run in EX. pose proof (gauss_run (gauss_word B q) g fuel (i + n)%nat) as H.
    destruct (gauss_loop_g (gauss_word B q) g fuel G (i + n)%nat) as [| |[e c]]; [exact (normal_lively _ H)|discriminate EX|discriminate EX].
  - unfold lwe_draws_g, rbind, rret in EX. rewrite below_run in EX. pose proof (gauss_run (gauss_word B q) g fuel (i + n)%nat) as H.
    destruct (gauss_loop_g (gauss_word B q) g fuel G (i + n)%nat) as [| |[e c]]; [discriminate EX| |discriminate EX].
    destruct H as (b & H). set (s := mk_source (map (gn_below G q) (requests i (i + n))) (bytes_from 0) (map (gn_normal G g) (requests (i + n) b))).
    assert (Os : source_ok q n s).
    { split; [|apply errors_fine]. cbn [src_mask s]. split; [rewrite map_length; unfold requests; rewrite seq_length; lia|].
      apply Forall_forall. intros y Hy. apply in_map_iff in Hy. destruct Hy as (t & <- & _). apply HGen. lia. }
    pose proof (word_noise dev E g Em Fm Fi Mx M5 True B q n s HB Hq HE Os (or_intror I)) as W. unfold lwe_draws, gauss_sample_word in W. cbn [src_normals s] in W. rewrite H in W. exact W.
  - destruct (lwe_src B q g fuel n ltac:(lia) i x b EX) as (s & (_ & Os) & Fs).
    pose proof (word_noise dev E g Em Fm Fi Mx M5 True B q n s HB Hq HE Os (or_intror I)) as W. rewrite Fs in W. exact W.
Qed.
End Gen.
