(** Fresh RLWE, gadget and RGSW samples have the stated phases. *)
From Coq Require Import ZArith Znumtheory List Bool Arith Lia Setoid Morphisms.
From Verif Require Import Spec.Basic Spec.Poly Spec.Ring Model.Base Model.Field Model.NTT Model.Concrete Model.Poly Model.Rlwe Model.Gadget
  Proofs.Arith Proofs.BarrettProofs Proofs.NumTheory Proofs.FieldProofs Proofs.PolyMath Proofs.NTTProofs Proofs.NTTTableProofs
  Proofs.PolyProofs Proofs.MonomialProofs Proofs.RingProofs Proofs.GadgetProofs Proofs.RlweProofs Proofs.GadgetMain Proofs.RgswProofs.
Import ListNotations.
Local Open Scope Z_scope.

Definition one (n : nat) : list Z := monomial n 1 0.
Lemma one_cons m : one (S m) = 1 :: repeat 0 m.
Proof.
  unfold one, monomial. rewrite Nat.mod_0_l, Nat.div_0_l by lia. cbn [Nat.even seq map Nat.eqb]. f_equal.
  rewrite <- seq_shift, map_map. cbn [Nat.eqb]. apply map_const_seq.
Qed.
Lemma one_length n : length (one n) = n.
Proof. unfold one, monomial. rewrite map_length, seq_length. reflexivity. Qed.
Lemma ev_one z n : (0 < n)%nat -> ev z (one n) = 1.
Proof. intros H. destruct n; [lia|]. rewrite one_cons. cbn [ev]. rewrite ev_zeros. ring. Qed.

Section Field.
Variable F : field.
Hypothesis Hok : fok F.
Local Notation p := (fp F).
Hypothesis Hp : prime p.
Variables (tbl : tables) (k : nat) (w : Z).
Hypothesis C : ctx F tbl k w.
Hypothesis Hk : (0 < k)%nat.
Local Notation n := (2 ^ k)%nat.
Local Notation ntt := (ntt_of F w k).
Local Notation nform := (nform F k w).
Variable s : list Z.
Hypothesis Ls : length s = n.

Let Hp0 : 0 < p := p0 F tbl k w C.
Let Hp2 := Hp2 F tbl k w C.
Let Hw := Hw F tbl k w C.

Lemma npos : (0 < n)%nat. Proof. pose proof (Nat.pow_nonzero 2 k). lia. Qed.

Definition pwf (a : list Z) : Prop := length a = n /\ canonical p a.

Lemma add_at_0_correct l v : pwf l -> 0 <= v < p ->
  add_at_0 F l v = Some (pmod p (padd l (pscale v (one n)))).
Proof.
  intros (Ll & Cl) Hv. pose proof npos as Hn. destruct l as [|x r]; [cbn in Ll; lia|].
  inversion Cl as [|? ? Cx Cr]; subst. cbn [add_at_0]. rewrite (f_add_correct F Hok) by assumption. cbn [bind].
  rewrite <- Ll. cbn [length]. rewrite one_cons. cbn [pscale map padd pmod].
  change (map (fun x0 => x0 mod p)) with (pmod p). replace (v * 1) with v by ring. f_equal. f_equal.
  remember (length r) as m eqn:Lr. symmetry in Lr. clear Ll Cl. fold (canonical p r) in Cr.
  revert r Lr Cr. induction m; intros [|y r] Lr Cr; cbn in Lr; try lia; [reflexivity|].
  inversion Cr as [|? ? Cy Cr']; subst. cbn. f_equal; [replace (y + v * 0) with y by ring; symmetry; apply Z.mod_small; exact Cy|].
  apply IHm; [lia|exact Cr'].
Qed.

(** A row with mask [a] and body congruent to [padd x (a*s)]. *)
Lemma row_phase a y x : length a = n -> length x = n -> length y = n -> pcong p y (padd x (negacyclic n a s)) ->
  pcong p (rphase n s (mk_rlwe a y)) x.
Proof.
  intros La Lx Ly H. apply (EQ_pcong p w k Hp Hp2 Hw); [len n|exact Lx|]. intros z Hz.
  rewrite (ev_rphase p k z) by (try assumption; split; assumption). cbn [ra rb].
  rewrite (ev_cong p z z _ _ (cong_refl _ _) H), ev_add by len n.
  rewrite (ev_negacyclic p z n) by assumption. apply cong_of_eq. ring.
Qed.

Lemma zero_sample_correct a e : pwf a -> pwf e ->
  rlwe_zero_sample F tbl (ntt s) a e = Some (mk_rlwe a (pmod p (padd e (negacyclic n a s)))).
Proof.
  intros (La & Ca) (Le & Ce). unfold rlwe_zero_sample. rewrite (into_ntt_canon F Hok tbl k w C) by assumption. cbn [bind].
  rewrite (n_mul_assign_correct F Hok) by (rewrite ?ntt_of_length; reflexivity || apply (ntt_canon F Hok)). cbn [bind].
  rewrite (into_native_correct F Hok Hp tbl k w C _ (negacyclic n a s)); [|exact Hk|apply negacyclic_length|apply (canonical_R2 F Hok), pmod_canonical; exact Hp0|].
  2:{ eapply pcong_trans; [apply pcong_pmod; lia|]. apply (ntt_mul F Hok tbl k w C); assumption. }
  cbn [bind]. rewrite (p_add_assign_correct F Hok); [|len n|exact Ce|apply pmod_canonical; exact Hp0].
  cbn [bind]. f_equal. f_equal. apply mod_pcong_eq; [exact Hp0|]. rewrite (pcong_pmod p) by lia. apply pcong_refl.
Qed.

Lemma nzero_sample_correct A e : pwf A -> pwf e ->
  nrlwe_zero_sample F tbl (ntt s) (ntt A) e = Some (nform (mk_rlwe A (pmod p (padd e (negacyclic n A s))))).
Proof.
  intros (La & Ca) (Le & Ce). unfold nrlwe_zero_sample. rewrite (into_ntt_canon F Hok tbl k w C) by assumption. cbn [bind].
  rewrite (ntt_add_mul_assign_correct F Hok) by (rewrite ?ntt_of_length; reflexivity || apply (ntt_word F Hok)). cbn [bind].
  unfold GadgetProofs.nform. cbn [ra rb]. f_equal. f_equal. rewrite (ntt_pmod F Hok).
  apply (pcong_eq p); [apply pmod_canonical; exact Hp0|apply (ntt_canon F Hok)|].
  rewrite (pcong_pmod p) by lia.
  eapply pcong_trans; [|apply (ntt_add F Hok k w); len n].
  apply padd_proper; [apply pcong_refl|]. apply (ntt_mul F Hok tbl k w C); assumption.
Qed.

Lemma nvalue_sample_correct A e v : pwf A -> pwf e -> 0 <= v < p ->
  nrlwe_value_sample F tbl (ntt s) (ntt A) e v =
  Some (nform (mk_rlwe A (pmod p (padd (padd e (pscale v (one n))) (negacyclic n A s))))).
Proof.
  intros WA We Hv. unfold nrlwe_value_sample. rewrite add_at_0_correct by assumption. cbn [bind].
  pose proof (proj1 We) as Le. pose proof (one_length n) as L1.
  assert (W' : pwf (pmod p (padd e (pscale v (one n))))) by (split; [len n|apply pmod_canonical; exact Hp0]).
  pose proof (nzero_sample_correct A _ WA W') as H. unfold nrlwe_zero_sample in H. rewrite H. f_equal.
  unfold GadgetProofs.nform. cbn [ra rb]. f_equal. apply (ntt_proper F Hok). rewrite !(pcong_pmod p) by lia. apply pcong_refl.
Qed.

Lemma rlwe_zero_main a e : pwf a -> pwf e ->
  exists x, rlwe_zero_sample F tbl (ntt s) a e = Some x /\ rlwe_wf p n x /\ ra x = a /\ pcong p (rphase n s x) e.
Proof.
  intros Wa We. pose proof (proj1 Wa) as La. pose proof (proj1 We) as Le. eexists. split; [apply zero_sample_correct; assumption|].
  split; [split; [exact La|]; split; [len n|]; split; [exact (proj2 Wa)|apply pmod_canonical; exact Hp0]|]. split; [reflexivity|].
  apply row_phase; [exact La|exact Le|len n|]. apply pcong_pmod. lia.
Qed.

(** What a row generator must do. *)
Definition row_ok (m : list Z) (row : Z -> list Z -> list Z -> option rlwe) : Prop :=
  forall c a e, 0 <= c < p -> pwf a -> pwf e ->
  exists r, row c a e = Some r /\ rlwe_wf p n r /\ pcong p (rphase n s r) (padd (pscale c m) e).
Definition nrow_ok (m : list Z) (row : Z -> list Z -> list Z -> option rlwe) : Prop :=
  forall c a e, 0 <= c < p -> pwf a -> pwf e ->
  exists r, row c a e = Some (nform r) /\ rlwe_wf p n r /\ pcong p (rphase n s r) (padd (pscale c m) e).

Definition g_one_row (power : Z) (a e : list Z) : option rlwe :=
  let* r := rlwe_zero_sample F tbl (ntt s) a e in
  let* b0 := add_at_0 F (rb r) power in Some (mk_rlwe (ra r) b0).
Definition g_neg_row (power : Z) (a e : list Z) : option rlwe :=
  let* r := rlwe_zero_sample F tbl (ntt s) a e in
  let* a0 := add_at_0 F (ra r) power in Some (mk_rlwe a0 (rb r)).

Lemma g_one_row_ok : row_ok (one n) g_one_row.
Proof.
  intros c a e Hc Wa We. unfold g_one_row. rewrite zero_sample_correct by assumption. cbn [bind ra rb].
  pose proof (proj1 Wa) as La. pose proof (proj1 We) as Le. pose proof (one_length n) as L1.
  rewrite add_at_0_correct; [|split; [len n|apply pmod_canonical; exact Hp0]|exact Hc]. cbn [bind].
  eexists. split; [reflexivity|]. split.
  - split; [exact La|]. split; [len n|]. split; [exact (proj2 Wa)|apply pmod_canonical; exact Hp0].
  - apply row_phase; [exact La|len n|len n|].
    rewrite !(pcong_pmod p) by lia. apply (EQ_pcong p w k Hp Hp2 Hw); [len n..|]. intros z Hz.
    rewrite !ev_add by len n. apply cong_of_eq. ring.
Qed.
Lemma g_neg_row_ok : row_ok (pneg s) g_neg_row.
Proof.
  intros c a e Hc Wa We. unfold g_neg_row. rewrite zero_sample_correct by assumption. cbn [bind ra rb].
  pose proof (proj1 Wa) as La. pose proof (proj1 We) as Le. pose proof (one_length n) as L1.
  rewrite add_at_0_correct by assumption. cbn [bind].
  eexists. split; [reflexivity|]. split.
  - split; [len n|]. split; [len n|]. split; apply pmod_canonical; exact Hp0.
  - apply row_phase; [len n|len n|len n|].
    rewrite !(pcong_pmod p) by lia. apply (EQ_pcong p w k Hp Hp2 Hw); [len n..|]. intros z Hz.
    rewrite !ev_add by len n. rewrite !(ev_negacyclic p z n) by (first [len n|exact Hz]).
    rewrite (ev_pmod p z) by lia. rewrite !ev_add by len n. rewrite !ev_scale, ev_neg, ev_one by apply npos. apply cong_of_eq. ring.
Qed.

Lemma pure_row_wf a y : pwf a -> length y = n -> rlwe_wf p n (mk_rlwe a (pmod p y)).
Proof. intros (La & Ca) Ly. split; [exact La|]. split; [len n|]. split; [exact Ca|apply pmod_canonical; exact Hp0]. Qed.

Definition ng_row (row : Z -> list Z -> list Z -> option rlwe) (c : Z) (A e : list Z) : option rlwe := row c (ntt A) e.
Lemma ng_one_row_ok : nrow_ok (one n) (ng_row (fun power a e => nrlwe_value_sample F tbl (ntt s) a e power)).
Proof.
  intros c a e Hc Wa We. unfold ng_row. rewrite nvalue_sample_correct by assumption.
  pose proof (proj1 Wa) as La. pose proof (proj1 We) as Le. pose proof (one_length n) as L1.
  eexists. split; [reflexivity|]. split; [apply pure_row_wf; [exact Wa|len n]|].
  apply row_phase; [exact La|len n|len n|].
  rewrite !(pcong_pmod p) by lia. apply (EQ_pcong p w k Hp Hp2 Hw); [len n..|]. intros z Hz.
  rewrite !ev_add by len n. apply cong_of_eq. ring.
Qed.
Lemma ng_neg_row_ok : nrow_ok (pneg s) (ng_row (fun power a e =>
      let* r := nrlwe_zero_sample F tbl (ntt s) a e in
      let* a := mapM (fun v => f_add F v power) (ra r) in Some (mk_rlwe a (rb r)))).
Proof.
  intros c a e Hc Wa We. unfold ng_row. rewrite nzero_sample_correct by assumption. cbn [bind].
  pose proof (proj1 Wa) as La. pose proof (proj1 We) as Le. pose proof (one_length n) as L1.
  exists (mk_rlwe (pmod p (padd a (pscale c (one n)))) (pmod p (padd e (negacyclic n a s)))).
  split.
  - unfold GadgetProofs.nform. cbn [ra rb]. 
    assert (E : mapM (fun v => f_add F v c) (ntt a) = Some (map (fun v => (v + c) mod p) (ntt a))).
    { apply mapM_some. intros v Hv. apply (f_add_correct F Hok); [|exact Hc].
      pose proof (ntt_canon F Hok k w a) as Hc'. unfold canonical in Hc'. rewrite Forall_forall in Hc'. apply Hc'. exact Hv. }
    rewrite E. cbn [bind]. f_equal. f_equal. rewrite (ntt_pmod F Hok).
    apply (pcong_eq p).
    + unfold canonical. rewrite Forall_map. apply Forall_forall. intros v _. apply Z.mod_pos_bound. exact Hp0.
    + apply (ntt_canon F Hok).
    + apply (ntt_ext F Hok); [rewrite map_length; apply ntt_of_length|]. intros i Hi.
      rewrite (nth_indep _ 0 ((fun v => (v + c) mod p) 0)) by (rewrite map_length, ntt_of_length; exact Hi).
      rewrite (map_nth (fun v => (v + c) mod p)). rewrite cong_mod by lia. rewrite (ntt_nth F Hok k w a i Hi).
      rewrite ev_add by len n. rewrite ev_scale, ev_one by apply npos. apply cong_of_eq. ring.
  - split.
    + split; [len n|]. split; [len n|]. split; apply pmod_canonical; exact Hp0.
    + apply row_phase; [len n|len n|len n|].
      rewrite !(pcong_pmod p) by lia. apply (EQ_pcong p w k Hp Hp2 Hw); [len n..|]. intros z Hz.
      rewrite !ev_add by len n. rewrite !(ev_negacyclic p z n) by (first [len n|exact Hz]).
      rewrite (ev_pmod p z) by lia. rewrite !ev_add by len n. rewrite !ev_scale, ev_neg, ev_one by apply npos. apply cong_of_eq. ring.
Qed.

Variables (b : basis) (bits : Z).
Hypothesis Hb : basis_new F bits = Some b.
Hypothesis Hbits : 0 <= bits.
Local Notation base := (2 ^ bits).
Definition rnd_ok (rnd : list (list Z * list Z)) : Prop := Forall (fun ae => pwf (fst ae) /\ pwf (snd ae)) rnd.

(** [c * base^i < p] for every row. *)
Definition powers_ok (c : Z) (l : nat) : Prop := 0 <= c /\ forall i, (i < l)%nat -> c * base ^ Z.of_nat i < p.
Lemma powers_S c l : powers_ok c (S l) -> 0 <= c < p /\ powers_ok (c * base) l.
Proof.
  intros (H0 & H). pose proof (pow2_pos bits Hbits). split; [specialize (H O ltac:(lia)); cbn [Z.of_nat Z.pow] in H; lia|].
  split; [nia|]. intros i Hi. specialize (H (S i) ltac:(lia)). rewrite Nat2Z.inj_succ, Z.pow_succ_r in H by lia.
  rewrite <- Z.mul_assoc. exact H.
Qed.

Lemma base_eq' : bs_basis b = base. Proof. apply (basis_bits F bits b Hok Hb Hbits). Qed.

Lemma power_rows_ok m row rnd c : row_ok m row -> rnd_ok rnd -> powers_ok c (length rnd) ->
  c * base ^ Z.of_nat (length rnd) < 2 ^ fw F ->
  exists rows, power_rows F row base c rnd = Some rows /\ Forall (rlwe_wf p n) rows /\ genc p n s base c m rows (map snd rnd).
Proof.
  intros Hr Hrnd. pose proof (pow2_pos bits Hbits) as H2.
  revert c. induction Hrnd as [|[a e] rnd (Wa & We) Hrnd IH]; intros c Hc Ho; [exists []; repeat split; constructor|].
  cbn [length] in *. destruct (powers_S _ _ Hc) as (Hc0 & Hc1). cbn [fst snd] in *.
  destruct (Hr c a e Hc0 Wa We) as (r & E & Wr & Pr). cbn [power_rows]. rewrite E. cbn [bind].
  rewrite Nat2Z.inj_succ, Z.pow_succ_r in Ho by lia.
  assert (1 <= base ^ Z.of_nat (length rnd)) by (pose proof (Z.pow_pos_nonneg base (Z.of_nat (length rnd))); lia).
  rewrite umul_some by nia. cbn [bind].
  destruct (IH (c * base) Hc1 ltac:(rewrite <- Z.mul_assoc; exact Ho)) as (rows & E' & W' & G'). rewrite E'. cbn [bind].
  eexists. split; [reflexivity|]. split; [constructor; assumption|]. cbn [genc map snd]. split; [exact (proj1 We)|]. split; assumption.
Qed.

Lemma power_rows_overflow row rnd c : (forall c a e, 0 <= c < p -> pwf a -> pwf e -> exists r, row c a e = Some r) ->
  rnd_ok rnd -> rnd <> [] -> powers_ok c (length rnd) -> 2 ^ fw F <= c * base ^ Z.of_nat (length rnd) ->
  power_rows F row base c rnd = None.
Proof.
  intros Hr Hrnd. pose proof (pow2_pos bits Hbits) as H2.
  revert c. induction Hrnd as [|[a e] rnd (Wa & We) Hrnd IH]; intros c Hne Hc Ho; [congruence|].
  cbn [length] in *. destruct (powers_S _ _ Hc) as (Hc0 & Hc1). cbn [fst snd] in *.
  destruct (Hr c a e Hc0 Wa We) as (r & E). cbn [power_rows]. rewrite E. cbn [bind].
  rewrite Nat2Z.inj_succ, Z.pow_succ_r in Ho by lia.
  unfold umul. destruct (Z.ltb_spec (c * base) (2 ^ fw F)); [|reflexivity]. cbn [bind].
  rewrite IH; [reflexivity| |exact Hc1|rewrite <- Z.mul_assoc; exact Ho].
  intros ->. cbn in Ho. lia.
Qed.

Lemma powers_word c l : powers_ok c l -> forall i, (i < l)%nat -> c * base ^ Z.of_nat i < 2 ^ fw F.
Proof. intros (_ & H) i Hi. specialize (H i Hi). pose proof (fp_lt2 F Hok). pose proof (B4 F Hok).
  pose proof (Z.pow_lt_mono_r 2 (fw F - 2) (fw F)). lia. Qed.

Lemma power_rows_peeled_ok m row rnd rnd' c : nrow_ok m (ng_row row) -> rnd_ok rnd ->
  rnd' = map (fun ae => (ntt (fst ae), snd ae)) rnd -> rnd <> [] -> powers_ok c (length rnd) ->
  exists rows, power_rows_peeled F row base c rnd' = Some (map nform rows) /\ Forall (rlwe_wf p n) rows /\ genc p n s base c m rows (map snd rnd).
Proof.
  intros Hr Hrnd ->. pose proof (pow2_pos bits Hbits) as H2.
  revert c. induction Hrnd as [|[a e] rnd (Wa & We) Hrnd IH]; intros c Hne Hc; [congruence|].
  cbn [length] in *. pose proof (powers_word _ _ Hc) as Hcw. destruct (powers_S _ _ Hc) as (Hc0 & Hc1). cbn [fst snd] in *.
  destruct (Hr c a e Hc0 Wa We) as (r & E & Wr & Pr). unfold ng_row in E.
  destruct rnd as [|ae rnd].
  - cbn [power_rows_peeled map fst snd]. rewrite E. cbn [bind]. exists [r]. split; [reflexivity|]. split; [repeat constructor; apply Wr|].
    cbn. split; [exact (proj1 We)|]. split; [exact Pr|exact I].
  - destruct (IH (c * base) ltac:(discriminate) Hc1) as (rows & E' & W' & G').
    set (l := ae :: rnd) in *. cbn [map fst snd].
    assert (El : exists x y, map (fun ae0 => (ntt (fst ae0), snd ae0)) l = x :: y) by (eexists; eexists; reflexivity).
    destruct El as (x & y & El). rewrite El in *. cbn [power_rows_peeled]. rewrite E. cbn [bind].
    specialize (Hcw 1%nat ltac:(cbn; lia)). cbn [Z.of_nat Pos.of_succ_nat] in Hcw. rewrite Z.pow_1_r in Hcw.
    rewrite umul_some by exact Hcw. cbn [bind]. cbn [power_rows_peeled] in E'. rewrite E'. cbn [bind].
    exists (r :: rows). split; [reflexivity|]. split; [constructor; assumption|]. cbn [genc map snd]. split; [exact (proj1 We)|]. split; assumption.
Qed.

(** Facts about the basis. *)
Lemma len_pos : (1 <= bs_len b)%nat /\ bits * (Z.of_nat (bs_len b) - 1) < eff_bits F <= bits * Z.of_nat (bs_len b).
Proof.
  destruct (basis_bits F bits b Hok Hb Hbits) as (Hr & _).
  destruct (basis_new_correct F Hok bits Hr) as (b' & E & _ & _ & _ & El). rewrite Hb in E. injection E as <-.
  pose proof (eff_bits_pos F Hok). fold (eff_bits F) in El.
  pose proof (Z.div_mod (eff_bits F + bits - 1) bits). pose proof (Z.mod_pos_bound (eff_bits F + bits - 1) bits).
  rewrite <- El in *. assert (0 < Z.of_nat (bs_len b)) by nia. split; [lia|nia].
Qed.
Lemma eff_not_pow : eff_bits F = bit_len p /\ 2 ^ (bit_len p - 1) < p.
Proof.
  assert (En : is_pow2 p = false).
  { destruct (is_pow2 p) eqn:E; [|reflexivity]. apply is_pow2_spec in E. destruct E as (j & Hj & E).
    exfalso. destruct (Z.eq_dec j 0) as [->|Hj0]; [rewrite E in *; cbn in *; lia|].
    assert (D : (2 | p)). { rewrite E. exists (2 ^ (j - 1)). rewrite Z.mul_comm, <- Z.pow_succ_r by lia. f_equal. lia. }
    destruct (prime_divisors p Hp 2 D) as [?|[?|[?|?]]]; lia. }
  unfold eff_bits. rewrite En. split; [reflexivity|]. pose proof (bit_len_bounds p Hp0) as (H1 & H2).
  destruct (Z.eq_dec (2 ^ (bit_len p - 1)) p) as [E|]; [|lia]. exfalso.
  assert (is_pow2 p = true); [|congruence]. apply is_pow2_spec. exists (bit_len p - 1). split; [|congruence].
  destruct (Z.leb_spec 0 (bit_len p - 1)); [assumption|]. rewrite Z.pow_neg_r in E by lia. lia.
Qed.
Lemma powers_basis l : (l <= bs_len b)%nat -> powers_ok 1 l.
Proof.
  intros Hl. destruct len_pos as (H1 & H2 & H3). destruct eff_not_pow as (E & H4). split; [lia|].
  destruct (basis_bits F bits b Hok Hb Hbits) as (Hr & _).
  intros i Hi. rewrite Z.mul_1_l, <- Z.pow_mul_r by lia.
  apply Z.le_lt_trans with (2 ^ (bit_len p - 1)); [|exact H4]. apply Z.pow_le_mono_r; [lia|]. nia.
Qed.

Lemma genc_cong c m m' rows es : pcong p m m' -> genc p n s base c m rows es -> genc p n s base c m' rows es.
Proof.
  intros Hm. revert c es. induction rows as [|r rows IH]; intros c [|e es]; cbn; try tauto.
  intros (H1 & H2 & H3). split; [exact H1|]. split; [|apply IH; exact H3]. eapply pcong_trans; [exact H2|].
  apply padd_proper; [|apply pcong_refl]. unfold pscale. clear - Hm. induction Hm; cbn; constructor; [apply cong_mul; [apply cong_refl|assumption]|assumption].
Qed.
Lemma pscale_zero c m : pscale c (repeat 0 m) = repeat 0 m.
Proof. unfold pscale. induction m; cbn; [reflexivity|]. rewrite IHm. f_equal. ring. Qed.
Lemma padd_zero_l e : padd (repeat 0 (length e)) e = e.
Proof. induction e; cbn; [reflexivity|]. rewrite IHe. reflexivity. Qed.
Lemma one_mul : pcong p (negacyclic n (one n) s) s.
Proof.
  pose proof (one_length n). apply (EQ_pcong p w k Hp Hp2 Hw); [len n..|]. intros z Hz.
  rewrite (ev_negacyclic p z n) by assumption. rewrite ev_one by apply npos. apply cong_of_eq. ring.
Qed.
Lemma zero_mul : pcong p (negacyclic n (repeat 0 n) s) (repeat 0 n).
Proof.
  pose proof (repeat_length 0 n). apply (EQ_pcong p w k Hp Hp2 Hw); [len n..|]. intros z Hz.
  rewrite (ev_negacyclic p z n) by assumption. rewrite ev_zeros. apply cong_of_eq. ring.
Qed.

Lemma zero_rows_ok rnd c : rnd_ok rnd ->
  exists rows, mapM (fun ae => rlwe_zero_sample F tbl (ntt s) (fst ae) (snd ae)) rnd = Some rows /\ Forall (rlwe_wf p n) rows /\ genc p n s base c (repeat 0 n) rows (map snd rnd).
Proof.
  intros Hrnd. revert c. induction Hrnd as [|[a e] rnd (Wa & We) Hrnd IH]; intros c; [exists []; repeat split; constructor|].
  cbn [fst snd] in *. destruct (IH (c * base)) as (rows & E & W & G). pose proof (proj1 We) as Le. pose proof (proj1 Wa) as La.
  cbn [mapM fst snd]. rewrite zero_sample_correct by assumption. cbn [bind]. rewrite E. cbn [bind].
  eexists. split; [reflexivity|]. split; [constructor; [apply pure_row_wf; [exact Wa|len n]|exact W]|].
  cbn [genc map snd]. split; [exact Le|]. split; [|exact G]. apply row_phase; [exact La|len n|len n|].
  rewrite pscale_zero, <- Le, padd_zero_l, Le. apply pcong_pmod. lia.
Qed.
Lemma nzero_rows_ok rnd c : rnd_ok rnd ->
  exists rows, mapM (fun ae => nrlwe_zero_sample F tbl (ntt s) (fst ae) (snd ae)) (map (fun ae => (ntt (fst ae), snd ae)) rnd) = Some (map nform rows) /\ Forall (rlwe_wf p n) rows /\ genc p n s base c (repeat 0 n) rows (map snd rnd).
Proof.
  intros Hrnd. revert c. induction Hrnd as [|[a e] rnd (Wa & We) Hrnd IH]; intros c; [exists []; repeat split; constructor|].
  cbn [fst snd] in *. destruct (IH (c * base)) as (rows & E & W & G). pose proof (proj1 We) as Le. pose proof (proj1 Wa) as La.
  cbn [mapM map fst snd]. rewrite nzero_sample_correct by assumption. cbn [bind]. rewrite E. cbn [bind].
  eexists (_ :: rows). split; [reflexivity|]. split; [constructor; [apply pure_row_wf; [exact Wa|len n]|exact W]|].
  cbn [genc map snd]. split; [exact Le|]. split; [|exact G]. apply row_phase; [exact La|len n|len n|].
  rewrite pscale_zero, <- Le, padd_zero_l, Le. apply pcong_pmod. lia.
Qed.

Lemma rnd_pull rnd' : rnd_ok rnd' -> exists rnd, rnd_ok rnd /\ rnd' = map (fun ae => (ntt (fst ae), snd ae)) rnd /\ map snd rnd = map snd rnd'.
Proof.
  intros H. induction H as [|[a e] l ((La & Ca) & We) H IH]; [exists []; repeat split; constructor|].
  destruct IH as (rnd & R & E & M). destruct (ntt_surj F Hok tbl k w C a La Ca) as (A & LA & CA & EA).
  exists ((A, e) :: rnd). split; [constructor; [split; [split; assumption|exact We]|exact R]|].
  cbn [map fst snd]. rewrite <- E, <- EA, M. split; reflexivity.
Qed.
Lemma genc_len c m rows es : genc p n s base c m rows es -> length rows = length es.
Proof. revert c es. induction rows; intros c [|e es]; cbn; try tauto. intros (_ & _ & H). rewrite (IHrows _ _ H). reflexivity. Qed.

Section Rnd.
Variable rnd : list (list Z * list Z).
Hypothesis Hrnd : rnd_ok rnd.
Hypothesis Lrnd : length rnd = bs_len b.

Lemma wrap m rows : Forall (rlwe_wf p n) rows -> genc p n s base 1 m rows (map snd rnd) ->
  gadget_wf p n b (mk_gadget rows b) /\ gadget_encrypts p n s base m (gd (mk_gadget rows b)) (map snd rnd).
Proof.
  intros W G. split; [|apply genc_elim; exact G]. split; [reflexivity|]. split; [|exact W]. cbn [gd].
  rewrite (genc_len _ _ _ _ G), map_length. exact Lrnd.
Qed.

Lemma g_zero_sample_main : exists G, g_zero_sample F tbl (ntt s) b rnd = Some G /\ gadget_wf p n b G /\ gadget_encrypts p n s base (repeat 0 n) (gd G) (map snd rnd).
Proof.
  unfold g_zero_sample, zero_rows. rewrite <- Lrnd, firstn_all.
  destruct (zero_rows_ok rnd 1 Hrnd) as (rows & E & W & G). rewrite E. cbn [bind].
  eexists. split; [reflexivity|]. apply wrap; assumption.
Qed.
Lemma g_one_sample_main : bits * Z.of_nat (bs_len b) < fw F ->
  exists G, g_one_sample F tbl (ntt s) b rnd = Some G /\ gadget_wf p n b G /\ gadget_encrypts p n s base (one n) (gd G) (map snd rnd).
Proof.
  intros Ho. unfold g_one_sample. rewrite base_eq', <- Lrnd, firstn_all.
  destruct (power_rows_ok (one n) g_one_row rnd 1 g_one_row_ok Hrnd) as (rows & E & W & G).
  - apply powers_basis. rewrite Lrnd. lia.
  - rewrite Lrnd, Z.mul_1_l, <- Z.pow_mul_r by lia. apply Z.pow_lt_mono_r; lia.
  - unfold g_one_row in E. rewrite E. cbn [bind]. eexists. split; [reflexivity|]. apply wrap; assumption.
Qed.
Lemma g_neg_sample_main : bits * Z.of_nat (bs_len b) < fw F ->
  exists G, g_neg_secret_sample F tbl (ntt s) b rnd = Some G /\ gadget_wf p n b G /\ gadget_encrypts p n s base (pneg s) (gd G) (map snd rnd).
Proof.
  intros Ho. unfold g_neg_secret_sample. rewrite base_eq', <- Lrnd, firstn_all.
  destruct (power_rows_ok (pneg s) g_neg_row rnd 1 g_neg_row_ok Hrnd) as (rows & E & W & G).
  - apply powers_basis. rewrite Lrnd. lia.
  - rewrite Lrnd, Z.mul_1_l, <- Z.pow_mul_r by lia. apply Z.pow_lt_mono_r; lia.
  - unfold g_neg_row in E. rewrite E. cbn [bind]. eexists. split; [reflexivity|]. apply wrap; assumption.
Qed.
Lemma g_samples_overflow : fw F <= bits * Z.of_nat (bs_len b) ->
  g_one_sample F tbl (ntt s) b rnd = None /\ g_neg_secret_sample F tbl (ntt s) b rnd = None.
Proof.
  intros Ho. pose proof len_pos as (Hl & _). pose proof (B4 F Hok).
  assert (Hne : rnd <> []) by (intros ->; cbn in Lrnd; lia).
  assert (HB : 2 ^ fw F <= 1 * base ^ Z.of_nat (length rnd)).
  { rewrite Lrnd, Z.mul_1_l, <- Z.pow_mul_r by lia. apply Z.pow_le_mono_r; lia. }
  assert (HP : powers_ok 1 (length rnd)) by (apply powers_basis; rewrite Lrnd; lia).
  unfold g_one_sample, g_neg_secret_sample. rewrite base_eq', <- Lrnd, firstn_all. split.
  - pose proof (power_rows_overflow g_one_row rnd 1) as H'. unfold g_one_row in H' at 2. rewrite H'; [reflexivity|..]; try assumption.
    intros c a e Hc Wa We. destruct (g_one_row_ok c a e Hc Wa We) as (r & E & _). exists r. exact E.
  - pose proof (power_rows_overflow g_neg_row rnd 1) as H'. unfold g_neg_row in H' at 2. rewrite H'; [reflexivity|..]; try assumption.
    intros c a e Hc Wa We. destruct (g_neg_row_ok c a e Hc Wa We) as (r & E & _). exists r. exact E.
Qed.

Lemma nwrap m rows : Forall (rlwe_wf p n) rows -> genc p n s base 1 m rows (map snd rnd) ->
  gadget_to_ntt F tbl (mk_gadget rows b) = Some (mk_gadget (map nform rows) b) /\
  gadget_wf p n b (mk_gadget rows b) /\ gadget_encrypts p n s base m (gd (mk_gadget rows b)) (map snd rnd).
Proof. intros W G. split; [apply (gadget_to_ntt_correct F Hok tbl k w C); exact W|apply wrap; assumption]. Qed.

Lemma ng_zero_sample_main : exists GN G, ng_zero_sample F tbl (ntt s) b rnd = Some GN /\ gadget_to_ntt F tbl G = Some GN /\
  gadget_wf p n b G /\ gadget_encrypts p n s base (repeat 0 n) (gd G) (map snd rnd).
Proof.
  destruct (rnd_pull rnd Hrnd) as (r & R & E & M).
  unfold ng_zero_sample, zero_rows. rewrite <- Lrnd, firstn_all.
  destruct (nzero_rows_ok r 1 R) as (rows & E' & W & G). rewrite <- E in E'. rewrite E'. cbn [bind]. rewrite M in G.
  eexists. exists (mk_gadget rows b). split; [reflexivity|]. apply nwrap; assumption.
Qed.
Lemma ng_one_sample_main : exists GN G, ng_one_sample F tbl (ntt s) b rnd = Some GN /\ gadget_to_ntt F tbl G = Some GN /\
  gadget_wf p n b G /\ gadget_encrypts p n s base (one n) (gd G) (map snd rnd).
Proof.
  destruct (rnd_pull rnd Hrnd) as (r & R & E & M). pose proof len_pos as (Hl & _).
  assert (Lr : length r = bs_len b) by (rewrite <- Lrnd, E, map_length; reflexivity).
  unfold ng_one_sample. rewrite base_eq', <- Lrnd, firstn_all.
  destruct (power_rows_peeled_ok (one n) _ r rnd 1 ng_one_row_ok R E) as (rows & E' & W & G).
  - intros ->. cbn in Lr. lia.
  - apply powers_basis. lia.
  - rewrite E'. cbn [bind]. rewrite M in G. eexists. exists (mk_gadget rows b). split; [reflexivity|]. apply nwrap; assumption.
Qed.
Lemma ng_neg_sample_main : exists GN G, ng_neg_secret_sample F tbl (ntt s) b rnd = Some GN /\ gadget_to_ntt F tbl G = Some GN /\
  gadget_wf p n b G /\ gadget_encrypts p n s base (pneg s) (gd G) (map snd rnd).
Proof.
  destruct (rnd_pull rnd Hrnd) as (r & R & E & M). pose proof len_pos as (Hl & _).
  assert (Lr : length r = bs_len b) by (rewrite <- Lrnd, E, map_length; reflexivity).
  unfold ng_neg_secret_sample. rewrite base_eq', <- Lrnd, firstn_all.
  destruct (power_rows_peeled_ok (pneg s) _ r rnd 1 ng_neg_row_ok R E) as (rows & E' & W & G).
  - intros ->. cbn in Lr. lia.
  - apply powers_basis. lia.
  - rewrite E'. cbn [bind]. rewrite M in G. eexists. exists (mk_gadget rows b). split; [reflexivity|]. apply nwrap; assumption.
Qed.
End Rnd.

Lemma enc_cong m m' rows es : pcong p m m' -> gadget_encrypts p n s base m rows es -> gadget_encrypts p n s base m' rows es.
Proof. intros Hm H. apply genc_elim. eapply genc_cong; [exact Hm|]. apply genc_intro. exact H. Qed.
Lemma neg_one_s : pcong p (pneg s) (pneg (negacyclic n (one n) s)).
Proof. rewrite one_mul. apply pcong_refl. Qed.
Lemma neg_zero_s : pcong p (repeat 0 n) (pneg (negacyclic n (repeat 0 n) s)).
Proof.
  rewrite zero_mul. unfold pneg. replace (map Z.opp (repeat 0 n)) with (repeat 0 n); [apply pcong_refl|].
  generalize n. intros j. induction j; cbn; [reflexivity|]. rewrite <- IHj. reflexivity.
Qed.

Section Rnd2.
Variables (r0 r1 : list (list Z * list Z)).
Hypothesis H0 : rnd_ok r0.
Hypothesis H1 : rnd_ok r1.
Hypothesis L0 : length r0 = bs_len b.
Hypothesis L1 : length r1 = bs_len b.

Lemma rgsw_zero_main : exists R, rgsw_zero_sample F tbl (ntt s) b r0 r1 = Some R /\ rgsw_wf p n b R /\
  rgsw_encrypts p n s base (repeat 0 n) R (map snd r0) (map snd r1).
Proof.
  destruct (g_zero_sample_main r0 H0 L0) as (G0 & E0 & W0 & P0). destruct (g_zero_sample_main r1 H1 L1) as (G1 & E1 & W1 & P1).
  unfold rgsw_zero_sample. rewrite E0. cbn [bind]. rewrite E1. cbn [bind]. eexists. split; [reflexivity|].
  split; [split; assumption|]. split; cbn [c_neg c_m]; [eapply enc_cong; [apply neg_zero_s|exact P0]|exact P1].
Qed.
Lemma rgsw_one_main : bits * Z.of_nat (bs_len b) < fw F -> exists R, rgsw_one_sample F tbl (ntt s) b r0 r1 = Some R /\ rgsw_wf p n b R /\
  rgsw_encrypts p n s base (one n) R (map snd r0) (map snd r1).
Proof.
  intros Ho.
  destruct (g_neg_sample_main r0 H0 L0 Ho) as (G0 & E0 & W0 & P0). destruct (g_one_sample_main r1 H1 L1 Ho) as (G1 & E1 & W1 & P1).
  unfold rgsw_one_sample. rewrite E0. cbn [bind]. rewrite E1. cbn [bind]. eexists. split; [reflexivity|].
  split; [split; assumption|]. split; cbn [c_neg c_m]; [eapply enc_cong; [apply neg_one_s|exact P0]|exact P1].
Qed.
Lemma nrgsw_zero_main : exists RN R, nrgsw_zero_sample F tbl (ntt s) b r0 r1 = Some RN /\ rgsw_to_ntt F tbl R = Some RN /\ rgsw_wf p n b R /\
  rgsw_encrypts p n s base (repeat 0 n) R (map snd r0) (map snd r1).
Proof.
  destruct (ng_zero_sample_main r0 H0 L0) as (N0 & G0 & E0 & T0 & W0 & P0). destruct (ng_zero_sample_main r1 H1 L1) as (N1 & G1 & E1 & T1 & W1 & P1).
  unfold nrgsw_zero_sample. rewrite E0. cbn [bind]. rewrite E1. cbn [bind]. eexists. exists (mk_rgsw G0 G1). split; [reflexivity|].
  split; [unfold rgsw_to_ntt; cbn [c_neg c_m]; rewrite T0; cbn [bind]; rewrite T1; reflexivity|].
  split; [split; assumption|]. split; cbn [c_neg c_m]; [eapply enc_cong; [apply neg_zero_s|exact P0]|exact P1].
Qed.
Lemma nrgsw_one_main : exists RN R, nrgsw_one_sample F tbl (ntt s) b r0 r1 = Some RN /\ rgsw_to_ntt F tbl R = Some RN /\ rgsw_wf p n b R /\
  rgsw_encrypts p n s base (one n) R (map snd r0) (map snd r1).
Proof.
  destruct (ng_neg_sample_main r0 H0 L0) as (N0 & G0 & E0 & T0 & W0 & P0). destruct (ng_one_sample_main r1 H1 L1) as (N1 & G1 & E1 & T1 & W1 & P1).
  unfold nrgsw_one_sample. rewrite E0. cbn [bind]. rewrite E1. cbn [bind]. eexists. exists (mk_rgsw G0 G1). split; [reflexivity|].
  split; [unfold rgsw_to_ntt; cbn [c_neg c_m]; rewrite T0; cbn [bind]; rewrite T1; reflexivity|].
  split; [split; assumption|]. split; cbn [c_neg c_m]; [eapply enc_cong; [apply neg_one_s|exact P0]|exact P1].
Qed.
End Rnd2.
End Field.
