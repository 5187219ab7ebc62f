(** The Gaussian samplers. *)
From Coq Require Import ZArith QArith Qabs List Bool Lia Lqa SpecFloat.
From Verif Require Import Spec.Basic Spec.Gauss Model.Base Model.Field Model.Sample Model.ModSwitch Model.Gaussian Proofs.Arith Proofs.FieldProofs Proofs.FloatProofs Proofs.RandomProofs.
Import ListNotations.
Local Open Scope Z_scope.

(** ** Values over the common denominator 2^1074 *)

Definition big : Z := 2 ^ 1074.
Lemma big_pos : 0 < big. Proof. reflexivity. Qed.
Definition sz (x : spec_float) : Z :=
  match x with S754_finite s m e => (if s then Zneg m else Zpos m) * 2 ^ (e + 1074) | _ => 0 end.
Lemma f64_bounds s m e : is_f64 (S754_finite s m e) ->
  -1074 <= e <= 971 /\ Zpos m < 2 ^ 53 /\ (e = -1074 \/ 2 ^ 52 <= Zpos m).
Proof.
  unfold is_f64, valid_binary, bounded. intros H. apply andb_prop in H. destruct H as [H1 H2].
  apply Zle_bool_imp_le in H2. unfold canonical_mantissa in H1. apply Zeq_bool_eq in H1.
  rewrite digits2_log2 in H1. unfold fexp, emin in H1. pose proof (Z.log2_spec (Zpos m) ltac:(lia)) as [L1 L2].
  pose proof (Z.log2_nonneg (Zpos m)). set (d := Z.log2 (Zpos m)) in *. split; [lia|].
  assert (d <= 52) by lia. split.
  - eapply Z.lt_le_trans; [exact L2|]. apply Z.pow_le_mono_r; lia.
  - destruct (Z.eq_dec e (-1074)) as [E|E]; [now left|right]. assert (d = 52) by lia. replace 52 with d by assumption. exact L1.
Qed.
Lemma fval_sz x : is_f64 x -> (fval x == sz x # Z.to_pos big)%Q.
Proof.
  intros H. destruct x as [s|s| |s m e]; try (unfold Qeq; cbn; reflexivity).
  apply f64_bounds in H. destruct H as ((He & _) & _). cbn [fval sz]. set (n := if s then Zneg m else Zpos m).
  destruct (Z.leb_spec 0 e) as [H0|H0].
  - unfold Qeq, inject_Z. cbn [Qnum Qden]. rewrite Z2Pos.id by apply big_pos. unfold big. rewrite Z.pow_add_r by lia. ring.
  - unfold Qeq. cbn [Qnum Qden]. rewrite !Z2Pos.id by (try apply big_pos; apply Z.pow_pos_nonneg; lia). unfold big.
    replace (2 ^ 1074) with (2 ^ (e + 1074) * 2 ^ (- e)) by (rewrite <- Z.pow_add_r by lia; f_equal; lia). ring.
Qed.
Lemma Qabs_make a b : Qabs (a # b) = (Z.abs a # b)%Q.
Proof. reflexivity. Qed.

Lemma sz_compare s1 m1 e1 s2 m2 e2 : is_f64 (S754_finite s1 m1 e1) -> is_f64 (S754_finite s2 m2 e2) -> e1 < e2 ->
  Zpos m1 * 2 ^ (e1 + 1074) < Zpos m2 * 2 ^ (e2 + 1074).
Proof.
  intros H1 H2 He. apply f64_bounds in H1, H2. destruct H1 as (B1 & U1 & _). destruct H2 as (B2 & _ & [L|L]); [lia|].
  apply Z.lt_le_trans with (2 ^ 53 * 2 ^ (e1 + 1074)).
  - apply Z.mul_lt_mono_pos_r; [apply Z.pow_pos_nonneg; lia|exact U1].
  - apply Z.le_trans with (2 ^ 52 * 2 ^ (e2 + 1074)).
    + rewrite <- !Z.pow_add_r by lia. apply Z.pow_le_mono_r; lia.
    + apply Z.mul_le_mono_nonneg_r; [apply Z.pow_nonneg; lia|exact L].
Qed.
(** Comparing magnitudes. *)
Lemma ltb_abs x y : is_f64 x -> is_f64 y -> ffinite y ->
  (SFltb (SFabs x) y = true <-> ffinite x /\ Z.abs (sz x) < sz y).
Proof.
  intros Hx Hy Fy. unfold SFltb.
  destruct y as [sy|sy| |sy my ey]; try contradiction.
  - destruct x as [sx|sx| |sx mx ex]; cbn [SFabs SFcompare sz]; split; try discriminate; intros [F H]; try contradiction; lia.
  - destruct x as [sx|sx| |sx mx ex]; cbn [SFabs SFcompare sz ffinite].
    + destruct sy; (split; [try discriminate|]).
      * intros [_ H]. exfalso. assert (0 <= 2 ^ (ey + 1074)) by (apply Z.pow_nonneg; lia). nia.
      * intros _. split; [exact I|]. apply f64_bounds in Hy. assert (0 < 2 ^ (ey + 1074)) by (apply Z.pow_pos_nonneg; lia). lia.
      * intros _. reflexivity.
    + split; [discriminate|intros [[] _]].
    + split; [discriminate|intros [[] _]].
    + assert (AX : Z.abs ((if sx then Zneg mx else Zpos mx) * 2 ^ (ex + 1074)) = Zpos mx * 2 ^ (ex + 1074)).
      { rewrite Z.abs_mul, (Z.abs_eq (2 ^ _)) by (apply Z.pow_nonneg; lia). destruct sx; reflexivity. }
      rewrite AX. pose proof (f64_bounds _ _ _ Hx) as (Bx & _). pose proof (f64_bounds _ _ _ Hy) as (By & _).
      assert (PX : 0 < 2 ^ (ex + 1074)) by (apply Z.pow_pos_nonneg; lia). assert (PY : 0 < 2 ^ (ey + 1074)) by (apply Z.pow_pos_nonneg; lia).
      destruct sy.
      * split; [discriminate|]. intros [_ H]. exfalso. nia.
      * destruct (Z.compare_spec ex ey) as [E|E|E].
        -- subst ey. fold (Pos.compare mx my). destruct (Pos.compare_spec mx my) as [M|M|M].
           ++ subst. split; [discriminate|intros [_ H]; lia].
           ++ split; [|reflexivity]. intros _. split; [exact I|]. apply Z.mul_lt_mono_pos_r; [exact PX|lia].
           ++ split; [discriminate|intros [_ H]]. apply Z.mul_lt_mono_pos_r in H; [lia|exact PX].
        -- split; [|reflexivity]. intros _. split; [exact I|]. exact (sz_compare _ _ _ _ _ _ Hx Hy E).
        -- split; [discriminate|intros [_ H]]. pose proof (sz_compare _ _ _ _ _ _ Hy Hx E). lia.
Qed.

Definition inside (max v : spec_float) : Prop := ffinite v /\ (Qabs (fval v) < fval max)%Q.
Lemma inside_sz max v : is_f64 max -> is_f64 v -> (inside max v <-> ffinite v /\ Z.abs (sz v) < sz max).
Proof.
  intros Hm Hv. unfold inside. rewrite (fval_sz max Hm), (fval_sz v Hv), Qabs_make. unfold Qlt. cbn [Qnum Qden].
  rewrite Z2Pos.id by apply big_pos. pose proof big_pos. split; intros [F H0]; (split; [exact F|]); nia.
Qed.
Lemma sub_zero v s : SFabs (f64_sub v (S754_zero s)) = SFabs v \/ v = S754_nan.
Proof. destruct v as [sv|sv| |sv m e]; [|now left|now right|now left]. left. unfold f64_sub. cbn. destruct (eqb sv (negb s)); reflexivity. Qed.
Lemma accepts_iff g s v : gs_mean g = S754_zero s -> is_f64 (gs_max g) -> ffinite (gs_max g) -> is_f64 v ->
  (accepts g v = true <-> inside (gs_max g) v).
Proof.
  intros Em Hm Fm Hv. rewrite inside_sz by assumption. unfold accepts. rewrite Em.
  destruct (sub_zero v s) as [-> | ->]; [now apply ltb_abs|]. split; [discriminate|intros [[] _]].
Qed.

(** ** Rounding *)

Lemma round_spec v : rounds_to (fval v) (f64_round v).
Proof.
  unfold rounds_to. destruct v as [s|s| |s m e]; cbn [fval f64_round]; try (split; [discriminate|intros; apply Qle_refl]).
  assert (Z0 : forall z, (Qabs (inject_Z z - inject_Z z) == 0)%Q).
  { intros z. unfold Qminus. rewrite Qplus_opp_r. reflexivity. }
  destruct (Z.leb_spec 0 e) as [H0|H0].
  - replace ((if s then Zneg m else Zpos m) * 2 ^ e) with (if s then - (Zpos m * 2 ^ e) else Zpos m * 2 ^ e) by (destruct s; lia).
    set (z := if s then _ else _). rewrite Z0. split; [discriminate|]. intros _. apply Qle_refl.
  - set (h := 2 ^ (- e - 1)). assert (Hh : 0 < h) by (apply Z.pow_pos_nonneg; lia).
    assert (ED : 2 ^ (- e) = 2 * h) by (unfold h; rewrite <- Z.pow_succ_r by lia; f_equal; lia). rewrite ED.
    set (r := (Zpos m + h) / (2 * h)). pose proof (Z.div_mod (Zpos m + h) (2 * h) ltac:(lia)) as D. fold r in D.
    pose proof (Z.mod_pos_bound (Zpos m + h) (2 * h) ltac:(lia)) as M. set (k := (Zpos m + h) mod (2 * h)) in *.
    assert (Hr : 0 <= r) by (apply Z.div_pos; lia).
    assert (AB : forall a b : Z, Z.abs ((if s then - a else a) + - (if s then - b else b)) = Z.abs (a - b)) by (intros; destruct s; lia).
    assert (AE : forall q, (Qabs (((if s then Zneg m else Zpos m) # Z.to_pos (2 * h)) - inject_Z (if s then - r else r)) == q <->
                            (Z.abs (Zpos m - r * (2 * h)) # Z.to_pos (2 * h)) == q)%Q).
    { intros q. replace (if s then Zneg m else Zpos m) with (if s then - Zpos m else Zpos m) by (destruct s; reflexivity).
      unfold Qminus, Qplus, Qopp, inject_Z, Qabs. cbn [Qnum Qden].
      replace (Z.abs ((if s then - Zpos m else Zpos m) * 1 + - (if s then - r else r) * Zpos (Z.to_pos (2 * h)))) with (Z.abs (Zpos m - r * (2 * h)))
        by (rewrite Z2Pos.id by lia; destruct s; lia).
      rewrite Pos.mul_1_r. reflexivity. }
    assert (AL : (Qabs (((if s then Zneg m else Zpos m) # Z.to_pos (2 * h)) - inject_Z (if s then - r else r)) == (Z.abs (Zpos m - r * (2 * h)) # Z.to_pos (2 * h)))%Q) by (apply AE; reflexivity).
    rewrite AL. unfold Qle, Qeq. cbn [Qnum Qden]. rewrite Z2Pos.id by lia. split; [lia|]. intros T.
    unfold inject_Z, Qabs. cbn [Qnum Qden].
    replace (Z.abs (if s then Zneg m else Zpos m)) with (Zpos m) by (destruct s; reflexivity).
    replace (Z.abs (if s then - r else r)) with r by (destruct s; lia). rewrite Z2Pos.id by lia. nia.
Qed.

Lemma round_near v r : rounds_to (fval v) r -> (Qabs (inject_Z r) <= Qabs (fval v) + (1 # 2))%Q.
Proof.
  intros [H _]. rewrite Qabs_Qminus in H. pose proof (Qabs_triangle_reverse (inject_Z r) (fval v)) as T. Lqa.lra.
Qed.
Lemma round_small max v r E : inside max v -> (fval max <= inject_Z E + (1 # 2))%Q -> rounds_to (fval v) r -> Z.abs r <= E.
Proof.
  intros [_ H] HE Hr. apply round_near in Hr.
  assert (L : (inject_Z (Z.abs r) < inject_Z (E + 1))%Q).
  { change (inject_Z (Z.abs r)) with (Qabs (inject_Z r)). rewrite inject_Z_plus. change (inject_Z 1) with (1 # 1)%Q. Lqa.lra. }
  rewrite <- Zlt_Qlt in L. lia.
Qed.

(** ** Sampling *)

Lemma loop_all conv g draws : Forall (fun u => accepts g u = false) draws -> gauss_loop conv g draws = Looping.
Proof. induction 1 as [|u l Hu _ IH]; [reflexivity|]. cbn [gauss_loop]. now rewrite Hu. Qed.
Lemma loop_first conv g pre v rest : Forall (fun u => accepts g u = false) pre -> accepts g v = true ->
  gauss_loop conv g (pre ++ v :: rest) = match conv v with Some x => Got (x, rest) | None => Panicked end.
Proof. intros H Hv. induction H as [|u l Hu _ IH]; cbn [gauss_loop app]; [now rewrite Hv|]. now rewrite Hu. Qed.

Lemma word_ok B q v : 0 < B -> q < 2 ^ B -> Z.abs (f64_round v) < q -> gauss_word B q v = Some (f64_round v mod q).
Proof.
  intros HB Hq H. unfold gauss_word, saturate. set (r := f64_round v) in *. destruct (Z.ltb_spec r 0) as [Hr|Hr].
  - rewrite Z.min_r by lia. unfold usub. destruct (Z.leb_spec (- r) q); [|lia]. f_equal.
    rewrite <- (Z.mod_small (q - - r) q) by lia. replace (q - - r) with (r + 1 * q) by lia. apply Z_mod_plus_full.
  - rewrite Z.min_r by lia. f_equal. symmetry. apply Z.mod_small. lia.
Qed.
Lemma field_ok F v : fok F -> Z.abs (f64_round v) < fp F -> gauss_field F v = Some (f64_round v mod fp F).
Proof.
  intros Hok H. pose proof (fp_range F Hok) as P. unfold gauss_field, saturate. set (r := f64_round v) in *.
  destruct (Z.ltb_spec r 0) as [Hr|Hr].
  - rewrite Z.min_r by lia. unfold usub. destruct (Z.leb_spec (- r) (fp F)); [|lia]. cbn [bind]. rewrite f_new_correct by (exact Hok || lia). f_equal.
    replace (fp F - - r) with (r + 1 * fp F) by lia. apply Z_mod_plus_full.
  - rewrite Z.min_r by lia. rewrite f_new_correct by (exact Hok || lia). reflexivity.
Qed.

Section Zero.
Variables (g : gaussian) (s : bool).
Hypothesis Em : gs_mean g = S754_zero s.
Hypothesis Hm : is_f64 (gs_max g).
Hypothesis Fm : ffinite (gs_max g).

Lemma rejects v : is_f64 v -> ~ inside (gs_max g) v -> accepts g v = false.
Proof. intros Hv H. destruct (accepts g v) eqn:A; [|reflexivity]. exfalso. apply H. now apply (accepts_iff g s v Em Hm Fm Hv). Qed.
Lemma rejects_all l : Forall is_f64 l -> Forall (fun u => ~ inside (gs_max g) u) l -> Forall (fun u => accepts g u = false) l.
Proof. induction 1; intros H'; inversion H'; subst; constructor; [now apply rejects|auto]. Qed.

Lemma take_ok F n E : fok F -> E < fp F -> (fval (gs_max g) <= inject_Z E + (1 # 2))%Q -> forall draws, Forall is_f64 draws ->
  match gauss_take (gauss_field F) g n draws with
  | Got l => length l = n /\ Forall (fun x => exists e, x = e mod fp F /\ Z.abs e <= E) l
  | Panicked => False
  | Looping => (length (filter (accepts g) draws) < n)%nat
  end.
Proof.
  intros Hok HE Hmax. induction n as [|n IH]; intros draws Hd; [split; [reflexivity|constructor]|]. cbn [gauss_take].
  assert (S : match gauss_loop (gauss_field F) g draws with
    | Got (x, rest) => Forall is_f64 rest /\ S (length (filter (accepts g) rest)) = length (filter (accepts g) draws) /\ (exists e, x = e mod fp F /\ Z.abs e <= E)
    | Panicked => False | Looping => length (filter (accepts g) draws) = 0%nat end).
  { clear IH n. induction Hd as [|v l Hv Hl IH]; [reflexivity|]. cbn [gauss_loop filter]. destruct (accepts g v) eqn:A; [|exact IH].
    pose proof (proj1 (accepts_iff g s v Em Hm Fm Hv) A) as I. pose proof (round_small _ _ _ _ I Hmax (round_spec v)) as R.
    rewrite field_ok by (exact Hok || lia). split; [exact Hl|]. split; [reflexivity|]. eexists. split; [reflexivity|exact R]. }
  destruct (gauss_loop (gauss_field F) g draws) as [| |[x rest]]; [lia|exact S|]. destruct S as (Hr & L & Hx). specialize (IH rest Hr).
  destruct (gauss_take (gauss_field F) g n rest) as [| |l]; [lia|exact IH|]. destruct IH as [Ln Fl]. split; [cbn [length]; now rewrite Ln|]. constructor; assumption.
Qed.
End Zero.

(** ** Constructors *)

Lemma lt_zero x : ffinite x -> (SFltb x (S754_zero false) = true <-> (fval x < 0)%Q).
Proof.
  intros Hf. destruct x as [s|s| |s m e]; try contradiction; unfold SFltb; cbn [SFcompare fval].
  - split; [discriminate|]. intros H. discriminate H.
  - destruct s.
    + split; [|reflexivity]. intros _. destruct (Z.leb_spec 0 e) as [H0|H0]; unfold Qlt, inject_Z; cbn [Qnum Qden]; [|lia].
      assert (0 < 2 ^ e) by (apply Z.pow_pos_nonneg; lia). nia.
    + split; [discriminate|]. intros H. exfalso. destruct (Z.leb_spec 0 e) as [H0|H0]; unfold Qlt, inject_Z in H; cbn [Qnum Qden] in H; [|lia].
      assert (0 < 2 ^ e) by (apply Z.pow_pos_nonneg; lia). nia.
Qed.
Lemma new_iff mean dev : (exists g, gauss_new mean dev = Some g) <-> ffinite dev /\ (0 <= fval dev)%Q.
Proof.
  unfold gauss_new, gauss_build. cbv zeta. split.
  - intros [g H]. destruct (SFltb dev (S754_zero false)) eqn:L; [discriminate|].
    destruct (f64_is_finite dev) eqn:Fi; [|discriminate]. assert (Fd : ffinite dev) by (destruct dev; try discriminate; exact I).
    split; [exact Fd|]. destruct (Qlt_le_dec (fval dev) 0) as [C|C]; [|exact C]. apply (lt_zero dev Fd) in C. congruence.
  - intros [Fd C]. destruct (SFltb dev (S754_zero false)) eqn:L.
    + apply (lt_zero dev Fd) in L. exfalso. Lqa.lra.
    + destruct dev; try contradiction; cbn [f64_is_finite]; eexists; reflexivity.
Qed.

(** A bound of zero accepts nothing. *)
Lemma zero_rejects g s v : gs_max g = S754_zero s -> accepts g v = false.
Proof. intros E. unfold accepts. rewrite E. destruct (f64_sub v (gs_mean g)) as [? | ? | | ? ? ?]; reflexivity. Qed.

Lemma cbd_small F len : fok F -> 21 <= fp F -> forall bytes, (forall i, 0 <= bytes i < 256) ->
  exists l, sample_cbd_field_vec F len bytes = Some l /\ length l = len /\ Forall (fun x => exists e, x = e mod fp F /\ Z.abs e <= 21) l.
Proof.
  intros Hok H21. induction len as [|len IH]; intros bs H; cbn [sample_cbd_field_vec]; [exists []; repeat constructor|].
  destruct (cbd_value_ok F Hok H21 _ _ _ _ _ _ (H 0%nat) (H 1%nat) (H 2%nat) (H 3%nat) (H 4%nat) (H 5%nat)) as (-> & Hb). cbn [bind].
  destruct (IH (fun i => bs (6 + i)%nat) (fun i => H _)) as (l & -> & Ll & Fl). cbn [bind]. eexists. split; [reflexivity|].
  split; [cbn [length]; now rewrite Ll|]. constructor; [|exact Fl]. eexists. split; [reflexivity|]. lia.
Qed.

Lemma filter_map_len {A C} (f : C -> bool) (h : A -> C) l : length (filter f (map h l)) = length (filter (fun x => f (h x)) l).
Proof. induction l as [|a l IH]; [reflexivity|]. cbn [map filter]. destruct (f (h a)); cbn [length]; now rewrite IH. Qed.
Lemma filter_seq {A} (f : A -> bool) d l : length (filter f l) = length (filter (fun i => f (nth i l d)) (seq 0 (length l))).
Proof.
  induction l as [|a l IH]; [reflexivity|]. cbn [length seq filter nth]. rewrite <- seq_shift.
  destruct (f a); cbn [length]; rewrite filter_map_len; cbn [nth]; now rewrite IH.
Qed.
Lemma inside_count g s : gs_mean g = S754_zero s -> is_f64 (gs_max g) -> ffinite (gs_max g) -> forall draws, Forall is_f64 draws ->
  forall l, NoDup l -> (forall i, In i l -> (i < length draws)%nat /\ let v := nth i draws S754_nan in ffinite v /\ (Qabs (fval v) < fval (gs_max g))%Q) ->
  (length l <= length (filter (accepts g) draws))%nat.
Proof.
  intros Em Hm Fm draws Hd l N Hl. rewrite (filter_seq (accepts g) S754_nan). apply NoDup_incl_length; [exact N|].
  intros i Hi. destruct (Hl i Hi) as (Li & I). apply filter_In. split; [apply in_seq; lia|].
  apply (accepts_iff g s _ Em Hm Fm); [|exact I]. rewrite Forall_forall in Hd. apply Hd. apply nth_In. exact Li.
Qed.

(** ** The bound of six standard deviations *)

Lemma nf_f64 f lo hi : nf f lo hi -> -1074 <= lo -> hi <= 971 -> is_f64 f /\ ffinite f.
Proof.
  intros (m & e & -> & M & E) L H. split; [|exact I]. unfold is_f64, valid_binary, bounded. apply andb_true_intro. split.
  - unfold canonical_mantissa. apply Zeq_is_eq_bool. rewrite digits2_log2.
    assert (D : Z.log2 (Zpos m) = 52) by (apply Z.log2_unique; lia). rewrite D. unfold fexp, emin. lia.
  - apply Zle_is_le_bool. lia.
Qed.
Lemma fval_sv f lo hi : nf f lo hi -> -300 <= lo -> (fval f == sv f # Z.to_pos (2 ^ 300))%Q.
Proof.
  intros (m & e & -> & M & E) L. cbn [fval sv]. assert (P : 0 < 2 ^ 300) by reflexivity. destruct (Z.leb_spec 0 e) as [H0|H0].
  - unfold Qeq, inject_Z. cbn [Qnum Qden]. rewrite Z2Pos.id by exact P. rewrite Z.pow_add_r by lia. ring.
  - unfold Qeq. cbn [Qnum Qden]. rewrite !Z2Pos.id by (try exact P; apply Z.pow_pos_nonneg; lia).
    rewrite <- Z.mul_assoc, <- Z.pow_add_r by lia. do 2 f_equal. lia.
Qed.
Lemma dev_nf dev : is_f64 dev -> (1 # 2 ^ 100 <= fval dev <= inject_Z (2 ^ 100))%Q -> nf dev (-152) 48.
Proof.
  intros Hf [L U]. assert (Pb : 0 < 2 ^ 974) by reflexivity.
  rewrite (fval_sz dev Hf) in L, U. unfold Qle, inject_Z in L, U. cbn [Qnum Qden] in L, U. rewrite !Z2Pos.id in * by apply big_pos.
  rewrite Z.mul_1_r, Z.mul_1_l in *. rewrite Pos2Z.inj_pow in L. unfold big in L, U.
  assert (L' : 2 ^ 974 <= sz dev) by (apply (Z.mul_le_mono_pos_r _ _ (2 ^ 100)); [reflexivity|rewrite <- Z.pow_add_r by lia; exact L]).
  rewrite <- Z.pow_add_r in U by lia. change (100 + 1074) with 1174 in U. clear L.
  destruct dev as [s|s| |s m e]; cbn [sz] in L', U; try lia.
  destruct s; [exfalso; destruct (f64_bounds _ _ _ Hf) as (B1 & _); assert (0 < 2 ^ (e + 1074)) by (apply Z.pow_pos_nonneg; lia); nia|].
  destruct (f64_bounds _ _ _ Hf) as (B1 & B2 & B3).
  assert (E1 : -153 < e).
  { destruct (Z.le_gt_cases e (-153)) as [C|C]; [|lia]. exfalso. apply (Z.lt_irrefl (2 ^ 974)). eapply Z.le_lt_trans; [exact L'|].
    apply Z.lt_le_trans with (2 ^ 53 * 2 ^ (e + 1074)); [apply Z.mul_lt_mono_pos_r; [apply Z.pow_pos_nonneg; lia|exact B2]|].
    rewrite <- Z.pow_add_r by lia. apply Z.pow_le_mono_r; lia. }
  destruct B3 as [B3|B3]; [lia|]. exists m, e. split; [reflexivity|]. split; [lia|]. split; [lia|].
  destruct (Z.le_gt_cases e 48) as [C|C]; [exact C|]. exfalso. apply (Z.lt_irrefl (2 ^ 1174)). apply Z.lt_le_trans with (2 ^ 52 * 2 ^ (e + 1074)).
  - rewrite <- Z.pow_add_r by lia. apply Z.pow_lt_mono_r; lia.
  - eapply Z.le_trans; [|exact U]. apply Z.mul_le_mono_nonneg_r; [apply Z.pow_nonneg; lia|exact B3].
Qed.
Lemma six_ok dev : is_f64 dev -> (1 # 2 ^ 100 <= fval dev <= inject_Z (2 ^ 100))%Q ->
  is_f64 (f64_times dev f64_six) /\ ffinite (f64_times dev f64_six) /\
  (Qabs (fval (f64_times dev f64_six) - 6 * fval dev) <= 6 * fval dev * (1 # 2 ^ 53))%Q.
Proof.
  intros Hf HB. pose proof (dev_nf dev Hf HB) as Nd.
  assert (N6 : nf f64_six (-50) (-50)) by (exists 6755399441055744%positive, (-50); split; [reflexivity|split; [split; [discriminate|reflexivity]|split; discriminate]]).
  destruct (f64_mul_ok dev f64_six _ _ _ _ Nd N6 ltac:(lia) ltac:(lia) ltac:(lia) ltac:(lia) ltac:(lia)) as (Nm & u & R & U0 & _ & RN & RA).
  change (f64_mul dev f64_six) with (f64_times dev f64_six) in *. set (x := f64_times dev f64_six) in *.
  destruct (nf_f64 x _ _ Nm ltac:(lia) ltac:(lia)) as [F1 F2]. split; [exact F1|]. split; [exact F2|].
  rewrite (fval_sv x _ _ Nm) by lia. rewrite (fval_sv dev _ _ Nd) by lia.
  assert (S6 : sv f64_six = 6 * 2 ^ 300) by reflexivity. rewrite S6 in RN, RA. set (T := 2 ^ 300) in *.
  assert (T0 : 0 < T) by reflexivity. clearbody T. set (a := sv x) in *. set (b := sv dev) in *. clearbody a b.
  assert (K : Z.abs (a - 6 * b) * 2 ^ 53 <= 6 * b).
  { replace (a * T - b * (6 * T)) with ((a - 6 * b) * T) in RA by ring. rewrite Z.abs_mul, (Z.abs_eq T) in RA by lia.
    apply (Z.mul_le_mono_pos_r _ _ T T0). change (2 ^ 53) with (2 ^ 52 * 2). set (c := 2 ^ 52) in *. assert (0 < c) by reflexivity. nia. }
  assert (E : (((a # Z.to_pos T) - 6 * (b # Z.to_pos T)) == (a - 6 * b) # Z.to_pos T)%Q) by (unfold Qeq; cbn [Qnum Qden Qminus Qplus Qopp Qmult]; rewrite !Pos2Z.inj_mul; ring).
  rewrite E, Qabs_make. unfold Qle. cbn [Qnum Qden Qmult]. rewrite !Pos2Z.inj_mul, Pos2Z.inj_pow, Z2Pos.id by exact T0.
  replace (Z.pos 1 * T * 2 ^ 53) with (2 ^ 53 * T) by ring. rewrite Z.mul_assoc. apply Z.mul_le_mono_nonneg_r; [lia|]. lia.
Qed.

Lemma dev_pos dev : is_f64 dev -> (1 # 2 ^ 100 <= fval dev <= inject_Z (2 ^ 100))%Q -> f64_is_finite dev = true /\ SFltb dev (S754_zero false) = false.
Proof. intros Hf HB. destruct (dev_nf dev Hf HB) as (m & e & -> & _). split; reflexivity. Qed.
Lemma new_some mean dev : f64_is_finite dev = true /\ SFltb dev (S754_zero false) = false ->
  gauss_new mean dev = Some (mk_gaussian mean dev (f64_times dev f64_six) (bits_zero mean && bits_3_2 dev)).
Proof. intros [E1 E2]. unfold gauss_new, gauss_build. cbv zeta. now rewrite E2, E1. Qed.
Lemma cbd_iff mean dev : bits_zero mean && bits_3_2 dev = true <-> mean = S754_zero false /\ dev = f64_3_2.
Proof.
  rewrite andb_true_iff. split; intros [H1 H2].
  - split; [destruct mean as [[]|?| |? ? ?]; try discriminate; reflexivity|].
    destruct dev as [?|?| |[] m e]; try discriminate. apply andb_prop in H2. destruct H2 as [H2 H3]. apply Z.eqb_eq in H2, H3.
    injection H2 as ->. subst e. reflexivity.
  - now subst.
Qed.

Lemma sf_lt x y : is_f64 x -> is_f64 y -> ffinite x -> ffinite y -> (SFleb y x = false <-> (fval x < fval y)%Q).
Proof.
  intros Hx Hy Fx Fy. rewrite (fval_sz x Hx), (fval_sz y Hy). unfold Qlt. cbn [Qnum Qden]. pose proof big_pos as BP. rewrite Z2Pos.id by exact BP.
  rewrite <- Z.mul_lt_mono_pos_r by exact BP. unfold SFleb.
  assert (P : forall e, -1074 <= e -> 0 < 2 ^ (e + 1074)) by (intros e He; apply Z.pow_pos_nonneg; lia).
  destruct x as [s|s| |s m e]; try contradiction; destruct y as [t|t| |t n d]; try contradiction; cbn [SFcompare sz].
  - split; [discriminate|lia].
  - pose proof (f64_bounds _ _ _ Hy) as (Bd & _). specialize (P d ltac:(lia)). destruct t; split; intros H0; try discriminate; try reflexivity; nia.
  - pose proof (f64_bounds _ _ _ Hx) as (Bd & _). specialize (P e ltac:(lia)). destruct s; split; intros H0; try discriminate; try reflexivity; nia.
  - pose proof (f64_bounds _ _ _ Hx) as (Be & _). pose proof (f64_bounds _ _ _ Hy) as (Bd & _). pose proof (P e ltac:(lia)) as Pe. pose proof (P d ltac:(lia)) as Pd.
    assert (K : match Z.compare d e with Lt => Zpos n * 2 ^ (d + 1074) < Zpos m * 2 ^ (e + 1074) | Gt => Zpos m * 2 ^ (e + 1074) < Zpos n * 2 ^ (d + 1074) | Eq => d = e end).
    { destruct (Z.compare_spec d e) as [E|E|E]; [exact E|exact (sz_compare _ _ _ _ _ _ Hy Hx E)|exact (sz_compare _ _ _ _ _ _ Hx Hy E)]. }
    change (Zneg m) with (- Zpos m). change (Zneg n) with (- Zpos n).
    destruct t, s; destruct (Z.compare d e); try subst d; cbn [CompOpp];
      try (change (Pcompare n m Eq) with (Pos.compare n m)); try (destruct (Pos.compare_spec n m) as [N|N|N]; try subst n; cbn [CompOpp]);
      split; intros H0; try discriminate; try reflexivity; nia.
Qed.
Lemma with_max_iff mean dev max : is_f64 dev -> is_f64 max -> ffinite max ->
  ((exists g, gauss_new_with_max mean dev max = Some g /\ gs_mean g = mean /\ gs_max g = max) <->
   ffinite dev /\ (0 <= fval dev < fval max)%Q).
Proof.
  intros Hd Hm Fm. unfold gauss_new_with_max, gauss_build. split.
  - intros (g & H & _). destruct (SFleb max dev) eqn:L; [discriminate|]. destruct (SFltb dev (S754_zero false)) eqn:L0; [discriminate|]. cbn [orb] in H.
    destruct (f64_is_finite dev) eqn:Fi; [|discriminate]. assert (Fd : ffinite dev) by (destruct dev; try discriminate; exact I).
    split; [exact Fd|]. split; [|now apply (sf_lt dev max Hd Hm Fd Fm)].
    destruct (Qlt_le_dec (fval dev) 0) as [C|C]; [|exact C]. apply (lt_zero dev Fd) in C. congruence.
  - intros (Fd & C0 & C1). apply (sf_lt dev max Hd Hm Fd Fm) in C1. rewrite C1. destruct (SFltb dev (S754_zero false)) eqn:L.
    + apply (lt_zero dev Fd) in L. exfalso. Lqa.lra.
    + cbn [orb]. destruct dev; try contradiction; cbn [f64_is_finite]; eexists; (split; [reflexivity|split; reflexivity]).
Qed.
