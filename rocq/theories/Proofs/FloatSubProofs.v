(** Correctly rounded subtraction over the whole range of binary64, and the Gaussian samplers for an
    arbitrary mean. *)
From Coq Require Import ZArith QArith Qabs List Bool Lia Lqa SpecFloat.
From Verif Require Import Spec.Basic Spec.Gauss Model.Base Model.Field Model.Gaussian Proofs.Arith Proofs.FieldProofs Proofs.FloatProofs Proofs.GaussProofs.
Import ListNotations.
Local Open Scope Z_scope.

Lemma shift_pos_ok d m : Zpos (shift_pos d m) = Zpos m * 2 ^ Zpos d.
Proof. rewrite Zpower.shift_pos_correct. change (Z.pow_pos 2 d) with (2 ^ Zpos d). ring. Qed.
Lemma shl_align_ok m e e' : exists m' e'', shl_align m e e' = (m', e'') /\ e'' = Z.min e e' /\ Zpos m' = Zpos m * 2 ^ (e - e'').
Proof.
  unfold shl_align. destruct (e' - e) as [|d|d] eqn:E; [exists m, e|exists m, e|exists (shift_pos d m), e']; (split; [reflexivity|]).
  - split; [lia|]. rewrite Z.sub_diag, Z.mul_1_r. reflexivity.
  - split; [lia|]. rewrite Z.sub_diag, Z.mul_1_r. reflexivity.
  - split; [lia|]. rewrite shift_pos_ok. replace (e - e') with (Zpos d) by lia. reflexivity.
Qed.

Definition signed (s : bool) (a : Z) : Z := if s then - a else a.

(** [f] is [N] (in units of 2^-1074) with sign [s], rounded. *)
Definition rnd_to (s : bool) (N : Z) (f : spec_float) : Prop := exists A u R, 0 <= u /\ A = R * 2 ^ u /\ (u = 0 \/ 2 ^ 52 * 2 ^ u <= N) /\
  2 * Z.abs (A - N) <= 2 ^ u /\
  ((A < 2 ^ 2098 /\ is_f64 f /\ ffinite f /\ sz f = signed s A) \/ (2 ^ 2098 <= A /\ f = S754_infinity s)).

Lemma sz_signed s m e : sz (S754_finite s m e) = signed s (Zpos m * 2 ^ (e + 1074)).
Proof. cbn [sz]. destruct s; cbn [signed]; [|reflexivity]. change (Zneg m) with (- Zpos m). ring. Qed.

Lemma finite_ok s m e d : 0 < d <= 53 -> 2 ^ (d - 1) <= Zpos m < 2 ^ d -> -1074 <= e -> (d = 53 \/ e = -1074) ->
  let f := if e <=? 971 then S754_finite s m e else S754_infinity s in
  let A := Zpos m * 2 ^ (e + 1074) in
  (A < 2 ^ 2098 /\ is_f64 f /\ ffinite f /\ sz f = signed s A) \/ (2 ^ 2098 <= A /\ f = S754_infinity s).
Proof.
  intros Hd Hm He Hde f A. assert (P : 0 < 2 ^ (e + 1074)) by (apply Z.pow_pos_nonneg; lia).
  unfold f. destruct (Z.leb_spec e 971) as [L|L].
  - left. split.
    + unfold A. apply Z.lt_le_trans with (2 ^ d * 2 ^ (e + 1074)); [apply Z.mul_lt_mono_pos_r; lia|].
      rewrite <- Z.pow_add_r by lia. apply Z.pow_le_mono_r; lia.
    + split; [|split; [exact I|apply sz_signed]]. unfold is_f64, valid_binary, bounded. apply andb_true_intro. split.
      * unfold canonical_mantissa. change (Zpos (digits2_pos m)) with (Zdigits2 (Zpos m)). rewrite (Zdigits2_eq (Zpos m) d) by lia.
        replace (fexp 53 1024 (d + e)) with e by (unfold fexp, emin; lia). unfold Zeq_bool. rewrite Z.compare_refl. reflexivity.
      * apply Zle_imp_le_bool. lia.
  - right. split; [|reflexivity]. destruct Hde as [->| ->]; [|lia]. unfold A.
    apply Z.le_trans with (2 ^ (53 - 1) * 2 ^ (e + 1074)); [|apply Z.mul_le_mono_nonneg_r; lia].
    rewrite <- Z.pow_add_r by lia. apply Z.pow_le_mono_r; lia.
Qed.

Lemma round_exact_ok s m e d : 0 < d <= 53 -> 2 ^ (d - 1) <= Zpos m < 2 ^ d -> -1074 <= e -> (d = 53 \/ e = -1074) ->
  rnd_to s (Zpos m * 2 ^ (e + 1074)) (binary_round_aux 53 1024 s (Zpos m) e loc_Exact).
Proof.
  intros Hd Hm He Hde.
  assert (E : binary_round_aux 53 1024 s (Zpos m) e loc_Exact = if e <=? 971 then S754_finite s m e else S754_infinity s).
  { unfold binary_round_aux, shr_fexp. rewrite (Zdigits2_eq (Zpos m) d) by lia.
    replace (fexp 53 1024 (d + e) - e) with 0 by (unfold fexp, emin; lia).
    cbn [shr shr_record_of_loc shr_m loc_of_shr_record shr_r shr_s round_nearest_even]. rewrite (Zdigits2_eq (Zpos m) d) by lia.
    replace (fexp 53 1024 (d + e) - e) with 0 by (unfold fexp, emin; lia). reflexivity. }
  rewrite E. exists (Zpos m * 2 ^ (e + 1074)), 0, (Zpos m * 2 ^ (e + 1074)). split; [lia|]. split; [change (2 ^ 0) with 1; lia|].
  split; [now left|]. split; [rewrite Z.sub_diag; change (2 ^ 0) with 1; lia|]. exact (finite_ok s m e d Hd Hm He Hde).
Qed.

Lemma round_wide_ok s m e d : 53 < d -> 2 ^ (d - 1) <= Zpos m < 2 ^ d -> -1074 <= e ->
  rnd_to s (Zpos m * 2 ^ (e + 1074)) (binary_round_aux 53 1024 s (Zpos m) e loc_Exact).
Proof.
  intros Hd Hm He. set (j := d - 53). assert (Hj : 0 < j) by (unfold j; lia).
  pose proof (Z.pow_pos_nonneg 2 j ltac:(lia) ltac:(lia)) as P2.
  assert (S1 : 2 ^ (d - 1) = 2 ^ j * 2 ^ 52) by (unfold j; rewrite <- Z.pow_add_r by lia; f_equal; lia).
  assert (S2 : 2 ^ d = 2 ^ j * 2 ^ 53) by (unfold j; rewrite <- Z.pow_add_r by lia; f_equal; lia).
  unfold binary_round_aux. unfold shr_fexp at 1. rewrite (Zdigits2_eq (Zpos m) d) by lia.
  replace (fexp 53 1024 (d + e) - e) with j by (unfold fexp, emin, j; lia).
  destruct (shr_ok 1 0 (Zpos m) e j loc_Exact ltac:(lia) ltac:(lia) (conj (conj (Z.le_refl 0) Z.lt_0_1) eq_refl)) as (M & -> & EM & LM).
  destruct (rne_ok _ _ (shr_m M) _ LM) as (R1 & R2). set (R := round_nearest_even (shr_m M) (loc_of_shr_record M)) in *.
  rewrite EM in R1, R2.
  assert (Q1 : 2 ^ 52 <= Zpos m / 2 ^ j) by (apply Z.div_le_lower_bound; lia).
  assert (Q2 : Zpos m / 2 ^ j < 2 ^ 53) by (apply Z.div_lt_upper_bound; lia).
  assert (QM : Zpos m = 2 ^ j * (Zpos m / 2 ^ j) + Zpos m mod 2 ^ j) by (apply Z.div_mod; lia).
  assert (RE : 2 * Z.abs (R * 2 ^ j - Zpos m) <= 2 ^ j).
  { rewrite QM at 1. rewrite !Z.mul_1_r, Z.add_0_r in R1.
    replace (2 ^ j * (Zpos m / 2 ^ j) + Zpos m mod 2 ^ j) with (Zpos m / 2 ^ j * 2 ^ j + Zpos m mod 2 ^ j) by ring. exact R1. }
  clear R1 QM LM EM. set (N := Zpos m * 2 ^ (e + 1074)). set (u := e + j + 1074).
  assert (Pe : 0 < 2 ^ (e + 1074)) by (apply Z.pow_pos_nonneg; lia).
  assert (Eu : 2 ^ u = 2 ^ j * 2 ^ (e + 1074)) by (unfold u; rewrite <- Z.pow_add_r by lia; f_equal; lia).
  exists (R * 2 ^ u), u, R. split; [unfold u; lia|]. split; [reflexivity|]. split.
  { right. rewrite Eu, Z.mul_assoc, (Z.mul_comm (2 ^ 52)), <- S1. unfold N. apply Z.mul_le_mono_nonneg_r; lia. }
  split.
  { unfold N. rewrite Eu, Z.mul_assoc, abs_scale by lia. rewrite Z.mul_assoc. apply Z.mul_le_mono_nonneg_r; lia. }
  unfold shr_fexp. destruct (Z.eq_dec R (2 ^ 53)) as [E|E].
  - rewrite E. rewrite (Zdigits2_eq (2 ^ 53) 54) by lia. replace (fexp 53 1024 (54 + (e + j)) - (e + j)) with 1 by (unfold fexp, emin, j; lia).
    change (shr (shr_record_of_loc (2 ^ 53) loc_Exact) (e + j) 1) with (Build_shr_record (2 ^ 52) false false, e + j + 1).
    cbn [shr_m]. change (2 ^ 52) with (Z.pos 4503599627370496) at 1 2. cbv iota.
    replace (2 ^ 53 * 2 ^ u) with (Z.pos 4503599627370496 * 2 ^ (e + j + 1 + 1074)).
    2:{ unfold u. replace (e + j + 1 + 1074) with (1 + (e + j + 1074)) by lia. rewrite (Z.pow_add_r 2 1) by lia. change (2 ^ 53) with (Z.pos 4503599627370496 * 2). change (2 ^ 1) with 2. ring. }
    apply (finite_ok s 4503599627370496 (e + j + 1) 53); [lia|split; reflexivity|lia|now left].
  - rewrite (Zdigits2_eq R 53) by lia. replace (fexp 53 1024 (53 + (e + j)) - (e + j)) with 0 by (unfold fexp, emin, j; lia).
    cbn [shr shr_record_of_loc shr_m]. destruct R as [|R'|R'] eqn:ER; try lia. cbv iota.
    replace u with (e + j + 1074) by (unfold u; lia).
    apply (finite_ok s R' (e + j) 53); [lia|lia|lia|now left].
Qed.

Lemma binary_round_ok s m e : -1074 <= e -> rnd_to s (Zpos m * 2 ^ (e + 1074)) (binary_round 53 1024 s m e).
Proof.
  intros He. unfold binary_round. change (Zpos (digits2_pos m)) with (Zdigits2 (Zpos m)).
  rewrite Zdigits2_pos by lia. pose proof (Z.log2_spec (Zpos m) ltac:(lia)) as L. pose proof (Z.log2_nonneg (Zpos m)) as L0.
  set (l := Z.log2 (Zpos m)) in *.
  destruct (shl_align_ok m e (fexp 53 1024 (l + 1 + e))) as (m' & e' & -> & Ee & Em).
  assert (Fe : fexp 53 1024 (l + 1 + e) = Z.max (l + e - 52) (-1074)) by (unfold fexp, emin; lia). rewrite Fe in Ee. clear Fe.
  assert (EN : Zpos m * 2 ^ (e + 1074) = Zpos m' * 2 ^ (e' + 1074)).
  { rewrite Em, <- Z.mul_assoc, <- Z.pow_add_r by lia. do 2 f_equal. lia. }
  rewrite EN. set (d := l + 1 + (e - e')).
  assert (P : 0 < 2 ^ (e - e')) by (apply Z.pow_pos_nonneg; lia).
  assert (Hm' : 2 ^ (d - 1) <= Zpos m' < 2 ^ d).
  { replace (d - 1) with (l + (e - e')) by (unfold d; lia). replace d with (Z.succ l + (e - e')) by (unfold d; lia).
    rewrite !Z.pow_add_r by lia. rewrite Em. split; [apply Z.mul_le_mono_nonneg_r; lia|apply Z.mul_lt_mono_pos_r; lia]. }
  destruct (Z.le_gt_cases d 53) as [H|H].
  - apply (round_exact_ok s m' e' d); [unfold d in *; lia|exact Hm'|lia|unfold d in *; lia].
  - apply (round_wide_ok s m' e' d); [lia|exact Hm'|lia].
Qed.

(** The difference of two finite floats, rounded. *)
Lemma f64_sub_ok x y : is_f64 x -> is_f64 y -> ffinite x -> ffinite y ->
  exists s, rnd_to s (Z.abs (sz x - sz y)) (f64_sub x y).
Proof.
  intros Hx Hy Fx Fy.
  assert (Exact : forall f, is_f64 f -> ffinite f -> Z.abs (sz f) = Z.abs (sz x - sz y) -> exists s, rnd_to s (Z.abs (sz x - sz y)) f).
  { intros f Hf Ff E. exists (sz f <? 0). rewrite <- E. exists (Z.abs (sz f)), 0, (Z.abs (sz f)).
    split; [lia|]. split; [change (2 ^ 0) with 1; lia|]. split; [now left|]. split; [rewrite Z.sub_diag; change (2 ^ 0) with 1; lia|]. left.
    split; [|split; [exact Hf|split; [exact Ff|unfold signed; destruct (Z.ltb_spec (sz f) 0); lia]]].
    destruct f as [s|s| |s m e]; try contradiction; [reflexivity|]. rewrite sz_signed. apply f64_bounds in Hf. destruct Hf as (He & Hm & _).
    replace (Z.abs (signed s (Zpos m * 2 ^ (e + 1074)))) with (Zpos m * 2 ^ (e + 1074)).
    2:{ assert (0 < 2 ^ (e + 1074)) by (apply Z.pow_pos_nonneg; lia). unfold signed. destruct s; nia. }
    apply Z.lt_le_trans with (2 ^ 53 * 2 ^ (e + 1074)); [apply Z.mul_lt_mono_pos_r; [apply Z.pow_pos_nonneg; lia|exact Hm]|].
    rewrite <- Z.pow_add_r by lia. apply Z.pow_le_mono_r; lia. }
  destruct x as [sx|sx| |sx mx ex]; try contradiction; destruct y as [sy|sy| |sy my ey]; try contradiction; unfold f64_sub; cbn [SFsub].
  - apply Exact; destruct sx, sy; reflexivity.
  - apply Exact; [exact Hy|exact I|]. rewrite !sz_signed. cbn [sz]. unfold signed. destruct sy; cbn [negb]; lia.
  - apply Exact; [exact Hx|exact I|]. cbn [sz]. lia.
  - pose proof (f64_bounds _ _ _ Hx) as (Bx & _). pose proof (f64_bounds _ _ _ Hy) as (By & _).
    destruct (shl_align_ok mx ex (Z.min ex ey)) as (mx' & e1 & E1 & Ee1 & Em1). rewrite E1.
    destruct (shl_align_ok my ey (Z.min ex ey)) as (my' & e2 & E2 & Ee2 & Em2). rewrite E2. cbn [fst].
    replace e1 with (Z.min ex ey) in Em1 by lia. replace e2 with (Z.min ex ey) in Em2 by lia. clear E1 E2 Ee1 Ee2 e1 e2.
    set (z := Z.min ex ey) in *. assert (Bz : -1074 <= z) by (unfold z; lia).
    assert (X : sz (S754_finite sx mx ex) = cond_Zopp sx (Zpos mx') * 2 ^ (z + 1074)).
    { rewrite sz_signed, Em1. unfold cond_Zopp, signed.
      replace (2 ^ (ex + 1074)) with (2 ^ (ex - z) * 2 ^ (z + 1074)) by (rewrite <- Z.pow_add_r by lia; f_equal; lia). destruct sx; ring. }
    assert (Y : sz (S754_finite sy my ey) = cond_Zopp sy (Zpos my') * 2 ^ (z + 1074)).
    { rewrite sz_signed, Em2. unfold cond_Zopp, signed.
      replace (2 ^ (ey + 1074)) with (2 ^ (ey - z) * 2 ^ (z + 1074)) by (rewrite <- Z.pow_add_r by lia; f_equal; lia). destruct sy; ring. }
    rewrite X, Y, <- Z.mul_sub_distr_r. set (D := cond_Zopp sx (Zpos mx') - cond_Zopp sy (Zpos my')) in *.
    assert (P : 0 < 2 ^ (z + 1074)) by (apply Z.pow_pos_nonneg; lia). rewrite Z.abs_mul, (Z.abs_eq (2 ^ _)) by lia.
    destruct D as [|D1|D1] eqn:ED; cbn [binary_normalize].
    + rewrite Z.mul_0_l. exists false. exists 0, 0, 0. cbn. repeat (split; [lia || reflexivity || (now left) || exact I|]). left.
      repeat split.
    + exists false. apply binary_round_ok. exact Bz.
    + exists true. apply binary_round_ok. exact Bz.
Qed.

Lemma rnd_lower s N f max : 0 <= N -> rnd_to s N f -> is_f64 max -> ffinite max -> sz max <= N ->
  ~ (ffinite f /\ Z.abs (sz f) < sz max).
Proof.
  intros HN (A & u & R & Hu & EA & Hun & HAN & Hf) Hm Fm HM (Ff & Hlt).
  assert (P : 0 < 2 ^ u) by (apply Z.pow_pos_nonneg; lia).
  destruct Hf as [(_ & _ & _ & Es)|(_ & Ei)]; [|subst f; contradiction].
  assert (HA : Z.abs (sz f) = Z.abs A) by (rewrite Es; unfold signed; destruct s; lia). rewrite HA in Hlt.
  assert (sz max <= A); [|lia]. clear HA Es Ff f.
  destruct max as [t|t| |t m e]; try contradiction; [cbn [sz] in *; lia|].
  apply f64_bounds in Hm. destruct Hm as (He & Hmm & _). rewrite sz_signed in *.
  assert (Pe : 0 < 2 ^ (e + 1074)) by (apply Z.pow_pos_nonneg; lia).
  destruct t; [exfalso; unfold signed in Hlt; nia|]. cbn [signed] in *. clear Hlt.
  destruct (Z.eq_dec u 0) as [->|Hu0]; [change (2 ^ 0) with 1 in *; lia|].
  assert (Hun' : 2 ^ 52 * 2 ^ u <= N) by (destruct Hun; [contradiction|assumption]). clear Hun.
  assert (U2 : 2 ^ u = 2 * 2 ^ (u - 1)) by (rewrite <- (Z.pow_succ_r 2 (u - 1)) by lia; f_equal; lia).
  destruct (Z.le_gt_cases u (e + 1074)) as [L|L].
  - replace (2 ^ (e + 1074)) with (2 ^ (e + 1074 - u) * 2 ^ u) in * by (rewrite <- Z.pow_add_r by lia; f_equal; lia).
    rewrite Z.mul_assoc in *. set (k := Zpos m * 2 ^ (e + 1074 - u)) in *. subst A. apply Z.mul_le_mono_nonneg_r; [lia|]. nia.
  - assert (Q : Zpos m * 2 ^ (e + 1074) <= 2 ^ 52 * 2 ^ u).
    { apply Z.le_trans with (2 ^ 53 * 2 ^ (u - 1)).
      - apply Z.mul_le_mono_nonneg; [lia|lia|lia|]. apply Z.pow_le_mono_r; lia.
      - rewrite U2. change (2 ^ 53) with (2 ^ 52 * 2). lia. }
    apply Z.le_trans with (1 := Q). subst A. apply Z.mul_le_mono_nonneg_r; [lia|]. nia.
Qed.
Lemma rnd_upper s N f max : 0 <= N -> rnd_to s N f -> is_f64 max -> ffinite max ->
  (2 ^ 53 + 1) * N < 2 ^ 53 * sz max -> ffinite f /\ is_f64 f /\ Z.abs (sz f) < sz max.
Proof.
  intros HN (A & u & R & Hu & EA & Hun & HAN & Hf) Hm Fm HM.
  assert (P : 0 < 2 ^ u) by (apply Z.pow_pos_nonneg; lia).
  assert (HA : Z.abs A < sz max).
  { destruct (Z.eq_dec u 0) as [->|Hu0]; [change (2 ^ 0) with 1 in *; assert (A = N) by lia; lia|].
    assert (Hun' : 2 ^ 52 * 2 ^ u <= N) by (destruct Hun; [contradiction|assumption]).
    assert (0 <= A) by (assert (2 ^ u <= N) by lia; lia).
    assert (2 ^ 53 * A <= (2 ^ 53 + 1) * N) by lia. lia. }
  assert (HM2 : sz max < 2 ^ 2098).
  { destruct max as [t|t| |t m e]; try contradiction; [reflexivity|]. apply f64_bounds in Hm. destruct Hm as (He & Hmm & _). rewrite sz_signed.
    assert (Pe : 0 < 2 ^ (e + 1074)) by (apply Z.pow_pos_nonneg; lia).
    apply Z.le_lt_trans with (Zpos m * 2 ^ (e + 1074)); [unfold signed; destruct t; nia|].
    apply Z.lt_le_trans with (2 ^ 53 * 2 ^ (e + 1074)); [apply Z.mul_lt_mono_pos_r; lia|]. rewrite <- Z.pow_add_r by lia. apply Z.pow_le_mono_r; lia. }
  destruct Hf as [(_ & V & Ff & Es)|(Ha & _)].
  - split; [exact Ff|]. split; [exact V|]. rewrite Es. unfold signed. destruct s; lia.
  - exfalso. apply (Z.lt_irrefl (2 ^ 2098)). apply Z.le_lt_trans with (1 := Ha). apply Z.le_lt_trans with (2 := HM2).
    apply Z.lt_le_incl. apply Z.le_lt_trans with (2 := HA). destruct (Z.abs_spec A); lia.
Qed.

(** * The samplers for any mean *)

Lemma diff_sz x y : is_f64 x -> is_f64 y -> (Qabs (fval x - fval y) == Z.abs (sz x - sz y) # Z.to_pos big)%Q.
Proof.
  intros Hx Hy. rewrite (fval_sz x Hx), (fval_sz y Hy). rewrite <- (Qabs_make (sz x - sz y)). apply Qabs_wd.
  unfold Qeq, Qminus, Qplus, Qopp. cbn [Qnum Qden]. rewrite Pos2Z.inj_mul. ring.
Qed.
Definition near (mean max v : spec_float) : Prop := ffinite v /\ (Qabs (fval v - fval mean) < fval max)%Q.

Section Mean.
Variable g : gaussian.
Hypothesis Vmean : is_f64 (gs_mean g).
Hypothesis Fmean : ffinite (gs_mean g).
Hypothesis Hm : is_f64 (gs_max g).
Hypothesis Fm : ffinite (gs_max g).

Lemma accepts_near v : is_f64 v -> accepts g v = true -> near (gs_mean g) (gs_max g) v.
Proof.
  intros Hv A. unfold accepts in A. pose proof big_pos as PB.
  destruct v as [s|s| |s m e].
  2:{ exfalso. unfold f64_sub in A. destruct (gs_mean g) as [t|t| |t m' e']; try contradiction; cbn in A; destruct (gs_max g) as [a|a| |a b c]; try contradiction; try destruct a; discriminate A. }
  2:{ exfalso. unfold f64_sub in A. cbn in A. discriminate A. }
  all: (split; [exact I|]); match goal with |- (Qabs (fval ?v - _) < _)%Q =>
    destruct (f64_sub_ok v (gs_mean g) Hv Vmean I Fmean) as (t & Hr);
    destruct (Qlt_le_dec (Qabs (fval v - fval (gs_mean g))) (fval (gs_max g))) as [L|L]; [exact L|exfalso];
    apply (rnd_lower _ _ _ (gs_max g) (Z.abs_nonneg _) Hr Hm Fm);
    [rewrite (diff_sz v _ Hv Vmean), (fval_sz _ Hm) in L; unfold Qle in L; cbn [Qnum Qden] in L; rewrite Z2Pos.id in L by exact PB; nia|
     apply ltb_abs; [|exact Hm|exact Fm|exact A]];
    destruct Hr as (a & u & R & _ & _ & _ & _ & [(_ & V & _)|(_ & E)]); [exact V|rewrite E; reflexivity] end.
Qed.
Lemma near_accepts v : is_f64 v -> ffinite v -> (Qabs (fval v - fval (gs_mean g)) * (1 + (1 # 2 ^ 53)) < fval (gs_max g))%Q ->
  accepts g v = true.
Proof.
  intros Hv Fv L. pose proof big_pos as PB. destruct (f64_sub_ok v (gs_mean g) Hv Vmean Fv Fmean) as (t & Hr).
  rewrite (diff_sz v _ Hv Vmean), (fval_sz _ Hm) in L. unfold Qlt, Qmult, Qplus in L. cbn [Qnum Qden] in L.
  rewrite !Pos2Z.inj_mul, Z2Pos.id in L by exact PB. change (Zpos (2 ^ 53)) with (2 ^ 53) in L.
  destruct (rnd_upper _ _ _ (gs_max g) (Z.abs_nonneg _) Hr Hm Fm) as (Ff & Vf & Lf).
  - set (N := Z.abs _) in *. change (1 * 2 ^ 53 + 1 * 1) with (2 ^ 53 + 1) in L. nia.
  - unfold accepts. apply ltb_abs; [exact Vf|exact Hm|exact Fm|]. auto.
Qed.

Lemma near_small v E : near (gs_mean g) (gs_max g) v ->
  (Qabs (fval (gs_mean g)) + fval (gs_max g) <= inject_Z E + (1 # 2))%Q -> Z.abs (f64_round v) <= E.
Proof.
  intros [_ H] HE. pose proof (round_near v _ (round_spec v)) as Hr.
  assert (T : (Qabs (fval v) <= Qabs (fval v - fval (gs_mean g)) + Qabs (fval (gs_mean g)))%Q).
  { setoid_replace (fval v) with (fval v - fval (gs_mean g) + fval (gs_mean g))%Q at 1 by ring. apply Qabs_triangle. }
  assert (L : (inject_Z (Z.abs (f64_round v)) < inject_Z (E + 1))%Q).
  { change (inject_Z (Z.abs (f64_round v))) with (Qabs (inject_Z (f64_round v))). rewrite inject_Z_plus. change (inject_Z 1) with (1 # 1)%Q. Lqa.lra. }
  rewrite <- Zlt_Qlt in L. lia.
Qed.
Lemma mean_rejects_all l : Forall is_f64 l -> Forall (fun u => ~ near (gs_mean g) (gs_max g) u) l -> Forall (fun u => accepts g u = false) l.
Proof.
  induction 1 as [|v l Hv _ IH]; intros H; inversion H; subst; constructor; [|auto].
  destruct (accepts g v) eqn:A; [|reflexivity]. exfalso. apply H2. apply accepts_near; assumption.
Qed.

Lemma mean_take_ok F n E : fok F -> E < fp F -> (Qabs (fval (gs_mean g)) + fval (gs_max g) <= inject_Z E + (1 # 2))%Q -> forall draws, Forall is_f64 draws ->
  match gauss_take (gauss_field F) g n draws with
  | Got l => length l = n /\ Forall (fun x => exists e, x = e mod fp F /\ Z.abs e <= E) l
  | Panicked => False
  | Looping => (length (filter (accepts g) draws) < n)%nat
  end.
Proof.
  intros Hok HE Hmax. induction n as [|n IH]; intros draws Hd; [split; [reflexivity|constructor]|]. cbn [gauss_take].
  assert (S : match gauss_loop (gauss_field F) g draws with
    | Got (x, rest) => Forall is_f64 rest /\ S (length (filter (accepts g) rest)) = length (filter (accepts g) draws) /\ (exists e, x = e mod fp F /\ Z.abs e <= E)
    | Panicked => False | Looping => length (filter (accepts g) draws) = 0%nat end).
  { clear IH n. induction Hd as [|v l Hv Hl IH]; [reflexivity|]. cbn [gauss_loop filter]. destruct (accepts g v) eqn:A; [|exact IH].
    pose proof (near_small v E (accepts_near v Hv A) Hmax) as R.
    rewrite field_ok by (exact Hok || lia). split; [exact Hl|]. split; [reflexivity|]. eexists. split; [reflexivity|exact R]. }
  destruct (gauss_loop (gauss_field F) g draws) as [| |[x rest]]; [lia|exact S|]. destruct S as (Hr & L & Hx). specialize (IH rest Hr).
  destruct (gauss_take (gauss_field F) g n rest) as [| |l]; [lia|exact IH|]. destruct IH as [Ln Fl]. split; [cbn [length]; now rewrite Ln|]. constructor; assumption.
Qed.
Lemma near_count draws : Forall is_f64 draws ->
  forall l, NoDup l -> (forall i, In i l -> (i < length draws)%nat /\ let v := nth i draws S754_nan in
    ffinite v /\ (Qabs (fval v - fval (gs_mean g)) * (1 + (1 # 2 ^ 53)) < fval (gs_max g))%Q) ->
  (length l <= length (filter (accepts g) draws))%nat.
Proof.
  intros Hd l N Hl. rewrite (filter_seq (accepts g) S754_nan). apply NoDup_incl_length; [exact N|].
  intros i Hi. destruct (Hl i Hi) as (Li & I1 & I2). apply filter_In. split; [apply in_seq; lia|].
  apply near_accepts; [|exact I1|exact I2]. rewrite Forall_forall in Hd. apply Hd. apply nth_In. exact Li.
Qed.
End Mean.

(** A mean that is not finite accepts nothing. *)
Lemma odd_mean_rejects g v : ~ ffinite (gs_mean g) -> accepts g v = false.
Proof.
  intros H. unfold accepts, f64_sub. destruct (gs_mean g) as [t|t| |t m e]; try (exfalso; apply H; exact I).
  - destruct v as [s|s| |s m e]; cbn [SFsub]; try destruct (eqb s (negb t)); cbn [SFabs SFltb SFcompare];
      destruct (gs_max g) as [a|a| |a b c]; try destruct a; reflexivity.
  - destruct v as [s|s| |s m e]; cbn; reflexivity.
Qed.

(** * Any modulus *)
Lemma word_any B q v : 0 < B -> 0 <= q < 2 ^ B - 1 -> let r := f64_round v in
  gauss_word B q v = if r <? 0 then (if - r <=? q then Some (q + r) else None) else Some (Z.min r (2 ^ B - 1)).
Proof.
  intros HB Hq r. unfold gauss_word, saturate. fold r. destruct (Z.ltb_spec r 0) as [Hr|Hr]; [|rewrite Z.min_comm; reflexivity].
  unfold usub. destruct (Z.leb_spec (- r) q).
  - rewrite Z.min_r by lia. destruct (Z.leb_spec (- r) q); [|lia]. f_equal. lia.
  - destruct (Z.leb_spec (Z.min (2 ^ B - 1) (- r)) q); [lia|reflexivity].
Qed.
Lemma field_any F v : fok F -> let r := f64_round v in let p := fp F in
  gauss_field F v = if r <? 0 then (if - r <=? p then Some ((p + r) mod p) else None) else Some (Z.min r (2 ^ fw F - 1) mod p).
Proof.
  intros Hok r p. pose proof (fp_range F Hok) as H1. unfold gauss_field, saturate. fold r p. destruct (Z.ltb_spec r 0) as [Hr|Hr].
  - unfold usub. destruct (Z.leb_spec (- r) p).
    + rewrite Z.min_r by (unfold p in *; lia). destruct (Z.leb_spec (- r) p); [|lia]. cbn [bind]. rewrite (f_new_correct F Hok) by (unfold p in *; lia).
      f_equal. f_equal. lia.
    + destruct (Z.leb_spec (Z.min (2 ^ fw F - 1) (- r)) p); [unfold p in *; lia|reflexivity].
  - rewrite (f_new_correct F Hok) by lia. rewrite Z.min_comm. reflexivity.
Qed.
