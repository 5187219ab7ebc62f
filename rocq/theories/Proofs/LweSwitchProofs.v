(** Key switching with an LWE key. *)
From Coq Require Import ZArith Znumtheory List Bool Arith Lia Setoid Morphisms.
From Verif Require Import Spec.Basic Spec.Poly Spec.Lattice Spec.Switch Model.Base Model.PowOf2 Model.Field Model.Poly Model.Lwe Model.KeySwitch
  Proofs.Arith Proofs.PowOf2Proofs Proofs.PolyMath Proofs.LweProofs.
Import ListNotations.
Local Open Scope Z_scope.

Local Notation zsum_S := zsum_shift.
Lemma zsum_0 f : zsum f 0 = 0.
Proof. reflexivity. Qed.

Lemma digit_0 base x : digit base x 0 = x mod base.
Proof. unfold digit. cbn [Z.of_nat]. rewrite Z.pow_0_r, Z.div_1_r. reflexivity. Qed.
Lemma digit_S base x j : 0 < base -> digit base x (S j) = digit base (x / base) j.
Proof.
  intros H. unfold digit. rewrite Nat2Z.inj_succ, Z.pow_succ_r by lia. rewrite Z.div_div by (try lia; apply Z.pow_pos_nonneg; lia). reflexivity.
Qed.

Lemma dotz_nil_r a : dotz a [] = 0.
Proof. destruct a; reflexivity. Qed.
Lemma dotz_split base a z : 0 < base -> dotz a z = dotz (map (fun x => x mod base) a) z + base * dotz (map (fun x => x / base) a) z.
Proof.
  intros Hb. revert z. induction a as [|x a IH]; intros [|y z]; cbn [map dotz]; try lia. rewrite (IH z).
  rewrite (Z.div_mod x base) at 1 by lia. ring.
Qed.
Lemma dotz_zero a z : Forall (fun x => x = 0) a -> dotz a z = 0.
Proof. intros H. revert z. induction H as [|x a -> H IH]; intros [|y z]; cbn [dotz]; try reflexivity. rewrite IH. ring. Qed.

(** [Basis::<C>::new] for a power-of-two modulus. *)
Lemma wbasis_new_pow2 B bits j : 0 <= bits -> 0 <= j < B ->
  wbasis_new B bits (2 ^ j) = if (1 <=? bits) && (bits <=? j) then Some (mk_wbasis (2 ^ bits) (Z.to_nat ((j + bits - 1) / bits)) (2 ^ bits - 1) bits) else None.
Proof.
  intros Hb Hj. unfold wbasis_new, leading_zeros. pose proof (pow2_pos j ltac:(lia)).
  assert (Eb : bit_len (2 ^ j) = j + 1).
  { unfold bit_len. destruct (Z.eqb_spec (2 ^ j) 0); [lia|]. rewrite Z.log2_pow2 by lia. reflexivity. }
  rewrite Eb. replace (B - (B - (j + 1))) with (j + 1) by ring.
  rewrite (proj2 (is_pow2_spec (2 ^ j))) by (exists j; lia). unfold usub at 1. destruct (Z.leb_spec 1 (j + 1)); [|lia]. cbn [bind].
  replace (j + 1 - 1) with j by ring. destruct (Z.ltb_spec j bits); cbn [orb].
  { destruct (Z.leb_spec bits j); [lia|]. rewrite andb_false_r. reflexivity. }
  destruct (Z.eqb_spec bits B); [lia|]. cbn [negb assert bind]. unfold udiv.
  destruct (Z.leb_spec bits j); [|lia]. destruct (Z.eqb_spec bits 0).
  { subst. reflexivity. }
  destruct (Z.leb_spec 1 bits); [|lia]. cbn [bind andb]. unfold ushl. destruct (Z.ltb_spec bits B); [|lia]. cbn [bind].
  pose proof (pow2_pos bits ltac:(lia)). assert (2 ^ bits < 2 ^ B) by (apply Z.pow_lt_mono_r; lia).
  rewrite Z.mul_1_l, Z.mod_small by lia. unfold usub. destruct (Z.leb_spec 1 (2 ^ bits)); [|lia]. reflexivity.
Qed.
Lemma wbasis_cover bits j : 1 <= bits -> 0 <= j -> 2 ^ j <= (2 ^ bits) ^ Z.of_nat (Z.to_nat ((j + bits - 1) / bits)).
Proof.
  intros Hb Hj. rewrite Z2Nat.id by (apply Z.div_pos; lia). rewrite <- Z.pow_mul_r by (try lia; apply Z.div_pos; lia).
  apply Z.pow_le_mono_r; [lia|]. pose proof (Z.div_mod (j + bits - 1) bits ltac:(lia)). pose proof (Z.mod_pos_bound (j + bits - 1) bits ltac:(lia)). nia.
Qed.

Section Switch.
Variables B bits j : Z.
Hypothesis Hbits : 1 <= bits <= j.
Hypothesis HjB : j < B.
Let q := 2 ^ j.
Let base := 2 ^ bits.
Variable s : list Z.
Local Notation n := (length s).
Local Notation O := (p2_mops B (q - 1)).

Lemma Oq : modulus_ops q O.
Proof. unfold q. apply mod_pow2. lia. Qed.
Lemma q_pos' : 0 < q.
Proof. apply pow2_pos. lia. Qed.
Lemma base_pos : 0 < base.
Proof. apply pow2_pos. lia. Qed.

(** One row of the key at weight [c]. *)
Definition row_ok (c z : Z) (nz : Z -> Z) (row : list lwe) : Prop :=
  forall v, 1 <= v < base -> exists ct, nth_error row (Z.to_nat (v - 1)) = Some ct /\ lwe_wf q n ct /\
    cong q (phase q s ct) (v * c * z + nz v).
Definition inner_ok (c : Z) (z : list Z) (nz : nat -> Z -> Z) (inner : list (list lwe)) : Prop :=
  length inner = length z /\ forall i row, nth_error inner i = Some row -> row_ok c (nth i z 0) (nz i) row.
Definition sel (nz : Z -> Z) (d : Z) : Z := if d =? 0 then 0 else nz d.

Lemma lks_row_correct ds : forall inner c z nz acc, inner_ok c z nz inner -> length ds = length z -> Forall (fun d => 0 <= d < base) ds -> lwe_wf q n acc ->
  exists acc', lks_row O ds inner acc = Some acc' /\ lwe_wf q n acc' /\
    cong q (phase q s acc') (phase q s acc + c * dotz ds z + zsum (fun i => sel (nz i) (nth i ds 0)) (length ds)).
Proof.
  pose proof q_pos' as Hq. induction ds as [|d ds IH]; intros inner c z nz acc (L & HI) Lz Hd Wa.
  - exists acc. split; [reflexivity|]. split; [exact Wa|]. cbn [length dotz]. rewrite zsum_0. exists 0. ring.
  - destruct z as [|z0 z]; [discriminate Lz|]. destruct inner as [|row inner]; [discriminate L|].
    injection L as L. injection Lz as Lz. inversion Hd as [|? ? Hd0 Hd']; subst.
    pose proof (HI 0%nat row eq_refl) as H0. cbn [nth] in H0.
    assert (HI' : inner_ok c z (fun i => nz (S i)) inner) by (split; [exact L|intros i r Hr; exact (HI (S i) r Hr)]).
    cbn [lks_row length dotz]. rewrite zsum_S. cbn [nth]. unfold sel at 1. destruct (Z.eqb_spec d 0) as [->|Hn].
    + destruct (IH inner c z _ acc HI' Lz Hd' Wa) as (acc' & E & W & P). exists acc'. split; [exact E|]. split; [exact W|].
      eapply cong_trans; [exact P|]. apply cong_of_eq. cbv beta. ring.
    + destruct (H0 d ltac:(lia)) as (ct & Ec & Wc & Pc). unfold usub. destruct (Z.leb_spec 1 d); [|lia]. cbn [bind]. unfold index. rewrite Ec. cbn [bind].
      destruct (lwe_add_inplace_hom q O (modulus_ops_ok q O Oq) n s acc ct Wa Wc eq_refl) as (acc1 & E1 & W1 & P1). rewrite E1. cbn [bind].
      destruct (IH inner c z _ acc1 HI' Lz Hd' W1) as (acc' & E & W & P). exists acc'. split; [exact E|]. split; [exact W|].
      eapply cong_trans; [exact P|]. rewrite P1.
      assert (C1 : cong q ((phase q s acc + phase q s ct) mod q) (phase q s acc + (d * c * z0 + nz 0%nat d))).
      { eapply cong_trans; [apply cong_mod; lia|]. apply cong_add; [apply cong_refl|exact Pc]. }
      rewrite C1. apply cong_of_eq. cbv beta. ring.
Qed.

Definition key_ok (c : Z) (z : list Z) (nz : nat -> nat -> Z -> Z) (key : list (list (list lwe))) : Prop :=
  forall l inner, nth_error key l = Some inner -> inner_ok (c * base ^ Z.of_nat l) z (nz l) inner.
Local Notation wb len := (mk_wbasis base len (base - 1) bits).
Local Notation selsum nz a := (zsum (fun i => sel (nz i) (nth i a 0)) (length a)).

Lemma lks_loop_correct len key : forall c z nz a acc, key_ok c z nz key -> length a = length z -> canonical q a -> lwe_wf q n acc ->
  exists acc', lks_loop B O (wb len) key a acc = Some acc' /\ lwe_wf q n acc' /\
    cong q (phase q s acc') (phase q s acc + c * (dotz a z - base ^ Z.of_nat (length key) * dotz (map (fun x => x / base ^ Z.of_nat (length key)) a) z)
       + selected_noise base (length key) a nz).
Proof.
  pose proof q_pos' as Hq. pose proof base_pos as Hb0. induction key as [|inner key IH]; intros c z nz a acc HK La Ca Wa.
  - exists acc. split; [reflexivity|]. split; [exact Wa|]. cbn [length Z.of_nat]. unfold selected_noise. rewrite zsum_0, Z.pow_0_r.
    replace (map (fun x => x / 1) a) with a by (rewrite <- (map_id a) at 1; apply map_ext; intros; rewrite Z.div_1_r; reflexivity).
    apply cong_of_eq. ring.
  - cbn [lks_loop]. unfold decompose_lsb. cbn [wb_bits wb_mask].
    rewrite (mapM_some (fun x => ushr B x bits) (fun x => x / base)).
    2:{ intros x _. unfold ushr. destruct (Z.ltb_spec bits B); [reflexivity|lia]. }
    cbn [bind]. replace (map (fun x => Z.land x (base - 1)) a) with (map (fun x => x mod base) a)
      by (apply map_ext; intros; unfold base; rewrite land_mask by lia; reflexivity).
    pose proof (HK 0%nat inner eq_refl) as H0. cbn [Z.of_nat] in H0. rewrite Z.pow_0_r, Z.mul_1_r in H0.
    destruct (lks_row_correct (map (fun x => x mod base) a) inner c z (nz 0%nat) acc H0) as (acc1 & E1 & W1 & P1).
    { rewrite map_length. exact La. }
    { apply Forall_forall. intros d Hd. apply in_map_iff in Hd. destruct Hd as (x & <- & _). apply Z.mod_pos_bound. exact Hb0. }
    { exact Wa. }
    rewrite E1. cbn [bind].
    destruct (IH (c * base) z (fun l => nz (S l)) (map (fun x => x / base) a) acc1) as (acc' & E & W & P).
    { intros l inn Hl. pose proof (HK (S l) inn Hl) as H1. rewrite Nat2Z.inj_succ, Z.pow_succ_r in H1 by lia.
      replace (c * base * base ^ Z.of_nat l) with (c * (base * base ^ Z.of_nat l)) by ring. exact H1. }
    { rewrite map_length. exact La. }
    { apply Forall_forall. intros y Hy. apply in_map_iff in Hy. destruct Hy as (x & <- & Hx). unfold canonical in Ca. rewrite Forall_forall in Ca. specialize (Ca x Hx).
      split; [apply Z.div_pos; lia|]. apply Z.div_lt_upper_bound; nia. }
    { exact W1. }
    exists acc'. split; [exact E|]. split; [exact W|]. eapply cong_trans; [exact P|]. rewrite P1.
    apply cong_of_eq. cbn [length]. rewrite Nat2Z.inj_succ, Z.pow_succ_r by lia. rewrite (dotz_split base a z Hb0). rewrite map_map.
    unfold selected_noise. rewrite zsum_S. rewrite !map_length. cbv beta.
    assert (Em : map (fun x => x / (base * base ^ Z.of_nat (length key))) a = map (fun x => x / base / base ^ Z.of_nat (length key)) a).
    { apply map_ext. intros x. rewrite Z.div_div by (try lia; apply Z.pow_pos_nonneg; lia). reflexivity. }
    rewrite Em.
    assert (E0 : zsum (fun i => let d := digit base (nth i a 0) 0 in if d =? 0 then 0 else nz 0%nat i d) (length a)
               = zsum (fun i => sel (nz 0%nat i) (nth i (map (fun x => x mod base) a) 0)) (length a)).
    { apply zsum_ext. intros i Hi. cbv zeta. rewrite digit_0.
      rewrite (nth_indep (map (fun x => x mod base) a) 0 (0 mod base)) by (rewrite map_length; lia). rewrite (map_nth (fun x => x mod base)). reflexivity. }
    cbv zeta in E0. rewrite E0.
    assert (E2 : zsum (fun l => zsum (fun i => let d := digit base (nth i a 0) (S l) in if d =? 0 then 0 else nz (S l) i d) (length a)) (length key)
               = zsum (fun l => zsum (fun i => let d := digit base (nth i (map (fun x => x / base) a) 0) l in if d =? 0 then 0 else nz (S l) i d) (length a)) (length key)).
    { apply zsum_ext. intros l Hl. apply zsum_ext. intros i Hi. cbv zeta. rewrite digit_S by exact Hb0.
      rewrite (nth_indep (map (fun x => x / base) a) 0 (0 / base)) by (rewrite map_length; lia). rewrite (map_nth (fun x => x / base)). reflexivity. }
    cbv zeta in E2. rewrite E2. ring.
Qed.

Lemma lks_key_switch_correct len z noise key ct :
  2 ^ j <= base ^ Z.of_nat len -> lwe_switch_key q s base len z noise key -> lwe_wf q (length z) ct ->
  exists y, lks_key_switch B (mk_lwe_ks_key n (q - 1) (wb len) key) ct = Some y /\ lwe_wf q n y /\
    phase q s y = (phase q z ct - selected_noise base len (la ct) noise) mod q.
Proof.
  intros Hcov (Lk & HK) (La & Ca & Bb). pose proof q_pos' as Hq. unfold lks_key_switch. cbn [lk_mask lk_basis lk_key lk_dim].
  assert (W0 : lwe_wf q n (mk_lwe (repeat 0 n) 0)).
  { split; [apply repeat_length|]. cbn [la lb]. split; [|lia]. apply Forall_forall. intros x Hx. apply repeat_spec in Hx. lia. }
  destruct (lks_loop_correct len key 1 z noise (la ct) (mk_lwe (repeat 0 n) 0)) as (acc & E & W & P).
  { intros l inner Hl. destruct (HK l inner Hl) as (L & HR). split; [exact L|]. intros i row Hr. rewrite Z.mul_1_l. exact (HR i row Hr). }
  { exact La. }
  { exact Ca. }
  { exact W0. }
  rewrite E. cbn [bind].
  destruct (lwe_neg_hom q O (modulus_ops_ok q O Oq) n s acc W eq_refl) as (y & E1 & (Wl & Wc & Wb) & P1). rewrite E1. cbn [bind].
  eexists. split; [reflexivity|]. cbn [la lb]. unfold q. rewrite (proj1 (proj2 (p2_ops_correct B j _ _ ltac:(lia)))). fold q.
  split; [split; [exact Wl|]; split; [exact Wc|]; apply Z.mod_pos_bound; exact Hq|].
  rewrite Lk in P.
  assert (Ez : dotz (map (fun x => x / base ^ Z.of_nat len) (la ct)) z = 0).
  { apply dotz_zero. apply Forall_forall. intros y0 Hy. apply in_map_iff in Hy. destruct Hy as (x & <- & Hx).
    unfold canonical in Ca. rewrite Forall_forall in Ca. specialize (Ca x Hx). apply Z.div_small. fold q in Hcov. lia. }
  rewrite Ez in P. apply cong_iff; [exact Hq|]. rewrite (phase_cong q z ct Hq). cbn [la lb].
  assert (P2 : cong q (lb y - dotz (la y) s) (- phase q s acc)).
  { rewrite <- (phase_cong q s y Hq). rewrite P1. apply cong_mod. lia. }
  assert (P0 : cong q (phase q s (mk_lwe (repeat 0 n) 0)) 0).
  { rewrite phase_cong by exact Hq. cbn [la lb]. rewrite dotz_zero by (apply Forall_forall; intros x Hx; apply repeat_spec in Hx; exact Hx). apply cong_refl. }
  rewrite P0 in P. rewrite (cong_mod q (lb y + lb ct)) by lia.
  transitivity (lb y - dotz (la y) s + lb ct); [apply cong_of_eq; ring|]. rewrite P2, P.
  apply cong_of_eq. ring.
Qed.
End Switch.

(** Key generation. *)
Section Generate.
Variables B bits j : Z.
Hypothesis Hbits : 1 <= bits <= j.
Hypothesis HjB : j < B.
Let q := 2 ^ j.
Let base := 2 ^ bits.
Variable s : list Z.
Local Notation n := (length s).

Local Lemma q0 : 0 < q.
Proof. apply pow2_pos. lia. Qed.
Local Lemma b1 : 2 <= base.
Proof. unfold base. change 2 with (2 ^ 1) at 1. apply Z.pow_le_mono_r; lia. Qed.
Local Lemma bq : base < 2 ^ B.
Proof. apply Z.pow_lt_mono_r; lia. Qed.

Lemma lks_entries_correct z rnd : forall v, 0 <= v -> v + Z.of_nat (length rnd) < 2 ^ B ->
  Forall (fun ae => length (fst ae) = n /\ canonical q (fst ae)) rnd ->
  exists row, lks_entries B (q - 1) s z v rnd = Some row /\ length row = length rnd /\
    forall m, (m < length rnd)%nat -> exists ct, nth_error row m = Some ct /\ lwe_wf q n ct /\
      cong q (phase q s ct) ((v + Z.of_nat m) * z + snd (nth m rnd ([], 0))).
Proof.
  pose proof q0 as Hq. induction rnd as [|[a e] rnd IH]; intros v Hv Ho Hr.
  - exists []. split; [reflexivity|]. split; [reflexivity|]. intros m Hm. cbn in Hm. lia.
  - inversion Hr as [|? ? (La & Ca) Hr']; subst. cbn [fst] in *. cbn [length] in Ho.
    destruct (IH (v + 1) ltac:(lia) ltac:(lia) Hr') as (row & E & L & H). cbn [lks_entries]. unfold lwe_zero_sample.
    replace (firstn n a) with a by (rewrite <- La; symmetry; apply firstn_all). unfold q. rewrite (p2_dot_correct B j ltac:(lia)) by exact La. cbn [bind la lb]. fold q.
    rewrite uadd_some by lia. cbn [bind]. rewrite E. cbn [bind]. eexists. split; [reflexivity|]. split; [cbn [length]; lia|].
    intros [|m] Hm.
    + eexists. split; [reflexivity|]. unfold q. rewrite !(proj1 (proj2 (p2_ops_correct B j _ _ ltac:(lia)))).
      rewrite (proj2 (proj2 (proj2 (proj2 (p2_ops_correct B j _ _ ltac:(lia)))))). fold q.
      split; [split; [exact La|]; split; [exact Ca|]; cbn [lb]; apply Z.mod_pos_bound; exact Hq|].
      rewrite phase_cong by exact Hq. cbn [la lb nth snd Z.of_nat].
      rewrite (cong_mod q (_ + _)) by lia. rewrite (cong_mod q (v * z)) by lia. rewrite (cong_mod q (dotz a s mod q + e)) by lia. rewrite (cong_mod q (dotz a s)) by lia.
      apply cong_of_eq. ring.
    + destruct (H m ltac:(cbn in Hm; lia)) as (ct & E1 & W & P). exists ct. split; [exact E1|]. split; [exact W|].
      cbn [nth]. eapply cong_trans; [exact P|]. apply cong_of_eq. rewrite Nat2Z.inj_succ. ring.
Qed.

Lemma lks_inner_correct zs : forall level, length level = length zs ->
  Forall (fun row => Z.of_nat (length row) = base - 1 /\ Forall (fun ae => length (fst ae) = n /\ canonical q (fst ae)) row) level ->
  exists inner, lks_inner B (q - 1) base s zs level = Some inner /\ length inner = length zs /\
    forall i row, nth_error inner i = Some row -> forall v, 1 <= v < base ->
      exists ct, nth_error row (Z.to_nat (v - 1)) = Some ct /\ lwe_wf q n ct /\
        cong q (phase q s ct) (v * nth i zs 0 + snd (nth (Z.to_nat (v - 1)) (nth i level []) ([], 0))).
Proof.
  pose proof b1 as Hb. pose proof bq as Hbq. intros level L. unfold lks_inner. rewrite assert_true by (apply Nat.eqb_eq; lia). cbn [bind].
  revert level L. induction zs as [|z zs IH]; intros [|r level] L Hl; try discriminate L.
  - exists []. split; [reflexivity|]. split; [reflexivity|]. intros [|i] row Hr; discriminate Hr.
  - injection L as L. inversion Hl as [|? ? (Lr & Hr) Hl']; subst. destruct (IH level L Hl') as (inner & E & Li & H). cbn [mapM2].
    unfold usub at 1. destruct (Z.leb_spec 2 base); [|lia]. cbn [bind]. rewrite assert_true by (apply Z.eqb_eq; exact Lr). cbn [bind].
    destruct (lks_entries_correct z r 1 ltac:(lia) ltac:(lia) Hr) as (row & E1 & L1 & H1). rewrite E1. cbn [bind]. rewrite E. cbn [bind].
    eexists. split; [reflexivity|]. split; [cbn [length]; lia|]. intros [|i] row' Hrow v Hv.
    + injection Hrow as <-. destruct (H1 (Z.to_nat (v - 1)) ltac:(lia)) as (ct & E2 & W & P). exists ct. split; [exact E2|]. split; [exact W|].
      cbn [nth]. eapply cong_trans; [exact P|]. apply cong_of_eq. rewrite Z2Nat.id by lia. ring.
    + cbn [nth]. exact (H i row' Hrow v Hv).
Qed.

Lemma lks_levels_correct rnd : forall zs c z, length zs = length z -> (forall i, cong q (nth i zs 0) (c * nth i z 0)) ->
  Forall (fun level => length level = length z /\
    Forall (fun row => Z.of_nat (length row) = base - 1 /\ Forall (fun ae => length (fst ae) = n /\ canonical q (fst ae)) row) level) rnd ->
  exists key, lks_levels B (q - 1) base s zs rnd = Some key /\ length key = length rnd /\
    forall l inner, nth_error key l = Some inner -> length inner = length z /\
      forall i row, nth_error inner i = Some row -> forall v, 1 <= v < base ->
        exists ct, nth_error row (Z.to_nat (v - 1)) = Some ct /\ lwe_wf q n ct /\
          cong q (phase q s ct) (v * (c * base ^ Z.of_nat l) * nth i z 0 + drawn_noise rnd l i v).
Proof.
  pose proof q0 as Hq. induction rnd as [|level rnd IH]; intros zs c z Lz Hz Hr.
  - exists []. split; [reflexivity|]. split; [reflexivity|]. intros [|l] inner Hl; discriminate Hl.
  - inversion Hr as [|? ? (Ll & Hl) Hr']; subst. cbn [lks_levels].
    destruct (lks_inner_correct zs level ltac:(lia) Hl) as (inner & E & Li & H). rewrite E. cbn [bind].
    assert (HN : exists key, lks_levels B (q - 1) base s (match rnd with [] => zs | _ => map (fun z => p2_mul B (q - 1) z base) zs end) rnd = Some key /\ length key = length rnd /\
      forall l inner, nth_error key l = Some inner -> length inner = length z /\
      forall i row, nth_error inner i = Some row -> forall v, 1 <= v < base ->
        exists ct, nth_error row (Z.to_nat (v - 1)) = Some ct /\ lwe_wf q n ct /\
          cong q (phase q s ct) (v * (c * base * base ^ Z.of_nat l) * nth i z 0 + drawn_noise rnd l i v)).
    { destruct rnd as [|lv rnd].
      - exists []. split; [reflexivity|]. split; [reflexivity|]. intros [|l] inn Hn; discriminate Hn.
      - apply IH; [rewrite map_length; exact Lz| |exact Hr']. intros i.
        assert (Em : nth i (map (fun z => p2_mul B (q - 1) z base) zs) 0 = (nth i zs 0 * base) mod q).
        { transitivity (nth i (map (fun z => (z * base) mod q) zs) 0).
          - f_equal. apply map_ext. intros x. apply (p2_ops_correct B j x base ltac:(lia)).
          - replace 0 with ((0 * base) mod q) at 1 by (rewrite Z.mul_0_l; apply Z.mod_0_l; lia). apply (map_nth (fun z => (z * base) mod q)). }
        rewrite Em, cong_mod by lia. rewrite (Hz i). apply cong_of_eq. ring. }
    destruct HN as (key & E1 & L1 & H1). rewrite E1. cbn [bind]. eexists. split; [reflexivity|]. split; [cbn [length]; lia|].
    intros [|l] inn Hn.
    + injection Hn as <-. split; [lia|]. intros i row Hrow v Hv. destruct (H i row Hrow v Hv) as (ct & E2 & W & P). exists ct. split; [exact E2|]. split; [exact W|].
      eapply cong_trans; [exact P|]. unfold drawn_noise. cbn [nth Z.of_nat]. rewrite (Hz i), Z.pow_0_r. apply cong_of_eq. ring.
    + destruct (H1 l inn Hn) as (L2 & H2). split; [exact L2|]. intros i row Hrow v Hv. destruct (H2 i row Hrow v Hv) as (ct & E2 & W & P). exists ct. split; [exact E2|]. split; [exact W|].
      eapply cong_trans; [exact P|]. unfold drawn_noise. cbn [nth]. apply cong_of_eq. rewrite Nat2Z.inj_succ, Z.pow_succ_r by lia. ring.
Qed.

Lemma lks_generate_correct p len z rnd : 2 < p -> len = Z.to_nat ((j + bits - 1) / bits) -> Forall (fun x => x = 0 \/ x = 1 \/ x = -1) z ->
  switch_draws q n base len (length z) rnd ->
  exists key, lks_generate B q bits s (map (fun x => x mod p) z) rnd = Some (mk_lwe_ks_key n (q - 1) (mk_wbasis base len (base - 1) bits) key) /\
    forall noise, (forall l i v, cong q (noise l i v) (drawn_noise rnd l i v)) -> lwe_switch_key q s base len z noise key.
Proof.
  intros Hp El Hz (Lr & Hr). pose proof q0 as Hq. unfold lks_generate.
  assert (Em : p2_new q = Some (q - 1)) by (apply p2_new_correct; [lia|exists j; unfold q; lia]). rewrite Em; clear Em. cbn [bind]. change (wbasis_new B bits q) with (wbasis_new B bits (2 ^ j)). rewrite wbasis_new_pow2 by lia.
  destruct (Z.leb_spec 1 bits); [|lia]. destruct (Z.leb_spec bits j); [|lia]. cbn [andb bind]. rewrite <- El. fold base.
  unfold usub at 1. destruct (Z.leb_spec 1 q); [|lia]. cbn [bind wb_len wb_basis]. rewrite assert_true by (apply Nat.eqb_eq; exact Lr). cbn [bind].
  destruct (lks_levels_correct rnd (map (to_word (q - 1)) (map (fun x => x mod p) z)) 1 z) as (key & E & L & HL).
  { rewrite !map_length. reflexivity. }
  { clear -Hz Hp Hq. revert Hz. induction 1 as [|x z Hx Hz IH]; intros [|i]; cbn [map nth]; try apply cong_refl; [|apply IH].
    unfold to_word. destruct Hx as [-> | [-> | ->]].
    - rewrite Z.mod_0_l by lia. cbn [Z.eqb]. apply cong_refl.
    - rewrite Z.mod_1_l by lia. cbn [Z.eqb Pos.eqb]. apply cong_refl.
    - assert (Em : -1 mod p = p - 1) by (symmetry; apply (Z.mod_unique _ _ (-1)); lia). rewrite Em.
      replace (p - 1 =? 1) with false by (symmetry; apply Z.eqb_neq; lia). replace (p - 1 =? 0) with false by (symmetry; apply Z.eqb_neq; lia).
      exists 1. ring. }
  { exact Hr. }
  rewrite E. cbn [bind]. exists key. split; [reflexivity|]. intros noise Hn. split; [lia|]. intros l inner Hl. destruct (HL l inner Hl) as (Li & HR).
  split; [exact Li|]. intros i row Hrow v Hv. destruct (HR i row Hrow v Hv) as (ct & E1 & W & P). exists ct. split; [exact E1|]. split; [exact W|].
  eapply cong_trans; [exact P|]. rewrite (Hn l i v). apply cong_of_eq. ring.
Qed.
End Generate.
