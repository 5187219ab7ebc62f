(** Random samplers: exact counts. *)
From Coq Require Import ZArith List Bool Arith Lia.
From Verif Require Import Spec.Basic Spec.Count Model.Base Model.Field Model.Sample.
From Verif Require Import Proofs.Arith Proofs.FieldProofs.
Import ListNotations.
Local Open Scope Z_scope.

(** * Counting *)
Lemma count_app {A} (P : A -> bool) l l' : count P (l ++ l') = count P l + count P l'.
Proof. unfold count. rewrite filter_app, app_length. lia. Qed.
Lemma count_map {A B} (f : A -> B) P l : count P (map f l) = count (fun x => P (f x)) l.
Proof.
  unfold count. f_equal. induction l as [|x l IH]; [reflexivity|]. cbn [map filter]. destruct (P (f x)); cbn [length]; congruence.
Qed.
Lemma count_ext_in {A} (P Q : A -> bool) l : (forall x, In x l -> P x = Q x) -> count P l = count Q l.
Proof. intros H. unfold count. rewrite (filter_ext_in _ _ _ H). reflexivity. Qed.
Lemma count_nil {A} (P : A -> bool) : count P [] = 0.
Proof. reflexivity. Qed.
Lemma count_cons {A} (P : A -> bool) x l : count P (x :: l) = (if P x then 1 else 0) + count P l.
Proof. unfold count. cbn [filter]. destruct (P x); cbn [length]; lia. Qed.
Lemma count_false {A} (l : list A) : count (fun _ => false) l = 0.
Proof. induction l as [|x l IH]; [reflexivity|]. rewrite count_cons, IH. reflexivity. Qed.
Lemma count_true {A} (l : list A) : count (fun _ => true) l = Z.of_nat (length l).
Proof. induction l as [|x l IH]; [reflexivity|]. rewrite count_cons, IH. cbn [length]. lia. Qed.
Lemma count_nonneg {A} (P : A -> bool) l : 0 <= count P l.
Proof. unfold count. lia. Qed.
Lemma count_and_const {A} (b : bool) (P : A -> bool) l : count (fun x => b && P x) l = if b then count P l else 0.
Proof. destruct b; [reflexivity|apply count_false]. Qed.

Lemma range_length n : 0 <= n -> length (range n) = Z.to_nat n.
Proof. intros. unfold range. rewrite map_length, seq_length. reflexivity. Qed.
Lemma in_range n x : In x (range n) <-> 0 <= x < n.
Proof.
  unfold range. rewrite in_map_iff. split.
  - intros (i & <- & Hi). apply in_seq in Hi. lia.
  - intros H. exists (Z.to_nat x). split; [lia|]. apply in_seq. lia.
Qed.
Lemma range_add a b : 0 <= a -> 0 <= b -> range (a + b) = range a ++ map (fun x => a + x) (range b).
Proof.
  intros Ha Hb. unfold range. rewrite Z2Nat.inj_add, seq_app, map_app by lia. f_equal.
  cbn [Nat.add]. rewrite map_map. rewrite <- (Nat.add_0_r (Z.to_nat a)) at 1.
  assert (G : forall n s c, map Z.of_nat (seq (c + s) n) = map (fun x => Z.of_nat c + Z.of_nat x) (seq s n)).
  { induction n as [|n IH]; intros s c; [reflexivity|]. cbn [seq map]. f_equal; [lia|]. rewrite <- IH. f_equal. f_equal. lia. }
  rewrite G. apply map_ext. intros. lia.
Qed.

Lemma count_split a b (P Q : Z -> bool) : 0 < a -> 0 <= b ->
  count (fun r => P (r mod a) && Q (r / a)) (range (a * b)) = count P (range a) * count Q (range b).
Proof.
  intros Ha Hb. revert b Hb. apply (natlike_ind (fun b => count (fun r => P (r mod a) && Q (r / a)) (range (a * b)) = count P (range a) * count Q (range b))).
  - rewrite Z.mul_0_r. change (range 0) with (@nil Z). rewrite !count_nil. ring.
  - intros b Hb IH. rewrite Z.mul_succ_r, range_add by nia. unfold Z.succ. rewrite (range_add b 1) by lia.
    change (range 1) with [0]. cbn [map]. rewrite !count_app, IH, count_map, count_cons, count_nil.
    rewrite (count_ext_in (fun x => P ((a * b + x) mod a) && Q ((a * b + x) / a)) (fun x => Q b && P x)).
    + rewrite count_and_const. rewrite (Z.add_0_r b). destruct (Q b); ring.
    + intros x Hx. apply in_range in Hx. rewrite (Z.mul_comm a b), Z.add_comm, Z.mod_add, Z.div_add by lia.
      rewrite Z.mod_small, Z.div_small by lia. apply andb_comm.
Qed.

Lemma count_interval n a len (P : Z -> bool) : 0 <= a -> 0 <= len -> a + len <= n ->
  (forall x, 0 <= x < n -> P x = true <-> a <= x < a + len) -> count P (range n) = len.
Proof.
  intros Ha Hl Hn H. replace n with (a + (len + (n - a - len))) by lia. rewrite range_add, range_add by lia.
  rewrite map_app, !count_app, !count_map.
  rewrite (count_ext_in P (fun _ => false) (range a)), count_false.
  2:{ intros x Hx. apply in_range in Hx. destruct (P x) eqn:E; [|reflexivity]. apply H in E; lia. }
  rewrite (count_ext_in (fun x => P (a + x)) (fun _ => true) (range len)), count_true, range_length by
    (try lia; intros x Hx; apply in_range in Hx; apply H; lia).
  rewrite (count_ext_in (fun x => P (a + (len + x))) (fun _ => false)), count_false; [lia|].
  intros x Hx. apply in_range in Hx.
  match goal with |- ?b = false => destruct b eqn:E; [|reflexivity] end. apply H in E; lia.
Qed.

Lemma tuples_step k n (P : Z -> bool) (Q : list Z -> bool) :
  count (fun l => match l with x :: l' => P x && Q l' | [] => false end) (tuples (S k) n) = count P (range n) * count Q (tuples k n).
Proof.
  cbn [tuples]. generalize (tuples k n). intros T. induction (range n) as [|x r IH]; [reflexivity|].
  cbn [flat_map]. rewrite count_app, IH, count_map, count_cons, count_and_const. destruct (P x); ring.
Qed.
Lemma tuples_in k n l : In l (tuples k n) <-> length l = k /\ Forall (fun x => 0 <= x < n) l.
Proof.
  revert l. induction k as [|k IH]; intros l; cbn [tuples].
  - split; [intros [<-|[]]; split; [reflexivity|constructor]|]. intros (H & _). destruct l; [left; reflexivity|discriminate].
  - rewrite in_flat_map. split.
    + intros (x & Hx & Hl). apply in_map_iff in Hl. destruct Hl as (l' & <- & Hl). apply IH in Hl. apply in_range in Hx.
      cbn [length]. split; [lia|]. constructor; [exact Hx|apply Hl].
    + intros (H1 & H2). destruct l as [|x l]; [discriminate|]. inversion H2; subst. exists x. split; [apply in_range; assumption|].
      apply in_map. apply IH. cbn in H1. split; [lia|assumption].
Qed.

(** * The uniform sampler *)
Section Uniform.
Variable F : field.
Hypothesis Hok : fok F.
Notation p := (fp F).
Notation S := (sample_width F).
Notation R := (2 ^ S).

Lemma p_small : 2 <= p /\ 4 * p < R /\ 0 < S /\ p < 2 ^ fw F.
Proof.
  pose proof (fp_range F Hok) as (H1 & H2). pose proof (B4 F Hok) as H4.
  assert (2 ^ fw F <= R) by (apply Z.pow_le_mono_r; unfold sample_width; destruct (fw F <=? 32) eqn:E; lia).
  repeat split; try lia. unfold sample_width; destruct (fw F <=? 32) eqn:E; lia.
Qed.

Lemma thresh_ok : thresh F = Some (R mod p).
Proof.
  pose proof p_small as (H1 & H2 & H3 & H4). unfold thresh, urem, wsub. destruct (Z.eqb_spec p 0) as [E|_]; [lia|].
  f_equal. replace ((0 - p) mod R) with (R + -1 * p).
  - apply Z.mod_add. lia.
  - replace (0 - p) with ((R + -1 * p) + -1 * R) by ring. rewrite Z.mod_add, Z.mod_small by lia. reflexivity.
Qed.

Lemma try_ok r : 0 <= r < R ->
  uniform_try F (R mod p) r = Some (if R mod p <=? (r * p) mod R then Some ((r * p) / R) else None).
Proof.
  intros Hr. pose proof p_small as (H1 & H2 & H3 & H4). unfold uniform_try, widening_mul.
  destruct (R mod p <=? (r * p) mod R) eqn:E; [|reflexivity].
  assert (0 <= r * p / R < p). { split; [apply Z.div_pos; nia|]. apply Z.div_lt_upper_bound; nia. }
  unfold ucast. rewrite Z.mod_small by lia. unfold f_new. destruct (Z.ltb_spec (r * p / R) p); [reflexivity|lia].
Qed.

Lemma try_count v : 0 <= v < p ->
  count (fun r => match uniform_try F (R mod p) r with Some (Some x) => x =? v | _ => false end) (range R) = R / p.
Proof.
  intros Hv. pose proof p_small as (H1 & H2 & H3 & H4).
  pose proof (Z.div_mod R p ltac:(lia)) as HR. pose proof (Z.mod_pos_bound R p ltac:(lia)) as Hm.
  set (t := R mod p) in *. set (Q := R / p) in *.
  assert (HQ : 0 <= Q) by (apply Z.div_pos; lia).
  pose proof (Z.div_mod (v * R + t + p - 1) p ltac:(lia)) as Ha. pose proof (Z.mod_pos_bound (v * R + t + p - 1) p ltac:(lia)) as Hb.
  set (a := (v * R + t + p - 1) / p) in *. set (e := (v * R + t + p - 1) mod p) in *.
  assert (K : forall x, a <= x < a + Q <-> v * R + t <= x * p < v * R + R).
  { intros x. split; [intros []|intros []]; split; nia. }
  assert (A0 : 0 <= a) by (apply Z.div_pos; nia).
  assert (AQ : a + Q <= R).
  { assert (HvR : v * R <= (p - 1) * R) by nia. nia. }
  apply count_interval with (a := a); [exact A0|exact HQ|exact AQ|].
  intros x Hx. rewrite try_ok by exact Hx. fold t. rewrite (K x).
  pose proof (Z.div_mod (x * p) R ltac:(lia)) as Hd. pose proof (Z.mod_pos_bound (x * p) R ltac:(lia)) as He.
  set (hi := x * p / R) in *. set (lo := (x * p) mod R) in *.
  destruct (Z.leb_spec t lo) as [L|L].
  - rewrite Z.eqb_eq. split; [intros E; rewrite E in Hd; lia|]. intros []. nia.
  - split; [discriminate|]. intros []. assert (hi = v) by nia. subst v. lia.
Qed.

Lemma try_accepts :
  count (fun r => match uniform_try F (R mod p) r with Some (Some _) => true | _ => false end) (range R) = p * (R / p).
Proof.
  pose proof p_small as (H1 & H2 & H3 & H4).
  assert (G : forall l n, 0 <= n -> Forall (fun r => 0 <= r < R) l ->
    count (fun r => match uniform_try F (R mod p) r with Some (Some x) => x <? n | _ => false end) l =
    fold_right Z.add 0 (map (fun v => count (fun r => match uniform_try F (R mod p) r with Some (Some x) => x =? v | _ => false end) l) (range n))).
  { intros l n Hn Hl. revert n Hn. apply (natlike_ind (fun n => count (fun r => match uniform_try F (R mod p) r with Some (Some x) => x <? n | _ => false end) l =
    fold_right Z.add 0 (map (fun v => count (fun r => match uniform_try F (R mod p) r with Some (Some x) => x =? v | _ => false end) l) (range n)))).
    - change (range 0) with (@nil Z). cbn [map fold_right]. rewrite (count_ext_in _ (fun _ => false)), count_false; [reflexivity|].
      intros r Hr. rewrite Forall_forall in Hl. rewrite try_ok by (apply Hl; exact Hr).
      destruct (_ <=? _); [|reflexivity]. apply Z.ltb_ge. apply Z.div_pos; [|lia]. specialize (Hl r Hr). cbn in Hl. nia.
    - intros n Hn IH. unfold Z.succ. rewrite range_add by lia. change (range 1) with [0]. cbn [map]. rewrite map_app, fold_right_app.
      cbn [map fold_right].
      assert (FA : forall xs c, fold_right Z.add c xs = fold_right Z.add 0 xs + c) by (induction xs; intros; cbn; [lia|rewrite IHxs; lia]).
      rewrite FA, <- IH, !Z.add_0_r. clear. induction l as [|r l IHl]; [reflexivity|]. rewrite !count_cons, IHl.
      destruct (uniform_try F (R mod p) r) as [[x|]|]; [|lia|lia].
      destruct (Z.ltb_spec x (n + 1)), (Z.ltb_spec x n), (Z.eqb_spec x n); lia. }
  assert (FR : Forall (fun r => 0 <= r < R) (range R)) by (apply Forall_forall; intros r Hr; apply in_range in Hr; exact Hr).
  specialize (G (range R) p ltac:(lia) FR).
  rewrite (count_ext_in _ (fun r => match uniform_try F (R mod p) r with Some (Some x) => x <? p | _ => false end)).
  - rewrite G. rewrite (map_ext_in _ (fun _ => R / p)).
    + assert (C : forall (l : list Z), fold_right Z.add 0 (map (fun _ => R / p) l) = Z.of_nat (length l) * (R / p)) by (induction l; cbn [map fold_right length]; lia).
      rewrite C, range_length by lia. rewrite Z2Nat.id by lia. reflexivity.
    + intros v Hv. apply try_count. apply in_range. exact Hv.
  - intros r Hr. apply in_range in Hr. rewrite try_ok by exact Hr. destruct (_ <=? _); [|reflexivity].
    symmetry. apply Z.ltb_lt. apply Z.div_lt_upper_bound; nia.
Qed.

Lemma loop_ok rs : Forall (fun r => 0 <= r < R) rs ->
  uniform_sample F rs =
  match find (fun r => R mod p <=? (r * p) mod R) rs with Some r => Some (r * p / R) | None => None end.
Proof.
  intros H. unfold uniform_sample. rewrite thresh_ok. cbn [bind]. induction H as [|r rs Hr H IH]; [reflexivity|].
  cbn [uniform_loop find]. rewrite try_ok by exact Hr. cbn [bind].
  destruct (R mod p <=? (r * p) mod R); [reflexivity|exact IH].
Qed.

Lemma count_or {A} (P Q : A -> bool) l : (forall x, In x l -> P x = true -> Q x = true -> False) ->
  count (fun x => P x || Q x) l = count P l + count Q l.
Proof.
  induction l as [|x l IH]; intros H; [reflexivity|]. rewrite !count_cons, IH by (intros; eapply H; [right|..]; eassumption).
  specialize (H x (or_introl eq_refl)). destruct (P x), (Q x); cbn [orb]; try lia; exfalso; apply H; reflexivity.
Qed.

Lemma sample_fair T v v' k : T = R -> 0 <= v < p -> 0 <= v' < p ->
  count (fun rs => match uniform_sample F rs with Some x => x =? v | None => false end) (tuples k T) =
  count (fun rs => match uniform_sample F rs with Some x => x =? v' | None => false end) (tuples k T).
Proof.
  intros ET Hv Hv'. unfold uniform_sample. rewrite thresh_ok. cbn [bind]. set (t := R mod p).
  enough (G : forall w, 0 <= w < p -> exists c, forall k,
    count (fun rs => match uniform_loop F t rs with Some x => x =? w | None => false end) (tuples (Datatypes.S k) T) =
    R / p * Z.of_nat (length (tuples k T)) + c * count (fun rs => match uniform_loop F t rs with Some x => x =? w | None => false end) (tuples k T)
    /\ c = count (fun r => match uniform_try F t r with Some None => true | _ => false end) (range T)).
  { destruct (G v Hv) as (c & G1). destruct (G v' Hv') as (c' & G2). induction k as [|k IH]; [reflexivity|].
    destruct (G1 k) as [-> ->]. destruct (G2 k) as [-> ->]. rewrite IH. reflexivity. }
  intros w Hw. eexists. intros k'. split; [|reflexivity].
  set (Sw := fun rs => match uniform_loop F t rs with Some x => x =? w | None => false end).
  rewrite (count_ext_in Sw (fun l =>
    (fun l => match l with r :: l' => (fun r => match uniform_try F t r with Some (Some x) => x =? w | _ => false end) r && (fun _ => true) l' | [] => false end) l ||
    (fun l => match l with r :: l' => (fun r => match uniform_try F t r with Some None => true | _ => false end) r && Sw l' | [] => false end) l)).
  - rewrite count_or.
    + rewrite (tuples_step k' T (fun r => match uniform_try F t r with Some (Some x) => x =? w | _ => false end) (fun _ => true)).
      rewrite (tuples_step k' T (fun r => match uniform_try F t r with Some None => true | _ => false end) Sw).
      rewrite count_true. f_equal. f_equal. rewrite ET. apply try_count. exact Hw.
    + intros [|r l] _; [discriminate|]. cbn beta iota. destruct (uniform_try F t r) as [[x|]|]; cbn [andb]; discriminate.
  - intros [|r l] _; [reflexivity|]. unfold Sw. cbn [uniform_loop]. destruct (uniform_try F t r) as [[x|]|]; cbn [bind andb orb].
    + rewrite andb_true_r, orb_false_r. reflexivity.
    + reflexivity.
    + reflexivity.
Qed.
End Uniform.

(** * The vector samplers *)
Lemma returns_spec o v : returns o v = true <-> o = Some v.
Proof.
  unfold returns. destruct o as [l|]; [|split; discriminate]. destruct (list_eq_dec Z.eq_dec l v); split; congruence.
Qed.
Lemma bool_iff (b c : bool) : (b = true <-> c = true) -> b = c.
Proof. destruct b, c; intros [H1 H2]; try reflexivity; [symmetry; apply H1; reflexivity|apply H2; reflexivity]. Qed.

Lemma app_inv_len {A} (a b c d : list A) : a ++ b = c ++ d -> length a = length c -> a = c /\ b = d.
Proof.
  revert c. induction a as [|x a IH]; intros [|y c] H L; try discriminate; [split; [reflexivity|exact H]|].
  cbn in H. injection H as -> H. injection L as L. destruct (IH c H L) as [-> ->]. split; reflexivity.
Qed.

Section Symbols.
Variable w : Z.
Variable s : list Z.
Hypothesis Hw : 1 <= w < 32.
Hypothesis Hs : Z.of_nat (length s) = 2 ^ w.

Definition sym (d : Z) : Z := nth (Z.to_nat d) s 0.
Fixpoint fillv (m : nat) (r : Z) : list Z :=
  match m with O => [] | S m' => sym (r mod 2 ^ w) :: fillv m' (r / 2 ^ w) end.

Lemma fill_eq m : forall r, 0 <= r -> fill w s m r = Some (fillv m r).
Proof.
  induction m as [|m IH]; intros r Hr; [reflexivity|]. cbn [fill fillv].
  replace (2 ^ w - 1) with (Z.ones w) by (rewrite Z.ones_equiv; lia). rewrite Z.land_ones by lia.
  pose proof (Z.mod_pos_bound r (2 ^ w) ltac:(apply Z.pow_pos_nonneg; lia)).
  unfold index. rewrite (nth_error_nth' s 0) by lia. unfold ushr. destruct (Z.ltb_spec w 32); [|lia].
  cbn [bind]. rewrite IH by (apply Z.div_pos; [lia|apply Z.pow_pos_nonneg; lia]). reflexivity.
Qed.
Lemma fillv_length m : forall r, length (fillv m r) = m.
Proof. induction m as [|m IH]; intros; cbn [fillv length]; [reflexivity|]. rewrite IH. reflexivity. Qed.
Lemma sym_in d : 0 <= d < 2 ^ w -> In (sym d) s.
Proof. intros. apply nth_In. lia. Qed.
Lemma fillv_in m : forall r, 0 <= r -> Forall (fun x => In x s) (fillv m r).
Proof.
  induction m as [|m IH]; intros r Hr; cbn [fillv]; constructor.
  - apply sym_in. apply Z.mod_pos_bound. apply Z.pow_pos_nonneg; lia.
  - apply IH. apply Z.div_pos; [lia|apply Z.pow_pos_nonneg; lia].
Qed.

Lemma count_sym x : count (fun d => sym d =? x) (range (2 ^ w)) = count (fun y => y =? x) s.
Proof.
  rewrite <- Hs. unfold range. rewrite Nat2Z.id, count_map.
  rewrite (count_ext_in _ (fun i => nth i s 0 =? x)) by (intros; unfold sym; rewrite Nat2Z.id; reflexivity).
  clear Hs. induction s as [|y t IH]; [reflexivity|]. cbn [length seq]. rewrite count_cons, <- seq_shift, count_map, count_cons.
  cbn [nth]. rewrite <- IH. reflexivity.
Qed.

Definition wt (x : Z) : Z := count (fun y => y =? x) s.

Lemma count_fill v : forall K, 0 <= K ->
  count (fun r => returns (Some (fillv (length v) r)) v) (range (2 ^ (w * Z.of_nat (length v)) * K)) = weight_of wt v * K.
Proof.
  induction v as [|x v IH]; intros K HK.
  - cbn [length fillv weight_of fold_right]. rewrite Z.mul_0_r. change (2 ^ 0) with 1. rewrite (count_ext_in _ (fun _ => true)) by reflexivity.
    rewrite count_true, range_length by lia. lia.
  - cbn [length fillv weight_of fold_right].
    rewrite (count_ext_in _ (fun r => (fun d => sym d =? x) (r mod 2 ^ w) && (fun r => returns (Some (fillv (length v) r)) v) (r / 2 ^ w))).
    + replace (2 ^ (w * Z.of_nat (S (length v))) * K) with (2 ^ w * (2 ^ (w * Z.of_nat (length v)) * K)).
      2:{ rewrite Z.mul_assoc, <- Z.pow_add_r by lia. f_equal. f_equal. lia. }
      etransitivity; [apply (count_split (2 ^ w) (2 ^ (w * Z.of_nat (length v)) * K) (fun d => sym d =? x) (fun r => returns (Some (fillv (length v) r)) v))|].
      * apply Z.pow_pos_nonneg; lia.
      * apply Z.mul_nonneg_nonneg; [|exact HK]. apply Z.pow_nonneg. lia.
      * rewrite IH by exact HK. rewrite count_sym. fold (wt x). unfold weight_of. ring.
    + intros r _. apply bool_iff. rewrite andb_true_iff, Z.eqb_eq, !returns_spec. split.
      * intros H. injection H as H1 H2. split; congruence.
      * intros [H1 H2]. congruence.
Qed.

Section Vec.
Variable per : nat.
Hypothesis Hper : (0 < per)%nat.
Hypothesis Hfit : w * Z.of_nat per <= 32.

Fixpoint chunksv (c : nat) (words : nat -> Z) : list Z :=
  match c with O => [] | S c' => fillv per (words O) ++ chunksv c' (fun i => words (S i)) end.

Lemma chunks_eq c : forall words, (forall i, 0 <= words i) -> fill_chunks w s per c words = Some (chunksv c words).
Proof.
  induction c as [|c IH]; intros words H; [reflexivity|]. cbn [fill_chunks chunksv].
  rewrite fill_eq by apply H. cbn [bind]. rewrite IH by (intros; apply H). reflexivity.
Qed.
Lemma chunksv_length c : forall words, length (chunksv c words) = (c * per)%nat.
Proof. induction c as [|c IH]; intros; cbn [chunksv]; [reflexivity|]. rewrite app_length, fillv_length, IH. lia. Qed.
Lemma chunksv_in c : forall words, (forall i, 0 <= words i) -> Forall (fun x => In x s) (chunksv c words).
Proof. induction c as [|c IH]; intros words H; cbn [chunksv]; [constructor|]. apply Forall_app; split; [apply fillv_in; apply H|apply IH; intros; apply H]. Qed.

Definition samplev (len : nat) (words : nat -> Z) : list Z :=
  chunksv (len / per) words ++ fillv (len mod per) (words (len / per)%nat).

Lemma symbols_eq len words : (forall i, 0 <= words i) -> sample_symbols w s per len words = Some (samplev len words).
Proof. intros H. unfold sample_symbols. rewrite chunks_eq by exact H. cbn [bind]. rewrite fill_eq by apply H. reflexivity. Qed.
Lemma samplev_length len words : length (samplev len words) = len.
Proof.
  unfold samplev. rewrite app_length, chunksv_length, fillv_length. pose proof (Nat.div_mod len per ltac:(lia)). lia.
Qed.
Lemma samplev_in len words : (forall i, 0 <= words i) -> Forall (fun x => In x s) (samplev len words).
Proof. intros H. apply Forall_app; split; [apply chunksv_in; exact H|apply fillv_in; apply H]. Qed.

Lemma weight_app wt0 a b : weight_of wt0 (a ++ b) = weight_of wt0 a * weight_of wt0 b.
Proof. unfold weight_of. rewrite fold_right_app. induction a as [|x a IH]; cbn [fold_right]; [ring|]. rewrite IH. ring. Qed.

Lemma pow_split a : 0 <= a <= 32 -> 2 ^ 32 = 2 ^ a * 2 ^ (32 - a).
Proof. intros. rewrite <- Z.pow_add_r by lia. f_equal. lia. Qed.

Variable R : Z.
Hypothesis HR : R = 2 ^ 32.

Lemma fill_word v : w * Z.of_nat (length v) <= 32 ->
  count (fun r => returns (Some (fillv (length v) r)) v) (range (R)) = weight_of wt v * 2 ^ (32 - w * Z.of_nat (length v)).
Proof.
  intros H. rewrite HR, (pow_split (w * Z.of_nat (length v))) by lia. apply count_fill. apply Z.pow_nonneg. lia.
Qed.

Lemma count_vec c : forall v t, length v = (c * per)%nat -> w * Z.of_nat (length t) <= 32 ->
  count (fun ws => returns (Some (chunksv c (stream ws) ++ fillv (length t) (stream ws c))) (v ++ t)) (tuples (S c) (R))
  = weight_of wt (v ++ t) * 2 ^ (32 * Z.of_nat (S c) - w * Z.of_nat (length (v ++ t))).
Proof.
  induction c as [|c IH]; intros v t Hv Ht.
  - destruct v; [|discriminate]. cbn [app chunksv].
    rewrite (count_ext_in _ (fun l => match l with x :: l' => (fun r => returns (Some (fillv (length t) r)) t) x && (fun _ => true) l' | [] => false end)).
    + etransitivity; [apply (tuples_step 0 (R) (fun r => returns (Some (fillv (length t) r)) t) (fun _ => true))|].
      rewrite fill_word by exact Ht. cbn [tuples]. rewrite count_true. cbn [length]. change (32 * Z.of_nat 1) with 32. ring.
    + intros l Hl. apply tuples_in in Hl. destruct Hl as (Hl & _). destruct l as [|x [|]]; try discriminate. rewrite andb_true_r. reflexivity.
  - assert (E : v = firstn per v ++ skipn per v) by (symmetry; apply firstn_skipn).
    set (v1 := firstn per v) in *. set (v2 := skipn per v) in *.
    assert (L1 : length v1 = per) by (unfold v1; rewrite firstn_length; lia).
    assert (L2 : length v2 = (c * per)%nat) by (unfold v2; rewrite skipn_length; lia).
    rewrite (count_ext_in _ (fun l => match l with x :: l' => (fun r => returns (Some (fillv (length v1) r)) v1) x &&
       (fun ws => returns (Some (chunksv c (stream ws) ++ fillv (length t) (stream ws c))) (v2 ++ t)) l' | [] => false end)).
    + etransitivity; [apply (tuples_step (S c) (R) (fun r => returns (Some (fillv (length v1) r)) v1)
         (fun ws => returns (Some (chunksv c (stream ws) ++ fillv (length t) (stream ws c))) (v2 ++ t)))|].
      rewrite fill_word, IH by (try assumption; rewrite L1; exact Hfit).
      rewrite E, <- app_assoc, !(weight_app _ v1).
      rewrite !app_length.
      rewrite (Z.mul_comm (weight_of wt v1)). rewrite <- !Z.mul_assoc.
      replace (2 ^ (32 * Z.of_nat (S (S c)) - w * Z.of_nat (length v1 + (length v2 + length t)))) with
        (2 ^ (32 - w * Z.of_nat (length v1)) * 2 ^ (32 * Z.of_nat (S c) - w * Z.of_nat (length v2 + length t))).
      * ring.
      * rewrite <- Z.pow_add_r; [f_equal; lia|rewrite L1; lia|]. rewrite L2. nia.
    + intros l Hl. apply tuples_in in Hl. destruct Hl as (Hl & _). destruct l as [|x l]; [discriminate|].
      change (stream (x :: l) (S c)) with (stream l c). cbn [chunksv].
      change (chunksv c (fun i => stream (x :: l) (S i))) with (chunksv c (stream l)). change (stream (x :: l) 0) with x.
      apply bool_iff. rewrite andb_true_iff, !returns_spec, L1. split.
      * intros H. injection H as H. rewrite E, <- !app_assoc in H.
        apply app_inv_len in H; [|rewrite fillv_length; lia]. destruct H as [H1 H2]. split; congruence.
      * intros [H1 H2]. injection H1 as H1. injection H2 as H2. rewrite E, <- !app_assoc, H1, H2. reflexivity.
Qed.

Lemma symbols_count len v : length v = len ->
  count (fun ws => returns (sample_symbols w s per len (stream ws)) v) (tuples (S (len / per)) R)
  = weight_of wt v * 2 ^ (32 * Z.of_nat (S (len / per)) - w * Z.of_nat len).
Proof.
  intros Hv. pose proof (Nat.div_mod len per ltac:(lia)) as D. pose proof (Nat.mod_upper_bound len per ltac:(lia)) as M.
  set (c := (len / per)%nat) in *.
  assert (E : v = firstn (c * per) v ++ skipn (c * per) v) by (symmetry; apply firstn_skipn).
  assert (L1 : length (firstn (c * per) v) = (c * per)%nat) by (rewrite firstn_length; lia).
  assert (L2 : length (skipn (c * per) v) = (len mod per)%nat) by (rewrite skipn_length; lia).
  rewrite (count_ext_in _ (fun ws => returns (Some (chunksv c (stream ws) ++ fillv (length (skipn (c * per) v)) (stream ws c))) (firstn (c * per) v ++ skipn (c * per) v))).
  - rewrite count_vec by (rewrite ?L2; try exact L1; nia). rewrite <- E, Hv. reflexivity.
  - intros ws Hws. apply tuples_in in Hws. destruct Hws as (_ & Hws). rewrite symbols_eq.
    + rewrite <- E, L2. reflexivity.
    + intros i. unfold stream. destruct (Nat.lt_ge_cases i (length ws)); [|rewrite nth_overflow by assumption; lia].
      rewrite Forall_forall in Hws. apply (Hws (nth i ws 0)). apply nth_In. assumption.
Qed.
End Vec.

Lemma single_count x T : T = 2 ^ 32 -> forall f : Z -> option Z,
  (forall r, 0 <= r < T -> f r = index s (Z.to_nat (Z.land r (2 ^ w - 1)))) ->
  count (fun r => match f r with Some y => y =? x | None => false end) (range T) = wt x * 2 ^ (32 - w).
Proof.
  intros ET f Hf.
  rewrite (count_ext_in _ (fun r => returns (Some (fillv (length [x]) r)) [x])).
  - rewrite ET. replace (2 ^ 32) with (2 ^ (w * Z.of_nat (length [x])) * 2 ^ (32 - w)).
    + rewrite count_fill by (apply Z.pow_nonneg; lia). cbn [weight_of fold_right]. ring.
    + cbn [length]. rewrite <- Z.pow_add_r by lia. f_equal. lia.
  - intros r Hr. apply in_range in Hr. rewrite Hf by exact Hr. cbn [length fillv].
    replace (2 ^ w - 1) with (Z.ones w) by (rewrite Z.ones_equiv; lia). rewrite Z.land_ones by lia.
    pose proof (Z.mod_pos_bound r (2 ^ w) ltac:(apply Z.pow_pos_nonneg; lia)).
    unfold index. rewrite (nth_error_nth' s 0) by lia. apply bool_iff. rewrite returns_spec, Z.eqb_eq. unfold sym. split; congruence.
Qed.
End Symbols.

(** * The centred binomial sampler *)
Definition zsum (f : Z -> Z) (l : list Z) : Z := fold_right (fun x a => f x + a) 0 l.
Lemma zsum_app f a b : zsum f (a ++ b) = zsum f a + zsum f b.
Proof. unfold zsum. rewrite fold_right_app. induction a as [|x a IH]; cbn [fold_right]; lia. Qed.
Lemma zsum_map f g l : zsum f (map g l) = zsum (fun x => f (g x)) l.
Proof. induction l as [|x l IH]; [reflexivity|]. cbn. unfold zsum in IH. rewrite IH. reflexivity. Qed.
Lemma zsum_ext f g l : (forall x, In x l -> f x = g x) -> zsum f l = zsum g l.
Proof.
  induction l as [|x l IH]; intros H; [reflexivity|]. cbn [zsum fold_right]. fold (zsum f l). fold (zsum g l).
  rewrite IH by (intros; apply H; right; assumption). rewrite (H x) by (left; reflexivity). reflexivity.
Qed.
Lemma zsum_scale c f l : zsum (fun x => c * f x) l = c * zsum f l.
Proof. induction l as [|x l IH]; [cbn; lia|]. cbn [zsum fold_right]. fold (zsum f l). fold (zsum (fun x => c * f x) l). rewrite IH. ring. Qed.

Lemma zsum_pair h b : 0 <= b -> zsum h (range (2 * b)) = zsum (fun r => h (2 * r) + h (2 * r + 1)) (range b).
Proof.
  revert b. apply natlike_ind; [reflexivity|]. intros b Hb IH.
  replace (2 * Z.succ b) with (2 * b + 2) by lia. unfold Z.succ. rewrite (range_add (2 * b)), (range_add b) by lia.
  change (range 2) with [0; 1]. change (range 1) with [0]. rewrite !zsum_app, IH. cbn [map zsum fold_right]. rewrite !Z.add_0_r. ring.
Qed.
Lemma zsum_mod h a b : 0 < a -> 0 <= b -> zsum (fun r => h (r mod a)) (range (a * b)) = b * zsum h (range a).
Proof.
  intros Ha. revert b. apply (natlike_ind (fun b => zsum (fun r => h (r mod a)) (range (a * b)) = b * zsum h (range a))).
  - rewrite Z.mul_0_r. reflexivity.
  - intros b Hb IH. rewrite Z.mul_succ_r, range_add, zsum_app, zsum_map, IH by nia.
    rewrite (zsum_ext (fun x => h ((a * b + x) mod a)) h); [ring|].
    intros x Hx. apply in_range in Hx. rewrite Z.mul_comm, Z.add_comm, Z.mod_add, Z.mod_small by lia. reflexivity.
Qed.

Lemma pascal_length n : length (pascal n) = S n.
Proof. induction n as [|n IH]; [reflexivity|]. cbn [pascal]. rewrite map_length, combine_length, app_length. cbn [length]. lia. Qed.
Lemma binomial_step n k : binomial (S n) k = binomial n k + binomial n (k - 1).
Proof.
  unfold binomial. destruct (Z.ltb_spec k 0); [destruct (Z.ltb_spec (k - 1) 0); lia|].
  cbn [pascal]. set (r := pascal n).
  assert (L : length (combine (0 :: r) (r ++ [0])) = S (length r)) by (rewrite combine_length, app_length; cbn [length]; lia).
  destruct (Nat.lt_ge_cases (Z.to_nat k) (S (length r))) as [C|C].
  - rewrite (nth_indep (map _ _) 0 ((fun ab : Z * Z => fst ab + snd ab) (0, 0))) by (rewrite map_length, L; exact C).
    rewrite (map_nth (fun ab : Z * Z => fst ab + snd ab)), combine_nth by (rewrite app_length; cbn [length]; lia). cbn [fst snd].
    assert (E : nth (Z.to_nat k) (r ++ [0]) 0 = nth (Z.to_nat k) r 0).
    { destruct (Nat.lt_ge_cases (Z.to_nat k) (length r)); [rewrite app_nth1 by assumption; reflexivity|].
      rewrite app_nth2, (nth_overflow r) by assumption. replace (Z.to_nat k - length r)%nat with O by lia. reflexivity. }
    rewrite E. destruct (Z.ltb_spec (k - 1) 0).
    + replace k with 0 by lia. change (Z.to_nat 0) with O. cbn [nth]. ring.
    + replace (Z.to_nat k) with (S (Z.to_nat (k - 1))) by lia. cbn [nth]. ring.
  - rewrite !nth_overflow by (rewrite ?map_length, ?L; lia). destruct (k - 1 <? 0); reflexivity.
Qed.
Lemma binomial_0 k : binomial 0 k = if k =? 0 then 1 else 0.
Proof.
  unfold binomial. destruct (Z.ltb_spec k 0), (Z.eqb_spec k 0); try lia; try reflexivity; [subst; reflexivity|].
  cbn [pascal]. destruct (Z.to_nat k) as [|[|]] eqn:E; [lia|reflexivity|reflexivity].
Qed.

Fixpoint popc (m : nat) (r : Z) : Z := match m with O => 0 | S m' => r mod 2 + popc m' (r / 2) end.
Lemma popc_bound m : forall r, 0 <= popc m r <= Z.of_nat m.
Proof. induction m as [|m IH]; intros r; cbn [popc]; [lia|]. pose proof (IH (r / 2)). pose proof (Z.mod_pos_bound r 2 ltac:(lia)). lia. Qed.

Lemma two_r r : (2 * r) mod 2 = 0 /\ (2 * r) / 2 = r /\ (2 * r + 1) mod 2 = 1 /\ (2 * r + 1) / 2 = r.
Proof.
  repeat split.
  - rewrite Z.mul_comm. apply Z.mod_mul. lia.
  - rewrite Z.mul_comm. apply Z.div_mul. lia.
  - rewrite Z.add_comm, Z.mul_comm, Z.mod_add by lia. reflexivity.
  - rewrite Z.add_comm, Z.mul_comm, Z.div_add by lia. cbn. lia.
Qed.
Lemma bits_up m : forall j n, zsum (fun r => binomial j (n - popc m r)) (range (2 ^ Z.of_nat m)) = binomial (j + m) n.
Proof.
  induction m as [|m IH]; intros j n.
  - change (range (2 ^ Z.of_nat 0)) with [0]. cbn [popc zsum fold_right]. rewrite Nat.add_0_r, Z.sub_0_r. ring.
  - rewrite Nat2Z.inj_succ, Z.pow_succ_r, zsum_pair by (try apply Z.pow_nonneg; lia).
    rewrite (zsum_ext _ (fun r => binomial (S j) (n - popc m r))).
    + rewrite IH. f_equal. lia.
    + intros r _. cbn [popc]. destruct (two_r r) as (-> & -> & -> & ->). rewrite binomial_step. f_equal; f_equal; lia.
Qed.
Lemma bits_down m : forall j n, zsum (fun r => binomial j (n + popc m r)) (range (2 ^ Z.of_nat m)) = binomial (j + m) (n + Z.of_nat m).
Proof.
  induction m as [|m IH]; intros j n.
  - change (range (2 ^ Z.of_nat 0)) with [0]. cbn [popc zsum fold_right]. rewrite Nat.add_0_r, Z.add_0_r. change (Z.of_nat 0) with 0. rewrite Z.add_0_r. ring.
  - rewrite Nat2Z.inj_succ, Z.pow_succ_r, zsum_pair by (try apply Z.pow_nonneg; lia).
    rewrite (zsum_ext _ (fun r => binomial (S j) (n + 1 + popc m r))).
    + rewrite IH. f_equal; lia.
    + intros r _. cbn [popc]. destruct (two_r r) as (-> & -> & -> & ->). rewrite binomial_step, Z.add_comm. f_equal; f_equal; lia.
Qed.

(** Six bytes. *)
Fixpoint lin (fs : list (Z -> Z)) (l : list Z) : Z := match fs, l with f :: fs, x :: l => f x + lin fs l | _, _ => 0 end.
Definition dist (fs : list (Z -> Z)) (n : Z) : Z := count (fun l => lin fs l =? n) (tuples (length fs) 256).
Lemma dist_step f fs n : dist (f :: fs) n = zsum (fun x => dist fs (n - f x)) (range 256).
Proof.
  unfold dist. cbn [length tuples]. generalize (range 256). intros R. induction R as [|x R IH]; [reflexivity|].
  cbn [flat_map zsum fold_right]. rewrite count_app, IH, count_map. unfold zsum. f_equal.
  apply count_ext_in. intros l _. cbn [lin]. apply bool_iff. rewrite !Z.eqb_eq. lia.
Qed.

Definition c8 (x : Z) := popc 8 x.
Definition c5 (x : Z) := popc 5 (x mod 32).
Definition neg (f : Z -> Z) (x : Z) := - f x.
Definition cbd_fs := [c8; c8; c5; neg c8; neg c8; neg c5].

Lemma dist_up8 fs K j s n : (forall n, dist fs n = K * binomial j (n + s)) -> dist (c8 :: fs) n = K * binomial (j + 8) (n + s).
Proof.
  intros H. rewrite dist_step. rewrite (zsum_ext _ (fun x => K * binomial j (n + s - popc 8 x))).
  - rewrite zsum_scale. f_equal. change 256 with (2 ^ Z.of_nat 8). apply bits_up.
  - intros x _. rewrite H. unfold c8. f_equal. f_equal. lia.
Qed.
Lemma dist_up5 fs K j s n : (forall n, dist fs n = K * binomial j (n + s)) -> dist (c5 :: fs) n = (8 * K) * binomial (j + 5) (n + s).
Proof.
  intros H. rewrite dist_step. rewrite (zsum_ext _ (fun x => K * binomial j (n + s - popc 5 (x mod 32)))).
  - rewrite zsum_scale. change 256 with (32 * 8). rewrite (zsum_mod (fun r => binomial j (n + s - popc 5 r))) by lia.
    change (range 32) with (range (2 ^ Z.of_nat 5)). rewrite bits_up. ring.
  - intros x _. rewrite H. unfold c5. f_equal. f_equal. lia.
Qed.
Lemma dist_down8 fs K j s n : (forall n, dist fs n = K * binomial j (n + s)) -> dist (neg c8 :: fs) n = K * binomial (j + 8) (n + (s + 8)).
Proof.
  intros H. rewrite dist_step. rewrite (zsum_ext _ (fun x => K * binomial j (n + s + popc 8 x))).
  - rewrite zsum_scale. f_equal. change 256 with (2 ^ Z.of_nat 8). rewrite bits_down. f_equal. lia.
  - intros x _. rewrite H. unfold neg, c8. f_equal. f_equal. lia.
Qed.
Lemma dist_down5 fs K j s n : (forall n, dist fs n = K * binomial j (n + s)) -> dist (neg c5 :: fs) n = (8 * K) * binomial (j + 5) (n + (s + 5)).
Proof.
  intros H. rewrite dist_step. rewrite (zsum_ext _ (fun x => K * binomial j (n + s + popc 5 (x mod 32)))).
  - rewrite zsum_scale. change 256 with (32 * 8). rewrite (zsum_mod (fun r => binomial j (n + s + popc 5 r))) by lia.
    change (range 32) with (range (2 ^ Z.of_nat 5)). rewrite bits_down. replace (n + (s + 5)) with (n + s + Z.of_nat 5) by lia. ring.
  - intros x _. rewrite H. unfold neg, c5. f_equal. f_equal. lia.
Qed.
Lemma dist_nil n : dist [] n = 1 * binomial 0 (n + 0).
Proof.
  rewrite binomial_0, Z.add_0_r. unfold dist. cbn [length tuples lin]. rewrite count_cons, count_nil, Z.eqb_sym. destruct (n =? 0); reflexivity.
Qed.
Lemma dist_cbd n : dist cbd_fs n = 64 * binomial 42 (21 + n).
Proof.
  rewrite (Z.add_comm 21 n). unfold cbd_fs.
  apply (dist_up8 _ 64 34 21). clear n; intros n.
  apply (dist_up8 _ 64 26 21). clear n; intros n.
  apply (dist_up5 _ 8 21 21). clear n; intros n.
  apply (dist_down8 _ 8 13 13). clear n; intros n.
  apply (dist_down8 _ 8 5 5). clear n; intros n.
  apply (dist_down5 _ 1 0 0). apply dist_nil.
Qed.

Lemma byte_popc x : 0 <= x < 256 -> count_ones x = c8 x /\ count_ones (Z.land x 31) = c5 x.
Proof.
  intros H. assert (G : forallb (fun x => (count_ones x =? c8 x) && (count_ones (Z.land x 31) =? c5 x)) (range 256) = true) by (vm_compute; reflexivity).
  rewrite forallb_forall in G. specialize (G x (proj2 (in_range 256 x) H)). apply andb_prop in G. destruct G as [G1 G2].
  apply Z.eqb_eq in G1, G2. split; assumption.
Qed.

Section Cbd.
Variable F : field.
Hypothesis Hok : fok F.
Notation p := (fp F).
Hypothesis H21 : 21 <= p.

Definition byte x := 0 <= x < 256.
Lemma cbd_value_ok x0 x1 x2 x3 x4 x5 : byte x0 -> byte x1 -> byte x2 -> byte x3 -> byte x4 -> byte x5 ->
  cbd_value F x0 x1 x2 x3 x4 x5 = Some (lin cbd_fs [x0; x1; x2; x3; x4; x5] mod p) /\ -21 <= lin cbd_fs [x0; x1; x2; x3; x4; x5] <= 21.
Proof.
  intros B0 B1 B2 B3 B4' B5. unfold cbd_value.
  destruct (byte_popc x0 B0) as [-> _]. destruct (byte_popc x1 B1) as [-> _]. destruct (byte_popc x2 B2) as [_ ->].
  destruct (byte_popc x3 B3) as [-> _]. destruct (byte_popc x4 B4') as [-> _]. destruct (byte_popc x5 B5) as [_ ->].
  unfold cbd_fs. cbn [lin]. unfold neg.
  pose proof (popc_bound 8 x0). pose proof (popc_bound 8 x1). pose proof (popc_bound 5 (x2 mod 32)).
  pose proof (popc_bound 8 x3). pose proof (popc_bound 8 x4). pose proof (popc_bound 5 (x5 mod 32)).
  change (popc 8 x0) with (c8 x0) in *. change (popc 8 x1) with (c8 x1) in *. change (popc 5 (x2 mod 32)) with (c5 x2) in *.
  change (popc 8 x3) with (c8 x3) in *. change (popc 8 x4) with (c8 x4) in *. change (popc 5 (x5 mod 32)) with (c5 x5) in *.
  set (a := c8 x0 + c8 x1 + c5 x2). set (b := c8 x3 + c8 x4 + c5 x5).
  replace (c8 x0 + (c8 x1 + (c5 x2 + (- c8 x3 + (- c8 x4 + (- c5 x5 + 0)))))) with (a - b) by (unfold a, b; ring).
  assert (0 <= a <= 21) by (unfold a; lia). assert (0 <= b <= 21) by (unfold b; lia). split; [|lia].
  pose proof (fp_range F Hok) as (P1 & P2).
  destruct (Z.leb_spec b a) as [E|E].
  - apply (f_new_correct F Hok). lia.
  - unfold usub. destruct (Z.leb_spec (b - a) p); [|lia]. cbn [bind]. unfold f_new. destruct (Z.ltb_spec (p - (b - a)) p); [|lia].
    f_equal. replace (a - b) with (p - (b - a) + -1 * p) by ring. rewrite Z.mod_add, Z.mod_small by lia. reflexivity.
Qed.

Lemma cbd_vec_ok len : forall bs, (forall i, byte (bs i)) ->
  exists l, sample_cbd_field_vec F len bs = Some l /\ length l = len /\ Forall (fun x => 0 <= x < p) l.
Proof.
  induction len as [|len IH]; intros bs H; cbn [sample_cbd_field_vec]; [exists []; repeat constructor|].
  destruct (cbd_value_ok _ _ _ _ _ _ (H 0%nat) (H 1%nat) (H 2%nat) (H 3%nat) (H 4%nat) (H 5%nat)) as (-> & _). cbn [bind].
  destruct (IH (fun i => bs (6 + i)%nat) (fun i => H _)) as (l & -> & L & C). cbn [bind].
  eexists; split; [reflexivity|]. split; [cbn [length]; lia|]. constructor; [|exact C]. apply Z.mod_pos_bound. lia.
Qed.

Lemma cbd_count ds : 42 < p -> Forall (fun d => -21 <= d <= 21) ds ->
  count (fun bs => returns (sample_cbd_field_vec F (length ds) (stream bs)) (map (fun d => d mod p) ds)) (tuples (6 * length ds) 256)
  = weight_of (fun d => 64 * binomial 42 (21 + d)) ds.
Proof.
  intros Hp H. induction H as [|d ds Hd H IH]; [reflexivity|].
  replace (6 * length (d :: ds))%nat with (S (S (S (S (S (S (6 * length ds))))))) by (cbn [length]; lia).
  cbn [weight_of fold_right]. fold (weight_of (fun d => 64 * binomial 42 (21 + d)) ds). rewrite <- dist_cbd, <- IH. clear IH.
  set (T := tuples (6 * length ds) 256).
  assert (HT : forall l, In l T -> length l = (6 * length ds)%nat /\ Forall byte l) by (intros l Hl; apply tuples_in; exact Hl).
  set (Q := fun bs => returns (sample_cbd_field_vec F (length ds) (stream bs)) (map (fun d => d mod p) ds)).
  assert (GEN : forall fs n (P : list Z -> list Z -> bool),
    (forall l t, In l (tuples (length fs) 256) -> In t T -> P l t = (lin fs l =? n) && Q t) ->
    count (fun x => P (firstn (length fs) x) (skipn (length fs) x)) (tuples (length fs + 6 * length ds) 256) = dist fs n * count Q T).
  { induction fs as [|f fs IHf]; intros n P HP.
    - cbn [length Nat.add firstn skipn]. fold T. rewrite (count_ext_in _ (fun t => (0 =? n) && Q t)).
      + rewrite count_and_const, dist_nil, binomial_0, Z.add_0_r, Z.eqb_sym. destruct (n =? 0); ring.
      + intros t Ht. rewrite (HP [] t); [reflexivity|left; reflexivity|exact Ht].
    - rewrite dist_step. cbn [length Nat.add tuples].
      enough (K : forall R, (forall x, In x R -> In x (range 256)) ->
        count (fun x => P (firstn (S (length fs)) x) (skipn (S (length fs)) x)) (flat_map (fun x => map (cons x) (tuples (length fs + 6 * length ds) 256)) R)
        = zsum (fun x => dist fs (n - f x)) R * count Q T) by (apply K; auto).
      intros R HR. induction R as [|x R IHR]; [reflexivity|].
      cbn [flat_map zsum fold_right]. rewrite count_app, count_map. rewrite IHR by (intros; apply HR; right; assumption).
      rewrite Z.mul_add_distr_r. unfold zsum. f_equal. cbn [firstn skipn].
      apply (IHf (n - f x) (fun l t => P (x :: l) t)). intros l t Hl Ht. rewrite HP.
      + cbn [lin]. f_equal. apply bool_iff. rewrite !Z.eqb_eq. lia.
      + cbn [length tuples]. apply in_flat_map. exists x. split; [apply HR; left; reflexivity|]. apply in_map. exact Hl.
      + exact Ht. }
  etransitivity; [|apply (GEN cbd_fs d (fun l t => returns (sample_cbd_field_vec F (S (length ds)) (stream (l ++ t))) (map (fun d => d mod p) (d :: ds))))].
  - apply count_ext_in. intros l _. rewrite firstn_skipn. reflexivity.
  - intros l t Hl Ht. apply tuples_in in Hl. destruct Hl as (Ll & Bl). cbn [cbd_fs length] in Ll.
    destruct l as [|x0 [|x1 [|x2 [|x3 [|x4 [|x5 [|]]]]]]]; try discriminate. clear Ll.
    repeat match goal with H : Forall _ (_ :: _) |- _ => inversion H; clear H; subst end.
    cbn [app sample_cbd_field_vec].
    change (stream (x0 :: x1 :: x2 :: x3 :: x4 :: x5 :: t) 0) with x0. change (stream (x0 :: x1 :: x2 :: x3 :: x4 :: x5 :: t) 1) with x1.
    change (stream (x0 :: x1 :: x2 :: x3 :: x4 :: x5 :: t) 2) with x2. change (stream (x0 :: x1 :: x2 :: x3 :: x4 :: x5 :: t) 3) with x3.
    change (stream (x0 :: x1 :: x2 :: x3 :: x4 :: x5 :: t) 4) with x4. change (stream (x0 :: x1 :: x2 :: x3 :: x4 :: x5 :: t) 5) with x5.
    change (fun i : nat => stream (x0 :: x1 :: x2 :: x3 :: x4 :: x5 :: t) (6 + i)) with (fun i : nat => stream t i).
    edestruct (cbd_value_ok x0 x1 x2 x3 x4 x5) as (-> & Hb); try (unfold byte; assumption).
    set (y := lin cbd_fs [x0; x1; x2; x3; x4; x5]) in *. cbn [bind map].
    change (fun i : nat => stream t i) with (stream t). unfold Q.
    apply bool_iff. rewrite andb_true_iff, Z.eqb_eq, !returns_spec.
    destruct (sample_cbd_field_vec F (length ds) (stream t)) as [l|]; cbn [bind]; [|split; [discriminate|intros [_ ?]; discriminate]].
    split.
    + intros E. injection E as E1 E2. split; [|congruence].
      pose proof (Z.div_mod y p ltac:(lia)) as Y. pose proof (Z.div_mod d p ltac:(lia)) as D. rewrite E1 in Y.
      assert (X : y - d = p * (y / p - d / p)) by lia. assert (y / p - d / p = 0) by nia. nia.
    + intros [-> E]. congruence.
Qed.
End Cbd.
