(** The generator refines reading one key stream. *)
From Coq Require Import ZArith List Bool Arith Lia.
From Verif Require Import Spec.Aes Spec.Stream Model.Base Model.Block Model.Aes Model.Prg Proofs.Arith Proofs.AesProofs Proofs.AesEncrypt.
Import ListNotations.
Local Open Scope Z_scope.

Local Opaque aes128.

(** ** Streams *)

Lemma stream_app key i a b : stream key i (a + b) = stream key i a ++ stream key (i + Z.of_nat a) b.
Proof.
  unfold stream. rewrite seq_app, map_app. f_equal. cbn [Nat.add].
  apply nth_ext with (d := 0) (d' := 0); [now rewrite !map_length, !seq_length|].
  intros j Hj. rewrite map_length, seq_length in Hj.
  rewrite (nth_indep _ 0 (stream_byte key (i + Z.of_nat 0))) by now rewrite map_length, seq_length.
  rewrite (map_nth (fun j => stream_byte key (i + Z.of_nat j))).
  rewrite (nth_indep _ 0 (stream_byte key (i + Z.of_nat a + Z.of_nat 0))) by now rewrite map_length, seq_length.
  rewrite (map_nth (fun j => stream_byte key (i + Z.of_nat a + Z.of_nat j))).
  rewrite !seq_nth by lia. f_equal. lia.
Qed.
Lemma stream_length key i n : length (stream key i n) = n.
Proof. unfold stream. now rewrite map_length, seq_length. Qed.
Lemma stream_cons key i n : stream key i (S n) = stream_byte key i :: stream key (i + 1) n.
Proof. change (S n) with (1 + n)%nat. rewrite stream_app. unfold stream at 1. cbn [seq map app Z.of_nat]. now rewrite Z.add_0_r. Qed.
Lemma firstn_stream key i m n : (m <= n)%nat -> firstn m (stream key i n) = stream key i m.
Proof.
  intros H. replace n with (m + (n - m))%nat by lia. rewrite stream_app, firstn_app, stream_length, Nat.sub_diag, firstn_O, app_nil_r.
  apply firstn_all2. rewrite stream_length. lia.
Qed.
Lemma skipn_stream key i m n : (m <= n)%nat -> skipn m (stream key i n) = stream key (i + Z.of_nat m) (n - m).
Proof.
  intros H. replace n with (m + (n - m))%nat at 1 by lia. rewrite stream_app, skipn_app, stream_length, Nat.sub_diag.
  rewrite skipn_all2 by (rewrite stream_length; lia). reflexivity.
Qed.
Lemma key_block_bytes key i : bytes 16 key -> bytes 16 (key_block key i).
Proof. intros H. apply aes128_bytes; [exact H|apply le_bytes_bytes]. Qed.
Lemma stream_byte_byte key i : bytes 16 key -> byte (stream_byte key i).
Proof. intros H. eapply nth_bytes, key_block_bytes, H. Qed.
Lemma stream_bytes key i n : bytes 16 key -> bytes n (stream key i n).
Proof.
  intros H. split; [apply stream_length|]. apply Forall_map, Forall_forall. intros j _. now apply stream_byte_byte.
Qed.
Lemma stream_block key s : bytes 16 key -> stream key (16 * s) 16 = key_block key s.
Proof.
  intros H. destruct (key_block_bytes key s H) as [L _]. apply nth_ext with (d := 0) (d' := 0); [now rewrite stream_length|].
  intros j Hj. rewrite stream_length in Hj. unfold stream.
  rewrite (nth_indep _ 0 (stream_byte key (16 * s + Z.of_nat 0))) by now rewrite map_length, seq_length.
  rewrite (map_nth (fun j => stream_byte key (16 * s + Z.of_nat j))), seq_nth by exact Hj. cbn [Nat.add].
  unfold stream_byte. rewrite (Z.mul_comm 16), Z.div_add_l, (Z.div_small (Z.of_nat j)), Z.add_0_r by lia.
  rewrite Z.add_comm, Z_mod_plus_full, Z.mod_small, Nat2Z.id by lia. reflexivity.
Qed.

(** Words. *)
Definition word (key : list Z) (p : Z) : Z := le_value (stream key (4 * p) 4).
Fixpoint words (key : list Z) (p : Z) (n : nat) : list Z :=
  match n with O => [] | S n' => word key p :: words key (p + 1) n' end.
Lemma words_length key p n : length (words key p n) = n.
Proof. revert p. induction n as [|n IH]; intros p; cbn; [reflexivity|]. now rewrite IH. Qed.
Lemma words_index key p n i : (i < n)%nat -> index (words key p n) i = Some (word key (p + Z.of_nat i)).
Proof.
  revert p i. induction n as [|n IH]; intros p i Hi; [lia|]. destruct i as [|i]; cbn [words].
  - cbn [index nth_error Z.of_nat]. now rewrite Z.add_0_r.
  - change (index (word key p :: words key (p + 1) n) (S i)) with (index (words key (p + 1) n) i).
    rewrite IH by lia. do 2 f_equal. lia.
Qed.
Lemma words_skipn key p n i : (i <= n)%nat -> skipn i (words key p n) = words key (p + Z.of_nat i) (n - i).
Proof.
  revert p i. induction n as [|n IH]; intros p i Hi.
  - replace i with 0%nat by lia. reflexivity.
  - destruct i as [|i]; cbn [skipn]; [now rewrite Z.add_0_r, Nat.sub_0_r|]. cbn [words]. rewrite IH by lia. cbn [Nat.sub]. f_equal. lia.
Qed.
Lemma word_bytes key p : bytes 16 key -> le_bytes 4 (word key p) = stream key (4 * p) 4.
Proof.
  intros H. unfold word. destruct (stream_bytes key (4 * p) 4 H) as [L F]. rewrite <- L at 1. apply le_bytes_value, F.
Qed.
Lemma word_range key p : bytes 16 key -> 0 <= word key p < 2 ^ 32.
Proof. intros H. destruct (stream_bytes key (4 * p) 4 H) as [L F]. pose proof (le_value_range _ F) as R. rewrite L in R. exact R. Qed.
Lemma words_bytes key p n : bytes 16 key -> concat (map (le_bytes 4) (words key p n)) = stream key (4 * p) (4 * n).
Proof.
  intros H. revert p. induction n as [|n IH]; intros p; [reflexivity|]. cbn [words map concat].
  rewrite word_bytes, IH by exact H. replace (4 * S n)%nat with (4 + 4 * n)%nat by lia. rewrite stream_app. do 2 f_equal. lia.
Qed.
Lemma cast_words_stream key p n : cast_words n (stream key (4 * p) (4 * n)) = words key p n.
Proof.
  revert p. induction n as [|n IH]; intros p; [reflexivity|]. cbn [cast_words words].
  rewrite firstn_stream, skipn_stream by lia. f_equal.
  replace (4 * p + Z.of_nat 4) with (4 * (p + 1)) by lia. replace (4 * S n - 4)%nat with (4 * n)%nat by lia. apply IH.
Qed.

(** ** Generation *)

Lemma le_bytes_app a b x : le_bytes (a + b) x = le_bytes a x ++ le_bytes b (x / 256 ^ Z.of_nat a).
Proof.
  revert x. induction a as [|a IH]; intros x; [cbn; now rewrite Z.div_1_r|]. cbn [Nat.add le_bytes app]. f_equal.
  rewrite IH. f_equal. rewrite Z.div_div by lia. f_equal. f_equal. rewrite Nat2Z.inj_succ, Z.pow_succ_r by lia. reflexivity.
Qed.

Lemma le_bytes_add n x y : le_bytes n (x + y * 256 ^ Z.of_nat n) = le_bytes n x.
Proof.
  revert x. induction n as [|n IH]; intros x; [reflexivity|]. cbn [le_bytes].
  rewrite Nat2Z.inj_succ, Z.pow_succ_r by lia. replace (x + y * (256 * 256 ^ Z.of_nat n)) with (x + y * 256 ^ Z.of_nat n * 256) by lia.
  rewrite Z_mod_plus_full, Z.div_add by lia. now rewrite IH.
Qed.
Lemma counters_ok n : forall s, 0 <= s < 2 ^ 64 ->
  counters n s = if s + Z.of_nat n <? 2 ^ 64 then Some (map (fun k => le_bytes 16 (s + Z.of_nat k)) (seq 0 n), s + Z.of_nat n) else None.
Proof.
  induction n as [|n IH]; intros s Hs.
  - cbn [counters seq map Z.of_nat]. rewrite Z.add_0_r. destruct (Z.ltb_spec s (2 ^ 64)); [reflexivity|lia].
  - cbn [counters]. unfold uadd. destruct (Z.ltb_spec (s + 1) (2 ^ 64)) as [H1|H1].
    + cbn [bind]. rewrite IH by lia. replace (s + 1 + Z.of_nat n) with (s + Z.of_nat (S n)) by lia.
      destruct (Z.ltb_spec (s + Z.of_nat (S n)) (2 ^ 64)) as [H2|H2]; [|reflexivity]. cbn [bind]. do 2 f_equal.
      cbn [seq map]. f_equal.
      * rewrite Z.add_0_r. unfold of_u64s. change 16%nat with (8 + 8)%nat.
        rewrite le_bytes_app. f_equal. rewrite (Z.div_small s) by (change (256 ^ Z.of_nat 8) with (2 ^ 64); lia). reflexivity.
      * rewrite <- seq_shift, map_map. apply map_ext. intros k. f_equal. lia.
    + cbn [bind]. destruct (Z.ltb_spec (s + Z.of_nat (S n)) (2 ^ 64)); [lia|reflexivity].
Qed.

Definition sched (key : list Z) : list (list Z) := map (round_key key) (seq 0 11).

Lemma blocks_stream key s n : bytes 16 key ->
  concat (map (aes128 key) (map (fun k => le_bytes 16 (s + Z.of_nat k)) (seq 0 n))) = stream key (16 * s) (16 * n).
Proof.
  intros H. rewrite map_map. change (fun x => aes128 key (le_bytes 16 (s + Z.of_nat x))) with (fun x => key_block key (s + Z.of_nat x)).
  induction n as [|n IH]; [reflexivity|]. rewrite seq_S, map_app, concat_app, IH. cbn [map concat Nat.add]. rewrite app_nil_r.
  replace (16 * S n)%nat with (16 * n + 16)%nat by lia. rewrite stream_app. f_equal. rewrite <- stream_block by exact H. f_equal. lia.
Qed.

Lemma generate_ok A key s : bytes 16 key -> 0 <= s < 2 ^ 61 ->
  generate A (mk_prg_core (sched key) (8 * s)) =
  if s + 1 <? 2 ^ 61 then Some (words key (32 * s) 32, mk_prg_core (sched key) (8 * (s + 1))) else None.
Proof.
  intros Hk Hs. unfold generate. cbn [pc_state pc_aes]. rewrite counters_ok by lia.
  change (Z.of_nat 8) with 8.
  destruct (Z.ltb_spec (8 * s + 8) (2 ^ 64)) as [H|H]; destruct (Z.ltb_spec (s + 1) (2 ^ 61)) as [H'|H']; try lia; [|reflexivity].
  cbn [bind]. unfold sched. rewrite many_ok; [|exact Hk|apply Forall_map, Forall_forall; intros; apply le_bytes_bytes].
  cbn [bind]. rewrite blocks_stream by exact Hk. f_equal. f_equal.
  - rewrite <- cast_words_stream. f_equal. f_equal; lia.
  - f_equal. lia.
Qed.

(** ** The generator's state stands for a position in the stream *)

Definition rep (key : list Z) (g : block_rng) (pos : Z) : Prop :=
  exists s, bg_core g = mk_prg_core (sched key) (8 * s) /\ 0 <= s < 2 ^ 61 /\ (bg_index g <= 32)%nat /\
            pos = 32 * (s - 1) + Z.of_nat (bg_index g) /\ 0 <= pos /\
            ((bg_index g < 32)%nat -> bg_results g = words key (32 * (s - 1)) 32).

(** [r] answers [v] and moves to [pos'], or panics because the stream is exhausted. *)
Definition reads {T} (key : list Z) (r : option (T * block_rng)) (v : T) (pos' : Z) : Prop :=
  if pos' <=? capacity then exists g', r = Some (v, g') /\ rep key g' pos' else r = None.

Lemma rep_start A key : bytes 16 key -> exists g, prg_from_seed A key = Some g /\ rep key g 0.
Proof.
  intros Hk. unfold prg_from_seed, core_from_seed. rewrite aes_new_ok by exact Hk. cbn [bind]. eexists. split; [reflexivity|].
  exists 0. cbn [bg_core bg_index bg_results]. repeat split; lia.
Qed.
Lemma rep_capacity key g pos : rep key g pos -> pos <= capacity.
Proof. intros (s & _ & Hs & Hi & -> & _). unfold capacity. lia. Qed.

Lemma refill A key g pos i : bytes 16 key -> rep key g pos -> (32 <= bg_index g)%nat -> (i < 32)%nat ->
  generate_and_set A g i =
    if pos + 32 <=? capacity then Some (mk_block_rng (mk_prg_core (sched key) (8 * (pos / 32 + 1))) (words key pos 32) i) else None.
Proof.
  intros Hk (s & Hc & Hs & Hi & Hp & Hpos & _) H32 Hlt. unfold generate_and_set.
  destruct (Nat.ltb_spec i 32) as [_|]; [|lia]. cbn [assert bind]. rewrite Hc, generate_ok by (exact Hk || lia).
  assert (E : pos = 32 * s) by lia. clear Hp. subst pos. unfold capacity.
  destruct (Z.ltb_spec (s + 1) (2 ^ 61)); destruct (Z.leb_spec (32 * s + 32) (4 * (2 ^ 64 - 8))); try lia; [|reflexivity].
  cbn [bind]. f_equal. f_equal. f_equal. rewrite (Z.mul_comm 32), Z.div_mul by lia. lia.
Qed.
Lemma rep_refilled key g pos i : rep key g pos -> (32 <= bg_index g)%nat -> pos + 32 <= capacity -> (i <= 32)%nat ->
  rep key (mk_block_rng (mk_prg_core (sched key) (8 * (pos / 32 + 1))) (words key pos 32) i) (pos + Z.of_nat i).
Proof.
  intros (s & Hc & Hs & Hi & Hp & Hpos & _) H32 Hcap Hlt.
  assert (E : pos = 32 * s) by lia. clear Hp. subst pos. unfold capacity in Hcap.
  exists (s + 1). cbn [bg_core bg_index bg_results]. rewrite (Z.mul_comm 32 s), Z.div_mul by lia.
  replace (32 * (s + 1 - 1)) with (s * 32) by lia. repeat split; lia.
Qed.
Lemma rep_div key g pos : rep key g pos -> (32 <= bg_index g)%nat -> exists s, pos = 32 * s.
Proof. intros (s & _ & _ & Hi & Hp & _) H. exists s. lia. Qed.

(** Reading inside the buffer. *)
Lemma rep_index key g pos i : rep key g pos -> (bg_index g + i < 32)%nat ->
  index (bg_results g) (bg_index g + i) = Some (word key (pos + Z.of_nat i)).
Proof.
  intros (s & _ & _ & _ & -> & _ & Hr) Hi. rewrite Hr, words_index by lia. do 2 f_equal. lia.
Qed.
Lemma rep_advance key g pos i : rep key g pos -> (bg_index g + i <= 32)%nat ->
  rep key (mk_block_rng (bg_core g) (bg_results g) (bg_index g + i)) (pos + Z.of_nat i).
Proof.
  intros (s & Hc & Hs & Hi & -> & Hp & Hr) H. exists s. cbn [bg_core bg_index bg_results]. repeat split; try assumption; try lia.
  intros Hlt. apply Hr. lia.
Qed.

Lemma next_u32_ok A key g pos : bytes 16 key -> rep key g pos -> reads key (next_u32 A g) (word key pos) (pos + 1).
Proof.
  intros Hk H. unfold reads, next_u32. pose proof (rep_capacity _ _ _ H) as HC.
  destruct (Nat.leb_spec 32 (bg_index g)) as [Hge|Hlt].
  - rewrite (refill A key g pos 0 Hk H Hge) by lia. destruct (rep_div _ _ _ H Hge) as [s Es].
    assert (EQ : (pos + 1 <=? capacity) = (pos + 32 <=? capacity)).
    { unfold capacity. destruct (Z.leb_spec (pos + 1) (4 * (2 ^ 64 - 8))); destruct (Z.leb_spec (pos + 32) (4 * (2 ^ 64 - 8))); lia. }
    rewrite EQ. destruct (Z.leb_spec (pos + 32) capacity) as [Hc|Hc]; [|reflexivity]. cbn [bind bg_results bg_index bg_core].
    rewrite words_index by lia. cbn [bind]. rewrite Z.add_0_r. eexists. split; [reflexivity|]. apply (rep_refilled key g pos 1); assumption || lia.
  - destruct (Z.leb_spec (pos + 1) capacity) as [Hc|Hc].
    + cbn [bind]. pose proof (rep_index key g pos 0 H ltac:(lia)) as I. rewrite Nat.add_0_r, Z.add_0_r in I. rewrite I. cbn [bind].
      eexists. split; [reflexivity|]. apply (rep_advance key g pos 1); [exact H|lia].
    + exfalso. destruct H as (s & _ & Hs & _ & -> & _). unfold capacity in Hc. lia.
Qed.

Definition join (key : list Z) (pos : Z) : Z := Z.lor (Z.shiftl (word key (pos + 1)) 32) (word key pos).
Lemma next_u64_ok A key g pos : bytes 16 key -> rep key g pos -> reads key (next_u64 A g) (join key pos) (pos + 2).
Proof.
  intros Hk H. unfold reads, next_u64. cbv zeta. pose proof (rep_capacity _ _ _ H) as HC.
  destruct (Nat.ltb_spec (bg_index g) 31) as [Hlt|Hge].
  - destruct (Z.leb_spec (pos + 2) capacity) as [Hc|Hc].
    + unfold read_u64. pose proof (rep_index key g pos 0 H ltac:(lia)) as I. rewrite Nat.add_0_r, Z.add_0_r in I. rewrite I. cbn [bind].
      rewrite (rep_index key g pos 1 H) by lia. cbn [bind]. eexists. split; [reflexivity|]. apply (rep_advance key g pos 2); [exact H|lia].
    + exfalso. destruct H as (s & _ & Hs & _ & -> & _). unfold capacity in Hc. lia.
  - destruct (Nat.leb_spec 32 (bg_index g)) as [Hge'|Hlt'].
    + rewrite (refill A key g pos 2 Hk H Hge') by lia. destruct (rep_div _ _ _ H Hge') as [s Es].
      assert (EQ : (pos + 2 <=? capacity) = (pos + 32 <=? capacity)).
      { unfold capacity. destruct (Z.leb_spec (pos + 2) (4 * (2 ^ 64 - 8))); destruct (Z.leb_spec (pos + 32) (4 * (2 ^ 64 - 8))); lia. }
      rewrite EQ. destruct (Z.leb_spec (pos + 32) capacity) as [Hc|Hc]; [|reflexivity]. cbn [bind bg_results bg_index bg_core].
      unfold read_u64. rewrite !words_index by lia. cbn [bind]. rewrite Z.add_0_r. eexists. split; [reflexivity|].
      apply (rep_refilled key g pos 2); assumption || lia.
    + assert (E31 : bg_index g = 31%nat) by lia.
      pose proof (rep_index key g pos 0 H ltac:(lia)) as I. rewrite Nat.add_0_r, Z.add_0_r, E31 in I. rewrite I. cbn [bind].
      pose proof (rep_advance key g pos 1 H ltac:(lia)) as H1. set (g1 := mk_block_rng (bg_core g) (bg_results g) (bg_index g + 1)) in *.
      assert (Hge1 : (32 <= bg_index g1)%nat) by (cbn; lia). change (Z.of_nat 1) with 1 in H1.
      replace (generate_and_set A g 1) with (generate_and_set A g1 1) by reflexivity.
      rewrite (refill A key g1 (pos + 1) 1 Hk H1 Hge1) by lia. destruct (rep_div _ _ _ H1 Hge1) as [s Es].
      assert (EQ : (pos + 2 <=? capacity) = (pos + 1 + 32 <=? capacity)).
      { unfold capacity. destruct (Z.leb_spec (pos + 2) (4 * (2 ^ 64 - 8))); destruct (Z.leb_spec (pos + 1 + 32) (4 * (2 ^ 64 - 8))); lia. }
      rewrite EQ. destruct (Z.leb_spec (pos + 1 + 32) capacity) as [Hc|Hc]; [|reflexivity]. cbn [bind bg_results bg_index bg_core].
      rewrite words_index by lia. cbn [bind]. rewrite Z.add_0_r. eexists. split; [reflexivity|].
      replace (pos + 2) with (pos + 1 + Z.of_nat 1) by lia. apply (rep_refilled key g1 (pos + 1) 1); assumption || lia.
Qed.

Lemma join_bytes key pos : bytes 16 key -> le_bytes 8 (join key pos) = stream key (4 * pos) 8.
Proof.
  intros Hk. unfold join. pose proof (word_range key pos Hk) as R0. pose proof (word_range key (pos + 1) Hk) as R1.
  rewrite Z.lor_comm, Z.shiftl_mul_pow2, lor_disjoint by lia.
  change 8%nat with (4 + 4)%nat. rewrite le_bytes_app. change (256 ^ Z.of_nat 4) with (2 ^ 32).
  rewrite Z.div_add, (Z.div_small (word key pos)), Z.add_0_l by lia.
  rewrite stream_app, <- word_bytes by exact Hk. replace (4 * pos + Z.of_nat 4) with (4 * (pos + 1)) by lia. rewrite <- word_bytes by exact Hk.
  f_equal. apply (le_bytes_add 4).
Qed.

Lemma fill_ok A key : bytes 16 key -> forall fuel n g pos, rep key g pos -> (n < fuel)%nat ->
  reads key (fill_bytes A fuel n g) (stream key (4 * pos) n) (pos + (Z.of_nat n + 3) / 4).
Proof.
  intros Hk. induction fuel as [|fuel IH]; intros n g pos H Hf; [lia|]. cbn [fill_bytes].
  destruct (Nat.eqb_spec n 0) as [->|Hn].
  { unfold reads. change ((Z.of_nat 0 + 3) / 4) with 0. rewrite Z.add_0_r.
    destruct (Z.leb_spec pos capacity); [|pose proof (rep_capacity _ _ _ H); lia]. exists g. split; [reflexivity|exact H]. }
  assert (N1 : 1 <= (Z.of_nat n + 3) / 4) by (apply Z.div_le_lower_bound; lia).
  (* one pass from a nonempty buffer *)
  assert (PASS : forall g, rep key g pos -> (bg_index g < 32)%nat ->
    reads key (let src := concat (map (le_bytes 4) (skipn (bg_index g) (bg_results g))) in
        let len := Nat.min (length src) n in
        let g' := mk_block_rng (bg_core g) (bg_results g) (bg_index g + (len + 3) / 4) in
        let* '(rest, g'') := fill_bytes A fuel (n - len) g' in
        Some (firstn len src ++ rest, g'')) (stream key (4 * pos) n) (pos + (Z.of_nat n + 3) / 4)).
  { clear g H. intros g H Hi. cbv zeta.
    assert (SRC : concat (map (le_bytes 4) (skipn (bg_index g) (bg_results g))) = stream key (4 * pos) (4 * (32 - bg_index g))).
    { destruct H as (s & _ & _ & _ & -> & _ & Hr). rewrite Hr, words_skipn by lia. apply words_bytes, Hk. }
    rewrite SRC, stream_length. set (av := (4 * (32 - bg_index g))%nat). set (len := Nat.min av n).
    assert (L4 : ((len + 3) / 4 <= 32 - bg_index g)%nat).
    { apply Nat.lt_succ_r, Nat.div_lt_upper_bound; [lia|]. unfold len, av. lia. }
    rewrite firstn_stream by (unfold len; lia).
    pose proof (rep_advance key g pos ((len + 3) / 4) H ltac:(lia)) as H1. set (g1 := mk_block_rng _ _ _) in *.
    pose proof (IH (n - len)%nat g1 _ H1 ltac:(unfold len, av; lia)) as R.
    assert (EP : pos + Z.of_nat ((len + 3) / 4) + (Z.of_nat (n - len) + 3) / 4 = pos + (Z.of_nat n + 3) / 4).
    { rewrite Nat2Z.inj_div, Nat2Z.inj_add. change (Z.of_nat 3) with 3. change (Z.of_nat 4) with 4.
      destruct (Nat.le_gt_cases n av) as [Hna|Hna].
      - replace len with n by (unfold len; lia). rewrite Nat.sub_diag. change ((Z.of_nat 0 + 3) / 4) with 0. lia.
      - replace len with av by (unfold len; lia). unfold av. rewrite Nat2Z.inj_sub by (unfold av in Hna; lia).
        rewrite Nat2Z.inj_mul. change (Z.of_nat 4) with 4. set (m := Z.of_nat (32 - bg_index g)).
        replace (Z.of_nat n + 3) with (Z.of_nat n - 4 * m + 3 + m * 4) by lia. rewrite Z.div_add by lia.
        replace (4 * m + 3) with (3 + m * 4) by lia. rewrite Z.div_add by lia. change (3 / 4) with 0. lia. }
    rewrite EP in R. unfold reads in *. destruct (pos + (Z.of_nat n + 3) / 4 <=? capacity); [|now rewrite R].
    destruct R as (g2 & -> & H2). cbn [bind]. exists g2. split; [|exact H2]. f_equal. f_equal.
    destruct (Nat.le_gt_cases n av) as [Hna|Hna].
    - replace len with n by (unfold len; lia). rewrite Nat.sub_diag. cbn [stream seq map]. unfold stream at 2. cbn [seq map]. now rewrite app_nil_r.
    - replace n with (len + (n - len))%nat at 2 by (unfold len; lia). rewrite stream_app. f_equal. f_equal.
      replace len with av by (unfold len; lia). unfold av.
      replace ((4 * (32 - bg_index g) + 3) / 4)%nat with (32 - bg_index g)%nat; [lia|].
      rewrite Nat.mul_comm, Nat.add_comm, Nat.div_add by lia. reflexivity. }
  destruct (Nat.leb_spec 32 (bg_index g)) as [Hge|Hlt].
  - rewrite (refill A key g pos 0 Hk H Hge) by lia. destruct (rep_div _ _ _ H Hge) as [s Es].
    destruct (Z.leb_spec (pos + 32) capacity) as [Hc|Hc].
    + cbn [bind]. apply PASS; [|cbn; lia]. pose proof (rep_refilled key g pos 0 H Hge Hc ltac:(lia)) as R. now rewrite Z.add_0_r in R.
    + cbn [bind]. unfold reads. destruct (Z.leb_spec (pos + (Z.of_nat n + 3) / 4) capacity) as [Hc'|]; [|reflexivity].
      exfalso. unfold capacity in *. lia.
  - cbn [bind]. apply PASS; assumption.
Qed.

(** ** All calls and histories *)

Lemma reads_bind {T U} key (r : option (T * block_rng)) v pos (f : T -> U) : reads key r v pos ->
  reads key (let* '(x, g) := r in Some (f x, g)) (f v) pos.
Proof.
  unfold reads. destruct (pos <=? capacity); [|now intros ->]. intros (g' & -> & H). cbn [bind]. exists g'. split; [reflexivity|exact H].
Qed.
Lemma reads_then {T U V} key (r : option (T * block_rng)) v pos (k : block_rng -> option (U * block_rng)) w pos' (f : T -> U -> V) :
  reads key r v pos -> pos <= pos' -> (forall g, rep key g pos -> reads key (k g) w pos') ->
  reads key (let* '(x, g) := r in let* '(y, g) := k g in Some (f x y, g)) (f v w) pos'.
Proof.
  unfold reads. intros H1 Hle H2. destruct (Z.leb_spec pos capacity) as [Hc|Hc].
  - destruct H1 as (g & -> & H). cbn [bind]. specialize (H2 g H). destruct (pos' <=? capacity); [|now rewrite H2].
    destruct H2 as (g' & -> & H'). cbn [bind]. exists g'. split; [reflexivity|exact H'].
  - rewrite H1. cbn [bind]. destruct (Z.leb_spec pos' capacity); [lia|reflexivity].
Qed.

Lemma word_split key pos : word key pos =
  stream_byte key (4 * pos) + 256 * (stream_byte key (4 * pos + 1) + 256 * (stream_byte key (4 * pos + 2) + 256 * stream_byte key (4 * pos + 3))).
Proof.
  unfold word. rewrite !stream_cons. change (stream key _ 0) with (@nil Z). cbn [le_value].
  replace (4 * pos + 1 + 1) with (4 * pos + 2) by lia. replace (4 * pos + 2 + 1) with (4 * pos + 3) by lia. lia.
Qed.
Lemma word_low key pos : bytes 16 key -> word key pos mod 256 = stream_byte key (4 * pos).
Proof.
  intros Hk. rewrite word_split, (Z.mul_comm 256), Z_mod_plus_full. apply Z.mod_small. now apply stream_byte_byte.
Qed.
Lemma word_top key pos : bytes 16 key -> b2z (2 ^ 31 <=? word key pos) = stream_byte key (4 * pos + 3) / 128.
Proof.
  intros Hk. rewrite word_split. pose proof (fun i => stream_byte_byte key i Hk) as B. unfold byte in B.
  pose proof (B (4 * pos)). pose proof (B (4 * pos + 1)). pose proof (B (4 * pos + 2)). pose proof (B (4 * pos + 3)).
  set (a := stream_byte key (4 * pos)) in *. set (b := stream_byte key (4 * pos + 1)) in *.
  set (c := stream_byte key (4 * pos + 2)) in *. set (d := stream_byte key (4 * pos + 3)) in *. clearbody a b c d. clear B.
  change (2 ^ 31) with 2147483648.
  destruct (Z.leb_spec 2147483648 (a + 256 * (b + 256 * (c + 256 * d)))); cbn [b2z].
  - replace d with (d - 128 + 1 * 128) by lia. rewrite Z.div_add, Z.div_small by lia. reflexivity.
  - rewrite Z.div_small by lia. reflexivity.
Qed.

Lemma bools_ok A key : bytes 16 key -> forall n g pos, rep key g pos ->
  reads key (let* '(bs, g) := random_bools A n g in Some (map b2z bs, g)) (answer key pos (RandomBools n)) (pos + Z.of_nat n).
Proof.
  intros Hk. induction n as [|n IH]; intros g pos H.
  - cbn [random_bools bind map answer seq Z.of_nat]. rewrite Z.add_0_r. unfold reads.
    destruct (Z.leb_spec pos capacity); [|pose proof (rep_capacity _ _ _ H); lia]. exists g. split; [reflexivity|exact H].
  - assert (E : answer key pos (RandomBools (S n)) = b2z (2 ^ 31 <=? word key pos) :: answer key (pos + 1) (RandomBools n)).
    { cbn [answer seq map]. rewrite word_top by exact Hk. f_equal; [f_equal; f_equal; lia|].
      rewrite <- seq_shift, map_map. apply map_ext. intros k. do 2 f_equal. lia. }
    rewrite E. replace (pos + Z.of_nat (S n)) with (pos + 1 + Z.of_nat n) by lia.
    pose proof (reads_bind key _ _ _ (fun v => b2z (2 ^ 31 <=? v)) (next_u32_ok A key g pos Hk H)) as R1.
    pose proof (reads_then key _ _ _ (fun g => let* '(bs, g) := random_bools A n g in Some (map b2z bs, g)) _ (pos + 1 + Z.of_nat n)
      (fun x y => x :: y) R1 ltac:(lia) (fun g' H' => IH g' (pos + 1) H')) as R.
    cbn [random_bools]. unfold random_bool.
    destruct (next_u32 A g) as [[v g']|]; cbn [bind] in R |- *; [|exact R].
    destruct (random_bools A n g') as [[bs g'']|]; cbn [bind map] in R |- *; exact R.
Qed.

Lemma do_ok A key c g pos : bytes 16 key -> rep key g pos -> reads key (prg_do A c g) (answer key pos c) (pos + cost c).
Proof.
  intros Hk H. destruct c as [| |n| | |n| |n]; cbn [prg_do answer cost].
  - rewrite <- word_bytes by exact Hk. apply (reads_bind key _ _ _ (le_bytes 4)). now apply next_u32_ok.
  - rewrite <- join_bytes by exact Hk. apply (reads_bind key _ _ _ (le_bytes 8)). now apply next_u64_ok.
  - apply fill_ok; [exact Hk|exact H|lia].
  - pose proof (reads_bind key _ _ _ (fun v => [v mod 256]) (next_u32_ok A key g pos Hk H)) as R.
    rewrite stream_cons. change (stream key _ 0) with (@nil Z). rewrite <- word_low by exact Hk.
    unfold random_byte. destruct (next_u32 A g) as [[v g']|]; exact R.
  - pose proof (reads_bind key _ _ _ (fun v => [b2z (2 ^ 31 <=? v)]) (next_u32_ok A key g pos Hk H)) as R.
    rewrite <- word_top by exact Hk. unfold random_bool. destruct (next_u32 A g) as [[v g']|]; exact R.
  - now apply bools_ok.
  - pose proof (reads_then key _ _ _ (fun g => next_u64 A g) (join key (pos + 2)) (pos + 4) (fun x y => of_u128 (Z.lor (Z.shiftl y 64) x))
      (next_u64_ok A key g pos Hk H) ltac:(lia)) as R.
    unfold random_block.
    replace (stream key (4 * pos) 16) with (of_u128 (Z.lor (Z.shiftl (join key (pos + 2)) 64) (join key pos))).
    + apply R. intros g' H'. replace (pos + 4) with (pos + 2 + 2) by lia. now apply next_u64_ok.
    + unfold of_u128.
      assert (J : forall p, 0 <= join key p < 2 ^ 64).
      { intros p. unfold join. pose proof (word_range key p Hk). pose proof (word_range key (p + 1) Hk).
        rewrite Z.lor_comm, Z.shiftl_mul_pow2, lor_disjoint by lia. lia. }
      pose proof (J pos). pose proof (J (pos + 2)).
      rewrite Z.lor_comm, Z.shiftl_mul_pow2, lor_disjoint by lia.
      change 16%nat with (8 + 8)%nat. rewrite le_bytes_app. change (256 ^ Z.of_nat 8) with (2 ^ 64).
      rewrite Z.div_add, (Z.div_small (join key pos)), Z.add_0_l by lia. change (2 ^ 64) with (256 ^ Z.of_nat 8). rewrite le_bytes_add.
      rewrite !join_bytes, stream_app by exact Hk. do 2 f_equal. lia.
  - pose proof (fill_ok A key Hk (S (16 * n)) (16 * n) g pos H ltac:(lia)) as R.
    replace ((Z.of_nat (16 * n) + 3) / 4) with (4 * Z.of_nat n) in R; [exact R|].
    replace (Z.of_nat (16 * n) + 3) with (3 + 4 * Z.of_nat n * 4) by lia. rewrite Z.div_add by lia. reflexivity.
Qed.

Lemma cost_nonneg c : 0 <= cost c.
Proof. destruct c; cbn [cost]; try lia. apply Z.div_pos; lia. Qed.
Lemma costs_cons c cs : costs (c :: cs) = cost c + costs cs.
Proof. reflexivity. Qed.
Lemma costs_nonneg cs : 0 <= costs cs.
Proof. induction cs as [|c cs IH]; [cbn; lia|]. rewrite costs_cons. pose proof (cost_nonneg c). lia. Qed.

Lemma run_ok A key cs : bytes 16 key -> forall g pos, rep key g pos ->
  reads key (prg_run A cs g) (answers key pos cs) (pos + costs cs).
Proof.
  intros Hk. induction cs as [|c cs IH]; intros g pos H.
  - cbn [prg_run answers]. change (costs []) with 0. rewrite Z.add_0_r. unfold reads.
    destruct (Z.leb_spec pos capacity); [|pose proof (rep_capacity _ _ _ H); lia]. exists g. split; [reflexivity|exact H].
  - cbn [prg_run answers]. rewrite costs_cons, Z.add_assoc. pose proof (costs_nonneg cs).
    apply (reads_then key _ _ (pos + cost c) (prg_run A cs) _ _ (fun x y => x :: y)); [now apply do_ok|lia|].
    intros g' H'. now apply IH.
Qed.

Lemma prg_history A key cs : bytes 16 key ->
  (let* g := prg_from_seed A key in let* '(out, _) := prg_run A cs g in Some out) =
  if costs cs <=? capacity then Some (answers key 0 cs) else None.
Proof.
  intros Hk. destruct (rep_start A key Hk) as (g & -> & H). cbn [bind]. pose proof (run_ok A key cs Hk g 0 H) as R.
  rewrite Z.add_0_l in R. unfold reads in R. destruct (costs cs <=? capacity); [|now rewrite R]. destruct R as (g' & -> & _). reflexivity.
Qed.

(** ** A generator seeded from another *)

Lemma prg_fork A key cs cs1 cs2 : bytes 16 key ->
  (let* g := prg_from_seed A key in let* '(out, g) := prg_run A cs g in let* '(child, g) := prg_from_rng A g in
   let* '(out1, _) := prg_run A cs1 child in let* '(out2, _) := prg_run A cs2 g in Some (out, out1, out2)) =
  if (costs cs + 4 + costs cs2 <=? capacity) && (costs cs1 <=? capacity)
  then Some (answers key 0 cs, answers (stream key (4 * costs cs) 16) 0 cs1, answers key (costs cs + 4) cs2) else None.
Proof.
  intros Hk. destruct (rep_start A key Hk) as (g & -> & H). cbn [bind]. pose proof (run_ok A key cs Hk g 0 H) as R.
  rewrite Z.add_0_l in R. unfold reads in R. pose proof (costs_nonneg cs) as N0. pose proof (costs_nonneg cs2) as N2.
  destruct (Z.leb_spec (costs cs) capacity) as [L|L]; [|rewrite R; cbn [bind]; destruct (Z.leb_spec (costs cs + 4 + costs cs2) capacity); [lia|reflexivity]].
  destruct R as (g1 & -> & H1). cbn [bind]. unfold prg_from_rng.
  pose proof (do_ok A key (FillBytes 16) g1 (costs cs) Hk H1) as R. cbn [prg_do answer] in R. change (cost (FillBytes 16)) with 4 in R. unfold reads in R.
  destruct (Z.leb_spec (costs cs + 4) capacity) as [L1|L1]; [|rewrite R; cbn [bind]; destruct (Z.leb_spec (costs cs + 4 + costs cs2) capacity); [lia|reflexivity]].
  destruct R as (g2 & -> & H2). cbn [bind].
  assert (Hk1 : bytes 16 (stream key (4 * costs cs) 16)) by now apply stream_bytes.
  destruct (rep_start A _ Hk1) as (c & -> & Hc). cbn [bind].
  pose proof (run_ok A _ cs1 Hk1 c 0 Hc) as R1. rewrite Z.add_0_l in R1. unfold reads in R1.
  pose proof (run_ok A key cs2 Hk g2 _ H2) as R2. unfold reads in R2.
  destruct (costs cs1 <=? capacity); [|rewrite R1, andb_false_r; reflexivity]. destruct R1 as (c1 & -> & _). cbn [bind].
  destruct (costs cs + 4 + costs cs2 <=? capacity); [|rewrite R2; reflexivity]. destruct R2 as (g3 & -> & _). reflexivity.
Qed.

(** ** No block comes twice *)

Lemma key_block_inj key i j : bytes 16 key -> 0 <= i < 2 ^ 128 -> 0 <= j < 2 ^ 128 -> key_block key i = key_block key j -> i = j.
Proof.
  intros Hk Hi Hj E. apply aes_inj in E; [|exact Hk|apply le_bytes_bytes|apply le_bytes_bytes].
  rewrite <- (le_value_bytes 16 i), <- (le_value_bytes 16 j) by assumption. now rewrite E.
Qed.
Lemma block_answers key cs : Forall block_call cs -> forall m, exists n,
  concat (answers key (4 * m) cs) = stream key (16 * m) (16 * n) /\ costs cs = 4 * Z.of_nat n.
Proof.
  induction 1 as [|c cs Hc _ IH]; intros m; [exists 0%nat; split; reflexivity|].
  assert (S : exists k, answer key (4 * m) c = stream key (16 * m) (16 * k) /\ cost c = 4 * Z.of_nat k).
  { destruct c as [| |k| | |k| |k]; try contradiction; cbn [answer cost]; replace (4 * (4 * m)) with (16 * m) by lia;
      [exists 1%nat|exists k]; split; reflexivity. }
  destruct S as (k & Ea & Ec). destruct (IH (m + Z.of_nat k)) as (n & E & C). exists (k + n)%nat.
  cbn [answers concat]. rewrite costs_cons, Ea, Ec, C. split; [|lia].
  replace (4 * m + 4 * Z.of_nat k) with (4 * (m + Z.of_nat k)) by lia. rewrite E.
  replace (16 * (k + n))%nat with (16 * k + 16 * n)%nat by lia. rewrite stream_app. do 2 f_equal. lia.
Qed.
Lemma cut_stream key n : bytes 16 key -> cut (stream key 0 (16 * n)) = map (fun i => key_block key (Z.of_nat i)) (seq 0 n).
Proof.
  intros Hk. unfold cut. rewrite stream_length, (Nat.mul_comm 16), Nat.div_mul by lia. apply map_ext_in. intros i Hi. apply in_seq in Hi.
  rewrite (Nat.mul_comm n), skipn_stream, firstn_stream by lia. rewrite <- stream_block by exact Hk. f_equal. lia.
Qed.
Lemma prg_no_repeat A key cs out : bytes 16 key -> Forall block_call cs ->
  (let* g := prg_from_seed A key in let* '(out, _) := prg_run A cs g in Some out) = Some out -> NoDup (cut (concat out)).
Proof.
  intros Hk Hc E. rewrite prg_history in E by exact Hk. destruct (Z.leb_spec (costs cs) capacity) as [Hle|]; [|discriminate].
  injection E as <-. destruct (block_answers key cs Hc 0) as (n & Ea & Ec). rewrite Z.mul_0_r in Ea. rewrite Ea.
  change (16 * 0) with 0. rewrite cut_stream by exact Hk. unfold capacity in Hle.
  assert (INJ : forall i j, In i (seq 0 n) -> In j (seq 0 n) -> key_block key (Z.of_nat i) = key_block key (Z.of_nat j) -> i = j).
  { intros i j Hi Hj Eq. apply in_seq in Hi, Hj. apply key_block_inj in Eq; [lia|exact Hk| |]; lia. }
  clear - INJ. revert INJ. generalize (seq_NoDup n 0). generalize (seq 0 n). induction 1 as [|x l Hx _ IH]; intros INJ; cbn; constructor.
  - intros Hin. apply in_map_iff in Hin. destruct Hin as (y & Ey & Hy). apply Hx. rewrite <- (INJ y x); [exact Hy|now right|now left|exact Ey].
  - apply IH. intros i j Hi Hj. apply INJ; now right.
Qed.
