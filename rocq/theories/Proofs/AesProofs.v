(** AES: both code paths compute FIPS-197, which is a permutation of the blocks. *)
From Coq Require Import ZArith List Bool Arith Lia Ring.
From Verif Require Import Spec.Aes Model.Base Model.Block Model.Aes.
Import ListNotations.
Local Open Scope Z_scope.

(** Equalities between exclusive ors. *)
Ltac xor_ring := apply Z.bits_inj'; intros ? _; rewrite ?Z.lxor_spec, ?Z.bits_0; ring.

(** ** Bytes *)

Lemma byte_lxor x y : byte x -> byte y -> byte (Z.lxor x y).
Proof.
  intros [Hx1 Hx2] [Hy1 Hy2]. split; [apply Z.lxor_nonneg; lia|].
  destruct (Z.eq_dec (Z.lxor x y) 0) as [->|Hne]; [lia|].
  assert (0 <= Z.lxor x y) by (apply Z.lxor_nonneg; lia).
  change 256 with (2 ^ 8). apply Z.log2_lt_pow2; [lia|].
  pose proof (Z.log2_lxor x y Hx1 Hy1).
  assert (Z.log2 x < 8) by (destruct (Z.eq_dec x 0) as [->|]; [cbn; lia|apply Z.log2_lt_pow2; lia]).
  assert (Z.log2 y < 8) by (destruct (Z.eq_dec y 0) as [->|]; [cbn; lia|apply Z.log2_lt_pow2; lia]).
  lia.
Qed.

Lemma lanewise_xors a b : lanewise Z.lxor a b = xors a b.
Proof. revert b; induction a as [|x a IH]; intros [|y b]; cbn; [reflexivity..|now rewrite IH]. Qed.

Lemma xors_length a b : length a = length b -> length (xors a b) = length a.
Proof. revert b; induction a as [|x a IH]; intros [|y b]; cbn; intros; try lia; f_equal; apply IH; lia. Qed.

Lemma xors_bytes n a b : bytes n a -> bytes n b -> bytes n (xors a b).
Proof.
  intros [La Ha] [Lb Hb]. split; [rewrite xors_length; congruence|].
  revert n b La Lb Hb. induction Ha as [|x a Hx Ha IH]; intros n [|y b] La Lb Hb; cbn; [constructor..|].
  inversion Hb; subst. constructor; [apply byte_lxor; assumption|].
  eapply (IH (length a) b); [reflexivity|cbn in *; lia|assumption].
Qed.

Lemma xors_cancel a b : length a = length b -> xors (xors a b) b = a.
Proof.
  revert b; induction a as [|x a IH]; intros [|y b]; cbn; intros L; try lia; [reflexivity|].
  f_equal; [xor_ring|apply IH; lia].
Qed.

(** A check over all the bytes decides a statement about one. *)
Lemma byte_forall (P : Z -> bool) : forallb P (map Z.of_nat (seq 0 256)) = true -> forall x, byte x -> P x = true.
Proof.
  intros H x [H1 H2]. rewrite forallb_forall in H. apply H.
  apply in_map_iff. exists (Z.to_nat x). split; [lia|]. apply in_seq. lia.
Qed.

Lemma sbox_table x : byte x -> index aes_sbox_table (Z.to_nat x) = Some (sbox x).
Proof.
  intros H.
  assert (E : (match index aes_sbox_table (Z.to_nat x) with Some y => y =? sbox x | None => false end) = true).
  { apply (byte_forall (fun x => match index aes_sbox_table (Z.to_nat x) with Some y => y =? sbox x | None => false end));
      [vm_compute; reflexivity|exact H]. }
  destruct (index _ _) as [y|]; [|discriminate]. apply Z.eqb_eq in E. now rewrite E.
Qed.

Lemma sbox_byte x : byte (sbox x).
Proof.
  unfold sbox. cbn [seq fold_right]. unfold byte.
  repeat match goal with |- context[if ?c then 1 else 0] => destruct c end; lia.
Qed.

Lemma sub_bytes_bytes n s : length s = n -> bytes n (sub_bytes s).
Proof. intros L. split; [unfold sub_bytes; now rewrite map_length|]. apply Forall_forall. intros y Hy. apply in_map_iff in Hy. destruct Hy as (x & <- & _). apply sbox_byte. Qed.

Lemma xtime_byte x : byte x -> byte (xtime x).
Proof.
  intros H. enough (E : ((0 <=? xtime x) && (xtime x <? 256)) = true) by (unfold byte; lia).
  apply (byte_forall (fun x => (0 <=? xtime x) && (xtime x <? 256))); [vm_compute; reflexivity|exact H].
Qed.

Lemma xtime_lxor x y : byte x -> byte y -> xtime (Z.lxor x y) = Z.lxor (xtime x) (xtime y).
Proof.
  intros Hx Hy.
  enough (E : forallb (fun x => forallb (fun y => xtime (Z.lxor x y) =? Z.lxor (xtime x) (xtime y)) (map Z.of_nat (seq 0 256))) (map Z.of_nat (seq 0 256)) = true).
  { apply byte_forall with (x := x) in E; [|exact Hx]. apply byte_forall with (x := y) in E; [|exact Hy]. now apply Z.eqb_eq in E. }
  vm_compute. reflexivity.
Qed.

Ltac gm := intros; unfold gmul; cbn [seq fold_right]; cbn; rewrite ?Z.lxor_0_r, ?Z.lxor_0_l; reflexivity.
Lemma gmul2 x : gmul 2 x = xtime x. Proof. gm. Qed.
Lemma gmul3 x : gmul 3 x = Z.lxor x (xtime x). Proof. gm. Qed.
Lemma gmul9 x : gmul 9 x = Z.lxor x (xtime (xtime (xtime x))). Proof. gm. Qed.
Lemma gmul11 x : gmul 11 x = Z.lxor x (Z.lxor (xtime x) (xtime (xtime (xtime x)))). Proof. gm. Qed.
Lemma gmul13 x : gmul 13 x = Z.lxor x (Z.lxor (xtime (xtime x)) (xtime (xtime (xtime x)))). Proof. gm. Qed.
Lemma gmul14 x : gmul 14 x = Z.lxor (xtime x) (Z.lxor (xtime (xtime x)) (xtime (xtime (xtime x)))). Proof. gm. Qed.

(** ** Permutations of the state *)

Lemma shift_rows_length s : length (shift_rows s) = 16%nat. Proof. reflexivity. Qed.
Lemma mix_columns_length s : length (mix_columns s) = 16%nat. Proof. reflexivity. Qed.

(** Names the sixteen entries of a block. *)
Ltac cells s H :=
  do 16 (destruct s as [|? s]; [discriminate H|]); destruct s as [|? s]; [clear H|discriminate H].

Lemma nth_bytes n s i : bytes n s -> byte (nth i s 0).
Proof.
  intros [_ H]. destruct (Nat.lt_ge_cases i (length s)) as [Hi|Hi].
  - rewrite Forall_forall in H. apply H, nth_In, Hi.
  - rewrite nth_overflow by lia. unfold byte; lia.
Qed.

Lemma map_bytes (f : nat -> Z) l : (forall i, byte (f i)) -> bytes (length l) (map f l).
Proof. intros H. split; [apply map_length|]. apply Forall_forall. intros y Hy. apply in_map_iff in Hy. destruct Hy as (i & <- & _). apply H. Qed.

Lemma shift_rows_bytes s : bytes 16 s -> bytes 16 (shift_rows s).
Proof. intros H. unfold shift_rows. apply (map_bytes _ (seq 0 16)). intros i. eapply nth_bytes, H. Qed.
Lemma inv_shift_rows_bytes s : bytes 16 s -> bytes 16 (inv_shift_rows s).
Proof. intros H. unfold inv_shift_rows. apply (map_bytes _ (seq 0 16)). intros i. eapply nth_bytes, H. Qed.
Lemma mix_columns_bytes s : bytes 16 s -> bytes 16 (mix_columns s).
Proof.
  intros H. unfold mix_columns. apply (map_bytes _ (seq 0 16)). intros i. cbv zeta. rewrite gmul2, gmul3.
  repeat first [apply byte_lxor | apply xtime_byte | eapply nth_bytes, H].
Qed.
Lemma inv_mix_columns_bytes s : bytes 16 s -> bytes 16 (inv_mix_columns s).
Proof.
  intros H. unfold inv_mix_columns. apply (map_bytes _ (seq 0 16)). intros i. cbv zeta. rewrite gmul14, gmul11, gmul13, gmul9.
  repeat first [apply byte_lxor | apply xtime_byte | eapply nth_bytes, H].
Qed.

Lemma shift_sub s : length s = 16%nat -> sub_bytes (shift_rows s) = shift_rows (sub_bytes s).
Proof.
  intros H. cells s H. unfold sub_bytes, shift_rows.
  cbn [seq map Nat.div Nat.divmod fst snd nth Nat.mul Nat.add Nat.modulo Nat.sub]. reflexivity.
Qed.

Lemma inv_shift_shift s : length s = 16%nat -> inv_shift_rows (shift_rows s) = s.
Proof. intros H. cells s H. reflexivity. Qed.
Lemma shift_inv_shift s : length s = 16%nat -> shift_rows (inv_shift_rows s) = s.
Proof. intros H. cells s H. reflexivity. Qed.

Lemma bytes_cons n x l : bytes (S n) (x :: l) -> byte x /\ bytes n l.
Proof. intros [L H]. inversion H; subst. split; [assumption|split; [cbn in L; lia|assumption]]. Qed.

(** One column through a matrix and back. *)
Lemma inv_mix_col a b c d : byte a -> byte b -> byte c -> byte d ->
  let m x y z w := Z.lxor (gmul 2 x) (Z.lxor (gmul 3 y) (Z.lxor z w)) in
  Z.lxor (gmul 14 (m a b c d)) (Z.lxor (gmul 11 (m b c d a)) (Z.lxor (gmul 13 (m c d a b)) (gmul 9 (m d a b c)))) = a.
Proof.
  intros Ha Hb Hc Hd m. unfold m. rewrite ?gmul2, ?gmul3, ?gmul9, ?gmul11, ?gmul13, ?gmul14.
  repeat (rewrite xtime_lxor by (repeat first [assumption | apply byte_lxor | apply xtime_byte])).
  xor_ring.
Qed.
Lemma mix_inv_col a b c d : byte a -> byte b -> byte c -> byte d ->
  let m x y z w := Z.lxor (gmul 14 x) (Z.lxor (gmul 11 y) (Z.lxor (gmul 13 z) (gmul 9 w))) in
  Z.lxor (gmul 2 (m a b c d)) (Z.lxor (gmul 3 (m b c d a)) (Z.lxor (m c d a b) (m d a b c))) = a.
Proof.
  intros Ha Hb Hc Hd m. unfold m. rewrite ?gmul2, ?gmul3, ?gmul9, ?gmul11, ?gmul13, ?gmul14.
  repeat (rewrite xtime_lxor by (repeat first [assumption | apply byte_lxor | apply xtime_byte])).
  xor_ring.
Qed.

Lemma inv_mix_mix s : bytes 16 s -> inv_mix_columns (mix_columns s) = s.
Proof.
  intros H. destruct H as [L H]. cells s L.
  repeat match goal with X : Forall byte (_ :: _) |- _ => inversion X; clear X; subst end.
  unfold inv_mix_columns, mix_columns. cbn [seq map Nat.div Nat.divmod fst snd nth Nat.mul Nat.add Nat.modulo Nat.sub].
  repeat (apply (f_equal2 (@cons Z)); [apply inv_mix_col; assumption|]). reflexivity.
Qed.
Lemma mix_inv_mix s : bytes 16 s -> mix_columns (inv_mix_columns s) = s.
Proof.
  intros H. destruct H as [L H]. cells s L.
  repeat match goal with X : Forall byte (_ :: _) |- _ => inversion X; clear X; subst end.
  unfold inv_mix_columns, mix_columns. cbn [seq map Nat.div Nat.divmod fst snd nth Nat.mul Nat.add Nat.modulo Nat.sub].
  repeat (apply (f_equal2 (@cons Z)); [apply mix_inv_col; assumption|]). reflexivity.
Qed.

(** ** The S-box is a permutation *)

Lemma sbox_inj x y : byte x -> byte y -> sbox x = sbox y -> x = y.
Proof.
  intros Hx Hy E.
  assert (N : NoDup aes_sbox_table).
  { replace aes_sbox_table with (nodup Z.eq_dec aes_sbox_table) by (vm_compute; reflexivity). apply NoDup_nodup. }
  apply (f_equal (@Some Z)) in E. rewrite <- (sbox_table x Hx), <- (sbox_table y Hy) in E.
  unfold index in E. unfold byte in *.
  enough (Z.to_nat x = Z.to_nat y) by lia.
  apply (proj1 (NoDup_nth_error aes_sbox_table) N); [|exact E].
  apply nth_error_Some. rewrite E. intros X. unfold index in X.
  pose proof (sbox_table y Hy) as T. unfold index in T. congruence.
Qed.

Lemma bytes_range x : byte x -> In x (map Z.of_nat (seq 0 256)).
Proof. intros [H1 H2]. apply in_map_iff. exists (Z.to_nat x). split; [lia|]. apply in_seq. lia. Qed.
Lemma range_bytes x : In x (map Z.of_nat (seq 0 256)) -> byte x.
Proof. intros H. apply in_map_iff in H. destruct H as (i & <- & Hi). apply in_seq in Hi. unfold byte. lia. Qed.

Lemma sbox_surj y : byte y -> exists x, byte x /\ sbox x = y.
Proof.
  intros H. assert (E : existsb (Z.eqb y) aes_sbox_table = true).
  { apply (byte_forall (fun y => existsb (Z.eqb y) aes_sbox_table)); [vm_compute; reflexivity|exact H]. }
  apply existsb_exists in E. destruct E as (z & Hz & Ez). apply Z.eqb_eq in Ez. subst z.
  apply In_nth_error in Hz. destruct Hz as (i & Hi).
  assert (i < 256)%nat by (change 256%nat with (length aes_sbox_table); apply nth_error_Some; congruence).
  exists (Z.of_nat i). assert (B : byte (Z.of_nat i)) by (unfold byte; lia). split; [exact B|].
  pose proof (sbox_table _ B) as T. unfold index in T. rewrite Nat2Z.id in T. congruence.
Qed.

Lemma inv_sbox_spec y : byte y -> byte (inv_sbox y) /\ sbox (inv_sbox y) = y.
Proof.
  intros H. unfold inv_sbox. destruct (find _ _) as [x|] eqn:E.
  - apply find_some in E. destruct E as [E1 E2]. apply Z.eqb_eq in E2. split; [apply range_bytes, E1|exact E2].
  - destruct (sbox_surj y H) as (x & Hx & Ex). exfalso.
    pose proof (find_none _ _ E x (bytes_range x Hx)) as X. cbn beta in X. apply Z.eqb_neq in X. contradiction.
Qed.
Lemma inv_sbox_sbox x : byte x -> inv_sbox (sbox x) = x.
Proof. intros H. destruct (inv_sbox_spec (sbox x) (sbox_byte x)) as [B E]. apply sbox_inj; assumption. Qed.

Lemma inv_sub_sub s : Forall byte s -> inv_sub_bytes (sub_bytes s) = s.
Proof. unfold inv_sub_bytes, sub_bytes. induction 1; cbn [map]; [reflexivity|]. now rewrite inv_sbox_sbox, IHForall by assumption. Qed.
Lemma sub_inv_sub s : Forall byte s -> sub_bytes (inv_sub_bytes s) = s.
Proof. unfold inv_sub_bytes, sub_bytes. induction 1 as [|x l Hx _ IH]; cbn [map]; [reflexivity|]. now rewrite (proj2 (inv_sbox_spec x Hx)), IH. Qed.
Lemma inv_sub_bytes_bytes n s : bytes n s -> bytes n (inv_sub_bytes s).
Proof.
  intros [L H]. split; [unfold inv_sub_bytes; now rewrite map_length|].
  unfold inv_sub_bytes. clear L. induction H; cbn [map]; constructor; [now apply inv_sbox_spec|assumption].
Qed.

(** ** The key schedule *)

(** One round of the schedule: the next four words from four words. *)
Definition step4 (rc : list Z) (w : list Z * list Z * list Z * list Z) : list Z * list Z * list Z * list Z :=
  let '(a, b, c, d) := w in
  let a' := xors a (xors (sub_word (rot_word d)) rc) in
  let b' := xors b a' in let c' := xors c b' in let d' := xors d c' in (a', b', c', d').
Definition words4 (w : list Z * list Z * list Z * list Z) : list (list Z) := let '(a, b, c, d) := w in [a; b; c; d].

Fixpoint rk (key : list Z) (n : nat) : list Z * list Z * list Z * list Z :=
  match n with
  | O => (firstn 4 key, firstn 4 (skipn 4 key), firstn 4 (skipn 8 key), firstn 4 (skipn 12 key))
  | S n' => step4 (rcon n) (rk key n')
  end.

Lemma nth_app_r {A} (p q : list A) i d : nth (length p + i) (p ++ q) d = nth i q d.
Proof. rewrite app_nth2 by lia. f_equal. lia. Qed.

Lemma next_word_mid pre ws (i : nat) : length pre = i -> length ws = 4%nat -> (i mod 4 <> 0)%nat ->
  next_word (pre ++ ws) = pre ++ ws ++ [xors (nth 0 ws []) (nth 3 ws [])].
Proof.
  intros L1 L2 Hi. unfold next_word. rewrite app_length, L1, L2.
  replace ((i + 4) mod 4 =? 0)%nat with false.
  - replace (i + 4 - 1)%nat with (length pre + 3)%nat by lia. replace (i + 4 - 4)%nat with (length pre + 0)%nat by lia.
    rewrite !nth_app_r, <- app_assoc. reflexivity.
  - symmetry. apply Nat.eqb_neq. intros E. apply Hi.
    replace (i + 4)%nat with (i + 1 * 4)%nat in E by lia. now rewrite Nat.mod_add in E by lia.
Qed.
Lemma next_word_first pre ws (r : nat) : length pre = (4 * r)%nat -> length ws = 4%nat ->
  next_word (pre ++ ws) = pre ++ ws ++ [xors (nth 0 ws []) (xors (sub_word (rot_word (nth 3 ws []))) (rcon (S r)))].
Proof.
  intros L1 L2. unfold next_word. rewrite app_length, L1, L2.
  replace (4 * r + 4)%nat with (S r * 4)%nat by lia. rewrite Nat.mod_mul, Nat.div_mul by lia. cbn [Nat.eqb].
  replace (S r * 4 - 1)%nat with (length pre + 3)%nat by lia. replace (S r * 4 - 4)%nat with (length pre + 0)%nat by lia.
  rewrite !nth_app_r, <- app_assoc. reflexivity.
Qed.

Lemma next4 pre w r : length pre = (4 * r)%nat ->
  Nat.iter 4 next_word (pre ++ words4 w) = pre ++ words4 w ++ words4 (step4 (rcon (S r)) w).
Proof.
  intros L. destruct w as [[[a b] c] d]. cbn [words4 step4]. cbv zeta.
  unfold Nat.iter; cbn [nat_rect].
  rewrite (next_word_first pre [a; b; c; d] r) by (cbn; lia). cbn [nth].
  set (a' := xors a _).
  assert (M : forall k, (k < 4)%nat -> (k <> 0)%nat -> ((length pre + k) mod 4 <> 0)%nat).
  { intros k H1 H2. rewrite L, Nat.add_comm, Nat.mul_comm, Nat.mod_add, Nat.mod_small; lia. }
  change (pre ++ [a; b; c; d] ++ [a']) with (pre ++ [a] ++ [b; c; d; a']). rewrite app_assoc.
  rewrite (next_word_mid (pre ++ [a]) _ (length pre + 1)) by (rewrite ?app_length; cbn [length]; try apply M; lia). cbn [nth].
  set (b' := xors b a'). rewrite <- app_assoc.
  change (pre ++ [a] ++ [b; c; d; a'] ++ [b']) with (pre ++ [a; b] ++ [c; d; a'; b']). rewrite app_assoc.
  rewrite (next_word_mid (pre ++ [a; b]) _ (length pre + 2)) by (rewrite ?app_length; cbn [length]; try apply M; lia). cbn [nth].
  set (c' := xors c b'). rewrite <- app_assoc.
  change (pre ++ [a; b] ++ [c; d; a'; b'] ++ [c']) with (pre ++ [a; b; c] ++ [d; a'; b'; c']). rewrite app_assoc.
  rewrite (next_word_mid (pre ++ [a; b; c]) _ (length pre + 3)) by (rewrite ?app_length; cbn [length]; try apply M; lia). cbn [nth].
  rewrite <- app_assoc. reflexivity.
Qed.

Lemma iter_add {A} (f : A -> A) m n x : Nat.iter (m + n) f x = Nat.iter m f (Nat.iter n f x).
Proof. induction m as [|m IH]; [reflexivity|]. unfold Nat.iter in *. cbn [nat_rect Nat.add]. now rewrite IH. Qed.

Lemma words_length key n s : length (flat_map (fun i => words4 (rk key i)) (seq s n)) = (4 * n)%nat.
Proof.
  revert s. induction n as [|n IH]; intros s; [reflexivity|]. cbn [seq flat_map]. rewrite app_length, IH.
  destruct (rk key s) as [[[? ?] ?] ?]. cbn. lia.
Qed.

Lemma expansion key n :
  Nat.iter (4 * n) next_word (words4 (rk key 0)) = flat_map (fun i => words4 (rk key i)) (seq 0 (S n)).
Proof.
  induction n as [|n IH]; [cbn [Nat.mul Nat.iter seq flat_map]; now rewrite app_nil_r|].
  replace (4 * S n)%nat with (4 + 4 * n)%nat by lia. rewrite iter_add, IH.
  rewrite (seq_S (S n) 0), (seq_S n 0), !flat_map_app. cbn [flat_map Nat.add]. rewrite !app_nil_r.
  rewrite (next4 _ _ n) by apply words_length. rewrite app_assoc. reflexivity.
Qed.

Lemma skipn_groups {A} (f : nat -> list A) k r : (forall i, length (f i) = k) -> forall n s, (r <= n)%nat ->
  skipn (k * r) (flat_map f (seq s n)) = flat_map f (seq (s + r) (n - r)).
Proof.
  intros Hf. induction r as [|r IH]; intros n s H; [rewrite Nat.mul_0_r, Nat.add_0_r, Nat.sub_0_r; reflexivity|].
  destruct n as [|n]; [lia|]. cbn [seq flat_map]. replace (k * S r)%nat with (length (f s) + k * r)%nat by (rewrite Hf; lia).
  rewrite skipn_app, skipn_all2 by lia. cbn [app].
  replace (length (f s) + k * r - length (f s))%nat with (k * r)%nat by lia.
  rewrite IH by lia. f_equal. f_equal; lia.
Qed.

Lemma round_key_rk key r : (r <= 10)%nat -> round_key key r = concat (words4 (rk key r)).
Proof.
  intros H. unfold round_key. f_equal. unfold key_expansion.
  change (map _ (seq 0 4)) with (words4 (rk key 0)). change 40%nat with (4 * 10)%nat.
  rewrite expansion, (skipn_groups _ 4) by (try lia; intros i; destruct (rk key i) as [[[? ?] ?] ?]; reflexivity).
  replace (11 - r)%nat with (S (10 - r)) by lia. cbn [seq flat_map]. cbn [Nat.add].
  destruct (rk key r) as [[[? ?] ?] ?]. reflexivity.
Qed.

(** Every word of the schedule has four bytes. *)
Definition good4 (w : list Z * list Z * list Z * list Z) : Prop :=
  let '(a, b, c, d) := w in bytes 4 a /\ bytes 4 b /\ bytes 4 c /\ bytes 4 d.

Lemma rot_word_bytes n w : bytes n w -> bytes n (rot_word w).
Proof.
  intros [L H]. destruct w as [|x w]; [split; assumption|]. inversion H as [|? ? Hx Hw]. subst. cbn [rot_word].
  split; [rewrite app_length; cbn; lia|apply Forall_app; split; [exact Hw|constructor; [exact Hx|constructor]]].
Qed.
Lemma iter_byte n x : byte x -> byte (Nat.iter n xtime x).
Proof. intros H. induction n; [exact H|]. unfold Nat.iter in *. cbn [nat_rect]. apply xtime_byte. assumption. Qed.
Lemma rcon_bytes i : bytes 4 (rcon i).
Proof.
  unfold rcon. split; [reflexivity|].
  constructor; [apply iter_byte; unfold byte; lia|]. repeat (constructor; [unfold byte; lia|]). constructor.
Qed.
Lemma step4_good rc w : bytes 4 rc -> good4 w -> good4 (step4 rc w).
Proof.
  intros Hr. destruct w as [[[a b] c] d]. intros (Ha & Hb & Hc & Hd). unfold step4, good4. cbv zeta.
  assert (T : bytes 4 (xors (sub_word (rot_word d)) rc)).
  { apply xors_bytes; [|exact Hr]. apply sub_bytes_bytes. apply rot_word_bytes, Hd. }
  split; [|split; [|split]]; repeat first [assumption | apply xors_bytes].
Qed.
Lemma firstn_skipn_bytes n i m key : bytes m key -> (i + n <= m)%nat -> bytes n (firstn n (skipn i key)).
Proof.
  intros [L H] Hm. split; [rewrite firstn_length, skipn_length; lia|].
  rewrite Forall_forall in *. intros x Hx. apply H.
  rewrite <- (firstn_skipn i key). apply in_or_app. right.
  rewrite <- (firstn_skipn n (skipn i key)). apply in_or_app. left. assumption.
Qed.
Lemma rk_good key n : bytes 16 key -> good4 (rk key n).
Proof.
  intros H. induction n as [|n IH].
  - cbn [rk good4]. split; [|split; [|split]].
    + apply (firstn_skipn_bytes 4 0 16); [exact H|lia].
    + apply (firstn_skipn_bytes 4 4 16); [exact H|lia].
    + apply (firstn_skipn_bytes 4 8 16); [exact H|lia].
    + apply (firstn_skipn_bytes 4 12 16); [exact H|lia].
  - cbn [rk]. apply step4_good; [apply rcon_bytes|exact IH].
Qed.

Lemma round_key_bytes key r : bytes 16 key -> (r <= 10)%nat -> bytes 16 (round_key key r).
Proof.
  intros H Hr. rewrite round_key_rk by exact Hr. pose proof (rk_good key r H) as G.
  destruct (rk key r) as [[[a b] c] d]. destruct G as ((La & Ha) & (Lb & Hb) & (Lc & Hc) & (Ld & Hd)).
  cbn [words4 concat]. rewrite app_nil_r. split; [rewrite !app_length; lia|].
  repeat (apply Forall_app; split; [assumption|]). assumption.
Qed.

(** ** The round keys computed with Intel instructions *)

Lemma expand_x86 w v3 rc : good4 w -> length v3 = 16%nat -> firstn 4 v3 = [0; 0; 0; 0] ->
  exists v3', expand_assist_x86 (concat (words4 w)) v3 255 rc = (concat (words4 (step4 [rc; 0; 0; 0] w)), v3')
    /\ length v3' = 16%nat /\ firstn 4 v3' = [0; 0; 0; 0].
Proof.
  intros G L F. destruct w as [[[a b] c] d]. destruct G as ((La & Ha) & (Lb & Hb) & (Lc & Hc) & (Ld & Hd)).
  clear Ha Hb Hc Hd.
  do 4 (destruct a as [|? a]; [discriminate La|]); destruct a; [|discriminate La].
  do 4 (destruct b as [|? b]; [discriminate Lb|]); destruct b; [|discriminate Lb].
  do 4 (destruct c as [|? c]; [discriminate Lc|]); destruct c; [|discriminate Lc].
  do 4 (destruct d as [|? d]; [discriminate Ld|]); destruct d; [|discriminate Ld].
  cells v3 L. cbn [firstn] in F. injection F as -> -> -> ->.
  unfold expand_assist_x86. eexists. split; [|split; [|]].
  - f_equal.
    unfold mm_aeskeygenassist, mm_shuffle_ps, mm_shuffle_epi32, mm_xor.
    change (sel 16 0) with 0%nat. change (sel 16 1) with 0%nat. change (sel 16 2) with 1%nat. change (sel 16 3) with 0%nat.
    change (sel 140 0) with 0%nat. change (sel 140 1) with 3%nat. change (sel 140 2) with 0%nat. change (sel 140 3) with 2%nat.
    change (sel 255 0) with 3%nat. change (sel 255 1) with 3%nat. change (sel 255 2) with 3%nat. change (sel 255 3) with 3%nat.
    unfold lane, sub_word. cbn [words4 step4 concat app firstn skipn Nat.mul Nat.add map rot_word lanewise xors].
    cbv zeta. unfold sub_word. cbn [words4 step4 concat app firstn skipn Nat.mul Nat.add map rot_word lanewise xors].
    repeat (apply (f_equal2 (@cons Z)); [xor_ring|]). reflexivity.
  - reflexivity.
  - reflexivity.
Qed.

Lemma rcon_consts n : (n < 10)%nat -> rcon (S n) = [nth n expand_consts 0; 0; 0; 0].
Proof. intros H. do 10 (destruct n as [|n]; [reflexivity|]). lia. Qed.

Lemma x86_rounds_ok key : bytes 16 key -> forall m n v3, (n + m = 10)%nat -> length v3 = 16%nat -> firstn 4 v3 = [0; 0; 0; 0] ->
  x86_rounds (skipn n expand_consts) (concat (words4 (rk key n))) v3 = map (round_key key) (seq (S n) m).
Proof.
  intros Hk. induction m as [|m IH]; intros n v3 Hn L F.
  - replace n with 10%nat by lia. reflexivity.
  - assert (E : skipn n expand_consts = nth n expand_consts 0 :: skipn (S n) expand_consts).
    { assert (n < 10)%nat as Hlt by lia. clear - Hlt. do 10 (destruct n as [|n]; [reflexivity|]). lia. }
    rewrite E. cbn [x86_rounds].
    destruct (expand_x86 (rk key n) v3 (nth n expand_consts 0) (rk_good key n Hk) L F) as (v3' & E' & L' & F').
    rewrite E', <- rcon_consts by lia. change (step4 (rcon (S n)) (rk key n)) with (rk key (S n)).
    cbn [seq map]. rewrite round_key_rk by lia. f_equal. apply IH; [lia|assumption..].
Qed.

Lemma key_words key : length key = 16%nat -> concat (words4 (rk key 0)) = key.
Proof. intros H. cells key H. reflexivity. Qed.

Lemma aes_init_x86_ok key : bytes 16 key -> aes_init_x86 key = map (round_key key) (seq 0 11).
Proof.
  intros Hk. unfold aes_init_x86. cbn [seq map]. f_equal.
  - rewrite round_key_rk by lia. symmetry. apply key_words, Hk.
  - rewrite <- (key_words key (proj1 Hk)) at 1. apply (x86_rounds_ok key Hk 10 0); reflexivity.
Qed.

(** ** Arm emulation *)

Lemma le_bytes_value l : Forall byte l -> le_bytes (length l) (le_value l) = l.
Proof.
  induction 1 as [|x l Hx Hl IH]; cbn [length le_bytes le_value]; [reflexivity|]. unfold byte in Hx.
  rewrite (Z.mul_comm 256), Z.mod_add, Z.mod_small, Z.div_add, Z.div_small by lia. now rewrite Z.add_0_l, IH.
Qed.
Lemma le_value_bytes n x : 0 <= x < 256 ^ Z.of_nat n -> le_value (le_bytes n x) = x.
Proof.
  revert x. induction n as [|n IH]; intros x H; cbn [le_bytes le_value]; [cbn in H; lia|].
  rewrite IH; [pose proof (Z.div_mod x 256); lia|].
  rewrite Nat2Z.inj_succ, Z.pow_succ_r in H by lia. split; [apply Z.div_pos; lia|apply Z.div_lt_upper_bound; lia].
Qed.
Lemma le_bytes_length n x : length (le_bytes n x) = n.
Proof. revert x. induction n as [|n IH]; intros x; cbn; [reflexivity|now rewrite IH]. Qed.
Lemma le_bytes_bytes n x : bytes n (le_bytes n x).
Proof.
  split; [apply le_bytes_length|]. revert x. induction n as [|n IH]; intros x; cbn; constructor; [|apply IH].
  unfold byte. apply Z.mod_pos_bound. lia.
Qed.
Lemma le_value_range l : Forall byte l -> 0 <= le_value l < 256 ^ Z.of_nat (length l).
Proof.
  induction 1 as [|x l Hx Hl IH]; cbn [length le_value]; [cbn; lia|].
  rewrite Nat2Z.inj_succ, Z.pow_succ_r by lia. unfold byte in Hx. lia.
Qed.

Lemma lane_bytes v i : bytes 16 v -> (i < 4)%nat -> bytes 4 (lane v i).
Proof. intros H Hi. apply (firstn_skipn_bytes 4 (4 * i) 16); [exact H|lia]. Qed.
Lemma le_bytes_lane v i : bytes 16 v -> (i < 4)%nat -> le_bytes 4 (vgetq_lane v i) = lane v i.
Proof.
  intros H Hi. destruct (lane_bytes v i H Hi) as [L F]. unfold vgetq_lane. rewrite <- L at 1. apply le_bytes_value, F.
Qed.
Lemma sel_lt imm k : (sel imm k < 4)%nat.
Proof.
  unfold sel. change 3 with (Z.ones 2). rewrite Z.land_ones by lia.
  pose proof (Z.mod_pos_bound (Z.shiftr imm (2 * k)) (2 ^ 2)). lia.
Qed.

(** Setting lanes 1, 2 and 3 of a broadcast. *)
Lemma set_lanes x y z w :
  vsetq_lane w (vsetq_lane z (vsetq_lane y (vmovq_n x) 1) 2) 3 = le_bytes 4 x ++ le_bytes 4 y ++ le_bytes 4 z ++ le_bytes 4 w.
Proof. reflexivity. Qed.

Lemma neon_shuffle_ps_ok a b imm : bytes 16 a -> bytes 16 b -> neon_shuffle_ps a b imm = mm_shuffle_ps a b imm.
Proof. intros Ha Hb. unfold neon_shuffle_ps. cbv zeta. rewrite set_lanes, !le_bytes_lane by (try assumption; apply sel_lt). reflexivity. Qed.
Lemma neon_shuffle_epi32_ok a imm : bytes 16 a -> neon_shuffle_epi32 a imm = mm_shuffle_epi32 a imm.
Proof. intros Ha. unfold neon_shuffle_epi32. cbv zeta. rewrite set_lanes, !le_bytes_lane by (try assumption; apply sel_lt). reflexivity. Qed.

Lemma mapM_sbox l : Forall byte l -> mapM (fun b => index aes_sbox_table (Z.to_nat b)) l = Some (sub_word l).
Proof.
  induction 1 as [|x l Hx Hl IH]; [reflexivity|]. cbn [mapM]. rewrite sbox_table by exact Hx. cbn [bind]. rewrite IH. reflexivity.
Qed.

Lemma bits_small z k n : 0 <= z < 2 ^ k -> k <= n -> Z.testbit z n = false.
Proof.
  intros Hz Hn. destruct (Z.eq_dec z 0) as [->|]; [apply Z.bits_0|]. apply Z.bits_above_log2; [lia|].
  assert (Z.log2 z < k) by (apply Z.log2_lt_pow2; lia). lia.
Qed.
Lemma lor_disjoint a b k : 0 <= a < 2 ^ k -> 0 <= k -> Z.lor a (b * 2 ^ k) = a + b * 2 ^ k.
Proof.
  intros Ha Hk.
  assert (D : Z.land a (b * 2 ^ k) = 0).
  { apply Z.bits_inj'. intros n Hn. rewrite Z.land_spec, Z.bits_0, Z.mul_pow2_bits by lia.
    destruct (Z.lt_ge_cases n k); [rewrite (Z.testbit_neg_r b) by lia; apply andb_false_r|].
    now rewrite (bits_small a k n) by lia. }
  rewrite Z.add_nocarry_lxor by exact D. symmetry. now apply Z.lxor_lor.
Qed.

Lemma ror8_bytes a b c d : byte a -> byte b -> byte c -> byte d ->
  ror8 (le_value [a; b; c; d]) = le_value [b; c; d; a].
Proof.
  intros Ha Hb Hc Hd. unfold byte in *. unfold ror8. cbn [le_value]. rewrite Z.shiftr_div_pow2, Z.shiftl_mul_pow2 by lia.
  replace ((a + 256 * (b + 256 * (c + 256 * (d + 256 * 0)))) / 2 ^ 8) with (b + 256 * (c + 256 * d)).
  2:{ apply Z.div_unique with (r := a); lia. }
  replace ((a + 256 * (b + 256 * (c + 256 * (d + 256 * 0)))) * 2 ^ 24 mod 2 ^ 32) with (a * 2 ^ 24).
  2:{ apply Z.mod_unique with (q := b + 256 * (c + 256 * d)); lia. }
  rewrite lor_disjoint by lia. lia.
Qed.
Lemma lxor_low x y k r : 0 <= x < 2 ^ k -> 0 <= r < 2 ^ k -> 0 <= Z.lxor x r < 2 ^ k -> 0 <= k ->
  Z.lxor (x + y * 2 ^ k) r = Z.lxor x r + y * 2 ^ k.
Proof.
  intros Hx Hr HX Hk. rewrite <- !lor_disjoint by lia.
  apply Z.bits_inj'. intros n Hn. rewrite Z.lxor_spec, !Z.lor_spec, Z.lxor_spec, !Z.mul_pow2_bits by lia.
  destruct (Z.lt_ge_cases n k) as [Hlt|Hge].
  - rewrite (Z.testbit_neg_r y) by lia. now rewrite !orb_false_r.
  - rewrite (bits_small x k n), (bits_small r k n) by lia. cbn. apply xorb_false_r.
Qed.

Lemma neon_assist_ok key rc : bytes 16 key -> byte rc -> neon_aeskeygenassist key rc = Some (mm_aeskeygenassist key rc).
Proof.
  intros Hk Hr. unfold neon_aeskeygenassist, neon_cvtsi128_si32.
  rewrite !neon_shuffle_epi32_ok by exact Hk. unfold mm_shuffle_epi32.
  assert (L1 : vgetq_lane (lane key (sel 85 0) ++ lane key (sel 85 1) ++ lane key (sel 85 2) ++ lane key (sel 85 3)) 0 = le_value (lane key 1)).
  { destruct Hk as [L _]. cells key L. reflexivity. }
  assert (L3 : vgetq_lane (lane key (sel 255 0) ++ lane key (sel 255 1) ++ lane key (sel 255 2) ++ lane key (sel 255 3)) 0 = le_value (lane key 3)).
  { destruct Hk as [L _]. cells key L. reflexivity. }
  rewrite L1, L3. clear L1 L3.
  assert (W : forall i, (i < 4)%nat -> le_bytes 4 (le_value (lane key i)) = lane key i) by (intros; now apply (le_bytes_lane key)).
  rewrite !W by lia. rewrite !mapM_sbox by (apply lane_bytes; [exact Hk|lia]). cbn [bind]. f_equal.
  unfold mm_aeskeygenassist.
  assert (S : forall i, (i < 4)%nat -> exists a b c d, sub_word (lane key i) = [a; b; c; d] /\ byte a /\ byte b /\ byte c /\ byte d).
  { intros i Hi. destruct (lane_bytes key i Hk Hi) as [L _]. destruct (lane key i) as [|x1 [|x2 [|x3 [|x4 [|]]]]]; try discriminate L.
    exists (sbox x1), (sbox x2), (sbox x3), (sbox x4). repeat split; apply sbox_byte. }
  assert (R : forall a b c d, byte a -> byte b -> byte c -> byte d ->
    le_bytes 4 (Z.lxor (Z.lor (ror8 (le_value [a; b; c; d])) (Z.shiftl (le_value [a; b; c; d]) 24 mod 2 ^ 32)) rc)
      = lanewise Z.lxor (rot_word [a; b; c; d]) [rc; 0; 0; 0]).
  { intros a b c d Ha Hb Hc Hd.
    replace (Z.lor (ror8 (le_value [a; b; c; d])) (Z.shiftl (le_value [a; b; c; d]) 24 mod 2 ^ 32)) with (ror8 (le_value [a; b; c; d])).
    2:{ unfold ror8. now rewrite <- Z.lor_assoc, Z.lor_diag. }
    rewrite ror8_bytes by assumption. cbn [le_value rot_word app lanewise]. rewrite !Z.lxor_0_r.
    replace (b + 256 * (c + 256 * (d + 256 * (a + 256 * 0)))) with (b + (c + 256 * (d + 256 * a)) * 2 ^ 8) by lia.
    pose proof (byte_lxor b rc Hb Hr) as X. unfold byte in *. rewrite lxor_low by lia.
    replace (Z.lxor b rc + (c + 256 * (d + 256 * a)) * 2 ^ 8) with (le_value [Z.lxor b rc; c; d; a]) by (cbn [le_value]; lia).
    apply (le_bytes_value [Z.lxor b rc; c; d; a]). repeat constructor; unfold byte in *; lia. }
  destruct (S 1%nat ltac:(lia)) as (a & b & c & d & E1 & ? & ? & ? & ?).
  destruct (S 3%nat ltac:(lia)) as (a' & b' & c' & d' & E3 & ? & ? & ? & ?).
  rewrite E1, E3, !R by assumption.
  change 4%nat with (length [a; b; c; d]) at 1. rewrite le_bytes_value by (repeat (apply Forall_cons; [assumption|]); apply Forall_nil).
  change 4%nat with (length [a'; b'; c'; d']) at 1. rewrite le_bytes_value by (repeat (apply Forall_cons; [assumption|]); apply Forall_nil). reflexivity.
Qed.

Lemma app_bytes n m a b : bytes n a -> bytes m b -> bytes (n + m) (a ++ b).
Proof. intros [La Ha] [Lb Hb]. split; [rewrite app_length; lia|apply Forall_app; split; assumption]. Qed.
Lemma app4_bytes a b c d : bytes 4 a -> bytes 4 b -> bytes 4 c -> bytes 4 d -> bytes 16 (a ++ b ++ c ++ d).
Proof. intros. apply (app_bytes 4 12); [assumption|]. apply (app_bytes 4 8); [assumption|]. apply (app_bytes 4 4); assumption. Qed.
Lemma shuffle_ps_bytes a b imm : bytes 16 a -> bytes 16 b -> bytes 16 (mm_shuffle_ps a b imm).
Proof. intros. apply app4_bytes; apply lane_bytes; try assumption; apply sel_lt. Qed.
Lemma shuffle_epi32_bytes a imm : bytes 16 a -> bytes 16 (mm_shuffle_epi32 a imm).
Proof. intros. apply app4_bytes; apply lane_bytes; try assumption; apply sel_lt. Qed.
Lemma mm_xor_bytes a b : bytes 16 a -> bytes 16 b -> bytes 16 (mm_xor a b).
Proof. intros. unfold mm_xor. rewrite lanewise_xors. now apply xors_bytes. Qed.
Lemma rc_bytes rc : byte rc -> bytes 4 [rc; 0; 0; 0].
Proof. intros H. split; [reflexivity|]. apply Forall_cons; [exact H|]. repeat (apply Forall_cons; [unfold byte; lia|]). constructor. Qed.
Lemma assist_bytes a rc : bytes 16 a -> byte rc -> bytes 16 (mm_aeskeygenassist a rc).
Proof.
  intros Ha Hr. unfold mm_aeskeygenassist. rewrite !lanewise_xors.
  assert (S : forall i, (i < 4)%nat -> bytes 4 (sub_word (lane a i))) by (intros; apply sub_bytes_bytes, lane_bytes; assumption).
  apply app4_bytes; try apply xors_bytes; try apply rot_word_bytes; try (apply S; lia); apply rc_bytes, Hr.
Qed.

Lemma expand_arm_ok v1 v3 sc rc : bytes 16 v1 -> bytes 16 v3 -> byte rc ->
  expand_assist_arm v1 v3 sc rc = Some (expand_assist_x86 v1 v3 sc rc) /\
  bytes 16 (fst (expand_assist_x86 v1 v3 sc rc)) /\ bytes 16 (snd (expand_assist_x86 v1 v3 sc rc)).
Proof.
  intros H1 H3 Hr. unfold expand_assist_arm, expand_assist_x86. rewrite neon_assist_ok by assumption. cbn [bind].
  pose proof (assist_bytes v1 rc H1 Hr) as H2.
  pose proof (shuffle_ps_bytes v3 v1 16 H3 H1) as H4.
  pose proof (mm_xor_bytes _ _ H1 H4) as H5.
  pose proof (shuffle_ps_bytes _ _ 140 H4 H5) as H6.
  pose proof (mm_xor_bytes _ _ H5 H6) as H7.
  pose proof (shuffle_epi32_bytes _ sc H2) as H8.
  pose proof (mm_xor_bytes _ _ H7 H8) as H9.
  change veorq with mm_xor.
  rewrite (neon_shuffle_ps_ok v3 v1 16) by assumption.
  rewrite neon_shuffle_ps_ok by assumption. rewrite neon_shuffle_epi32_ok by assumption.
  split; [reflexivity|]. split; assumption.
Qed.

Lemma arm_rounds_ok acs : Forall byte acs -> forall x0 x2, bytes 16 x0 -> bytes 16 x2 ->
  arm_rounds acs x0 x2 = Some (x86_rounds acs x0 x2).
Proof.
  induction 1 as [|ac acs Hac Hacs IH]; intros x0 x2 H0 H2; [reflexivity|]. cbn [arm_rounds x86_rounds].
  destruct (expand_arm_ok x0 x2 255 ac H0 H2 Hac) as (-> & B0 & B2). cbn [bind].
  destruct (expand_assist_x86 x0 x2 255 ac) as [y0 y2]. cbn [fst snd] in *. rewrite IH by assumption. reflexivity.
Qed.

Lemma aes_new_ok A key : bytes 16 key -> aes_new A key = Some (map (round_key key) (seq 0 11)).
Proof.
  intros Hk. destruct A; unfold aes_new; [now rewrite aes_init_x86_ok|].
  unfold aes_init_arm. rewrite arm_rounds_ok; [|unfold expand_consts; repeat (apply Forall_cons; [unfold byte; lia|]); constructor|exact Hk|].
  - cbn [bind]. f_equal. change (key :: x86_rounds expand_consts key (repeat 0 16)) with (aes_init_x86 key). now apply aes_init_x86_ok.
  - split; [reflexivity|]. apply Forall_forall. intros x Hx. apply repeat_spec in Hx. subst. unfold byte; lia.
Qed.
