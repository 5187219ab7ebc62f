(** AES-128: encryption of a block, of many blocks and of slices; decryption. *)
From Coq Require Import ZArith List Bool Arith Lia.
From Verif Require Import Spec.Aes Model.Base Model.Block Model.Aes Proofs.AesProofs.
Import ListNotations.
Local Open Scope Z_scope.

(** ** Encryption *)

Definition round (s : list Z) : list Z := mix_columns (shift_rows (sub_bytes s)).

Lemma aesenc_round s k : length s = 16%nat -> mm_aesenc s k = xors (round s) k.
Proof. intros H. unfold mm_aesenc, round, mm_xor. now rewrite lanewise_xors, shift_sub. Qed.
Lemma aesenclast_round s k : length s = 16%nat -> mm_aesenclast s k = xors (shift_rows (sub_bytes s)) k.
Proof. intros H. unfold mm_aesenclast, mm_xor. now rewrite lanewise_xors, shift_sub. Qed.
Lemma round_length s : length (round s) = 16%nat. Proof. reflexivity. Qed.

Lemma rounds_x86 ks s : length s = 16%nat -> Forall (fun k => length k = 16%nat) ks ->
  fold_left mm_aesenc ks s = fold_left (fun s k => xors (round s) k) ks s /\
  length (fold_left (fun s k => xors (round s) k) ks s) = 16%nat.
Proof.
  intros L H. revert s L. induction H as [|k ks Hk _ IH]; intros s L; cbn [fold_left]; [split; [reflexivity|exact L]|].
  rewrite aesenc_round by exact L. apply IH. rewrite xors_length; [apply round_length|now rewrite round_length].
Qed.
Lemma rounds_arm ks k s : length s = 16%nat -> Forall (fun k => length k = 16%nat) (ks ++ [k]) ->
  xors (fold_left (fun c k => vaesmcq (vaeseq c k)) ks s) k =
    match ks ++ [k] with k0 :: r => fold_left (fun s k => xors (round s) k) r (xors s k0) | [] => [] end.
Proof.
  revert s. induction ks as [|k0 ks IH]; intros s L H; [reflexivity|].
  inversion H as [|? ? H1 H2]. subst. cbn [fold_left app].
  assert (E : vaesmcq (vaeseq s k0) = round (xors s k0)).
  { unfold vaesmcq, vaeseq, veorq, round. rewrite lanewise_xors, shift_sub; [reflexivity|]. rewrite xors_length; congruence. }
  rewrite E, IH by (try reflexivity; exact H2).
  destruct ks as [|k1 ks]; reflexivity.
Qed.

Lemma fold_map {A B C} (f : A -> B -> A) (g : C -> B) l a : fold_left f (map g l) a = fold_left (fun a x => f a (g x)) l a.
Proof. revert a. induction l as [|x l IH]; intros a; cbn; [reflexivity|apply IH]. Qed.

(** The cipher over given round keys. *)
Definition cipher (rk : nat -> list Z) (blk : list Z) : list Z :=
  xors (shift_rows (sub_bytes (fold_left (fun s r => xors (round s) (rk r)) (seq 1 9) (xors blk (rk 0%nat))))) (rk 10%nat).
Lemma aes128_cipher key blk : aes128 key blk = cipher (round_key key) blk.
Proof. unfold aes128, cipher, round. cbv zeta. reflexivity. Qed.

Lemma encrypt_cipher A (rk : nat -> list Z) blk : (forall r, (r <= 10)%nat -> length (rk r) = 16%nat) -> bytes 16 blk ->
  encrypt_block A (map rk (seq 0 11)) blk = Some (cipher rk blk).
Proof.
  intros R Hb.
  assert (L0 : length (xors blk (rk 0%nat)) = 16%nat) by (rewrite xors_length; [apply Hb|rewrite R by lia; apply Hb]).
  assert (G : forall rs, Forall (fun r => (r <= 10)%nat) rs -> Forall (fun k => length k = 16%nat) (map rk rs)).
  { intros rs H. apply Forall_map. eapply Forall_impl; [|exact H]. exact R. }
  destruct (rounds_x86 (map rk (seq 1 9)) _ L0) as [E L].
  { apply G. apply Forall_forall. intros r Hr. apply in_seq in Hr. lia. }
  rewrite (fold_map (fun s k => xors (round s) k)) in E, L. unfold cipher.
  destruct A.
  - change (encrypt_x86 (map rk (seq 0 11)) blk = Some (xors (shift_rows (sub_bytes (fold_left (fun s r => xors (round s) (rk r)) (seq 1 9) (xors blk (rk 0%nat))))) (rk 10%nat))).
    unfold encrypt_x86.
    change (index (map rk (seq 0 11)) 0) with (Some (rk 0%nat)).
    change (index (map rk (seq 0 11)) 10) with (Some (rk 10%nat)). cbn [bind]. cbv zeta.
    change (firstn 9 (skipn 1 (map rk (seq 0 11)))) with (map rk (seq 1 9)).
    unfold mm_xor at 1. rewrite lanewise_xors, E. f_equal. apply aesenclast_round, L.
  - change (encrypt_arm (map rk (seq 0 11)) blk = Some (xors (shift_rows (sub_bytes (fold_left (fun s r => xors (round s) (rk r)) (seq 1 9) (xors blk (rk 0%nat))))) (rk 10%nat))).
    unfold encrypt_arm.
    change (index (map rk (seq 0 11)) 9) with (Some (rk 9%nat)).
    change (index (map rk (seq 0 11)) 10) with (Some (rk 10%nat)). cbn [bind]. cbv zeta.
    change (firstn 9 (map rk (seq 0 11))) with (map rk (seq 0 9)). f_equal.
    unfold veorq at 1. rewrite lanewise_xors. f_equal. unfold vaeseq at 1, veorq at 1. rewrite lanewise_xors.
    rewrite rounds_arm; [|apply Hb|].
    2:{ change (map rk (seq 0 9) ++ [rk 9%nat]) with (map rk (seq 0 10)).
        apply G. apply Forall_forall. intros r Hr. apply in_seq in Hr. lia. }
    change (map rk (seq 0 9) ++ [rk 9%nat]) with (rk 0%nat :: map rk (seq 1 9)).
    cbv iota. rewrite (fold_map (fun s k => xors (round s) k)), shift_sub by exact L. reflexivity.
Qed.

Lemma encrypt_block_ok A key blk : bytes 16 key -> bytes 16 blk ->
  encrypt_block A (map (round_key key) (seq 0 11)) blk = Some (aes128 key blk).
Proof.
  intros Hk Hb. rewrite aes128_cipher. apply encrypt_cipher; [|exact Hb]. intros r Hr. now apply round_key_bytes.
Qed.

(** ** Decryption undoes encryption and conversely *)

Definition conf (s : list Z) : list Z := shift_rows (sub_bytes s).
Definition unconf (s : list Z) : list Z := inv_sub_bytes (inv_shift_rows s).
Lemma conf_bytes s : bytes 16 s -> bytes 16 (conf s).
Proof. intros [L _]. now apply shift_rows_bytes, sub_bytes_bytes. Qed.
Lemma unconf_bytes s : bytes 16 s -> bytes 16 (unconf s).
Proof. intros H. now apply inv_sub_bytes_bytes, inv_shift_rows_bytes. Qed.
Lemma unconf_conf s : bytes 16 s -> unconf (conf s) = s.
Proof.
  intros [L H]. unfold unconf, conf. rewrite inv_shift_shift by (apply (sub_bytes_bytes 16), L). now apply inv_sub_sub.
Qed.
Lemma conf_unconf s : bytes 16 s -> conf (unconf s) = s.
Proof.
  intros H. unfold unconf, conf. rewrite sub_inv_sub by apply inv_shift_rows_bytes, H. apply shift_inv_shift, H.
Qed.
Lemma xors_twice a b : bytes 16 a -> bytes 16 b -> xors (xors a b) b = a.
Proof. intros [La _] [Lb _]. apply xors_cancel. congruence. Qed.

Lemma unrounds (rk : nat -> list Z) rs s : Forall (fun r => bytes 16 (rk r)) rs -> bytes 16 s ->
  bytes 16 (fold_left (fun s r => xors (round s) (rk r)) rs s) /\
  fold_left (fun s r => inv_mix_columns (xors (unconf s) (rk r))) (rev rs)
    (conf (fold_left (fun s r => xors (round s) (rk r)) rs s)) = conf s.
Proof.
  intros H. revert s. induction H as [|r rs Hr _ IH]; intros s Hs; [split; [exact Hs|reflexivity]|].
  cbn [fold_left rev]. pose proof (conf_bytes s Hs) as Hc. pose proof (mix_columns_bytes _ Hc) as Hm.
  assert (Hs' : bytes 16 (xors (round s) (rk r))) by (apply xors_bytes; assumption).
  destruct (IH _ Hs') as [B E]. split; [exact B|].
  rewrite fold_left_app, E. cbn [fold_left]. rewrite unconf_conf by exact Hs'.
  rewrite xors_twice by assumption. now apply inv_mix_mix.
Qed.
Lemma rerounds (rk : nat -> list Z) rs t : Forall (fun r => bytes 16 (rk r)) rs -> bytes 16 t ->
  bytes 16 (fold_left (fun s r => inv_mix_columns (xors (unconf s) (rk r))) (rev rs) t) /\
  fold_left (fun s r => xors (round s) (rk r)) rs
    (unconf (fold_left (fun s r => inv_mix_columns (xors (unconf s) (rk r))) (rev rs) t)) = unconf t.
Proof.
  intros H. revert t. induction H as [|r rs Hr _ IH]; intros t Ht; [split; [exact Ht|reflexivity]|].
  cbn [rev]. rewrite fold_left_app. cbn [fold_left]. destruct (IH t Ht) as [B E].
  set (u := fold_left _ (rev rs) t) in *. pose proof (unconf_bytes u B) as Hu.
  assert (Hx : bytes 16 (xors (unconf u) (rk r))) by (apply xors_bytes; assumption).
  pose proof (inv_mix_columns_bytes _ Hx) as Hi. split; [exact Hi|].
  change (round (unconf (inv_mix_columns (xors (unconf u) (rk r))))) with
    (mix_columns (conf (unconf (inv_mix_columns (xors (unconf u) (rk r)))))).
  rewrite conf_unconf, mix_inv_mix, xors_twice by assumption. exact E.
Qed.

Definition decipher (rk : nat -> list Z) (blk : list Z) : list Z :=
  xors (unconf (fold_left (fun s r => inv_mix_columns (xors (unconf s) (rk r))) (rev (seq 1 9)) (xors blk (rk 10%nat)))) (rk 0%nat).
Lemma inv_aes128_decipher key blk : inv_aes128 key blk = decipher (round_key key) blk.
Proof. unfold inv_aes128, decipher, unconf. cbv zeta. reflexivity. Qed.

Section Perm.
Variable rk : nat -> list Z.
Hypothesis R : forall r, (r <= 10)%nat -> bytes 16 (rk r).
Lemma rk_mid : Forall (fun r => bytes 16 (rk r)) (seq 1 9).
Proof. apply Forall_forall. intros r Hr. apply in_seq in Hr. apply R. lia. Qed.
Lemma cipher_bytes s : bytes 16 s -> bytes 16 (cipher rk s).
Proof.
  intros Hs. unfold cipher. apply xors_bytes; [|apply R; lia]. apply (conf_bytes), unrounds; [apply rk_mid|].
  apply xors_bytes; [exact Hs|apply R; lia].
Qed.
Lemma decipher_bytes s : bytes 16 s -> bytes 16 (decipher rk s).
Proof.
  intros Hs. unfold decipher. apply xors_bytes; [|apply R; lia]. apply (unconf_bytes), rerounds; [apply rk_mid|].
  apply xors_bytes; [exact Hs|apply R; lia].
Qed.
Lemma decipher_cipher s : bytes 16 s -> decipher rk (cipher rk s) = s.
Proof.
  intros Hs. unfold decipher, cipher.
  assert (H0 : bytes 16 (xors s (rk 0%nat))) by (apply xors_bytes; [exact Hs|apply R; lia]).
  destruct (unrounds rk _ _ rk_mid H0) as [B E].
  set (u := fold_left _ (seq 1 9) _) in *. change (shift_rows (sub_bytes u)) with (conf u).
  rewrite xors_twice; [|apply conf_bytes, B|apply R; lia].
  rewrite E, unconf_conf by exact H0. apply xors_twice; [exact Hs|apply R; lia].
Qed.
Lemma cipher_decipher s : bytes 16 s -> cipher rk (decipher rk s) = s.
Proof.
  intros Hs. unfold decipher, cipher.
  assert (H0 : bytes 16 (xors s (rk 10%nat))) by (apply xors_bytes; [exact Hs|apply R; lia]).
  destruct (rerounds rk _ _ rk_mid H0) as [B E].
  set (u := fold_left _ (rev (seq 1 9)) _) in *.
  rewrite xors_twice; [|apply unconf_bytes, B|apply R; lia].
  rewrite E. change (shift_rows (sub_bytes (unconf ?x))) with (conf (unconf x)).
  change (xors (conf (unconf (xors s (rk 10%nat)))) (rk 10%nat) = s).
  rewrite conf_unconf by exact H0. apply xors_twice; [exact Hs|apply R; lia].
Qed.
End Perm.

Lemma aes128_bytes key blk : bytes 16 key -> bytes 16 blk -> bytes 16 (aes128 key blk).
Proof. intros Hk Hb. rewrite aes128_cipher. apply cipher_bytes; [intros; now apply round_key_bytes|exact Hb]. Qed.
Lemma inv_aes128_bytes key blk : bytes 16 key -> bytes 16 blk -> bytes 16 (inv_aes128 key blk).
Proof. intros Hk Hb. rewrite inv_aes128_decipher. apply decipher_bytes; [intros; now apply round_key_bytes|exact Hb]. Qed.
Lemma aes_decrypt key blk : bytes 16 key -> bytes 16 blk -> inv_aes128 key (aes128 key blk) = blk.
Proof. intros Hk Hb. rewrite aes128_cipher, inv_aes128_decipher. apply decipher_cipher; [intros; now apply round_key_bytes|exact Hb]. Qed.
Lemma aes_encrypt_inv key blk : bytes 16 key -> bytes 16 blk -> aes128 key (inv_aes128 key blk) = blk.
Proof. intros Hk Hb. rewrite aes128_cipher, inv_aes128_decipher. apply cipher_decipher; [intros; now apply round_key_bytes|exact Hb]. Qed.
Lemma aes_inj key b1 b2 : bytes 16 key -> bytes 16 b1 -> bytes 16 b2 -> aes128 key b1 = aes128 key b2 -> b1 = b2.
Proof. intros Hk H1 H2 E. rewrite <- (aes_decrypt key b1), <- (aes_decrypt key b2), E by assumption. reflexivity. Qed.

(** ** Many blocks *)

Lemma fold_maps {A B} (f : A -> B -> A) ks l :
  fold_left (fun cs k => map (fun c => f c k) cs) ks l = map (fun c => fold_left f ks c) l.
Proof.
  revert l. induction ks as [|k ks IH]; intros l; cbn [fold_left]; [now rewrite map_id|]. now rewrite IH, map_map.
Qed.
Lemma mapM_map {A B} (f : A -> option B) (g : A -> B) l : Forall (fun x => f x = Some (g x)) l -> mapM f l = Some (map g l).
Proof. induction 1 as [|x l Hx _ IH]; [reflexivity|]. cbn [mapM map]. now rewrite Hx, IH. Qed.
Lemma many_mapM A ks blks : blks <> [] -> encrypt_many_blocks A ks blks = mapM (encrypt_block A ks) blks.
Proof.
  intros Hne. destruct A; unfold encrypt_many_blocks, encrypt_block.
  - unfold encrypt_many_x86, encrypt_x86. destruct blks as [|b blks]; [contradiction|].
    destruct (index ks 0) as [k0|]; [|reflexivity]. cbn [bind].
    destruct (index ks 10) as [k10|]; [|reflexivity]. cbn [bind]. cbv zeta. symmetry.
    rewrite fold_maps, !map_map. apply mapM_map. apply Forall_forall. reflexivity.
  - unfold encrypt_many_arm, encrypt_arm. destruct blks as [|b blks]; [contradiction|].
    rewrite fold_maps. cbv zeta.
    destruct (index ks 9) as [k0|]; [|reflexivity]. cbn [bind].
    destruct (index ks 10) as [k10|]; [|reflexivity]. cbn [bind]. symmetry.
    rewrite !map_map. apply (mapM_map _ (fun x => veorq (vaeseq (fold_left (fun c k => vaesmcq (vaeseq c k)) (firstn 9 ks) x) k0) k10)).
    apply Forall_forall. reflexivity.
Qed.
Lemma many_ok A key blks : bytes 16 key -> Forall (bytes 16) blks ->
  encrypt_many_blocks A (map (round_key key) (seq 0 11)) blks = Some (map (aes128 key) blks).
Proof.
  intros Hk Hb. destruct blks as [|b blks].
  - destruct A; reflexivity.
  - rewrite many_mapM by discriminate. apply mapM_map. eapply Forall_impl; [|exact Hb]. intros x Hx. now apply encrypt_block_ok.
Qed.

Lemma firstn_add {T} a b (l : list T) : firstn (a + b) l = firstn a l ++ firstn b (skipn a l).
Proof. revert l. induction a as [|a IH]; intros l; [reflexivity|]. destruct l as [|x l]; cbn; [now rewrite firstn_nil|]. now rewrite IH. Qed.

Lemma skipn_add {T} a b (l : list T) : skipn (a + b) l = skipn b (skipn a l).
Proof. revert l. induction a as [|a IH]; intros l; [reflexivity|]. destruct l as [|x l]; cbn; [now rewrite skipn_nil|]. apply IH. Qed.

Section Slice.
Variables (A : arch) (ks : list (list Z)) (E : list Z -> list Z) (P : list Z -> Prop).
Hypothesis M : forall l, Forall P l -> encrypt_many_blocks A ks l = Some (map E l).

Lemma range_ok n a b c : Forall P b -> length b = n ->
  encrypt_range A ks n (length a) (length a + n) (a ++ b ++ c) = Some (a ++ map E b ++ c).
Proof.
  intros Hb L. unfold encrypt_range.
  assert (S : sub_slice (a ++ b ++ c) (length a) (length a + n) = Some b).
  { unfold sub_slice. rewrite !app_length.
    replace ((length a <=? length a + n) && (length a + n <=? length a + (length b + length c)))%nat with true
      by (symmetry; apply andb_true_intro; split; apply Nat.leb_le; lia).
    replace (length a + n - length a)%nat with (length b) by lia. rewrite skipn_app, skipn_all, Nat.sub_diag. cbn [skipn app].
    now rewrite firstn_app, firstn_all, Nat.sub_diag, firstn_O, app_nil_r. }
  rewrite S. cbn [bind]. rewrite L, Nat.eqb_refl. cbn [assert bind]. rewrite M by exact Hb. cbn [bind].
  unfold copy_into. rewrite S. cbn [bind]. rewrite map_length, Nat.eqb_refl. cbn [assert bind]. f_equal.
  rewrite firstn_app, firstn_all, Nat.sub_diag, firstn_O, app_nil_r. f_equal. f_equal.
  rewrite app_assoc. rewrite skipn_app. rewrite (skipn_all2 (a ++ b)) by (rewrite app_length; lia).
  rewrite app_length. replace (length a + n - (length a + length b))%nat with 0%nat by lia. reflexivity.
Qed.
Lemma chunks_ok m : forall k a l, length a = (k * 8)%nat -> Forall P l -> (m * 8 <= length l)%nat ->
  foldM (fun b i => encrypt_range A ks 8 (i * 8) ((i + 1) * 8) b) (a ++ l) (seq k m) =
  Some (a ++ map E (firstn (m * 8) l) ++ skipn (m * 8) l).
Proof.
  induction m as [|m IH]; intros k a l La Hl Hm; [reflexivity|]. cbn [seq foldM].
  pose proof (firstn_skipn 8 l) as F.
  assert (Hf : Forall P (firstn 8 l) /\ Forall P (skipn 8 l)) by (apply Forall_app; now rewrite F).
  destruct Hf as [Hf Hs].
  rewrite <- F at 1. replace ((k + 1) * 8)%nat with (length a + 8)%nat by lia. rewrite <- La.
  rewrite range_ok; [|exact Hf|rewrite firstn_length; lia]. cbn [bind].
  rewrite app_assoc. rewrite IH; [|rewrite app_length, map_length, firstn_length; lia|exact Hs|rewrite skipn_length; lia].
  rewrite <- app_assoc. f_equal. f_equal. rewrite app_assoc, <- map_app.
  replace (S m * 8)%nat with (8 + m * 8)%nat by lia.
  now rewrite firstn_add, skipn_add.
Qed.
Lemma slice_ok l : Forall P l -> encrypt_block_slice A ks l = Some (map E l).
Proof.
  intros Hl. unfold encrypt_block_slice. set (len := length l).
  pose proof (Nat.div_mod len 8 ltac:(lia)) as D. pose proof (Nat.mod_upper_bound len 8 ltac:(lia)) as U.
  pose proof (chunks_ok (len / 8) 0 [] l eq_refl Hl ltac:(fold len; lia)) as CK. cbn [app] in CK. rewrite CK. clear CK. cbn [bind].
  set (h := (len / 8 * 8)%nat). replace (len / 8 * 8)%nat with h by reflexivity.
  set (r := (len mod 8)%nat) in *. cbv zeta.
  pose proof (firstn_skipn h l) as F.
  assert (Hf : Forall P (firstn h l) /\ Forall P (skipn h l)) by (apply Forall_app; now rewrite F).
  assert (Ls : length (skipn h l) = r) by (rewrite skipn_length; fold len; lia).
  assert (Lf : length (map E (firstn h l)) = h) by (rewrite map_length, firstn_length; fold len; lia).
  assert (G : map E l = map E (firstn h l) ++ map E (skipn h l)) by (rewrite <- map_app, F; reflexivity).
  destruct (0 <? r)%nat eqn:Hr.
  - apply Nat.ltb_lt in Hr.
    assert (Q : encrypt_range A ks r (len - r) len (map E (firstn h l) ++ skipn h l) = Some (map E l)).
    { replace (len - r)%nat with (length (map E (firstn h l))) by lia.
      replace len with (length (map E (firstn h l)) + r)%nat at 1 by lia.
      rewrite <- (app_nil_r (skipn h l)). rewrite range_ok; [|apply Hf|exact Ls]. now rewrite app_nil_r, G. }
    cbn [foldM]. clearbody r len h.
    destruct r as [|[|[|[|[|[|[|[|r]]]]]]]]; try lia; cbn [Nat.eqb bind]; rewrite Q; reflexivity.
  - apply Nat.ltb_ge in Hr. rewrite G. destruct (skipn h l); [reflexivity|]. cbn [length] in Ls. lia.
Qed.
End Slice.

Lemma slice_aes A key blks : bytes 16 key -> Forall (bytes 16) blks ->
  encrypt_block_slice A (map (round_key key) (seq 0 11)) blks = Some (map (aes128 key) blks).
Proof. intros Hk. apply slice_ok. intros l Hl. now apply many_ok. Qed.
