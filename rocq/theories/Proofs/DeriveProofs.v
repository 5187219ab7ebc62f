(** Which declarations the derive macros accept. *)
From Coq Require Import ZArith List Bool String Lia.
From Verif Require Import Spec.Basic Spec.Decimal Spec.Declare Model.Base Model.Field Model.Derive Proofs.Arith Proofs.FieldProofs.
Import ListNotations.
Local Open Scope Z_scope.

Definition dval (acc : Z) (ds : list Z) : Z := fold_left (fun x d => 10 * x + (d - 48)) ds acc.

Lemma dval_mono ds : Forall is_digit ds -> forall acc, 0 <= acc -> acc <= dval acc ds.
Proof.
  induction 1 as [|d ds Hd _ IH]; intros acc Ha; [cbn; lia|]. unfold is_digit in Hd.
  specialize (IH (10 * acc + (d - 48)) ltac:(lia)). change (dval acc (d :: ds)) with (dval (10 * acc + (d - 48)) ds). lia.
Qed.

Lemma parse_digits_ok B ds : 0 <= B -> Forall is_digit ds -> forall acc, 0 <= acc < 2 ^ B ->
  parse_digits B acc ds = if dval acc ds <? 2 ^ B then Some (dval acc ds) else None.
Proof.
  intros HB. induction 1 as [|d ds Hd Hds IH]; intros acc Ha; cbn [parse_digits].
  - cbn. destruct (Z.ltb_spec acc (2 ^ B)); [reflexivity|lia].
  - unfold is_digit in Hd. pose proof (dval_mono ds Hds (10 * acc + (d - 48)) ltac:(lia)) as M.
    change (dval acc (d :: ds)) with (dval (10 * acc + (d - 48)) ds).
    unfold assert, umul, uadd. destruct (Z.leb_spec 48 d), (Z.leb_spec d 57); try lia. cbn [andb bind].
    destruct (Z.ltb_spec (acc * 10) (2 ^ B)); cbn [bind].
    + destruct (Z.ltb_spec (acc * 10 + (d - 48)) (2 ^ B)); cbn [bind].
      * replace (acc * 10 + (d - 48)) with (10 * acc + (d - 48)) by lia. apply IH. lia.
      * destruct (Z.ltb_spec (dval (10 * acc + (d - 48)) ds) (2 ^ B)); [lia|reflexivity].
    + destruct (Z.ltb_spec (dval (10 * acc + (d - 48)) ds) (2 ^ B)); [lia|reflexivity].
Qed.
Lemma parse_word_ok B ds v : 0 <= B -> ds <> [] -> Forall is_digit ds ->
  (parse_word B ds = Some v <-> read_decimal ds = v /\ v < 2 ^ B).
Proof.
  intros HB Hn Hd. unfold parse_word. destruct ds as [|d ds]; [contradiction|].
  rewrite parse_digits_ok by (try assumption; pose proof (Z.pow_pos_nonneg 2 B ltac:(lia) HB); lia).
  change (dval 0 (d :: ds)) with (read_decimal (d :: ds)). destruct (Z.ltb_spec (read_decimal (d :: ds)) (2 ^ B)) as [L|L]; split.
  - intros [= <-]. split; [reflexivity|exact L].
  - intros (-> & _). reflexivity.
  - discriminate.
  - intros (<- & H). lia.
Qed.

Lemma parse_modulus_ok ds ty B v : ds <> [] -> Forall is_digit ds ->
  (parse_modulus_value ds ty = Some (B, v) <-> exists name, ty = TypePath name /\ word_type B name /\ read_decimal ds = v /\ v < 2 ^ B).
Proof.
  intros Hn Hd. split.
  - intros E. destruct ty as [name|]; [|discriminate]. exists name. split; [reflexivity|]. cbn [parse_modulus_value] in E. unfold word_type.
    destruct (String.eqb_spec name "u8") as [->|];
      [|destruct (String.eqb_spec name "u16") as [->|]; [|destruct (String.eqb_spec name "u32") as [->|]; [|destruct (String.eqb_spec name "u64") as [->|]; [|discriminate]]]];
      match type of E with bind ?o _ = _ => destruct o as [w|] eqn:Ew; [|discriminate] end; injection E as <- <-;
      apply parse_word_ok in Ew; try lia; try assumption; (split; [tauto|exact Ew]).
  - intros (name & -> & W & R & L).
    destruct W as [(-> & ->)|[(-> & ->)|[(-> & ->)|(-> & ->)]]]; cbn [parse_modulus_value String.eqb Ascii.eqb Bool.eqb];
      (match goal with |- context [parse_word ?B ds] => rewrite (proj2 (parse_word_ok B ds v ltac:(lia) Hn Hd) (conj R L)) end; reflexivity).
Qed.

Lemma attr_get_ok ty r attrs : attr_get attrs ty = Some r <->
  exists before a after ds, attrs = before ++ a :: after /\ gives_modulus ds a /\ (forall b ds', In b before -> ~ gives_modulus ds' b) /\
    parse_modulus_value ds ty = Some r.
Proof.
  assert (C : forall a, (exists ds s, at_meta a = MetaNameValue (ExprLit (LitInt ds s)) /\ is_modulus a = true) \/
    (forall ds, ~ gives_modulus ds a) /\ forall l, attr_get (a :: l) ty = attr_get l ty).
  { intros a. cbn [attr_get]. unfold gives_modulus. destruct (is_modulus a) eqn:Em.
    - destruct (at_meta a) as [| |[[ds s|]|]] eqn:Ea; [right|right|left|right|right].
      3: { exists ds, s. split; reflexivity. }
      all: split; [intros ds' (_ & s' & H); discriminate|reflexivity].
    - right. split; [|reflexivity]. intros ds (H & _). unfold is_modulus in Em. rewrite H in Em. discriminate. }
  assert (G : forall a ds s, at_meta a = MetaNameValue (ExprLit (LitInt ds s)) -> is_modulus a = true -> gives_modulus ds a).
  { intros a ds s H E. split; [|exists s; exact H]. unfold is_modulus in E. destruct (at_ident a) as [n|]; [|discriminate].
    apply String.eqb_eq in E. now subst n. }
  induction attrs as [|a attrs IH].
  - split; [discriminate|]. intros ([|? ?] & ? & ? & ? & H & _); discriminate.
  - destruct (C a) as [(ds & s & Ea & Em)|(N & E)].
    + cbn [attr_get]. rewrite Em, Ea. split.
      * intros H. exists [], a, attrs, ds. split; [reflexivity|]. split; [exact (G a ds s Ea Em)|]. split; [intros b ds' []|exact H].
      * intros ([|b before] & a' & after & ds' & Eq & Hg & Hb & Hp).
        -- injection Eq as <- <-. destruct Hg as (_ & s' & Hg). rewrite Ea in Hg. injection Hg as <- <-. exact Hp.
        -- injection Eq as <- _. exfalso. apply (Hb a ds); [now left|exact (G a ds s Ea Em)].
    + rewrite E, IH. split.
      * intros (before & a' & after & ds & -> & Hg & Hb & Hp). exists (a :: before), a', after, ds. split; [reflexivity|]. split; [exact Hg|].
        split; [|exact Hp]. intros b ds' [<-|Hin]; [apply N|now apply Hb].
      * intros ([|b before] & a' & after & ds & Eq & Hg & Hb & Hp).
        -- injection Eq as <- <-. exfalso. exact (N ds Hg).
        -- injection Eq as <- ->. exists before, a', after, ds. split; [reflexivity|]. split; [exact Hg|]. split; [|exact Hp].
           intros b' ds' Hin. apply Hb. now right.
Qed.

Lemma input_ok it B p : lexed it -> (input_from_syn it = Some (B, p) <-> declares it B p /\ p < 2 ^ B).
Proof.
  intros HL. unfold input_from_syn, declares. split.
  - destruct (it_data it) as [[|[[n|] ty] [|f rest]]| |] eqn:Ed; try discriminate. cbn [assert bind field_from_syn sf_name sf_type].
    intros E. apply attr_get_ok in E. destruct E as (before & a & after & ds & Ea & Hg & Hb & Hp).
    assert (D : ds <> [] /\ Forall is_digit ds).
    { destruct Hg as (_ & s & Hm). apply (HL a ds s); [rewrite Ea; apply in_or_app; right; now left|exact Hm]. }
    destruct D as (D1 & D2). apply parse_modulus_ok in Hp; [|exact D1|exact D2]. destruct Hp as (name & -> & W & R & L).
    split; [|exact L]. exists name, before, a, after, ds. repeat (split; [first [assumption|reflexivity]|]). exact R.
  - intros ((name & before & a & after & ds & W & -> & Ea & Hg & Hb & R) & L). cbn [assert bind field_from_syn sf_name sf_type].
    assert (D : ds <> [] /\ Forall is_digit ds).
    { destruct Hg as (_ & s & Hm). apply (HL a ds s); [rewrite Ea; apply in_or_app; right; now left|exact Hm]. }
    destruct D as (D1 & D2). apply attr_get_ok. exists before, a, after, ds. split; [exact Ea|]. split; [exact Hg|]. split; [exact Hb|].
    apply parse_modulus_ok; [exact D1|exact D2|]. exists name. auto.
Qed.

Lemma word_wwidth B name : word_type B name -> wwidth B.
Proof. intros [(-> & _)|[(-> & _)|[(-> & _)|(-> & _)]]]; [exists 4|exists 8|exists 16|exists 32]; split; [discriminate|reflexivity|discriminate|reflexivity|discriminate|reflexivity|discriminate|reflexivity]. Qed.
Lemma read_nonneg ds : Forall is_digit ds -> 0 <= read_decimal ds.
Proof. intros H. exact (dval_mono ds H 0 ltac:(lia)). Qed.
Lemma declares_range it B p : lexed it -> declares it B p -> wwidth B /\ 0 <= p.
Proof.
  intros HL (name & before & a & after & ds & W & _ & Ea & Hg & _ & <-). split; [exact (word_wwidth B name W)|]. apply read_nonneg.
  destruct Hg as (_ & s & Hm). apply (HL a ds s); [rewrite Ea; apply in_or_app; right; now left|exact Hm].
Qed.

Lemma derive_accepts it : lexed it ->
  ((exists F, derive_item it = Some F) <-> exists B p, declares it B p /\ 2 <= p < 2 ^ (B - 2)).
Proof.
  intros HL. unfold derive_item. split.
  - intros (F & E). destruct (input_from_syn it) as [(B, p)|] eqn:Ei; [|discriminate]. apply input_ok in Ei; [|exact HL]. destruct Ei as (D & L).
    destruct (declares_range it B p HL D) as (HB & Hp). exists B, p. split; [exact D|]. apply (derive_field_iff B p HB ltac:(lia)). exists F. exact E.
  - intros (B & p & D & H). destruct (declares_range it B p HL D) as (HB & Hp).
    assert (L : p < 2 ^ B). { destruct HB as (h & Hh & E). assert (2 ^ (B - 2) <= 2 ^ B) by (apply Z.pow_le_mono_r; lia). lia. }
    rewrite (proj2 (input_ok it B p HL) (conj D L)). cbn [bind]. apply (derive_field_iff B p HB ltac:(lia)). exact H.
Qed.
Lemma derive_declared it F : lexed it -> derive_item it = Some F -> declares it (fw F) (fp F) /\ derive_field (fw F) (fp F) = Some F.
Proof.
  intros HL E. unfold derive_item in E. destruct (input_from_syn it) as [(B, p)|] eqn:Ei; [|discriminate]. cbn [bind] in E.
  apply input_ok in Ei; [|exact HL]. destruct Ei as (D & L). destruct (declares_range it B p HL D) as (HB & Hp).
  destruct (derive_field_ok B p F HB Hp E) as (_ & <- & <-). split; assumption.
Qed.
Lemma declares_unique it B p B' p' : declares it B p -> declares it B' p' -> B = B' /\ p = p'.
Proof.
  intros (name & before & a & after & ds & W & Ed & Ea & Hg & Hb & R) (name' & before' & a' & after' & ds' & W' & Ed' & Ea' & Hg' & Hb' & R').
  rewrite Ed in Ed'. injection Ed' as <-. split.
  - destruct W as [(-> & ->)|[(-> & ->)|[(-> & ->)|(-> & ->)]]], W' as [(-> & H)|[(-> & H)|[(-> & H)|(-> & H)]]]; try reflexivity; discriminate.
  - assert (E : a = a').
    { rewrite Ea in Ea'. clear - Ea' Hg Hg' Hb Hb'. revert before' Ea' Hb'. induction before as [|b before IH]; intros [|b' before'] E Hb'.
      - now injection E.
      - injection E as E _. subst b'. exfalso. apply (Hb' a ds); [now left|exact Hg].
      - injection E as E _. subst b. exfalso. apply (Hb a' ds'); [now left|exact Hg'].
      - injection E as _ E. apply (IH (fun b ds' H => Hb b ds' (or_intror H)) before' E). intros b1 ds1 H. apply Hb'. now right. }
    subst a'. destruct Hg as (_ & s & Hg). destruct Hg' as (_ & s' & Hg'). rewrite Hg in Hg'. injection Hg' as <- _. now subst.
Qed.

(** Anything but digits is an error, whatever hands the literal over. *)
Lemma parse_digits_only B ds : forall acc v, parse_digits B acc ds = Some v -> Forall is_digit ds.
Proof.
  induction ds as [|d ds IH]; intros acc v E; [constructor|]. cbn [parse_digits] in E. unfold assert in E.
  destruct (Z.leb_spec 48 d); [|discriminate]. destruct (Z.leb_spec d 57); [|discriminate]. cbn [andb bind] in E.
  destruct (umul B acc 10) as [x|]; [|discriminate]. cbn [bind] in E. destruct (uadd B x (d - 48)) as [y|]; [|discriminate]. cbn [bind] in E.
  constructor; [unfold is_digit; lia|exact (IH y v E)].
Qed.
Lemma input_digits it r : input_from_syn it = Some r -> exists before a after ds, it_attrs it = before ++ a :: after /\ gives_modulus ds a /\
  (forall b ds', In b before -> ~ gives_modulus ds' b) /\ ds <> [] /\ Forall is_digit ds.
Proof.
  intros E. assert (exists ty, attr_get (it_attrs it) ty = Some r) as (ty & H).
  { unfold input_from_syn in E. destruct (it_data it) as [[|[[n|] ty] [|f rest]]| |]; try discriminate. exists ty. exact E. }
  apply attr_get_ok in H. destruct H as (before & a & after & ds & Ea & G & Hb & Hv). exists before, a, after, ds. split; [exact Ea|]. split; [exact G|]. split; [exact Hb|].
  destruct ty as [name|]; [|discriminate]. cbn [parse_modulus_value] in Hv.
  repeat (match type of Hv with (if ?x then _ else _) = _ => destruct x end; try discriminate).
  all: destruct ds as [|d ds]; [discriminate|]; cbn [parse_word] in Hv; match type of Hv with bind ?o _ = _ => destruct o eqn:Ew; [|discriminate] end; split; [discriminate|exact (parse_digits_only _ _ _ _ Ew)].
Qed.
