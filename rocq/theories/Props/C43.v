(** C43 — the field uniform sampler ([FieldUniformSampler], [Field::random]) is exactly uniform.
    [uniform_try F th r] is one pass of its loop on the raw word [r]: [Some (Some x)] returns [x],
    [Some None] rejects the word.  Raw words are the numbers below 2^S where S, the width of the
    sampled word type, is 32 for fields of width up to 32 and the field width otherwise. *)
From Coq Require Import ZArith List Bool Lia.
From Verif Require Import Spec.Basic Spec.Count Model.Base Model.Field Model.Sample.
From Verif Require Import Proofs.FieldProofs Proofs.RandomProofs Proofs.ExampleTac.
Import ListNotations.
Local Open Scope Z_scope.

(** Every field element has exactly floor(2^S/p) accepted raw words. *)
Theorem C43_uniform B p F th v :
  wwidth B -> 0 <= p -> derive_field B p = Some F -> thresh F = Some th -> 0 <= v < p ->
  let S := Z.max 32 B in
  count (fun r => match uniform_try F th r with Some (Some x) => x =? v | _ => false end) (range (2 ^ S)) = 2 ^ S / p.
Proof.
  intros HB Hp HF Hth Hv S. destruct (derive_field_ok B p F HB Hp HF) as (Hok & <- & <-).
  replace S with (sample_width F) by (unfold S, sample_width; destruct (Z.leb_spec (fw F) 32); lia).
  rewrite (thresh_ok F Hok) in Hth. injection Hth as <-. apply (try_count F Hok). exact Hv.
Qed.
Print Assumptions C43_uniform.

(** The number of accepted raw words is p * floor(2^S/p), more than three quarters of them; no raw word
    panics. *)
Theorem C43_acceptance B p F th :
  wwidth B -> 0 <= p -> derive_field B p = Some F -> thresh F = Some th ->
  let S := Z.max 32 B in
  let accepted := count (fun r => match uniform_try F th r with Some (Some _) => true | _ => false end) (range (2 ^ S)) in
  accepted = p * (2 ^ S / p) /\ 3 * 2 ^ S < 4 * accepted /\
  forall r, 0 <= r < 2 ^ S -> uniform_try F th r <> None.
Proof.
  intros HB Hp HF Hth S accepted. destruct (derive_field_ok B p F HB Hp HF) as (Hok & <- & <-).
  assert (ES : S = sample_width F) by (unfold S, sample_width; destruct (Z.leb_spec (fw F) 32); lia).
  unfold accepted. clear accepted. rewrite ES. clear S ES.
  rewrite (thresh_ok F Hok) in Hth. injection Hth as <-. rewrite (try_accepts F Hok).
  pose proof (p_small F Hok) as (P1 & P2 & P3 & P4). split; [reflexivity|]. split.
  - pose proof (Z.div_mod (2 ^ sample_width F) (fp F) ltac:(lia)). pose proof (Z.mod_pos_bound (2 ^ sample_width F) (fp F) ltac:(lia)). lia.
  - intros r Hr. rewrite (try_ok F Hok) by exact Hr. discriminate.
Qed.
Print Assumptions C43_acceptance.

(** The sampler on a sequence of raw words: it never panics while computing its threshold, rejected
    words are skipped without trace, and the first accepted one decides the (canonical) result. *)
Theorem C43_sample B p F rs :
  wwidth B -> 0 <= p -> derive_field B p = Some F ->
  let S := Z.max 32 B in
  Forall (fun r => 0 <= r < 2 ^ S) rs ->
  exists th, thresh F = Some th /\
  forall x, uniform_sample F rs = Some x <->
    exists a r b, rs = a ++ r :: b /\ Forall (fun r' => uniform_try F th r' = Some None) a /\
                  uniform_try F th r = Some (Some x) /\ 0 <= x < p.
Proof.
  intros HB Hp HF S HS. destruct (derive_field_ok B p F HB Hp HF) as (Hok & <- & <-).
  assert (ES : S = sample_width F) by (unfold S, sample_width; destruct (Z.leb_spec (fw F) 32); lia).
  rewrite ES in HS. clear S ES. eexists. split; [apply (thresh_ok F Hok)|]. intros x. rewrite (loop_ok F Hok) by exact HS.
  pose proof (p_small F Hok) as (P1 & P2 & P3 & P4).
  induction HS as [|r rs Hr HS IH]; cbn [find].
  - split; [discriminate|]. intros ([|? a] & r & b & E & _); discriminate.
  - pose proof (try_ok F Hok r Hr) as T. destruct (_ <=? _) eqn:E.
    + split.
      * intros H. injection H as <-. exists [], r, rs. split; [reflexivity|]. split; [constructor|]. split; [exact T|].
        split; [apply Z.div_pos; nia|apply Z.div_lt_upper_bound; nia].
      * intros ([|r' a] & r0 & b & E' & Ha & Hx & _).
        -- injection E' as <- _. rewrite T in Hx. injection Hx as ->. reflexivity.
        -- injection E' as <- _. inversion Ha as [|? ? H1 H2]; subst. rewrite T in H1. discriminate.
    + rewrite IH. split.
      * intros (a & r0 & b & -> & Ha & Hx). exists (r :: a), r0, b. split; [reflexivity|]. split; [constructor; [exact T|exact Ha]|exact Hx].
      * intros ([|r' a] & r0 & b & E' & Ha & Hx & Hc).
        -- injection E' as <- _. rewrite T in Hx. discriminate.
        -- injection E' as <- E'. inversion Ha; subst. exists a, r0, b. auto.
Qed.
Print Assumptions C43_sample.

(** Hence the sampler is fair: over all sequences of [k] raw words, every field element is returned
    equally often, whatever [k]. *)
Theorem C43_fair B p F k v v' :
  wwidth B -> 0 <= p -> derive_field B p = Some F -> 0 <= v < p -> 0 <= v' < p ->
  let S := Z.max 32 B in
  count (fun rs => match uniform_sample F rs with Some x => x =? v | None => false end) (tuples k (2 ^ S)) =
  count (fun rs => match uniform_sample F rs with Some x => x =? v' | None => false end) (tuples k (2 ^ S)).
Proof.
  intros HB Hp HF Hv Hv' S. destruct (derive_field_ok B p F HB Hp HF) as (Hok & <- & <-).
  apply (sample_fair F Hok (2 ^ S)); try assumption.
  f_equal. unfold S, sample_width. destruct (Z.leb_spec (fw F) 32); lia.
Qed.
Print Assumptions C43_fair.

(** The default ring modulus: the word 0 is rejected, the next ones accepted. *)
Example C43_ex : exists F th, derive_field 32 132120577 = Some F /\ thresh F = Some th /\
  uniform_try F th 0 = Some None /\ uniform_sample F [0; 4294967295; 5] = Some 132120576 /\
  uniform_try F th 2147483648 = Some (Some 66060288) /\ 2 ^ 32 / 132120577 = 32.
Proof. eexists. eexists. split; [vm_compute; reflexivity|]. split; [vm_compute; reflexivity|]. vm_compute. repeat split; reflexivity. Qed.
