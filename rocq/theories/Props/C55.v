(** C55: Gaussian error sampling. *)
From Coq Require Import ZArith QArith Qabs List Bool Lia SpecFloat.
From Verif Require Import Spec.Basic Spec.Gauss Model.Base Model.Field Model.Sample Model.Gaussian.
From Verif Require Import Proofs.Arith Proofs.FieldProofs Proofs.GaussProofs Proofs.FloatSubProofs.
Import ListNotations.
Local Open Scope Z_scope.

(** A sampler can be built exactly for a finite, non-negative standard deviation. *)
Theorem C55_new mean dev :
  (exists g, gauss_new mean dev = Some g) <-> ffinite dev /\ (0 <= fval dev)%Q.
Proof. apply new_iff. Qed.
Print Assumptions C55_new.

(** Its bound is six standard deviations, to the last bit; the binomial shortcut is taken exactly for
    mean +0 and standard deviation 3.2. *)
Theorem C55_bound mean dev :
  is_f64 dev -> (1 # 2 ^ 100 <= fval dev <= inject_Z (2 ^ 100))%Q ->
  exists g, gauss_new mean dev = Some g /\ gs_mean g = mean /\ is_f64 (gs_max g) /\ ffinite (gs_max g) /\
    (Qabs (fval (gs_max g) - 6 * fval dev) <= 6 * fval dev * (1 # 2 ^ 53))%Q /\
    (gs_cbd g = true <-> mean = S754_zero false /\ dev = f64_3_2).
Proof.
  intros Hf HB. destruct (six_ok dev Hf HB) as (F1 & F2 & A). pose proof (new_some mean dev (dev_pos dev Hf HB)) as E.
  eexists. split; [exact E|]. cbn [gs_mean gs_max gs_cbd]. split; [reflexivity|]. split; [exact F1|]. split; [exact F2|]. split; [exact A|]. apply cbd_iff.
Qed.
Print Assumptions C55_bound.

(** An explicit bound is accepted exactly when it exceeds the standard deviation. *)
Theorem C55_new_with_max mean dev max : is_f64 dev -> is_f64 max -> ffinite max ->
  ((exists g, gauss_new_with_max mean dev max = Some g /\ gs_mean g = mean /\ gs_max g = max) <->
   ffinite dev /\ (0 <= fval dev < fval max)%Q).
Proof. apply with_max_iff. Qed.
Print Assumptions C55_new_with_max.

(** Draws that are not strictly inside the bound are discarded, all of them. *)
Theorem C55_reject F B q g s draws :
  gs_mean g = S754_zero s -> is_f64 (gs_max g) -> ffinite (gs_max g) -> Forall is_f64 draws ->
  Forall (fun v => ~ (ffinite v /\ (Qabs (fval v) < fval (gs_max g))%Q)) draws ->
  gauss_sample_field F g draws = Looping /\ gauss_sample_word B q g draws = Looping.
Proof. intros Em Hm Fm Hd H. split; apply loop_all; now apply (rejects_all g s Em Hm Fm). Qed.
Print Assumptions C55_reject.

(** The first draw strictly inside the bound, rounded to the nearest integer, is the sample; field and
    word samplers agree, and later draws are left alone. *)
Theorem C55_accept B p F g s pre v rest E :
  wwidth B -> 0 <= p -> derive_field B p = Some F ->
  gs_mean g = S754_zero s -> is_f64 (gs_max g) -> ffinite (gs_max g) -> (fval (gs_max g) <= inject_Z E + (1 # 2))%Q -> E < p ->
  Forall is_f64 pre -> Forall (fun u => ~ (ffinite u /\ (Qabs (fval u) < fval (gs_max g))%Q)) pre ->
  is_f64 v -> ffinite v -> (Qabs (fval v) < fval (gs_max g))%Q ->
  exists r, rounds_to (fval v) r /\ Z.abs r <= E /\
    gauss_sample_field F g (pre ++ v :: rest) = Got (r mod p, rest) /\
    gauss_sample_word B p g (pre ++ v :: rest) = Got (r mod p, rest).
Proof.
  intros HB Hp HF Em Hm Fm HE HEp Hpre Opre Hv Fv Iv. destruct (derive_field_ok B p F HB Hp HF) as (Hok & EB & EP).
  assert (I : inside (gs_max g) v) by (split; assumption).
  pose proof (round_small _ _ _ _ I HE (round_spec v)) as R. exists (f64_round v). split; [apply round_spec|]. split; [exact R|].
  pose proof (rejects_all g s Em Hm Fm pre Hpre Opre) as RJ. pose proof (proj2 (accepts_iff g s v Em Hm Fm Hv) I) as A.
  pose proof (fp_range F Hok) as PR. rewrite EP, EB in PR. destruct HB as (h & Hh & EBh).
  unfold gauss_sample_field, gauss_sample_word. rewrite !loop_first by assumption.
  rewrite (field_ok F v Hok) by (rewrite EP; lia). rewrite word_ok by lia. rewrite EP. split; reflexivity.
Qed.
Print Assumptions C55_accept.

(** Error polynomials: never a panic, and every coefficient is an integer of size at most [E] mod p;
    a result exists as soon as [n] draws fall inside the bound. *)
Theorem C55_vector B p F n g s bytes draws E :
  wwidth B -> 0 <= p -> derive_field B p = Some F ->
  gs_mean g = S754_zero s -> is_f64 (gs_max g) -> ffinite (gs_max g) -> E < p ->
  (if gs_cbd g then 21 <= E else (fval (gs_max g) <= inject_Z E + (1 # 2))%Q) ->
  (forall i, 0 <= bytes i < 256) -> Forall is_f64 draws ->
  match random_with_gaussian F n g bytes draws with
  | Got l => length l = n /\ Forall (fun x => exists e, x = e mod p /\ Z.abs e <= E) l
  | Panicked => False
  | Looping => forall l, NoDup l -> (forall i, In i l -> (i < length draws)%nat /\ let v := nth i draws S754_nan in ffinite v /\ (Qabs (fval v) < fval (gs_max g))%Q) ->
      (length l < n)%nat
  end.
Proof.
  intros HB Hp HF Em Hm Fm HE Hmax Hby Hd. destruct (derive_field_ok B p F HB Hp HF) as (Hok & _ & <-).
  unfold random_with_gaussian. destruct (gs_cbd g).
  - destruct (cbd_small F n Hok ltac:(lia) bytes Hby) as (l & -> & Ll & Fl). split; [exact Ll|].
    eapply Forall_impl; [|exact Fl]. intros x (e & -> & H). exists e. split; [reflexivity|lia].
  - pose proof (take_ok g s Em Hm Fm F n E Hok HE Hmax draws Hd) as T. destruct (gauss_take (gauss_field F) g n draws) as [| |l]; [|exact T|exact T].
    intros l N Hl. apply Nat.le_lt_trans with (2 := T). apply (inside_count g s Em Hm Fm); [exact Hd|exact N|exact Hl].
Qed.
Print Assumptions C55_vector.

(** Any finite mean: a draw whose distance from the mean, computed exactly, is not below the bound is
    discarded; one whose distance is below it by a relative 2^-53 is taken.  (In between the rounding
    of the subtraction decides.) *)
Theorem C55_mean_reject F B q g draws :
  is_f64 (gs_mean g) -> ffinite (gs_mean g) -> is_f64 (gs_max g) -> ffinite (gs_max g) -> Forall is_f64 draws ->
  Forall (fun v => ~ (ffinite v /\ (Qabs (fval v - fval (gs_mean g)) < fval (gs_max g))%Q)) draws ->
  gauss_sample_field F g draws = Looping /\ gauss_sample_word B q g draws = Looping.
Proof. intros Vm Fe Hm Fm Hd H. split; apply loop_all; now apply (mean_rejects_all g). Qed.
Print Assumptions C55_mean_reject.

Theorem C55_mean_accept B p F g pre v rest E :
  wwidth B -> 0 <= p -> derive_field B p = Some F ->
  is_f64 (gs_mean g) -> ffinite (gs_mean g) -> is_f64 (gs_max g) -> ffinite (gs_max g) ->
  (Qabs (fval (gs_mean g)) + fval (gs_max g) <= inject_Z E + (1 # 2))%Q -> E < p ->
  Forall is_f64 pre -> Forall (fun u => ~ (ffinite u /\ (Qabs (fval u - fval (gs_mean g)) < fval (gs_max g))%Q)) pre ->
  is_f64 v -> ffinite v -> (Qabs (fval v - fval (gs_mean g)) * (1 + (1 # 2 ^ 53)) < fval (gs_max g))%Q ->
  exists r, rounds_to (fval v) r /\ Z.abs r <= E /\
    gauss_sample_field F g (pre ++ v :: rest) = Got (r mod p, rest) /\
    gauss_sample_word B p g (pre ++ v :: rest) = Got (r mod p, rest).
Proof.
  intros HB Hp HF Vm Fe Hm Fm HE HEp Hpre Opre Hv Fv Iv. destruct (derive_field_ok B p F HB Hp HF) as (Hok & EB & EP).
  pose proof (near_accepts g Vm Fe Hm Fm v Hv Fv Iv) as A.
  pose proof (near_small g v E (accepts_near g Vm Fe Hm Fm v Hv A) HE) as R. exists (f64_round v). split; [apply round_spec|]. split; [exact R|].
  pose proof (mean_rejects_all g Vm Fe Hm Fm pre Hpre Opre) as RJ.
  pose proof (fp_range F Hok) as PR. rewrite EP, EB in PR. destruct HB as (h & Hh & EBh).
  unfold gauss_sample_field, gauss_sample_word. rewrite !loop_first by assumption.
  rewrite (field_ok F v Hok) by (rewrite EP; lia). rewrite word_ok by lia. rewrite EP. split; reflexivity.
Qed.
Print Assumptions C55_mean_accept.

Theorem C55_mean_vector B p F n g bytes draws E :
  wwidth B -> 0 <= p -> derive_field B p = Some F -> gs_cbd g = false ->
  is_f64 (gs_mean g) -> ffinite (gs_mean g) -> is_f64 (gs_max g) -> ffinite (gs_max g) ->
  (Qabs (fval (gs_mean g)) + fval (gs_max g) <= inject_Z E + (1 # 2))%Q -> E < p -> Forall is_f64 draws ->
  match random_with_gaussian F n g bytes draws with
  | Got l => length l = n /\ Forall (fun x => exists e, x = e mod p /\ Z.abs e <= E) l
  | Panicked => False
  | Looping => forall l, NoDup l -> (forall i, In i l -> (i < length draws)%nat /\ let v := nth i draws S754_nan in
        ffinite v /\ (Qabs (fval v - fval (gs_mean g)) * (1 + (1 # 2 ^ 53)) < fval (gs_max g))%Q) ->
      (length l < n)%nat
  end.
Proof.
  intros HB Hp HF Ec Vm Fe Hm Fm Hmax HE Hd. destruct (derive_field_ok B p F HB Hp HF) as (Hok & _ & <-).
  unfold random_with_gaussian. rewrite Ec.
  pose proof (mean_take_ok g Vm Fe Hm Fm F n E Hok HE Hmax draws Hd) as T. destruct (gauss_take (gauss_field F) g n draws) as [| |l]; [|exact T|exact T].
  intros l N Hl. apply Nat.le_lt_trans with (2 := T). apply (near_count g Vm Fe Hm Fm draws Hd l N Hl).
Qed.
Print Assumptions C55_mean_vector.

(** Without any relation between bound and modulus, the rounded draw [r] becomes: for [r >= 0] the word
    nearest to it (reduced by the field sampler, not by the word sampler); for [-p <= r < 0] the
    residue [p + r]; below that a panic. *)
Theorem C55_any_modulus B p F g pre v rest :
  wwidth B -> 0 <= p -> derive_field B p = Some F ->
  Forall (fun u => accepts g u = false) pre -> accepts g v = true ->
  exists r, rounds_to (fval v) r /\
    gauss_sample_field F g (pre ++ v :: rest) =
      (if r <? 0 then (if - r <=? p then Got ((p + r) mod p, rest) else Panicked) else Got (Z.min r (2 ^ B - 1) mod p, rest)) /\
    gauss_sample_word B p g (pre ++ v :: rest) =
      (if r <? 0 then (if - r <=? p then Got (p + r, rest) else Panicked) else Got (Z.min r (2 ^ B - 1), rest)).
Proof.
  intros HB Hp HF Hpre Hv. destruct (derive_field_ok B p F HB Hp HF) as (Hok & EB & EP). exists (f64_round v). split; [apply round_spec|].
  pose proof (fp_range F Hok) as PR. rewrite EP, EB in PR. destruct HB as (h & Hh & EBh).
  unfold gauss_sample_field, gauss_sample_word. rewrite !loop_first by assumption.
  rewrite (field_any F v Hok), (word_any B p v) by lia. cbv zeta. rewrite EP, EB.
  destruct (f64_round v <? 0); [destruct (- f64_round v <=? p)|]; split; reflexivity.
Qed.
Print Assumptions C55_any_modulus.

(** A mean that is infinite or not a number is accepted by both constructors, yet no sequence of draws
    is ever enough. *)
Theorem C55_mean_not_finite_refuted : exists g, gauss_new S754_nan f64_3_2 = Some g /\
  gauss_new_with_max S754_nan f64_3_2 (gs_max g) = Some g /\
  forall F B q draws, gauss_sample_field F g draws = Looping /\ gauss_sample_word B q g draws = Looping.
Proof.
  eexists. split; [vm_compute; reflexivity|]. split; [vm_compute; reflexivity|]. intros F B q draws.
  split; apply loop_all; apply Forall_forall; intros v _; apply odd_mean_rejects; cbn; tauto.
Qed.
Print Assumptions C55_mean_not_finite_refuted.

(** A zero standard deviation is accepted by the constructor, yet no sequence of draws is ever enough. *)
Theorem C55_zero_dev_refuted : exists g, gauss_new (S754_zero false) (S754_zero false) = Some g /\
  forall F B q draws, gauss_sample_field F g draws = Looping /\ gauss_sample_word B q g draws = Looping.
Proof.
  eexists. split; [vm_compute; reflexivity|]. intros F B q draws.
  split; apply loop_all; apply Forall_forall; intros v _; apply (zero_rejects _ false); reflexivity.
Qed.
Print Assumptions C55_zero_dev_refuted.

(** With a modulus below six standard deviations the word sampler panics on some admissible draws and
    returns values not below the modulus on others. *)
Theorem C55_small_modulus_refuted : exists g v w, gauss_new (S754_zero false) f64_3_2 = Some g /\
  is_f64 v /\ is_f64 w /\ (fval v == inject_Z (-17))%Q /\ (fval w == inject_Z 17)%Q /\
  gauss_sample_word 16 16 g [v] = Panicked /\ gauss_sample_word 16 16 g [w] = Got (17, []).
Proof.
  eexists. exists (S754_finite true 4785074604081152 (-48)), (S754_finite false 4785074604081152 (-48)).
  split; [vm_compute; reflexivity|]. repeat split; vm_compute; reflexivity.
Qed.
Print Assumptions C55_small_modulus_refuted.

Example C55_ex : exists F g, derive_field 32 132120577 = Some F /\ gauss_new (S754_zero false) f64_3_2 = Some g /\
  gs_cbd g = true /\ is_f64 (gs_max g) /\ ffinite (gs_max g) /\ (fval (gs_max g) <= inject_Z 19 + (1 # 2))%Q /\
  let outside := S754_finite false 5629499534213120 (-48) in (* 20.0 *)
  let v := S754_finite true 5629499534213120 (-51) in (* -2.5 *)
  (fval outside == 20)%Q /\ (fval v == (-5) # 2)%Q /\
  gauss_sample_field F g [outside; v; outside] = Got (132120574, [outside]) /\
  gauss_sample_word 32 132120577 g [outside; v; outside] = Got (132120574, [outside]) /\
  random_with_gaussian F 2 g (fun i => nth i [255; 0; 224; 0; 1; 0; 0; 0; 0; 1; 0; 31] 0) [] = Got [7; 132120571] /\
  match gauss_new (S754_zero false) (S754_finite false 4503599627370496 (-52)) (* 1.0 *) with
  | Some g' => gs_cbd g' = false /\ random_with_gaussian F 2 g' (fun _ => 0) [v; outside; v] = Got [132120574; 132120574]
  | None => False
  end.
Proof. eexists. eexists. split; [vm_compute; reflexivity|]. split; [vm_compute; reflexivity|]. repeat split; vm_compute; (reflexivity || discriminate). Qed.

(** Mean 100, deviation 1: 106.5 is discarded, 94.5 taken and rounded to 95; 8-bit words with modulus 17
    lose the value 300 to the cast. *)
Example C55_mean_ex : exists F F8 g g8,
  let mean := S754_finite false 7036874417766400 (-46) in let out := S754_finite false 7494271254921216 (-46) in
  let v := S754_finite false 6649846324789248 (-46) in let big := S754_finite false 5277655813324800 (-44) in
  derive_field 32 132120577 = Some F /\ derive_field 8 17 = Some F8 /\
  gauss_new mean (S754_finite false 4503599627370496 (-52)) = Some g /\ gs_cbd g = false /\
  is_f64 mean /\ is_f64 (gs_max g) /\ ffinite (gs_max g) /\ is_f64 out /\ is_f64 v /\ is_f64 big /\
  (fval mean == 100)%Q /\ (fval out == 213 # 2)%Q /\ (fval v == 189 # 2)%Q /\ (fval big == 300)%Q /\
  (Qabs (fval mean) + fval (gs_max g) <= inject_Z 106 + (1 # 2))%Q /\
  (Qabs (fval v - fval mean) * (1 + (1 # 2 ^ 53)) < fval (gs_max g))%Q /\
  gauss_sample_field F g [out; v] = Got (95, []) /\
  gauss_new big f64_3_2 = Some g8 /\ accepts g8 big = true /\
  gauss_sample_field F8 g8 [big] = Got (0, []) /\ gauss_sample_word 8 17 g8 [big] = Got (255, []).
Proof.
  eexists. eexists. eexists. eexists. cbv zeta. split; [vm_compute; reflexivity|]. split; [vm_compute; reflexivity|]. split; [vm_compute; reflexivity|].
  repeat split; vm_compute; (reflexivity || discriminate).
Qed.
