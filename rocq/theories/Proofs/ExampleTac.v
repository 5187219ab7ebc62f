(** Tactics for the concrete instances shown beside the theorems. *)
From Coq Require Import ZArith Znumtheory List Arith Lia.
From Verif Require Import Spec.Basic Spec.Poly Spec.Ring Spec.Blind Model.Base Model.Field Model.NTT Model.Concrete Model.Poly Model.Rlwe Model.Gadget Proofs.Arith Proofs.NumTheory.
Import ListNotations.
Local Open Scope Z_scope.

Lemma pcong_dec p a b : 0 < p -> map (fun x => x mod p) a = map (fun x => x mod p) b -> pcong p a b.
Proof.
  intros Hp. revert b. induction a as [|x a IH]; intros [|y b] H; try discriminate; constructor.
  - apply cong_iff; [exact Hp|]. injection H as H _. exact H.
  - apply IH. injection H as _ H. exact H.
Qed.
(** Lists of canonical residues of the right length, by evaluation. *)
Ltac ex_canon := repeat constructor; vm_compute; congruence.
Ltac ex_wf := repeat split; ex_canon.
Ltac ex_enc := split; [reflexivity|]; cbn [length]; let i := fresh in let H := fresh in intros i H;
  repeat (destruct i as [|i]; [split; [reflexivity|apply pcong_dec; [reflexivity|vm_compute; reflexivity]]|]); exfalso; cbn in H; lia.
Ltac ex_serves := exists None, (fun _ => 5); eexists; split; [exact I|]; split; [intros; vm_compute; split; discriminate|]; split; [vm_compute; reflexivity|reflexivity].
Ltac ex_near := unfold Spec.Blind.near_zero; cbn [snd];
  repeat (apply Forall_cons; [first [left; split; vm_compute; congruence | right; split; vm_compute; congruence]|]); apply Forall_nil.
Ltac ex_drawn := split; [reflexivity|];
  repeat (apply Forall_cons; [split; [split; [reflexivity|ex_canon]|split; [reflexivity|split; [ex_canon|ex_near]]]|]); apply Forall_nil.

(** The modulus of the default field (2^21 * 3^2 * 7 + 1). *)
Lemma prime_default : prime 132120577.
Proof.
  apply (lucas_check 132120577 5 [2; 3; 7]).
  - reflexivity.
  - intros q Hq Hd. change (132120577 - 1) with (2 ^ 21 * (3 * (3 * 7))) in Hd.
    apply prime_mult in Hd; [|assumption]. destruct Hd as [Hd|Hd].
    + apply prime_div_pow in Hd; [|assumption|lia].
      left. symmetry. apply prime_div_prime; [assumption|exact prime_2|assumption].
    + repeat (apply prime_mult in Hd; [|assumption]; destruct Hd as [Hd|Hd]).
      * right; left. symmetry. apply prime_div_prime; [assumption|exact prime_3|assumption].
      * right; left. symmetry. apply prime_div_prime; [assumption|exact prime_3|assumption].
      * right; right; left. symmetry. apply prime_div_prime; [assumption| |assumption].
        apply small_prime; [lia|vm_compute; reflexivity].
  - vm_compute. reflexivity.
  - vm_compute. reflexivity.
  - intros q [<-|[<-|[<-|[]]]]; lia.
Qed.
