(** Rational numbers as components: an instance of the laws in which the zero test is complete.
    Used in examples. *)
From Coq Require Import QArith Qcanon Field_theory.
From Verif Require Import Base Alg.
Local Open Scope nat_scope.

Definition NumOps : AlgOps := {|
  K := Qc; keq := eq; k0 := 0%Qc; k1 := 1%Qc; kadd := Qcplus; kmul := Qcmult; ksub := Qcminus; kopp := Qcopp;
  kinvn := fun n => Q2Qc (/ inject_Z (Z.of_nat n)); simp := fun x => x; kisz := fun x => Qc_eq_bool x 0%Qc;
  ksym := fun _ => 0%Qc; kdiff := fun _ _ => 0%Qc; ksub1 := fun _ _ x => x; minv := fun _ _ => None; mdet0 := fun _ _ => false; kclean := fun x => x |}.

Lemma Qc_knat n : @knat NumOps n = Q2Qc (inject_Z (Z.of_nat n)).
Proof.
  induction n as [|n IH]; [reflexivity|]. cbn [knat]. rewrite IH. change (kadd (AlgOps := NumOps)) with Qcplus. change (k1 (AlgOps := NumOps)) with 1%Qc.
  apply Qc_is_canon. cbn [this Q2Qc Qcplus]. rewrite !Qred_correct. rewrite Nat2Z.inj_succ. unfold Z.succ. rewrite inject_Z_plus.
  change (this 1%Qc) with 1%Q. change (inject_Z 1) with 1%Q. ring.
Qed.
Global Instance NumLaws : @AlgLaws NumOps.
Proof.
  constructor.
  - cbn. exact _.
  - cbn. intros a b -> c d ->. reflexivity.
  - cbn. intros a b -> c d ->. reflexivity.
  - cbn. intros a b ->. reflexivity.
  - exact Qcrt.
  - reflexivity.
  - intros x H. apply Qc_eq_bool_correct, H.
  - intros n Hn. rewrite Qc_knat. cbn [keq kmul kinvn k1 NumOps]. apply Qc_is_canon. cbn [this Q2Qc Qcmult]. rewrite !Qred_correct.
    apply Qmult_inv_r. intros H. apply Hn. unfold Qeq in H. cbn in H. lia.
Qed.
Lemma Num_exact (x : @K NumOps) : keq x k0 -> kisz x = true.
Proof. cbn. intros ->. reflexivity. Qed.
