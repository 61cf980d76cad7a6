(** Concrete arrays for list(). *)
From Coq Require Import QArith Qcanon.
From Verif Require Import Base Alg Arr Spec ListM List_P InstNum.
Local Open Scope nat_scope.

Lemma zero_scalar_witness :
  exists (n : nat) (a : @arr NumOps) key es s,
  cubic n a /\ keq (aget a []) k0 /\ In (key, es) (list_groups n (rank a) a) /\ In (s, []) es.
Proof.
  exists 2, (@mkArr NumOps [] [0%Qc]), 0%Qc, [(true, [])], true. split; [split; reflexivity|]. split; [reflexivity|]. split; [left; reflexivity|left; reflexivity].
Qed.
Lemma zero_per_line_witness :
  exists (z : Z) (num n : nat) (a : @arr NumOps) pos,
  set_list_per_line z = Ok num /\ cubic n a /\ inb (shape a) pos = true /\ ~ keq (aget a pos) k0 /\
  list_latex num (list_groups n (rank a) a) = Err EZeroDivision.
Proof.
  exists 0%Z, 0, 2, (@mkArr NumOps [2] [0%Qc; 1%Qc]), [1]. split; [reflexivity|]. split; [split; reflexivity|]. split; [reflexivity|].
  split; [intros H; discriminate H|]. vm_compute. reflexivity.
Qed.
Lemma list_sample_ok : let a := @mkArr NumOps [2; 2] [1%Qc; 0%Qc; (- (1))%Qc; 1%Qc] in
  cubic 2 a /\ rank a <> 0 /\ (forall x : @K NumOps, keq x k0 -> kisz x = true) /\
  list_groups 2 2 a = [(1%Qc, [(true, [0; 0]); (false, [1; 0]); (true, [1; 1])])] /\
  list_latex 2 (list_groups 2 2 a) = Ok [(1%Qc, [([(true, [0; 0]); (false, [1; 0])], false); ([(true, [1; 1])], true)])].
Proof.
  intros a. split; [split; reflexivity|]. split; [discriminate|]. split; [exact Num_exact|]. split; vm_compute; reflexivity.
Qed.
