(** Concrete cases for the properties of Utils.py. *)
From Coq Require Import QArith Qcanon.
From Verif Require Import Alg Alg_P Arr Arr_P Spec UtilsM Arr2_P Utils_P Inst Ex.
Local Open Scope nat_scope.

Lemma ex_contract_hyps :
  1 <= 2 /\ cubic 2 ex_rank3 /\ cubic 2 ex_mat /\
  valid_pairs (rank ex_rank3) (rank ex_mat) [(2, 0); (0, 1)]%Z.
Proof.
  split; [lia|]. split; [split; reflexivity|]. split; [split; reflexivity|].
  cbn. split; [repeat constructor; cbn; lia|].
  split; cbn; repeat constructor; cbn; intuition discriminate.
Qed.

Lemma ex_contract_rejects :
  contract ex_mat ex_vec [(2, 0)]%Z = Err EValueError /\
  contract ex_mat ex_mat [(0, 0); (0, 1)]%Z = Err EValueError /\
  contract ex_mat ex_vec [(-1, 0)]%Z = Err EValueError /\
  exists r, contract ex_mat ex_vec [(1, 0)]%Z = Ok r.
Proof.
  split; [apply is_err_eq; vmtrue|]. split; [apply is_err_eq; vmtrue|].
  split; [apply is_err_eq; vmtrue|].
  apply is_ok_ex; vmtrue.
Qed.

Lemma contract_mismatch_witness :
  exists (a1 a2 a2' r : @arr PolyOps),
  shape a1 = [2] /\ shape a2 = [3] /\ shape a2' = [3] /\
  awf a1 /\ awf a2 /\ awf a2' /\ ~ aeq a2 a2' /\
  contract a1 a2 [(0, 0)]%Z = Ok r /\ contract a1 a2' [(0, 0)]%Z = Ok r.
Proof.
  exists ex_vec, ex_long1, ex_long2.
  assert (Ex : exists r, contract ex_vec ex_long1 [(0, 0)]%Z = Ok r) by (apply is_ok_ex; vmtrue).
  assert (E : rd (contract ex_vec ex_long1 [(0, 0)]%Z) = rd (contract ex_vec ex_long2 [(0, 0)]%Z))
    by (vm_compute; reflexivity).
  destruct Ex as [r Er]. exists r.
  split; [reflexivity|]. split; [reflexivity|]. split; [reflexivity|].
  split; [reflexivity|]. split; [reflexivity|]. split; [reflexivity|]. split.
  - intros [_ H]. specialize (H [2] eq_refl).
    apply (peq_Qc _ _ (fun _ => 0%Qc)) in H. apply (f_equal this) in H. vm_compute in H. discriminate.
  - split; [exact Er|]. rewrite Er in E. cbn [rd] in E. symmetry in E. apply rd_ok in E.
    destruct r; exact E.
Qed.

Lemma ex_div_hyps :
  1 <= 2 /\ length ["x"; "y"]%string = 2 /\ cubic 2 ex_rank3 /\
  (0 <= 1 <= 1)%Z /\ (1 < Z.of_nat (rank ex_rank3))%Z.
Proof. split; [lia|]. split; [reflexivity|]. split; [split; reflexivity|]. split; [lia|]. cbn; lia. Qed.

Lemma divergence_witness :
  exists (coords : list string) (a b : @arr PolyOps),
  cubic 2 a /\ rank a = 3 /\ length coords = 2 /\
  partial_contract coords a (Some 2%Z) = Err EValueError /\
  cubic 2 b /\ rank b = 1 /\
  partial_contract coords b (Some 1%Z) = Err EIndexError.
Proof.
  exists ["x"; "y"]%string, ex_rank3, ex_vec.
  split; [split; reflexivity|]. split; [reflexivity|]. split; [reflexivity|].
  split; [apply is_err_eq; vmtrue|].
  split; [split; reflexivity|]. split; [reflexivity|apply is_err_eq; vmtrue].
Qed.

Lemma ex_elements : 1 <= 2 /\ cubic 2 ex_rank3 /\ length (elements ex_rank3) = 8.
Proof. split; [lia|]. split; [split; reflexivity|]. reflexivity. Qed.

Lemma map_to_array_witness :
  exists (a r : @arr PolyOps) (f : pexp -> pexp),
  awf a /\ map_to_array a f = Ok r /\ shape r <> shape a.
Proof.
  destruct (@map_to_array_column PolyOps 2 [pz 1; pz 2] (fun e => e)) as (r & Er & Hr); [lia|reflexivity|].
  exists ex_column, r, (fun e => e).
  split; [reflexivity|]. split; [exact Er|]. rewrite Hr. discriminate.
Qed.
