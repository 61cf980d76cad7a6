(** Properties of dictionaries of transformations that callers keep: C145 - C148. *)
From Verif Require Import Alg WorldM SpecWorld AliasM SpecAlias Alias_P Inst Witness_Alias_P.
Local Open Scope nat_scope.

(** C145.  The property is false: a change of the transformations of one coordinate system
    changes those of another that was given the same dictionary, which may even get a
    transformation to itself. *)
Theorem C145_own_transformations_refuted : exists (l : list (@step PolyOps)) (self j : oid) coords rules,
  let s := snd (run_steps shared_step l shared_start) in
  let s' := snd (shared_step (SAdd self coords rules) s) in
  fst (shared_step (SAdd self coords rules) s) = None /\ j <> self /\
  transformations s' j <> transformations s j /\
  exists d r, transformations s' j = Some d /\ In (j, r) d.
Proof. exact shared_witness. Qed.
Print Assumptions C145_own_transformations_refuted.

Section Alias.
Context {A : AlgOps}.

(** Exactly the systems that were given one dictionary are concerned. *)
Theorem C145_others_are_unchanged (s : dworld) (self j : oid) coords rules :
  j <> self -> ~ sharing s self j ->
  transformations (snd (shared_step (SAdd self coords rules) s)) j = transformations s j.
Proof. exact (add_others self coords rules s j). Qed.
Theorem C145_sharers_agree (s : dworld) (i j : oid) :
  sharing s i j -> transformations s i <> None -> transformations s j <> None ->
  transformations s i = transformations s j.
Proof. exact (sharing_same s i j). Qed.

(** C146 *)
Theorem C146_sessions_as_with_copies (l : list step) : given_once [] [] l ->
  fst (run_steps shared_step l shared_start) = fst (run_steps copied_step l copied_start) /\
  d_view (snd (run_steps shared_step l shared_start)) = fst (snd (run_steps copied_step l copied_start)).
Proof. exact (shared_copied l). Qed.

(** C147 *)
Theorem C147_rules_are_equations (l : list step) (i c : oid) rules :
  Forall plain_step l -> entry_rules (snd (run_steps shared_step l shared_start)) i c rules ->
  Forall (fun r => r <> RBad) rules.
Proof. exact (rules_fit l i c rules). Qed.
End Alias.
Print Assumptions C145_others_are_unchanged.
Print Assumptions C145_sharers_agree.
Print Assumptions C146_sessions_as_with_copies.
Print Assumptions C147_rules_are_equations.

(** C148.  The property is false: the constructor does not look at the rules if indices is None,
    and nobody looks at them when the caller changes the dictionary. *)
Theorem C148_indices_none_refuted : exists (l : list (@step PolyOps)) i c rules,
  (forall d x, ~ In (SChange d x) l) /\
  entry_rules (snd (run_steps shared_step l shared_start)) i c rules /\ In RBad rules.
Proof. exact none_witness. Qed.
Theorem C148_changed_dictionary_refuted : exists (l : list (@step PolyOps)) i c rules,
  (forall n x i y d, In (SCoordinates n x i y d) l -> i = VTuple [1]%Z) /\
  entry_rules (snd (run_steps shared_step l shared_start)) i c rules /\ In RBad rules.
Proof. exact later_witness. Qed.
Print Assumptions C148_indices_none_refuted.
Print Assumptions C148_changed_dictionary_refuted.

(** Two systems with one dictionary and a third with its own: objects 1 and 2 of ex_shared
    share, 0 and 2 do not. *)
Example C145_case : sharing ex_shared_s 1 2 /\ ~ sharing ex_shared_s 0 2 /\
  transformations ex_shared_s 1 <> None /\ transformations ex_shared_s 2 <> None.
Proof. exact ex_shared_case. Qed.
(** A session of 13 steps with three coordinate systems, two of them with dictionaries of the
    caller, which are changed through add_coord_transformation; one step fails. *)
Example C146_case : given_once [] [] ex_single /\
  fst (run_steps shared_step ex_single shared_start) =
    [None; None; None; None; None; None; None; None; None; None; Some ETypeError; None; None] /\
  map fst (d_ref (snd (run_steps shared_step ex_single shared_start))) = [2; 1] /\
  keys (transformations (snd (run_steps shared_step ex_single shared_start)) 1) = Some [0; 2] /\
  keys (transformations (snd (run_steps shared_step ex_single shared_start)) 2) = Some [0].
Proof. exact (conj ex_single_once ex_single_outcome). Qed.
Example C147_case : Forall plain_step (ex_shared ++ [ex_shared_add]) /\
  entry_rules (snd (run_steps shared_step (ex_shared ++ [ex_shared_add]) shared_start)) 2 2 ex_new_rules.
Proof. exact ex_shared_plain. Qed.
