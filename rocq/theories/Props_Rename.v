(** Properties of names and symbols. *)
From Verif Require Import Alg Arr Spec TensorM Inst InstCurve Ex WorldM SpecWorld ExWorld CalcM CurvM GeodM LineM ListM InfoM CurveM ShowM Base LexM ParseM InterpM ExportM ExExport SpecSession SpecRename Rename_P Witness_Rename_P.

(** C183.  Two programs that differ by a renaming only have the same outcomes, errors included,
    and end in sessions that differ by the renaming only. *)
Theorem C183_names_do_not_matter :
  forall (A : AlgOps) (O : PyOps) (C : CodeOps) (N : NumSubs A) (R : string -> string -> Prop) (calls calls' : list call),
  renaming R -> Forall2 (call_alike R) calls calls' ->
  fst (run_calls calls empty_world) = fst (run_calls calls' empty_world) /\
  alike R (snd (run_calls calls empty_world)) (snd (run_calls calls' empty_world)).
Proof. exact names_do_not_matter. Qed.
Print Assumptions C183_names_do_not_matter.

(** In two such sessions everything that is computed or displayed is the same. *)
Theorem C183_displays_do_not_depend_on_names :
  forall (A : AlgOps) (N : NumSubs A) (R : string -> string -> Prop) (w w' : world),
  renaming R -> alike R w w' ->
  (forall f r t c i, fst (get_components_all f r t c i w) = fst (get_components_all f r t c i w')) /\
  (forall f r t c i, fst (show_components f r t c i w) = fst (show_components f r t c i w')) /\
  (forall f r t c i, fst (list_components f r t c i w) = fst (list_components f r t c i w')) /\
  (forall b p f r t c i, fst (get_curve_all b p f r t c i w) = fst (get_curve_all b p f r t c i w')) /\
  (forall b p f r t c i, fst (show_curve b p f r t c i w) = fst (show_curve b p f r t c i w')) /\
  (forall b p f r t c i, fst (list_curve b p f r t c i w) = fst (list_curve b p f r t c i w')) /\
  (forall m c, fst (line_element m c w) = fst (line_element m c w')) /\
  (forall m c, fst (volume_element m c w) = fst (volume_element m c w')).
Proof. exact displays_do_not_depend_on_names. Qed.
Print Assumptions C183_displays_do_not_depend_on_names.

(** A renaming that changes the name of the metric and thereby that of its Christoffel symbols. *)
Example C183_hypotheses_satisfiable :
  renaming swapped /\ Forall2 (call_alike swapped) (ren_calls "g" "g" "V") (ren_calls "h" "eta" "") /\
  (match map object_of (fst (run_calls (ren_calls "g" "g" "V") empty_world)) with
   | [_; _; _; Some a; Some b; _; Some c] => negb (Nat.eqb a b) && negb (Nat.eqb a c)
   | _ => false
   end) = true.
Proof. exact (conj swapped_renaming (conj ren_calls_alike ren_calls_run)). Qed.

(** The property is false for renamings that are one to one only: a tensor of the user can have
    the name of a result. *)
Theorem C183_any_names_refuted :
  exists R : string -> string -> Prop, exists l l' : list (@call PolyOps),
  (forall s s' t t', R s s' -> R t t' -> (s = t <-> s' = t')) /\
  R "TEMP"%string "TEMP"%string /\ R "Result"%string "Result"%string /\
  Forall2 (call_alike R) l l' /\
  fst (run_calls l empty_world) <> fst (run_calls l' empty_world).
Proof. exact clash. Qed.
Print Assumptions C183_any_names_refuted.

(** C184.  Programs that differ in the symbols of the objects only have the same outcomes and end
    in sessions that differ in the symbols only. *)
Theorem C184_symbols_do_not_matter :
  forall (A : AlgOps) (O : PyOps) (C : CodeOps) (N : NumSubs A) (calls calls' : list call),
  Forall2 (call_alike eq) calls calls' ->
  fst (run_calls calls empty_world) = fst (run_calls calls' empty_world) /\
  alike eq (snd (run_calls calls empty_world)) (snd (run_calls calls' empty_world)).
Proof. exact symbols_do_not_matter. Qed.
Print Assumptions C184_symbols_do_not_matter.

Example C184_hypotheses_satisfiable : Forall2 (call_alike eq) (ren_calls "g" "g" "V") (ren_calls "g" "eta" "").
Proof. exact ren_calls_symbols. Qed.
