(** Names and symbols: sessions that differ in the names and the symbols of the objects only.
    Definitions only. *)
From Verif Require Import Alg Arr Spec UtilsM TensorM WorldM SpecWorld CalcM CurvM GeodM LineM InfoM CurveM ShowM Base LexM ParseM InterpM ExportM SpecSession.

(** The ends of the names of computed tensors. *)
Definition result_names : list string :=
  [" Christoffel"; " Riemann"; " Ricci Tensor"; " Ricci Scalar"; " Einstein"; " Weyl Tensor"; " Norm Squared";
   " Lagrangian"; " Geodesic From Lagrangian"; " Geodesic From Christoffel"; " Geodesic With Time Parameter"]%string.

(** R relates names to names, one to one; the names that PyOGRe gives to intermediate tensors
    stay, and the name of a result changes with the name of its metric. *)
Record renaming (R : string -> string -> Prop) : Prop := {
  ren_one : forall s s' t t', R s s' -> R t t' -> (s = t <-> s' = t');
  ren_temp : R "TEMP"%string "TEMP"%string;
  ren_result : R "Result"%string "Result"%string;
  ren_computed : forall s s' x, In x result_names -> R s s' -> R (s ++ x)%string (s' ++ x)%string
}.

Section SpecRename.
Context {A : AlgOps} {O : PyOps} {C : CodeOps} {N : NumSubs A}.
Variable R : string -> string -> Prop.

(** Two objects with related names, any symbols, and otherwise the same attributes. *)
Definition obj_alike (o o' : obj) : Prop :=
  R (o_name o) (o_name o') /\ o_indices o = o_indices o' /\ o_rank o = o_rank o' /\ o_coords o = o_coords o' /\
  o_metric o = o_metric o' /\ o_comps o = o_comps o' /\ o_syms o = o_syms o' /\ o_trans o = o_trans o' /\ o_jacs o = o_jacs o'.

(** Two sessions with the same objects, up to names and symbols. *)
Definition alike (w w' : world) : Prop :=
  insts w = insts w' /\
  Forall2 (fun x y => fst x = fst y /\
    match snd x, snd y with Some o, Some o' => obj_alike o o' | None, None => True | _, _ => False end)
    (heap w) (heap w').

(** Arguments for a name and for a symbol. *)
Definition name_arg (v v' : pyval) : Prop :=
  match v, v' with VStr s, VStr s' => R s s' | VStr _, _ | _, VStr _ => False | _, _ => v = v' end.
Definition symbol_arg (v v' : pyval) : Prop :=
  match v, v' with
  | VStr _, VStr _ | VStr _, VSymbol _ | VSymbol _, VStr _ | VSymbol _, VSymbol _ => True
  | _, _ => v = v'
  end.

(** Two operations, two calls that differ in such arguments only.  The texts that are exported and
    imported contain names; these calls are left out. *)
Inductive op_alike : op -> op -> Prop :=
| alike_coordinates : forall n n' c i s s' tr, name_arg n n' -> symbol_arg s s' ->
    op_alike (OpCoordinates n c i s tr) (OpCoordinates n' c i s' tr)
| alike_metric : forall n n' c x i s s', name_arg n n' -> symbol_arg s s' -> op_alike (OpMetric n c x i s) (OpMetric n' c x i s')
| alike_tensor : forall n n' c m x i s s', name_arg n n' -> symbol_arg s s' -> op_alike (OpTensor n c m x i s) (OpTensor n' c m x i s')
| alike_christoffel : forall n n' c m x i s s', name_arg n n' -> symbol_arg s s' -> op_alike (OpChristoffel n c m x i s) (OpChristoffel n' c m x i s')
| alike_lagrangian : forall n n' c m x i s s', name_arg n n' -> symbol_arg s s' -> op_alike (OpLagrangian n c m x i s) (OpLagrangian n' c m x i s')
| alike_geodesic : forall n n' c m x i s s', name_arg n n' -> symbol_arg s s' -> op_alike (OpGeodesic n c m x i s) (OpGeodesic n' c m x i s')
| alike_name : forall t n n', name_arg n n' -> op_alike (OpName t n) (OpName t n')
| alike_symbol : forall t s s', symbol_arg s s' -> op_alike (OpSymbol t s) (OpSymbol t s')
| alike_other : forall o,
    match o with
    | OpAdd _ _ _ | OpGet _ _ _ | OpIndices _ _ | OpCoords _ _ | OpSimplify _ | OpDelete _ _ => True
    | _ => False
    end -> op_alike o o.

Inductive call_alike : call -> call -> Prop :=
| alike_op : forall o o', op_alike o o' -> call_alike (CallOp o) (CallOp o')
| alike_calc : forall x n n' s s' i, R n n' -> call_alike (CallCalc x n s i) (CallCalc x n' s' i)
| alike_call : forall c,
    match c with
    | CallOp _ | CallCalc _ _ _ _ | CallExport _ | CallExportAll | CallImport _ _ | CallImportAll _ _ => False
    | _ => True
    end -> call_alike c c.

(** The outcomes of the calls of a program, errors included, and the state at the end. *)
Fixpoint run_calls (l : list call) (w : world) : list (res outcome) * world :=
  match l with
  | [] => ([], w)
  | c :: l' => let (r, w1) := run_call c w in let (rs, w2) := run_calls l' w1 in (r :: rs, w2)
  end.

End SpecRename.
