(** Sessions: programs of the user that call any of the public functions, in any order. *)
From Verif Require Import Alg Arr Spec UtilsM TensorM WorldM SpecWorld CalcM CurvM GeodM LineM InfoM CurveM ShowM Base LexM ParseM InterpM ExportM.
Local Open Scope nat_scope.

Section SpecSession.
Context {A : AlgOps} {O : PyOps} {C : CodeOps} {N : NumSubs A}.

(** What a variable of the user refers to: a registered object or a deleted one. *)
Definition held (w : world) (t : oid) : Prop :=
  In t (insts w) \/ (t < length (heap w) /\ obj_of w t = None).
Definition held_arg (w : world) (x : option oid) : Prop :=
  match x with Some t => held w t | None => True end.

(** The arguments that the displays have in common: function, replace, coords, indices. *)
Definition display_args : Type := (option (K -> K) * option (list (string * K)) * option oid * option (list Z))%type.

(** One call. *)
Inductive call :=
| CallOp (o : op)                                                  (* constructors, requests, changes, delete *)
| CallChristoffel (m : oid) | CallRiemann (m : oid) | CallRicci (m : oid) | CallRicciScalar (m : oid)
| CallEinstein (m : oid) | CallWeyl (m : oid) | CallNorm (t : oid)
| CallLagrangian (m : oid) (c : option oid) | CallGeodesicLagrangian (param : string) (m : oid) (c : option oid)
| CallGeodesicChristoffel (m : oid) (c : option oid) | CallGeodesicTime (m : oid) (c : option oid)
| CallLine (m : oid) (c : option oid) | CallVolume (m : oid) (c : option oid)
| CallComponents (t : oid) (a : display_args) | CallShow (t : oid) (a : display_args) | CallList (t : oid) (a : display_args)
| CallCurve (time : bool) (param : string) (t : oid) (a : display_args)
| CallShowCurve (time : bool) (param : string) (t : oid) (a : display_args)
| CallListCurve (time : bool) (param : string) (t : oid) (a : display_args)
| CallInfo (t : oid) | CallExport (t : oid) | CallExportAll
| CallImport (fuel : nat) (s : text) | CallImportAll (fuel : nat) (s : text)
| CallDeleteResults (silent : bool) | CallClear
(* formulas; the CalcObjects are some that the user has *)
| CallIndices (t : oid) (syms : list string) | CallPartial (syms : list string) | CallCovariant (syms : list string)
| CallAdd (x : calc) (y : operand) | CallSub (x : calc) (y : operand) | CallRAdd (x : calc) (y : operand) | CallRSub (x : calc) (y : operand)
| CallNeg (x : calc) | CallMul (x : calc) (y : operand) | CallDiv (x : calc) (k : K) | CallMatmul (letters : res (list string)) (x y : calc)  (* with the index letters in force *)
| CallCalc (x : calc) (name symbol : string) (indices : list string).

(** What a call returns, as far as it can be used in other calls. *)
Inductive outcome := Nothing | Formula (x : calc) | Object (t : oid).

Definition nothing {X} (m : M X) : M outcome := m ;; mret Nothing.
Definition object (m : M oid) : M outcome := let! t := m in mret (Object t).
Definition formula_of (m : M calc) : M outcome := let! x := m in mret (Formula x).
Definition with_args {X} (f : option (K -> K) -> option (list (string * K)) -> oid -> option oid -> option (list Z) -> M X) (t : oid) (a : display_args) : M X :=
  let '(fn, r, c, i) := a in f fn r t c i.

Definition run_call (c : call) : M outcome :=
  match c with
  | CallOp o => nothing (run_op o)
  | CallChristoffel m => object (calc_christoffel m)
  | CallRiemann m => object (calc_riemann m)
  | CallRicci m => object (calc_ricci m)
  | CallRicciScalar m => object (calc_ricci_scalar m)
  | CallEinstein m => object (calc_einstein m)
  | CallWeyl m => object (calc_weyl m)
  | CallNorm t => object (calc_norm_squared t)
  | CallLagrangian m c => object (calc_lagrangian m c)
  | CallGeodesicLagrangian p m c => object (calc_geodesic_lagrangian_with p m c)
  | CallGeodesicChristoffel m c => object (calc_geodesic_christoffel m c)
  | CallGeodesicTime m c => object (calc_geodesic_time m c)
  | CallLine m c => nothing (line_element m c)
  | CallVolume m c => nothing (volume_element m c)
  | CallComponents t a => nothing (with_args get_components_all t a)
  | CallShow t a => nothing (with_args show_components t a)
  | CallList t a => nothing (with_args list_components t a)
  | CallCurve time p t a => nothing (with_args (get_curve_all time p) t a)
  | CallShowCurve time p t a => nothing (with_args (show_curve time p) t a)
  | CallListCurve time p t a => nothing (with_args (list_curve time p) t a)
  | CallInfo t => nothing (info t)
  | CallExport t => nothing (export_to_string t)
  | CallExportAll => nothing export_all_to_string
  | CallImport n s => object (import_from_string n s)
  | CallImportAll n s => nothing (import_all_from_string n s)
  | CallDeleteResults b => nothing (delete_results b)
  | CallClear => nothing clear_instances
  | CallIndices t s => formula_of (calc_call t s)
  | CallPartial s => formula_of (PartialD s)
  | CallCovariant s => formula_of (CovariantD s)
  | CallAdd x y => formula_of (calc_add x y)
  | CallSub x y => formula_of (calc_sub x y)
  | CallRAdd x y => formula_of (calc_radd x y)
  | CallRSub x y => formula_of (calc_rsub x y)
  | CallNeg x => formula_of (calc_neg x)
  | CallMul x y => formula_of (calc_mul x y)
  | CallDiv x k => formula_of (calc_div x k)
  | CallMatmul letters x y => formula_of (matmul_with letters x y)
  | CallCalc x name symbol indices => object (run_calc x name symbol indices)
  end.

(** The arguments are objects and CalcObjects that the user has; methods of metrics are called
    on metrics. *)
Definition operand_ok (kept : list calc) (y : operand) : Prop :=
  match y with OCalc x => In x kept | _ => True end.
Definition call_ok (w : world) (kept : list calc) (c : call) : Prop :=
  match c with
  | CallOp o => live_args w o
  | CallChristoffel m | CallRiemann m | CallRicci m | CallRicciScalar m | CallEinstein m | CallWeyl m
  | CallNorm m | CallIndices m _ => held w m
  | CallLagrangian m c | CallGeodesicLagrangian _ m c | CallGeodesicChristoffel m c | CallGeodesicTime m c => held w m /\ held_arg w c
  | CallLine m _ | CallVolume m _ => cls_of w m = Some CMetric
  | CallAdd x y | CallSub x y | CallRAdd x y | CallRSub x y | CallMul x y => In x kept /\ operand_ok kept y
  | CallNeg x | CallDiv x _ | CallCalc x _ _ _ => In x kept
  | CallMatmul _ x y => In x kept /\ In y kept
  | _ => True
  end.

(** CalcObjects that the user has after a call; those from before clear_instances, which also
    import_all calls, are not used any more. *)
Definition after (c : call) (r : res outcome) (kept : list calc) : list calc :=
  match c, r with
  | CallClear, _ | CallImportAll _ _, _ => []
  | _, Ok (Formula x) => x :: kept
  | _, _ => kept
  end.

(** The states of a session; a call that raises an error also takes the session to the state it
    leaves behind. *)
Inductive session : world -> list calc -> Prop :=
| session_start : session empty_world []
| session_call : forall w kept c, session w kept -> call_ok w kept c ->
    session (snd (run_call c w)) (after c (fst (run_call c w)) kept).

(** Every registered metric is its own metric. *)
Definition own_metrics (w : world) : Prop :=
  forall m o, In m (insts w) -> cls_of w m = Some CMetric -> obj_of w m = Some o -> o_metric o = Some m.

End SpecSession.
