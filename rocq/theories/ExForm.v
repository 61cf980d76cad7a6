(** A concrete session with a formula, used in the examples that accompany the property theorems
    about formulas.  Definitions only. *)
From Coq Require Import QArith.
From Verif Require Import Alg Arr Spec TensorM Inst Ex WorldM SpecWorld CalcM SpecCalc CurvM SpecCurv SpecChange SpecForm ExWorld.
Local Open Scope nat_scope.

(** ex_change_w with a vector V (object 3) and a tensor S with an upper and a lower index
    (object 4). *)
Definition ex_V3 : @arr PolyOps := @mkArr PolyOps [3] [pv "y"; pz 0; pv "x"].
Definition ex_S3 : @arr PolyOps := @mkArr PolyOps [3; 3] [pz 0; pv "z"; pz 0; pz 0; pz 0; pz 2; pv "x"; pz 0; pz 0].
Definition ex_form_w : @world PolyOps := run_all
  [OpTensor (ex_str "V") (VArr ex_V3) (VObj 2) (VObj 0) (VTuple [1]%Z) (ex_str "V");
   OpTensor (ex_str "S") (VArr ex_S3) (VObj 2) (VObj 0) (VTuple [1; -1]%Z) (ex_str "S")] ex_change_w.
Definition ex_conf (t : oid) : list Z := if t =? 3 then [1]%Z else [1; -1]%Z.

(** Their covariant components in both coordinate systems. *)
Definition ex_V0 : @arr PolyOps := tab [3] (act 3 [mfun ex_g3] (aget ex_V3)).
Definition ex_S0 : @arr PolyOps := tab [3; 3] (act 3 [mfun ex_g3; kdelta] (aget ex_S3)).
Definition ex_V1 : @arr PolyOps :=
  tab [3] (fun idx => subs_seq ex_rules3 (act 3 [fun i k => mfun ex_J3 k i] (aget ex_V0) idx)).
Definition ex_S1 : @arr PolyOps :=
  tab [3; 3] (fun idx => subs_seq ex_rules3
    (act 3 [fun i k => mfun ex_J3 k i; fun i k => mfun ex_J3 k i] (aget ex_S0) idx)).
Definition ex_cov (t c : oid) : list nat -> @K PolyOps :=
  aget (if t =? 3 then if c =? 0 then ex_V0 else ex_V1 else if c =? 0 then ex_S0 else ex_S1).

(** 2 * S("b a") @ V("a") + V("b") @ (V("c") @ (PartialD("c") @ (V("a") @ V("a")))) - V("b") / 2 *)
Definition ex_v (a : string) : @formula PolyOps := FTensor 3 [a].
Definition ex_formula : @formula PolyOps :=
  FSub (FAdd (FScale (pz 2 : @K PolyOps) (FMul (FTensor 4 ["b"; "a"]%string) (ex_v "a"%string)))
             (FMul (ex_v "b"%string) (FMul (ex_v "c"%string) (FGrad "c"%string (FMul (ex_v "a"%string) (ex_v "a"%string))))))
       (FOver (PC (1 # 2) : @K PolyOps) (ex_v "b"%string)).
