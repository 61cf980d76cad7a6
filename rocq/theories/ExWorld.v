(** Small concrete sessions over polynomial expressions, used in the examples that accompany
    the property theorems and as witnesses.  Definitions only. *)
From Coq Require Import QArith.
From Verif Require Import Alg Arr Spec TensorM Inst Ex WorldM SpecWorld.
Local Open Scope nat_scope.

(** The state after a list of operations; errors do not stop the session. *)
Definition run_all {A : AlgOps} (ops : list op) (w : world) : world :=
  fold_left (fun w o => snd (run_op o w)) ops w.

Definition ex_str (s : string) : @pyval PolyOps := VStr s.

(** Coordinates x, y (object 0) and u, v (object 1) with the rules of Ex.v from 0 to 1. *)
Definition ex_base : list (@op PolyOps) :=
  [OpCoordinates (ex_str "XY") (VSyms [2] ex_xs) (VTuple [1]%Z) (ex_str "x") [];
   OpCoordinates (ex_str "UV") (VSyms [2] ex_ys) (VTuple [1]%Z) (ex_str "u") [];
   OpAdd 0 (VObj 1) (Some (map REq ex_rules))].

(** ... with a metric (object 2) and a vector (object 3). *)
Definition ex_ops : list (@op PolyOps) := ex_base ++
  [OpMetric (ex_str "g") (VArr ex_g) (VObj 0) (VTuple [-1; -1]%Z) (ex_str "g");
   OpTensor (ex_str "V") (VArr ex_vec) (VObj 2) (VObj 0) (VTuple [1]%Z) (ex_str "V")].

(** ... with k more tensors of a given name. *)
Definition ex_more (name : string) (k : nat) : list (@op PolyOps) :=
  repeat (OpTensor (ex_str name) (VArr ex_vec) (VObj 2) (VObj 0) (VTuple [-1]%Z) (ex_str "T")) k.

(** The Christoffel symbols of the metric of Ex.v as object 3 instead of the vector. *)
Definition ex_Gam_data : @arr PolyOps :=
  tab [2; 2; 2] (fun idx => match idx with
    | [i; j; k] => christoffel_of 2 (fun m => nth m ex_xs ""%string) (mfun ex_g) (mfun ex_gi) i j k
    | _ => k0 end).
Definition ex_chr_ops : list (@op PolyOps) := ex_base ++
  [OpMetric (ex_str "g") (VArr ex_g) (VObj 0) (VTuple [-1; -1]%Z) (ex_str "g");
   OpChristoffel (ex_str "Gamma") (VArr ex_Gam_data) (VObj 2) (VObj 0) (VTuple [1; -1; -1]%Z) (ex_str "G")].

(** Other rules from x, y to u, v: x = v, y = u. *)
Definition ex_rules2 : list (string * @K PolyOps) := [("x", pv "v"); ("y", pv "u")]%string.

Definition ex_w : @world PolyOps := run_all ex_ops empty_world.
Definition ex_chr_w : @world PolyOps := run_all ex_chr_ops empty_world.
(** The vector was requested in u, v, then the rules were replaced, or removed; object 4 is
    another vector. *)
Definition ex_stale_w : @world PolyOps :=
  run_all ([OpGet 3 (Some 1) (Some [1]%Z); OpAdd 0 (VObj 1) (Some (map REq ex_rules2))] ++ ex_more "W" 1) ex_w.
Definition ex_removed_w : @world PolyOps :=
  run_all ([OpGet 3 (Some 1) (Some [1]%Z); OpAdd 0 (VObj 1) None] ++ ex_more "W" 1) ex_w.
Definition ex_temp_w : @world PolyOps :=
  run_all (ex_more "TEMP" 9 ++ ex_more "W" 1) ex_w.
Definition ex_results_w : @world PolyOps :=
  run_all (ex_more "Result" 17 ++ ex_more "W" 1) ex_w.

(** ex_w with the way back from u, v to x, y, and the geometry it represents. *)
Definition ex_hist_w : @world PolyOps :=
  run_all [OpAdd 1 (VObj 0) (Some (map REq ex_back))] ex_w.
Definition ex_T0 : @arr PolyOps := tab [2] (act 2 [mfun ex_g] (aget ex_vec)).
Definition ex_T1 : @arr PolyOps :=
  tab [2] (fun idx => subs_seq ex_rules (act 2 [fun i k => mfun ex_J k i] (aget ex_T0) idx)).
Definition ex_G1 : @arr PolyOps :=
  tab [2; 2] (fun idx => subs_seq ex_rules
    (act 2 [fun i k => mfun ex_J k i; fun i k => mfun ex_J k i] (aget ex_g) idx)).
Definition ex_Gi1 : @arr PolyOps :=
  tab [2; 2] (fun idx => subs_seq ex_rules (act 2 [mfun ex_Ji; mfun ex_Ji] (aget ex_gi) idx)).
Definition ex_geo : @geometry PolyOps :=
  mkGeo 2 1 (fun c => c = 0 \/ c = 1)
    (fun c => if c =? 0 then ex_xs else ex_ys)
    (fun c => if c =? 0 then [(1, ex_rules)] else [(0, ex_back)])
    (fun c => aget (if c =? 0 then ex_T0 else ex_T1))
    (fun c => mfun (if c =? 0 then ex_g else ex_G1))
    (fun c => mfun (if c =? 0 then ex_gi else ex_Gi1)).
(** Two ways to the components of the vector in u, v. *)
Definition ex_history1 : list (@op PolyOps) :=
  [OpGet 3 (Some 1) (Some [1]%Z); OpIndices 2 [1; 1]%Z; OpCoords 3 1; OpGet 3 None (Some [-1]%Z);
   OpCoords 3 0; OpName 3 (ex_str "Z")].
Definition ex_history2 : list (@op PolyOps) :=
  [OpIndices 3 [-1]%Z; OpCoords 2 1; OpGet 3 (Some 1) None; OpGet 2 (Some 0) (Some [1; -1]%Z)].

(** ex_w with the way back, a vector with a mixed second derivative (object 4), a tensor of
    rank 3 (object 5), and two tensors whose default coordinates are u, v (objects 6, 7). *)
Definition ex_twist : @arr PolyOps := @mkArr PolyOps [2] [PMul (pv "y") (pv "y"); pv "x"].
Definition ex_uv1 : @arr PolyOps := @mkArr PolyOps [2] [pv "u"; pz 1].
Definition ex_uv2 : @arr PolyOps := @mkArr PolyOps [2; 2] [pv "v"; pz 1; pv "u"; pz 2].
Definition ex_calc_w : @world PolyOps :=
  run_all [OpAdd 1 (VObj 0) (Some (map REq ex_back));
    OpTensor (ex_str "W") (VArr ex_twist) (VObj 2) (VObj 0) (VTuple [1]%Z) (ex_str "W");
    OpTensor (ex_str "R") (VArr ex_rank3) (VObj 2) (VObj 0) (VTuple [1; 1; 1]%Z) (ex_str "R");
    OpTensor (ex_str "A") (VArr ex_uv1) (VObj 2) (VObj 1) (VTuple [-1]%Z) (ex_str "A");
    OpTensor (ex_str "B") (VArr ex_uv2) (VObj 2) (VObj 1) (VTuple [1; 1]%Z) (ex_str "B");
    OpTensor (ex_str "C") (VArr ex_mat) (VObj 2) (VObj 0) (VTuple [1; -1]%Z) (ex_str "C")] ex_w.

(** A tensor that the user named "TEMP". *)
Definition ex_user_temp_w : @world PolyOps := run_all (ex_more "TEMP" 1) ex_w.

(** Three dimensions: coordinates x, y, z (object 0) with a metric of determinant 1 (object 1). *)
Definition ex_xyz : list string := ["x"; "y"; "z"]%string.
Definition ex_g3 : @arr PolyOps :=
  @mkArr PolyOps [3; 3] [pz 1; pv "x"; pz 0; pv "x"; PAdd (pz 1) (PMul (pv "x") (pv "x")); pz 0; pz 0; pz 0; pz 1].
Definition ex_gi3 : @arr PolyOps :=
  @mkArr PolyOps [3; 3] [PAdd (pz 1) (PMul (pv "x") (pv "x")); POpp (pv "x"); pz 0; POpp (pv "x"); pz 1; pz 0; pz 0; pz 0; pz 1].
Definition ex_three_w : @world PolyOps := run_all
  [OpCoordinates (ex_str "XYZ") (VSyms [3] ex_xyz) (VTuple [1]%Z) (ex_str "x") [];
   OpMetric (ex_str "g") (VArr ex_g3) (VObj 0) (VTuple [-1; -1]%Z) (ex_str "g")] empty_world.

(** ex_w with the same metric entered with upper indices (object 4), and with a flat metric
    that has the same name as the first one (object 5). *)
Definition ex_flat : @arr PolyOps := @mkArr PolyOps [2; 2] [pz 1; pz 0; pz 0; pz 1].
Definition ex_metrics_w : @world PolyOps := run_all
  [OpMetric (ex_str "h") (VArr ex_gi) (VObj 0) (VTuple [1; 1]%Z) (ex_str "h");
   OpMetric (ex_str "g") (VArr ex_flat) (VObj 0) (VTuple [-1; -1]%Z) (ex_str "g")] ex_w.

(** Three dimensions with coordinates x, y, z (object 0) and u, v, w (object 1), rules in both
    directions, and the metric ex_g3 (object 2); and the geometry it represents. *)
Definition ex_uvw : list string := ["u"; "v"; "w"]%string.
Definition ex_rules3 : list (string * @K PolyOps) :=
  [("z", pv "w"); ("y", PAdd (pv "v") (PMul (pv "u") (pv "u"))); ("x", pv "u")]%string.
Definition ex_back3 : list (string * @K PolyOps) :=
  [("u", pv "x"); ("w", pv "z"); ("v", PSub (pv "y") (PMul (pv "x") (pv "x")))]%string.
Definition ex_change_w : @world PolyOps := run_all
  [OpCoordinates (ex_str "XYZ") (VSyms [3] ex_xyz) (VTuple [1]%Z) (ex_str "x") [];
   OpCoordinates (ex_str "UVW") (VSyms [3] ex_uvw) (VTuple [1]%Z) (ex_str "u") [];
   OpAdd 0 (VObj 1) (Some (map REq ex_rules3));
   OpAdd 1 (VObj 0) (Some (map REq ex_back3));
   OpMetric (ex_str "g") (VArr ex_g3) (VObj 0) (VTuple [-1; -1]%Z) (ex_str "g")] empty_world.
Definition ex_J3 : @arr PolyOps :=
  @mkArr PolyOps [3; 3] [pz 1; pz 0; pz 0; PMul (pz 2) (pv "u"); pz 1; pz 0; pz 0; pz 0; pz 1].
Definition ex_Ji3 : @arr PolyOps :=
  @mkArr PolyOps [3; 3] [pz 1; pz 0; pz 0; PMul (pz (-2)) (pv "u"); pz 1; pz 0; pz 0; pz 0; pz 1].
Definition ex_G3 : @arr PolyOps :=
  tab [3; 3] (fun idx => subs_seq ex_rules3
    (act 3 [fun i k => mfun ex_J3 k i; fun i k => mfun ex_J3 k i] (aget ex_g3) idx)).
Definition ex_Gi3 : @arr PolyOps :=
  tab [3; 3] (fun idx => subs_seq ex_rules3 (act 3 [mfun ex_Ji3; mfun ex_Ji3] (aget ex_gi3) idx)).
Definition ex_geo3 : @geometry PolyOps :=
  mkGeo 3 2 (fun c => c = 0 \/ c = 1)
    (fun c => if c =? 0 then ex_xyz else ex_uvw)
    (fun c => if c =? 0 then [(1, ex_rules3)] else [(0, ex_back3)])
    (fun c => mat_comps (mfun (if c =? 0 then ex_g3 else ex_G3)))
    (fun c => mfun (if c =? 0 then ex_g3 else ex_G3))
    (fun c => mfun (if c =? 0 then ex_gi3 else ex_Gi3)).
