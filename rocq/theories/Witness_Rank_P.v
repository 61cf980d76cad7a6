(** Ranks in concrete sessions. *)
From Coq Require Import QArith Qcanon.
From Verif Require Import Alg Alg_P Arr Arr_P Spec TensorM Inst Ex WorldM SpecWorld World_P Registry_P CalcM SpecCalc SpecPrefer Prefer_P ExWorld Witness_World_P Witness_History_P Witness_Calc_P Witness_Product_P Witness_Curv_P Typed_P Calc_P SpecRank Rank_P Witness_Prefer_P.
Local Open Scope nat_scope.

(** One coordinate, and a metric given as a list of one component without indices: the call is
    refused when the metric is registered already. *)
Definition ex_line_ops : list (@op PolyOps) := [OpCoordinates (ex_str "X") (VSyms [1] ["x"%string]) (VTuple [1]%Z) (ex_str "x") []].
Definition ex_line_metric : @op PolyOps := OpMetric (ex_str "g") (VArr (mkArr [1] [k1])) (VObj 0) VNone (ex_str "g").
Definition ex_start_w : @world PolyOps := run_all ex_line_ops empty_world.
Definition ex_line_w : @world PolyOps := run_all [ex_line_metric] ex_start_w.
Definition rankb (w : @world PolyOps) (i r : nat) : bool := match obj_of w i with Some o => o_rank o =? r | None => false end.
Lemma rankb_spec w i r : rankb w i r = true -> exists o, obj_of w i = Some o /\ o_rank o = r.
Proof. unfold rankb. destruct (obj_of w i) as [o|]; [|discriminate]. intros H. apply Nat.eqb_eq in H. eauto. Qed.

Lemma line_witness : exists (w : @world PolyOps) name comps coords symbol w' m o, reachable w /\ new_metric name comps coords VNone symbol w = (Err ETypeError, w') /\
  reachable w' /\ In m (insts w') /\ cls_of w' m = Some CMetric /\ obj_of w' m = Some o /\ o_rank o = 1.
Proof.
  destruct (out_err (new_metric (ex_str "g") (VArr (mkArr [1] [k1])) (VObj 0) VNone (ex_str "g")) ETypeError ex_start_w) as (w' & E & Ew); [vmtrue|].
  assert (W : w' = ex_line_w).
  { transitivity (snd (run_op ex_line_metric ex_start_w)); [|reflexivity]. cbn [run_op ex_line_metric]. rewrite (bind_err _ _ _ _ _ E). reflexivity. }
  assert (R : reachable ex_start_w) by (apply start_reachable; vmtrue).
  destruct (rankb_spec ex_line_w 1 1) as (o & Ho & Hr); [vmtrue|]. exists ex_start_w, (ex_str "g"), (VArr (mkArr [1] [k1])), (VObj 0), (ex_str "g"), w', 1, o.
  split; [exact R|]. split; [exact E|]. rewrite W. split; [apply run_all_reachable; [exact R|vmtrue]|].
  split; [assert (I : existsb (Nat.eqb 1) (insts ex_line_w) = true) by vmtrue; apply existsb_exists in I as (x & I & X); apply Nat.eqb_eq in X; subst x; exact I|].
  split; [apply clsb_spec; vmtrue|]. auto.
Qed.

(** The vector in x, y, then moved to u, v with other default indices. *)
Definition ex_turned_w : @world PolyOps := run_all [OpIndices 3 [-1]%Z; OpCoords 3 1] ex_w.
Lemma all_later ops (w : @world PolyOps) w' : later w w' -> all_live ops w' = true -> later w (run_all ops w').
Proof.
  revert w'. induction ops as [|p ops IH]; intros w' L H; [exact L|].
  cbn [all_live] in H. apply andb_prop in H as [H1 H2]. cbn. apply IH; [|exact H2]. apply later_call; [exact L|apply live_argsb_spec, H1].
Qed.
Lemma turned_hyps : exists o o', reachable ex_w /\ later ex_w ex_turned_w /\ obj_of ex_w 3 = Some o /\ obj_of ex_turned_w 3 = Some o' /\ o_indices o = [1]%Z /\ o_indices o' = [-1]%Z /\ o_coords o' = Some 1.
Proof.
  assert (I : option_map (fun o => (o_indices o)) (obj_of ex_w 3) = Some [1]%Z) by (vm_compute; reflexivity).
  assert (I' : option_map (fun o => (o_indices o, o_coords o)) (obj_of ex_turned_w 3) = Some ([-1]%Z, Some 1)) by (vm_compute; reflexivity).
  destruct (objb_spec ex_w 3) as (o & Ho); [vmtrue|]. destruct (objb_spec ex_turned_w 3) as (o' & Ho'); [vmtrue|].
  rewrite Ho in I. rewrite Ho' in I'. injection I as I. injection I' as I1 I2. exists o, o'. split; [apply ex_w_reachable|].
  split; [apply all_later; [apply later_now|vmtrue]|]. auto.
Qed.
Lemma metric_made : exists m w', new_metric (ex_str "h") (VArr ex_g) (VObj 0) (VTuple [-1; -1]%Z) (ex_str "h") ex_w = (Ok m, w').
Proof. apply outb_ok. vmtrue. Qed.
Lemma coordinates_there : exists o, reachable ex_w /\ obj_of ex_w 0 = Some o /\ cls_of ex_w 0 = Some CCoordinates.
Proof. destruct (objb_spec ex_w 0) as (o & Ho); [vmtrue|]. exists o. split; [apply ex_w_reachable|]. split; [exact Ho|apply clsb_spec; vmtrue]. Qed.
Definition storedb (w : @world PolyOps) : bool :=
  match obj_of w 3 with
  | Some o => match o_comps o with
              | [(c, [(i, _); (j, _)]); (c', _)] => (c =? 0) && (c' =? 1) && cfg_eqb i [1]%Z && cfg_eqb j [-1]%Z
              | _ => false
              end
  | None => false
  end.
Lemma storedb_spec w : storedb w = true -> exists o d a, obj_of w 3 = Some o /\ map fst (o_comps o) = [0; 1] /\ In (0, d) (o_comps o) /\ map fst d = [[1]; [-1]]%Z /\ In ([-1]%Z, a) d.
Proof.
  unfold storedb. destruct (obj_of w 3) as [o|]; [|discriminate]. destruct (o_comps o) as [|[c [|[i a] [|[j b] [|]]]] [|[c' d'] [|]]] eqn:E; try discriminate.
  intros H. apply andb_prop in H as [H H4]. apply andb_prop in H as [H H3]. apply andb_prop in H as [H1 H2].
  apply Nat.eqb_eq in H1, H2. apply cfg_eqb_spec in H3, H4. subst. exists o, [([1]%Z, a); ([-1]%Z, b)], b. rewrite E. cbn. auto 10.
Qed.
Lemma turned_stored : exists o d a, reachable ex_turned_w /\ obj_of ex_turned_w 3 = Some o /\ cls_of ex_turned_w 3 <> Some CCoordinates /\ cls_of ex_turned_w 3 <> Some CMetric /\
  map fst (o_comps o) = [0; 1] /\ In (0, d) (o_comps o) /\ map fst d = [[1]; [-1]]%Z /\ In ([-1]%Z, a) d.
Proof.
  destruct (storedb_spec ex_turned_w) as (o & d & a & Ho & H); [vmtrue|]. assert (K : cls_of ex_turned_w 3 = Some CTensor) by (apply clsb_spec; vmtrue).
  exists o, d, a. split; [apply run_all_reachable; [apply ex_w_reachable|vmtrue]|]. split; [exact Ho|]. rewrite K. split; [discriminate|]. split; [discriminate|exact H].
Qed.
