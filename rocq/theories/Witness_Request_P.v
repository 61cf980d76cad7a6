(** Concrete Christoffel symbols and Lagrangians in other coordinates. *)
From Coq Require Import QArith Qcanon Permutation.
From Verif Require Import Alg Alg_P Arr Arr_P Spec UtilsM Arr2_P Act_P TensorM RL_P Tensor_P Jacobian_P Inst Ex WorldM SpecWorld World_P Registry_P Geo_P History_P CalcM SpecCalc Calc_P CurvM SpecCurv SpecChange CurvCov2_P CurvCov3_P CurvCov4_P ExWorld Witness_Tensor_P Witness_World_P Witness_History_P Witness_Calc_P Witness_Curv_P Witness_Change_P GeodM SpecGeod SpecMissing SpecRequest.
Local Open Scope nat_scope.

(** The session with the metric, its Christoffel symbols (object 3) and its Lagrangian (object 4). *)
Definition ex_Gam3 : @arr PolyOps := tab [3; 3; 3] (at3 (A := PolyOps) (Gam 3 ex_xyz (mfun ex_g3) (mfun ex_gi3))).
Definition ex_Lag3 : @arr PolyOps := @mkArr PolyOps [] [metric_lagrangian 3 ex_xyz (mfun ex_g3)].
Definition ex_request_w : @world PolyOps := run_all
  [OpChristoffel (ex_str "G") (VArr ex_Gam3) (VObj 2) (VObj 0) (VTuple [1; -1; -1]%Z) (ex_str "G");
   OpLagrangian (ex_str "L") (VArr ex_Lag3) (VObj 2) (VObj 0) (VTuple []) (ex_str "L")] ex_change_w.

Lemma ex_request_represents : metric_represents ex_geo3 2 ex_request_w.
Proof.
  assert (SysIn : forall c, In c [0; 1] -> g_sys ex_geo3 c) by (intros c [<-|[<-|[]]]; cbn; auto).
  split; [apply typedb_spec; vmtrue|]. split; [apply clsb_spec; vmtrue|]. split.
  - assert (H : obj_view ex_request_w 2 (fun o => (o_rank o =? 2) && cfg_eqb (o_indices o) [-1; -1]%Z && opt_eqb (o_coords o) 0 &&
       storedb ex_geo3 [0; 1] 2 (fun c => mat_comps (g_G ex_geo3 c)) o) false = true) by vmtrue.
    unfold obj_view in H. destruct (obj_of ex_request_w 2) as [o|]; [|discriminate H]. exists o. split; [reflexivity|].
    apply andb_prop in H as [H H4]. apply andb_prop in H as [H H3]. apply andb_prop in H as [H1 H2].
    apply Nat.eqb_eq in H1. apply cfg_eqb_spec in H2. apply opt_eqb_spec in H3.
    split; [exact H1|]. split; [left; exact H2|]. split; [exists 0; split; [exact H3|left; reflexivity]|].
    apply (storedb_spec _ [0; 1]); [exact H4|exact SysIn].
  - assert (V : forall c, In c [0; 1] -> obj_view ex_request_w c (fun o => o_syms o) [] = g_syms ex_geo3 c /\
      (obj_view ex_request_w c (fun o => o_trans o) [] : list (nat * list (string * pexp))) = g_rules ex_geo3 c /\
      obj_view ex_request_w c (fun o => match o_jacs o with [] => true | _ => false end) false = true /\ clsb ex_request_w c CCoordinates = true).
    { intros c [<-|[<-|[]]]; (split; [vm_compute; reflexivity|]; split; [vm_compute; reflexivity|]; split; vmtrue). }
    intros c Hc. assert (Hc' : In c [0; 1]) by (destruct Hc as [-> | ->]; cbn; auto).
    destruct (V c Hc') as (V1 & V2 & V3 & V4). apply clsb_spec in V4. split; [exact V4|].
    unfold obj_view in V1, V2, V3. destruct (obj_of ex_request_w c) as [o|]; [|discriminate V3]. exists o. split; [reflexivity|].
    split; [exact V1|]. split; [exact V2|]. destruct (o_jacs o); [|discriminate V3]. intros c' j Hj. discriminate Hj.
Qed.

(** [t] was given components that are those of [f] in the coordinates [c], and nothing is stored in [c']. *)
Definition givenb (w : @world PolyOps) (t c c' : oid) (i : list Z) (n : nat) (f : list nat -> pexp) : bool :=
  obj_view w t (fun o => opt_eqb (o_coords o) c && (o_rank o =? length i) && (length (o_indices o) =? length i) &&
    match o_comps o with
    | (c1, d) :: _ => (c1 =? c) && match dget cfg_eqb i d with Some a => holdsb n (length i) a f | None => false end
    | [] => false
    end && match dget Nat.eqb c' (o_comps o) with Some _ => false | None => true end) false.
Lemma givenb_spec w t c c' i n f : givenb w t c c' i n f = true ->
  (exists a, given_in w t c i a /\ holds (A := PolyOps) n (length i) a f) /\ ~ stored_in w t c'.
Proof.
  unfold givenb, obj_view. destruct (obj_of w t) as [o|] eqn:Ho; [|discriminate]. intros H.
  apply andb_prop in H as [H H5]. apply andb_prop in H as [H H4]. apply andb_prop in H as [H H3]. apply andb_prop in H as [H1 H2].
  apply opt_eqb_spec in H1. apply Nat.eqb_eq in H2, H3. split.
  - destruct (o_comps o) as [|[c1 d] rest] eqn:Ec; [discriminate|]. apply andb_prop in H4 as [H4 H6]. apply Nat.eqb_eq in H4. subst c1.
    destruct (dget cfg_eqb i d) as [a|] eqn:Ea; [|discriminate]. exists a. split.
    + exists o, d, rest. repeat (split; [assumption|]). assumption.
    + apply holdsb_spec, H6.
  - intros (o' & Ho' & N). rewrite Ho in Ho'. injection Ho' as <-. destruct (dget Nat.eqb c' (o_comps o)); [discriminate|congruence].
Qed.

Lemma ex_requested_christoffel : consistent ex_geo3 /\ regular ex_geo3 /\ metric_represents ex_geo3 2 ex_request_w /\ g_sys ex_geo3 0 /\
  dget Nat.eqb 1 (g_rules ex_geo3 0) = Some ex_rules3 /\ cls_of ex_request_w 3 = Some CChristoffel /\
  (exists a0, given_in ex_request_w 3 0 [1; -1; -1]%Z a0 /\ holds 3 3 a0 (at3 (Gam 3 (g_syms ex_geo3 0) (g_G ex_geo3 0) (g_Gi ex_geo3 0)))) /\ ~ stored_in ex_request_w 3 1.
Proof.
  split; [apply ex_geo3_consistent|]. split; [apply ex_geo3_regular|]. split; [apply ex_request_represents|]. split; [left; reflexivity|]. split; [reflexivity|].
  split; [apply clsb_spec; vmtrue|]. apply (givenb_spec ex_request_w 3 0 1 [1; -1; -1]%Z 3). vmtrue.
Qed.

Lemma ex_requested_lagrangian : cls_of ex_request_w 4 = Some CLagrangian /\ curve_change (A := PolyOps) curve_parameter ex_xyz ex_uvw ex_rules3 /\
  (forall i j x, i < 3 -> j < 3 -> In x ex_xyz -> free_of (x ++ "dot")%string (mfun ex_g3 i j)) /\
  (exists a0, given_in ex_request_w 4 0 [] a0 /\ holds 3 0 a0 (fun _ => metric_lagrangian 3 ex_xyz (mfun ex_g3))) /\ ~ stored_in ex_request_w 4 1.
Proof.
  split; [apply clsb_spec; vmtrue|]. split; [|split].
  - split; [intros x x' [<-|[<-|[<-|[]]]] [<-|[<-|[<-|[]]]]; discriminate|].
    split; [intros x [<-|[<-|[<-|[]]]]; cbn; intuition discriminate|].
    split; [intros x [<-|[<-|[<-|[]]]]; split; discriminate|].
    split; [intros r x [<-|[<-|[<-|[]]]] [<-|[<-|[<-|[]]]]; split; (split; [polyeq|intros q; exact (@Equivalence_Reflexive _ _ (@keq_equiv PolyOps PolyLaws) _)])|].
    right. intros r [<-|[<-|[<-|[]]]]; polyeq.
  - intros i j x Hi Hj [<-|[<-|[<-|[]]]]; destruct i as [|[|[|]]]; try lia; destruct j as [|[|[|]]]; try lia; (split; [polyeq|intros q; exact (@Equivalence_Reflexive _ _ (@keq_equiv PolyOps PolyLaws) _)]).
  - apply (givenb_spec ex_request_w 4 0 1 [] 3). vmtrue.
Qed.
