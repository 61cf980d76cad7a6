(** Concrete sessions for the properties of the registry and the caches. *)
From Coq Require Import QArith Qcanon.
From Verif Require Import Alg Alg_P Arr Arr_P Spec UtilsM Arr2_P TensorM Inst Ex WorldM SpecWorld World_P Registry_P ExWorld.
Local Open Scope nat_scope.

Section Check.
Context {A : AlgOps}.

Definition inb_list (i : oid) (l : list oid) : bool := existsb (Nat.eqb i) l.
Lemma inb_list_spec i l : inb_list i l = true -> In i l.
Proof. intros H. apply existsb_exists in H as (x & Hx & E). apply Nat.eqb_eq in E. subst x. exact Hx. Qed.

Definition liveb (w : world) (v : pyval) : bool :=
  match v with VObj i => inb_list i (insts w) | _ => true end.
Definition live_argsb (w : world) (o : op) : bool :=
  match o with
  | OpCoordinates _ _ _ _ tr => forallb (fun cr => inb_list (fst cr) (insts w)) tr
  | OpMetric _ _ x _ _ => liveb w x
  | OpTensor _ _ m x _ _ | OpChristoffel _ _ m x _ _
  | OpLagrangian _ _ m x _ _ | OpGeodesic _ _ m x _ _ => liveb w m && liveb w x
  | OpAdd _ c _ => liveb w c
  | _ => true
  end.

Lemma liveb_spec w v : liveb w v = true -> live w v.
Proof. destruct v; cbn; auto. apply inb_list_spec. Qed.

Lemma live_argsb_spec w o : live_argsb w o = true -> live_args w o.
Proof.
  destruct o; cbn [live_argsb live_args]; auto; try apply liveb_spec.
  - intros H. rewrite forallb_forall in H. apply Forall_forall. intros cr Hc. apply inb_list_spec, H, Hc.
  - intros H. apply andb_prop in H as [H1 H2]. split; apply liveb_spec; assumption.
  - intros H. apply andb_prop in H as [H1 H2]. split; apply liveb_spec; assumption.
  - intros H. apply andb_prop in H as [H1 H2]. split; apply liveb_spec; assumption.
  - intros H. apply andb_prop in H as [H1 H2]. split; apply liveb_spec; assumption.
Qed.

Fixpoint all_live (ops : list op) (w : world) : bool :=
  match ops with
  | [] => true
  | o :: ops' => live_argsb w o && all_live ops' (snd (run_op o w))
  end.

Lemma run_all_reachable ops w : reachable w -> all_live ops w = true -> reachable (run_all ops w).
Proof.
  revert w. induction ops as [|o ops IH]; intros w R H; [exact R|].
  cbn [all_live] in H. apply andb_prop in H as [H1 H2]. cbn. apply IH; [|exact H2].
  apply reach_step; [exact R|apply live_argsb_spec, H1].
Qed.

Lemma out_err {X} (m : M X) e w : is_err e (fst (m w)) = true -> exists w', m w = (Err e, w') /\ w' = snd (m w).
Proof. intros H. apply is_err_eq in H. exists (snd (m w)). split; [|reflexivity]. destruct (m w); cbn in *; congruence. Qed.

Lemma out_ok {X} (m : M X) w : is_ok (fst (m w)) = true -> exists x w', m w = (Ok x, w') /\ w' = snd (m w).
Proof. intros H. apply is_ok_ex in H as [x H]. exists x, (snd (m w)). split; [|reflexivity]. destruct (m w); cbn in *; congruence. Qed.

Definition usedb (w : world) (t : oid) : bool :=
  existsb (fun i => negb (i =? t) && match obj_of w i with Some o => uses t o | None => false end) (insts w).
Lemma usedb_spec w t : usedb w t = true <-> used w t.
Proof.
  unfold usedb. rewrite existsb_exists. split.
  - intros (i & Hi & H). apply andb_prop in H as [H1 H2].
    destruct (obj_of w i) as [o|] eqn:Eo; [|discriminate]. exists i, o. split; [exact Hi|].
    split; [destruct (Nat.eqb_spec i t); [discriminate|assumption]|]. split; [exact Eo|]. apply uses_refers, H2.
  - intros (i & o & Hi & N & Ho & Hr). exists i. split; [exact Hi|]. rewrite Ho. apply uses_refers in Hr. rewrite Hr.
    destruct (Nat.eqb_spec i t); [congruence|reflexivity].
Qed.

Lemma is_named_spec w s i : is_named w s i = true <-> named w s i.
Proof.
  unfold named, is_named. split.
  - destruct (obj_of w i) as [o|]; [|discriminate]. intros E. apply String.eqb_eq in E. exists o; auto.
  - intros (o & -> & <-). apply String.eqb_refl.
Qed.

Definition list_eqb (l1 l2 : list nat) : bool := if list_eq_dec Nat.eq_dec l1 l2 then true else false.
Lemma list_eqb_spec l1 l2 : list_eqb l1 l2 = true -> l1 = l2.
Proof. unfold list_eqb. destruct (list_eq_dec _ _ _); [auto|discriminate]. Qed.

Definition clsb (w : world) (i : oid) (c : cls) : bool :=
  match cls_of w i with Some c' => cls_eqb c c' | None => false end.
Lemma clsb_spec w i c : clsb w i c = true -> cls_of w i = Some c.
Proof. unfold clsb. destruct (cls_of w i) as [[]|], c; intros H; try discriminate; reflexivity. Qed.

Lemma Forall_named w s l : forallb (is_named w s) l = true -> Forall (named w s) l.
Proof. rewrite forallb_forall. intros H. apply Forall_forall. intros i Hi. apply is_named_spec, H, Hi. Qed.
Lemma Forall_not_named w s l : forallb (fun i => negb (is_named w s i)) l = true -> Forall (fun i => ~ named w s i) l.
Proof.
  rewrite forallb_forall. intros H. apply Forall_forall. intros i Hi C. apply is_named_spec in C.
  specialize (H i Hi). rewrite C in H. discriminate.
Qed.
Lemma Forall_not_used w l : forallb (fun i => negb (usedb w i)) l = true -> Forall (fun i => ~ used w i) l.
Proof.
  rewrite forallb_forall. intros H. apply Forall_forall. intros i Hi C. apply usedb_spec in C.
  specialize (H i Hi). rewrite C in H. discriminate.
Qed.

Lemma not_usedb w t : usedb w t = false -> ~ used w t.
Proof. intros H C. apply usedb_spec in C. congruence. Qed.

End Check.

Lemma start_reachable ops : all_live ops (@empty_world PolyOps) = true -> reachable (run_all ops empty_world).
Proof. apply run_all_reachable, reach_start. Qed.

Lemma ex_w_reachable : reachable ex_w.
Proof. apply start_reachable. vmtrue. Qed.
Lemma ex_chr_reachable : reachable ex_chr_w.
Proof. apply start_reachable. vmtrue. Qed.
Lemma ex_stale_reachable : reachable ex_stale_w.
Proof. apply run_all_reachable; [apply ex_w_reachable|vmtrue]. Qed.
Lemma ex_removed_reachable : reachable ex_removed_w.
Proof. apply run_all_reachable; [apply ex_w_reachable|vmtrue]. Qed.
Lemma ex_temp_reachable : reachable ex_temp_w.
Proof. apply run_all_reachable; [apply ex_w_reachable|vmtrue]. Qed.
Lemma ex_results_reachable : reachable ex_results_w.
Proof. apply run_all_reachable; [apply ex_w_reachable|vmtrue]. Qed.

(** C15 *)
Lemma metric_first_witness :
  exists (w : @world PolyOps) m c,
  reachable w /\ cls_of w m = Some CMetric /\
  (exists a w', get_components m (Some c) (Some [-1; -1]%Z) w = (Ok a, w')) /\
  exists w', get_components m (Some c) (Some [1; 1]%Z) w = (Err EKeyError, w') /\
    exists w'', get_components m (Some c) (Some [-1; -1]%Z) w' = (Err EKeyError, w'').
Proof.
  exists ex_w, 2, 1. split; [apply ex_w_reachable|]. split; [apply clsb_spec; vmtrue|].
  split.
  { destruct (out_ok (get_components 2 (Some 1) (Some [-1; -1]%Z)) ex_w) as (a & w' & E & _); [vmtrue|eauto]. }
  destruct (out_err (get_components 2 (Some 1) (Some [1; 1]%Z)) EKeyError ex_w) as (w' & E & Ew); [vmtrue|].
  exists w'. split; [exact E|]. subst w'.
  destruct (out_err (get_components 2 (Some 1) (Some [-1; -1]%Z)) EKeyError (snd (get_components 2 (Some 1) (Some [1; 1]%Z) ex_w))) as (w'' & E2 & _); [vmtrue|].
  exists w''. exact E2.
Qed.

(** A component that two results do not share. *)
Definition differ (r1 r2 : res (@arr PolyOps)) (idx : list nat) (v : string -> Qc) : bool :=
  match r1, r2 with
  | Ok a, Ok b => negb (Qeq_bool (this (peval Qc_alg v (aget a idx))) (this (peval Qc_alg v (aget b idx))))
  | _, _ => false
  end.
Lemma differ_spec (m1 m2 : @M PolyOps (@arr PolyOps)) (w1 w2 : @world PolyOps) idx v : differ (fst (m1 w1)) (fst (m2 w2)) idx v = true ->
  exists a b w1' w2', m1 w1 = (Ok a, w1') /\ m2 w2 = (Ok b, w2') /\ ~ keq (aget a idx) (aget b idx).
Proof.
  destruct (m1 w1) as [[a|] w1'], (m2 w2) as [[b|] w2']; cbn [fst differ]; try discriminate.
  intros H. exists a, b, w1', w2'. split; [reflexivity|]. split; [reflexivity|].
  intros E. apply (peq_Qc _ _ v) in E. rewrite E in H.
  rewrite (proj2 (Qeq_bool_iff _ _)) in H by reflexivity. discriminate.
Qed.

(** C18 *)
Lemma christoffel_history_witness :
  exists (w : @world PolyOps) t c c' idx,
  reachable w /\ cls_of w t = Some CChristoffel /\
  (let w1 := snd (get_components t (Some c') (Some [1; -1; -1]%Z) w) in
   let w2 := snd (get_components t (Some c) (Some [-1; -1; -1]%Z) w) in
   exists a b w1' w2',
     get_components t (Some c') (Some [-1; -1; -1]%Z) w1 = (Ok a, w1') /\
     get_components t (Some c') (Some [-1; -1; -1]%Z) w2 = (Ok b, w2') /\
     ~ keq (aget a idx) (aget b idx)) /\
  exists w', get_components t (Some c') (Some [-1; -1; -1]%Z) w = (Err EKeyError, w').
Proof.
  exists ex_chr_w, 3, 0, 1, [0; 0; 0]. split; [apply ex_chr_reachable|]. split; [apply clsb_spec; vmtrue|].
  split.
  - cbv zeta. apply (differ_spec _ _ _ _ [0; 0; 0] (fun _ => 1%Qc)). vmtrue.
  - destruct (out_err (get_components 3 (Some 1) (Some [-1; -1; -1]%Z)) EKeyError ex_chr_w) as (w' & E & _); [vmtrue|eauto].
Qed.

(** C21 *)
Definition stale_check (w : @world PolyOps) (t c c' : oid) (i : nat) (v : string -> Qc) : bool :=
  match obj_of w t, obj_of w c, obj_of w c' with
  | Some o, Some x, Some y =>
    match dget Nat.eqb c' (o_trans x), dget Nat.eqb c (o_comps o) with
    | Some rules, Some d =>
      match dget cfg_eqb [-1]%Z d, calculate_jacobian (o_syms x) (o_syms y) rules with
      | Some a, Ok (J, Ji, _) =>
        negb (dmem Nat.eqb c' (o_comps o)) &&
        differ (fst (get_components t (Some c') (Some [-1]%Z) w)) (transform J Ji rules 1 [-1]%Z a) [i] v
      | _, _ => false
      end
    | _, _ => false
    end
  | _, _, _ => false
  end.

Lemma stale_jacobian_witness :
  exists (w : @world PolyOps) t c c' o x y d rules a J Ji C b b' w' i,
  reachable w /\ obj_of w t = Some o /\ obj_of w c = Some x /\ obj_of w c' = Some y /\
  dget Nat.eqb c (o_comps o) = Some d /\ dget cfg_eqb [-1]%Z d = Some a /\
  dmem Nat.eqb c' (o_comps o) = false /\ dget Nat.eqb c' (o_trans x) = Some rules /\
  calculate_jacobian (o_syms x) (o_syms y) rules = Ok (J, Ji, C) /\
  transform J Ji rules 1 [-1]%Z a = Ok b /\
  get_components t (Some c') (Some [-1]%Z) w = (Ok b', w') /\ ~ keq (aget b' [i]) (aget b [i]).
Proof.
  assert (R := ex_stale_reachable).
  assert (H : stale_check ex_stale_w 4 0 1 0 (fun s => if String.eqb s "u" then 1%Qc else (1 + 1)%Qc) = true) by vmtrue.
  unfold stale_check in H.
  destruct (obj_of ex_stale_w 4) as [o|] eqn:Eo; [|discriminate].
  destruct (obj_of ex_stale_w 0) as [x|] eqn:Ex; [|discriminate].
  destruct (obj_of ex_stale_w 1) as [y|] eqn:Ey; [|discriminate].
  destruct (dget Nat.eqb 1 (o_trans x)) as [rules|] eqn:Er; [|discriminate].
  destruct (dget Nat.eqb 0 (o_comps o)) as [d|] eqn:Ed; [|discriminate].
  destruct (dget cfg_eqb [-1]%Z d) as [a|] eqn:Ea; [|discriminate].
  destruct (calculate_jacobian (o_syms x) (o_syms y) rules) as [[[J Ji] C]|] eqn:EJ; [|discriminate].
  apply andb_prop in H as [H1 H2].
  destruct (differ_spec (get_components 4 (Some 1) (Some [-1]%Z)) (mlift (transform J Ji rules 1 [-1]%Z a)) ex_stale_w ex_stale_w _ _ H2)
    as (b' & b & w' & w2 & E1 & E2 & N).
  exists ex_stale_w, 4, 0, 1, o, x, y, d, rules, a, J, Ji, C, b, b', w', 0.
  split; [exact R|]. split; [exact Eo|]. split; [exact Ex|]. split; [exact Ey|]. split; [exact Ed|]. split; [exact Ea|].
  split; [destruct (dmem Nat.eqb 1 (o_comps o)); [discriminate H1|reflexivity]|].
  split; [exact Er|]. split; [exact EJ|]. split; [exact (f_equal fst E2)|]. split; [exact E1|exact N].
Qed.

(** C22 *)
Definition removed_check (w : @world PolyOps) (t c c' : oid) : bool :=
  match obj_of w t, obj_of w c with
  | Some o, Some x =>
    negb (dmem Nat.eqb c' (o_trans x)) && negb (dmem Nat.eqb c' (o_comps o)) &&
    match o_coords o with Some k => k =? c | None => false end &&
    is_err EKeyError (fst (get_components t (Some c') (Some [-1]%Z) w))
  | _, _ => false
  end.

Lemma removed_rules_witness :
  exists (w : @world PolyOps) t c c' o x w',
  reachable w /\ obj_of w t = Some o /\ o_coords o = Some c /\ obj_of w c = Some x /\
  dmem Nat.eqb c' (o_trans x) = false /\ dmem Nat.eqb c' (o_comps o) = false /\
  get_components t (Some c') (Some [-1]%Z) w = (Err EKeyError, w').
Proof.
  assert (R := ex_removed_reachable).
  assert (H : removed_check ex_removed_w 4 0 1 = true) by vmtrue. unfold removed_check in H.
  destruct (obj_of ex_removed_w 4) as [o|] eqn:Eo; [|discriminate].
  destruct (obj_of ex_removed_w 0) as [x|] eqn:Ex; [|discriminate].
  apply andb_prop in H as [H H4]. apply andb_prop in H as [H H3]. apply andb_prop in H as [H1 H2].
  destruct (out_err _ _ _ H4) as (w' & E & _).
  exists ex_removed_w, 4, 0, 1, o, x, w'. split; [exact R|]. split; [exact Eo|].
  split; [destruct (o_coords o) as [k|]; [apply Nat.eqb_eq in H3; rewrite H3; reflexivity|discriminate H3]|].
  split; [exact Ex|]. split; [destruct (dmem Nat.eqb 1 (o_trans x)); [discriminate H1|reflexivity]|].
  split; [destruct (dmem Nat.eqb 1 (o_comps o)); [discriminate H2|reflexivity]|exact E].
Qed.

(** C26 *)
Lemma metric_none_witness :
  exists (w : @world PolyOps) name comps coords symbol w',
  reachable w /\ new_metric name comps coords VNone symbol w = (Err ETypeError, w') /\ insts w' <> insts w.
Proof.
  exists ex_w, (ex_str "h"), (VArr ex_g), (VObj 0), (ex_str "h").
  destruct (out_err (new_metric (ex_str "h") (VArr ex_g) (VObj 0) VNone (ex_str "h")) ETypeError ex_w) as (w' & E & Ew); [vmtrue|].
  exists w'. split; [apply ex_w_reachable|]. split; [exact E|].
  assert (L : list_eqb (insts w') [0; 1; 2; 3; 4] && list_eqb (insts ex_w) [0; 1; 2; 3] = true) by (subst w'; vmtrue).
  apply andb_prop in L as [L1 L2]. apply list_eqb_spec in L1, L2. rewrite L1, L2. discriminate.
Qed.

(** Concrete cases *)
Lemma ex_metric_ctor : registry_ok ex_w /\ (forall a, array_like (VArr ex_g) a -> awf a) /\
  exists i w', new_metric (ex_str "h") (VArr ex_g) (VObj 0) (VTuple [-1; -1]%Z) (ex_str "h") ex_w = (Ok i, w').
Proof.
  split; [apply reachable_integrity, ex_w_reachable|]. split.
  - intros a [H|[H|(sh & l & H & _)]]; [injection H as <-; reflexivity|discriminate|discriminate].
  - destruct (out_ok (new_metric (ex_str "h") (VArr ex_g) (VObj 0) (VTuple [-1; -1]%Z) (ex_str "h")) ex_w) as (a & w' & E & _); [vmtrue|eauto].
Qed.

Lemma ex_metric_stored :
  (exists t w', new_metric (ex_str "h") (VArr ex_g) (VObj 0) (VTuple [-1; -1]%Z) (ex_str "h") ex_w
                = (Ok t, w')) /\ square 2 ex_g.
Proof. split; [apply ex_metric_ctor|]. split; reflexivity. Qed.

Lemma ex_tensor_ctor :
  (exists i w', new_tensor (ex_str "T") (VMat ex_mat) (VObj 2) (VObj 0) VNone (VSymbol "T") ex_w = (Ok i, w')) /\
  ~ (exists i w', new_tensor (ex_str "T") (VMat ex_mat) (VObj 2) (VObj 0) (VTuple [-1]%Z) (VSymbol "T") ex_w = (Ok i, w')).
Proof.
  split.
  - destruct (out_ok (new_tensor (ex_str "T") (VMat ex_mat) (VObj 2) (VObj 0) VNone (VSymbol "T")) ex_w) as (a & w' & E & _); [vmtrue|eauto].
  - intros (i & w' & H).
    destruct (out_err (new_tensor (ex_str "T") (VMat ex_mat) (VObj 2) (VObj 0) (VTuple [-1]%Z) (VSymbol "T")) EIndicesDimension ex_w) as (w2 & E & _); [vmtrue|congruence].
Qed.

Lemma ex_delete : registry_ok ex_w /\ In 2 (insts ex_w) /\ used ex_w 2 /\ In 3 (insts ex_w) /\ ~ used ex_w 3 /\ used ex_w 1.
Proof.
  split; [apply reachable_integrity, ex_w_reachable|]. split; [apply inb_list_spec; vmtrue|].
  split; [apply usedb_spec; vmtrue|]. split; [apply inb_list_spec; vmtrue|].
  split; [apply not_usedb; vm_cast_no_check (eq_refl false)|]. apply usedb_spec; vmtrue.
Qed.

Lemma ex_temp_hyps :
  registry_ok ex_temp_w /\ insts ex_temp_w = [0; 1; 2; 3] ++ [4; 5; 6; 7; 8; 9; 10; 11; 12] ++ [13] /\
  Forall (named ex_temp_w "TEMP") [4; 5; 6; 7; 8; 9; 10; 11; 12] /\
  Forall (fun i => ~ named ex_temp_w "TEMP" i) [0; 1; 2; 3] /\ Forall (fun i => ~ named ex_temp_w "TEMP" i) [13] /\
  Forall (fun i => ~ used ex_temp_w i) [4; 5; 6; 7; 8; 9; 10; 11; 12].
Proof.
  split; [apply reachable_integrity, ex_temp_reachable|]. split; [apply list_eqb_spec; vmtrue|].
  split; [apply Forall_named; vmtrue|]. split; [apply Forall_not_named; vmtrue|]. split; [apply Forall_not_named; vmtrue|].
  apply Forall_not_used; vmtrue.
Qed.

Lemma ex_results_hyps :
  registry_ok ex_results_w /\ insts ex_results_w = [0; 1; 2; 3] ++ seq 4 17 ++ [21] /\
  Forall (named ex_results_w "Result") (seq 4 17) /\
  Forall (fun i => ~ named ex_results_w "Result" i) [0; 1; 2; 3] /\ Forall (fun i => ~ named ex_results_w "Result" i) [21] /\
  Forall (fun i => ~ used ex_results_w i) (seq 4 17).
Proof.
  split; [apply reachable_integrity, ex_results_reachable|]. split; [apply list_eqb_spec; vmtrue|].
  split; [apply Forall_named; vmtrue|]. split; [apply Forall_not_named; vmtrue|]. split; [apply Forall_not_named; vmtrue|].
  apply Forall_not_used; vmtrue.
Qed.
