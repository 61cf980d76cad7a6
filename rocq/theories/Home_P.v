(** In every reachable session the default components of a tensor are stored. *)
From Verif Require Import Alg Alg_P Arr Arr_P Spec UtilsM Arr2_P TensorM WorldM SpecWorld World_P Registry_P History_P CalcM SpecCalc Keep_P Calc_P Typed_P SpecPrefer Prefer_P.
Local Open Scope nat_scope.

Section Home.
Context {A : AlgOps}.

Definition home (o : obj) : Prop := exists c d a, o_coords o = Some c /\ dget Nat.eqb c (o_comps o) = Some d /\ dget cfg_eqb (o_indices o) d = Some a /\ valid_cfg (o_indices o).
Definition other_class (w : world) (i : oid) : Prop := cls_of w i = Some CMetric \/ cls_of w i = Some CCoordinates.
Definition homes (w : world) : Prop := forall i o, obj_of w i = Some o -> other_class w i \/ home o.

Lemma home_same o o' : o_coords o' = o_coords o -> o_comps o' = o_comps o -> o_indices o' = o_indices o -> home o -> home o'.
Proof. intros E1 E2 E3 (c & d & a & H). exists c, d, a. rewrite E1, E2, E3. exact H. Qed.
Lemma home_store o c i a : home o -> home (set_comps (dset Nat.eqb c (dset cfg_eqb i a match dget Nat.eqb c (o_comps o) with Some d => d | None => [] end) (o_comps o)) o).
Proof.
  intros (c0 & d & a0 & H1 & H2 & H3 & H4). destruct (Nat.eq_dec c0 c) as [->|N].
  - rewrite H2. exists c, (dset cfg_eqb i a d). cbn [o_coords o_comps o_indices set_comps]. destruct (list_eq_dec Z.eq_dec (o_indices o) i) as [E|E].
    + exists a. split; [exact H1|]. split; [apply dget_dset_same|]. rewrite E in *. split; [apply cget_set_same|exact H4].
    + exists a0. split; [exact H1|]. split; [apply dget_dset_same|]. rewrite cget_set_other by exact E. auto.
  - exists c0, d, a0. cbn [o_coords o_comps o_indices set_comps]. rewrite dget_dset_other by exact N. auto.
Qed.
Lemma put_homes w x o o' w' : homes w -> obj_of w x = Some o -> (other_class w x \/ (home o -> home o')) -> put x o' w = (Ok tt, w') -> homes w'.
Proof.
  intros H Ho Hx E. destruct (put_spec w x o o' Ho) as (w1 & E1 & _ & _ & Hc & Hj). rewrite E1 in E. injection E as <-.
  intros i oi Hi. unfold other_class. rewrite Hc. rewrite Hj in Hi. destruct (Nat.eqb_spec x i) as [<-|N]; [|exact (H i oi Hi)].
  injection Hi as <-. destruct Hx as [Hx|Hx]; [left; exact Hx|]. destruct (H x o Ho) as [G|G]; [left; exact G|right; exact (Hx G)].
Qed.

Section W0.
Variable w0 : world.
Hypothesis Hty : typed w0.
Notation P := (fun w => kept w0 w /\ homes w).
Notation PX x o := (fun w => (kept w0 w /\ homes w) /\ obj_of w x = Some o).
Definition h_notco (x : oid) : Prop := cls_of w0 x <> Some CCoordinates.

Lemma h_k_get {Y} x (k : obj -> M Y) :
  (forall o, (forall m, o_metric o = Some m -> cls_of w0 m = Some CMetric) ->
             (forall c, o_coords o = Some c -> cls_of w0 c = Some CCoordinates) ->
             hoare (PX x o) (k o) (fun _ => P) P) ->
  hoare P (mbind (getobj x) k) (fun _ => P) P.
Proof.
  intros H w Hw. unfold mbind, getobj. destruct (obj_of w x) as [o|] eqn:Ho; [|exact Hw].
  destruct Hw as [Hk Hh]. destruct (kept_typed _ _ Hk Hty x o Ho) as [H1 H2].
  assert (Hc : forall i, cls_of w i = cls_of w0 i) by apply Hk.
  apply (H o); [intros m Hm; rewrite <- Hc; auto|intros c Hc'; rewrite <- Hc; auto|].
  split; [split; assumption|exact Ho].
Qed.
Lemma h_k_weak {Y} x o (k : M Y) : hoare P k (fun _ => P) P -> hoare (PX x o) k (fun _ => P) P.
Proof. apply h_weak. intros w H; apply H. Qed.
Lemma h_k_get' {Y} x (k : obj -> M Y) :
  (forall o, (forall m, o_metric o = Some m -> cls_of w0 m = Some CMetric) ->
             (forall c, o_coords o = Some c -> cls_of w0 c = Some CCoordinates) ->
             hoare P (k o) (fun _ => P) P) ->
  hoare P (mbind (getobj x) k) (fun _ => P) P.
Proof. intros H. apply h_k_get. intros o H1 H2. apply h_k_weak, H; assumption. Qed.
Definition other0 (x : oid) : Prop := cls_of w0 x = Some CMetric \/ cls_of w0 x = Some CCoordinates.
Lemma h_k_put x o o' : same_attrs o o' -> (cls_of w0 x = Some CCoordinates -> o_comps o' = o_comps o) -> (other0 x \/ (home o -> home o')) ->
  hoare (PX x o) (put x o') (fun _ => P) P.
Proof.
  intros H1 H2 H3 w [[Hw Hh] Ho]. destruct (put_spec w x o o' Ho) as (w1 & E1 & _). rewrite E1.
  split; [exact (put_kept _ _ _ _ _ _ Hw Ho H1 H2 E1)|]. apply (put_homes w x o o' w1 Hh Ho); [|exact E1].
  destruct H3 as [H3|H3]; [left|right; exact H3]. unfold other_class. replace (cls_of w x) with (cls_of w0 x); [exact H3|symmetry; apply Hw].
Qed.
Lemma h_k_bind {X Y} (m : M X) (k : X -> M Y) :
  hoare P m (fun _ => P) P -> (forall x, hoare P (k x) (fun _ => P) P) -> hoare P (mbind m k) (fun _ => P) P.
Proof. intros H1 H2. eapply h_bind; [exact H1|exact H2]. Qed.
Lemma h_k_opt {X} e (x : option X) : hoare P (mopt e x) (fun _ => P) P.
Proof. apply h_opt; auto. Qed.
Lemma h_k_lift {X} (x : res X) : hoare P (mlift x) (fun _ => P) P.
Proof. apply h_lift; auto. Qed.

Lemma h_calc_jac_keep self coords : hoare P (w_calculate_jacobian self coords) (fun _ => P) P.
Proof.
  unfold w_calculate_jacobian. apply h_k_get. intros so _ _.
  intros w [Hw Hs]. unfold mbind at 1, getobj. destruct (obj_of w coords) as [co|]; [|exact Hw].
  revert w Hw Hs. enough (H : hoare (PX self so) (let! rules := mopt EKeyError (dget Nat.eqb coords (o_trans so)) in
    let! j := mlift (calculate_jacobian (o_syms so) (o_syms co) rules) in
    put self (set_jacs (dset Nat.eqb coords j (o_jacs so)) so)) (fun _ => P) P) by (intros w Hw Hs; exact (H w (conj Hw Hs))).
  apply b_opt; [tauto|]. intros R _. apply b_lift; [tauto|]. intros j _.
  apply h_k_put; [apply jacs_attrs|reflexivity|right; apply home_same; reflexivity].
Qed.
Lemma h_check_jac_keep self coords : hoare P (w_check_jacobians self coords) (fun _ => P) P.
Proof.
  unfold w_check_jacobians. apply h_k_get'. intros so _ _. destruct (dmem _ _ _); [apply h_ret; auto|].
  destruct (dmem _ _ _); [apply h_calc_jac_keep|]. apply h_k_get'. intros co _ _. apply h_raise; auto.
Qed.
Lemma h_lookup_keep t c i : hoare P (lookup t c i) (fun _ => P) P.
Proof. unfold lookup. apply h_k_get'. intros o _ _. apply h_k_bind; [apply h_k_opt|intros d; apply h_k_opt]. Qed.
Lemma h_store_keep t c i a : h_notco t -> hoare P (store t c i a) (fun _ => P) P.
Proof. intros N. unfold store. apply h_k_get. intros o _ _. apply h_k_put; [apply comps_attrs|intros H; destruct (N H)|right; apply home_store]. Qed.

Lemma h_need_array_keep o c : hoare P (need_array o c) (fun _ => P) P.
Proof. unfold need_array. destruct (is_expr o c); [apply h_raise; auto|apply h_ret; auto]. Qed.

Lemma h_base_transform_keep t c i : h_notco t -> hoare P (base_transform t c i) (fun _ => P) P.
Proof.
  intros N. unfold base_transform. apply h_k_get'. intros o _ _. apply h_k_bind; [apply h_k_opt|intros c0].
  apply h_k_bind; [apply h_check_jac_keep|intro_]. apply h_k_bind; [apply h_lookup_keep|intros a].
  apply h_k_get'. intros co _ _. apply h_k_bind; [apply h_k_opt|intros [[J Ji] C]]. apply h_k_bind; [apply h_k_opt|intros R].
  apply h_k_bind; [apply h_need_array_keep|intro_]. apply h_k_bind; [apply h_k_lift|intros x]. apply h_store_keep, N.
Qed.
Lemma h_chr_transform_keep t c i : h_notco t -> hoare P (w_christoffel_transform t c i) (fun _ => P) P.
Proof.
  intros N. unfold w_christoffel_transform. apply h_k_get'. intros o _ _. apply h_k_bind; [apply h_k_opt|intros c0].
  apply h_k_bind; [apply h_check_jac_keep|intro_]. apply h_k_bind; [apply h_lookup_keep|intros a].
  apply h_k_get'. intros co _ _. apply h_k_bind; [apply h_k_opt|intros [[J Ji] C]]. apply h_k_bind; [apply h_k_opt|intros R].
  apply h_k_bind; [apply h_need_array_keep|intro_]. apply h_k_bind; [apply h_k_lift|intros x]. apply h_store_keep, N.
Qed.
Lemma h_curve_transform_keep f t c i : h_notco t -> hoare P (w_curve_transform f t c i) (fun _ => P) P.
Proof.
  intros N. unfold w_curve_transform. apply h_k_get'. intros o _ _. apply h_k_bind; [apply h_k_opt|intros c0].
  apply h_k_bind; [apply h_check_jac_keep|intro_]. apply h_k_bind; [apply h_lookup_keep|intros a].
  apply h_k_get'. intros co _ _. apply h_k_bind; [apply h_k_opt|intros [[J Ji] C]]. apply h_k_bind; [apply h_k_opt|intros R].
  apply h_k_bind; [apply h_need_array_keep|intro_]. apply h_k_get'. intros no _ _. apply h_k_bind; [apply h_k_lift|intros x]. apply h_store_keep, N.
Qed.
Lemma h_metric_transform_keep t c i : cls_of w0 t = Some CMetric -> hoare P (metric_transform t c i) (fun _ => P) P.
Proof.
  intros Mt. assert (N : h_notco t) by (unfold h_notco; rewrite Mt; discriminate). unfold metric_transform. apply h_k_bind; [apply h_base_transform_keep, N|intro_].
  apply h_k_get. intros o _ _. apply b_opt; [tauto|]. intros d _. destruct (metric_fill _ _ _) as [d' r].
  eapply h_bind; [apply h_k_put; [apply comps_attrs|intros H; destruct (N H)|left; left; exact Mt]|intro_]. apply h_k_lift.
Qed.
Lemma h_metric_check_keep t c : hoare P (metric_check t c) (fun _ => P) P.
Proof. unfold metric_check. apply h_k_get'. intros o _ _. apply h_ret; auto. Qed.
Lemma h_raise_lower_keep t c i : h_notco t -> hoare P (w_raise_lower t c i) (fun _ => P) P.
Proof.
  intros N. unfold w_raise_lower. apply h_k_get'. intros o Hm _.
  apply (h_weak _ P _ _ _ (fun w H => H)). intros w Hw. unfold mbind at 1.
  destruct (o_metric o) as [m|] eqn:Em; cbn [mopt mret mraise]; [|exact Hw]. specialize (Hm m eq_refl).
  assert (Nm : h_notco m) by (unfold h_notco; rewrite Hm; discriminate).
  revert w Hw. apply h_k_bind; [apply h_metric_check_keep|intros b].
  apply h_k_bind; [destruct b; [apply h_ret; auto|apply h_metric_transform_keep, Hm]|intro_].
  apply h_k_get'. intros o' _ _. apply h_k_bind; [apply h_k_opt|intros d]. apply h_k_bind; [apply h_k_opt|intros [src a]].
  apply h_k_bind; [apply h_lookup_keep|intros gg]. apply h_k_bind; [apply h_lookup_keep|intros gi].
  apply h_k_bind; [apply h_k_lift|intros x]. apply h_store_keep, N.
Qed.
Lemma h_tensor_check_keep t c i : h_notco t -> hoare P (tensor_check t c i) (fun _ => P) P.
Proof.
  intros N. unfold tensor_check. apply h_k_get'. intros o _ _. destruct (dget _ _ _) as [d|]; [|apply h_ret; auto].
  destruct (dmem _ _ _); [apply h_ret; auto|]. apply h_k_bind; [apply h_raise_lower_keep, N|intro_; apply h_ret; auto].
Qed.
Lemma h_tensor_transform_keep t c i : h_notco t -> hoare P (tensor_transform t c i) (fun _ => P) P.
Proof.
  intros N. unfold tensor_transform. apply h_k_get'. intros o _ _. apply h_k_bind; [apply h_k_opt|intros c0].
  apply h_k_bind; [apply h_tensor_check_keep, N|intros b].
  apply h_k_bind; [destruct b; [apply h_ret; auto|apply h_raise_lower_keep, N]|intro_]. apply h_base_transform_keep, N.
Qed.
Lemma h_check_rep_keep t c i : hoare P (check_representation t c i) (fun _ => P) P.
Proof.
  intros w Hw. unfold check_representation. destruct (cls_of w t) as [k|] eqn:Ek; [|exact Hw].
  assert (N : k <> CCoordinates -> h_notco t).
  { intros Hk H. destruct Hw as ((_ & _ & Hc & _) & _). rewrite Hc in Ek. congruence. }
  destruct k; [exact Hw|apply h_metric_check_keep, Hw|apply h_tensor_check_keep; [apply N; discriminate|exact Hw]..].
Qed.
Lemma h_transform_coords_keep t c i : hoare P (transform_coordinates t c i) (fun _ => P) P.
Proof.
  intros w Hw. unfold transform_coordinates. destruct (cls_of w t) as [k|] eqn:Ek; [|exact Hw].
  assert (N : k <> CCoordinates -> h_notco t).
  { intros Hk H. destruct Hw as ((_ & _ & Hc & _) & _). rewrite Hc in Ek. congruence. }
  destruct k; [exact Hw|apply h_metric_transform_keep; [destruct Hw as ((_ & _ & Hc & _) & _); rewrite <- Hc; exact Ek|exact Hw]|apply h_tensor_transform_keep|apply h_chr_transform_keep|apply h_curve_transform_keep|apply h_curve_transform_keep];
    try (apply N; discriminate); exact Hw.
Qed.
Lemma h_get_rep_keep t c i : hoare P (get_representation t c i) (fun _ => P) P.
Proof.
  unfold get_representation. apply h_k_bind; [apply h_isinstance; auto|intros b].
  destruct (negb b); [apply h_raise; auto|]. apply h_k_get'. intros o _ _. apply h_k_bind; [apply h_k_lift|intro_].
  apply h_k_bind; [apply h_check_rep_keep|intros b'].
  apply h_k_bind; [destruct b'; [apply h_ret; auto|apply h_transform_coords_keep]|intro_]. apply h_lookup_keep.
Qed.
Lemma h_get_comp_keep t c i : hoare P (get_components t c i) (fun _ => P) P.
Proof.
  unfold get_components. apply h_k_get'. intros o _ _.
  apply h_k_bind; [destruct c; [apply h_ret; auto|apply h_k_opt]|intros k]. apply h_get_rep_keep.
Qed.
End W0.


Lemma get_homes w t c i r w' : typed w -> homes w -> get_components t c i w = (r, w') -> homes w'.
Proof. intros Hty Hh E. assert (H := h_get_comp_keep w Hty t c i w (conj (kept_refl w) Hh)). rewrite E in H. destruct r; apply H. Qed.

Lemma fresh_homes w k o : homes w -> (k = CMetric \/ k = CCoordinates \/ home o) -> homes (fresh_world w k o).
Proof.
  intros H Hk i oi. rewrite obj_of_fresh. destruct (Nat.eqb_spec i (length (heap w))) as [->|N].
  - intros E. injection E as <-. unfold other_class. rewrite cls_fresh_new. destruct Hk as [->|[->|Hk]]; auto.
  - intros E. unfold other_class. rewrite cls_of_fresh by exact N. apply (H i oi E).
Qed.

Lemma validated_default name comps symbol indices n a : as_array comps = Some a -> validate_base name comps symbol indices n = Ok tt -> valid_cfg (default_indices indices (rank a)).
Proof.
  intros Ha. unfold validate_base, validate_object. destruct name; try discriminate. rewrite Ha.
  assert (G : forall (r : res unit), rbind (if negb (forallb (fun d => d =? hd 0 (shape a)) (shape a)) then Err ETensorDimension else validate_indices indices (Some (rank a)) None) (fun _ => r) = Ok tt -> valid_cfg (default_indices indices (rank a))).
  { intros r. destruct (negb _); [discriminate|]. destruct indices; try discriminate.
    - intros _. cbn [default_indices]. apply Forall_forall. intros z Hz. apply repeat_spec in Hz. auto.
    - destruct (validate_indices (VTuple l) (Some (rank a)) None) eqn:E; [|discriminate]. intros _. apply validate_inv in E. apply E. }
  destruct symbol; try discriminate; apply G.
Qed.

Lemma home_simplify o : home o -> home (set_comps (map (fun cd => (fst cd, simplify_reps (snd cd))) (o_comps o)) o).
Proof.
  intros (c & d & a & H1 & H2 & H3 & H4). exists c, (simplify_reps d), (amap simp a). cbn [o_coords o_comps o_indices set_comps]. split; [exact H1|]. split; [|split; [|exact H4]].
  - clear -H2. induction (o_comps o) as [|[k v] l IH]; [discriminate|]. cbn in *. destruct (c =? k); [injection H2 as ->; reflexivity|auto].
  - clear -H3. unfold simplify_reps. induction d as [|[k v] l IH]; [discriminate|]. cbn in *. destruct (cfg_eqb (o_indices o) k); [injection H3 as ->; reflexivity|auto].
Qed.

Lemma delete_sub w t s j o : obj_of (snd (delete t s w)) j = Some o -> obj_of w j = Some o.
Proof.
  unfold delete; cbv zeta. destruct (find _ _) as [q|]; [destruct (obj_of w q), (obj_of w t); exact (fun H => H)|].
  assert (Hs : forall l, obj_of (mkW (match nth_error (heap w) t with Some (k, _) => set_nth t (k, None) (heap w) | None => heap w end) l) j = Some o -> obj_of w j = Some o).
  { intros l. unfold obj_of. cbn [heap]. destruct (nth_error (heap w) t) as [[k x]|]; [|exact (fun H => H)]. rewrite nth_set_nth.
    destruct (Nat.eqb_spec t j) as [<-|]; cbn [andb]; [|exact (fun H => H)]. destruct (_ <? _); [discriminate|exact (fun H => H)]. }
  destruct (obj_of w t); [|destruct s; [destruct (index_of _ _ _)|]; exact (fun H => H)]. destruct (index_of _ _ _); apply Hs.
Qed.

Lemma put_homes' w x o o' : homes w -> obj_of w x = Some o -> (home o -> home o') -> homes (snd (put x o' w)).
Proof. intros H Ho G. destruct (put_spec w x o o' Ho) as (w1 & E & _). rewrite E. exact (put_homes w x o o' w1 H Ho (or_intror G) E). Qed.

Lemma run_op_homes w (o : op) : typed w -> homes w -> homes (snd (run_op o w)).
Proof.
  intros Hty S0.
  assert (Tn : forall k n c m x i s, homes (snd ((new_tensor_as k n c m x i s ;; mret tt) w))).
  { intros k n c m x i s. unfold mbind. destruct (new_tensor_spec k n c m x i s w) as [[e E]|(m' & c' & a & y & Hm & Hmc & Hc & Hcc & Ha & Hx & Hv & E)]; rewrite E; [exact S0|].
    cbn [snd mret]. apply fresh_homes; [exact S0|]. right; right. exists c', [(default_indices i (rank a), a)], a. cbn [o_coords o_comps o_indices dget fst snd].
    rewrite Nat.eqb_refl. split; [reflexivity|]. split; [reflexivity|]. split; [|exact (validated_default _ _ _ _ _ _ Ha Hv)].
    assert (R : forall l, cfg_eqb l l = true) by (intros l; apply cfg_eqb_spec; reflexivity). rewrite R. reflexivity. }
  destruct o as [n c i s tr|n c x i s|n c m x i s|n c m x i s|n c m x i s|n c m x i s|self c r|t c i|t i|t c|t n|t n|t|t silent]; cbn [run_op];
    try apply Tn.
  - unfold mbind. destruct (new_coordinates_spec n c i s tr w) as [[e E]|(a & Ha & Hr & E)]; rewrite E; [exact S0|].
    cbn [snd mret]. apply fresh_homes; [exact S0|auto].
  - unfold mbind. destruct (new_metric_cases n c x i s w) as [[e E]|(c' & o & w' & r & Hc & Hk & E & Hw' & _)]; rewrite E; [exact S0|].
    assert (S1 : homes w') by (rewrite Hw'; apply fresh_homes; [exact S0|auto]).
    destruct r; exact S1.
  - unfold add_coord_transformation. destruct c; try exact S0.
    unfold mbind at 1, isinstance. destruct (negb _); [exact S0|]. destruct (self =? i); [exact S0|].
    unfold mbind, getobj. destruct (obj_of w self) as [o|] eqn:Eo; [|exact S0].
    destruct r; [destruct (forallb _ _)|destruct (dmem _ _ _)]; try exact S0; (apply (put_homes' _ _ _ _ S0 Eo); apply home_same; reflexivity).
  - unfold mbind. destruct (get_components t c i w) as [r w'] eqn:E. pose proof (get_homes _ _ _ _ _ _ Hty S0 E). destruct r; assumption.
  - unfold change_default_indices. unfold mbind at 1, getobj. destruct (obj_of w t) as [o|] eqn:Eo; [|exact S0].
    unfold mbind at 1, mlift. destruct (validate_indices (VTuple i) None _) as [u|] eqn:Ev; [|exact S0].
    assert (V : valid_cfg i) by (apply validate_inv in Ev; apply Ev).
    destruct (o_coords o) as [c|] eqn:Ec; [|exact S0]. unfold mbind at 1, mopt, mret. unfold mbind at 1.
    pose proof (h_check_rep_keep w Hty t c i w (conj (kept_refl w) S0)) as H. destruct (check_representation t c i w) as [[b|e] w'] eqn:Eb; [|apply H].
    destruct H as [Hk S1]. destruct b; [|exact S1].
    unfold mbind, getobj. destruct (obj_of w' t) as [o'|] eqn:Eo'; [|exact S1].
    destruct (put_spec w' t o' (set_indices i o') Eo') as (w3 & E & _). rewrite E. cbn [snd].
    apply (put_homes w' t o' (set_indices i o') w3 S1 Eo'); [|exact E].
    destruct (kept_home _ _ _ _ _ Hk Eo Eo') as [Sa Ct]. destruct (cls_of w t) as [[]|] eqn:Et; try (left; unfold other_class; rewrite Ct; auto; fail).
    5: { exfalso. unfold obj_of in Eo. unfold cls_of in Et. destruct (nth_error (heap w) t); discriminate. }
    all: right; intros _; destruct (check_there w t c i w') as (a & Ea); [congruence|exact Eb|]; destruct (lookup_inv _ _ _ _ _ _ Ea) as (_ & o1 & d & Ho1 & Hd & Ha);
      exists c, d, a; assert (o1 = o') by congruence; subst o1; cbn [set_indices o_coords o_comps o_indices]; destruct Sa as (_ & _ & _ & _ & Sa & _); split; [congruence|auto].
  - unfold change_default_coords. unfold mbind at 1, isinstance. destruct (cls_of w c) as [k|] eqn:Ek; [|exact S0].
    destruct (cls_eqb CCoordinates k) eqn:Ec; cbn [negb]; [|exact S0].
    unfold mbind at 1, getobj. destruct (obj_of w t) as [o|] eqn:Eo; [|exact S0].
    destruct (o_coords o) as [c0|]; [|exact S0]. cbn [mopt]. unfold mbind at 1, mret at 1. destruct (c0 =? c); [exact S0|].
    unfold mbind at 1. destruct (obj_of w c0) as [co|]; [|exact S0]. destruct (negb _).
    { unfold mbind. destruct (obj_of w c); exact S0. }
    unfold mbind at 1.
    pose proof (h_check_rep_keep w Hty t c (o_indices o) w (conj (kept_refl w) S0)) as H. destruct (check_representation t c (o_indices o) w) as [[b|e] w'] eqn:Eb; [|apply H].
    assert (H2 : hoare (fun w2 => kept w w2 /\ homes w2) (if b then mret tt else transform_coordinates t c (o_indices o)) (fun _ w2 => kept w w2 /\ homes w2) (fun w2 => kept w w2 /\ homes w2)).
    { destruct b; [apply h_ret; auto|apply (h_transform_coords_keep w Hty)]. }
    unfold mbind at 1. specialize (H2 w' H). destruct ((if b then mret tt else transform_coordinates t c (o_indices o)) w') as [[[]|e] w2] eqn:E2; [|apply H2].
    destruct H2 as [Hk S2]. unfold mbind. destruct (obj_of w2 t) as [o2|] eqn:Eo2; [|exact S2].
    destruct (put_spec w2 t o2 (set_coords (Some c) o2) Eo2) as (w3 & E & _). rewrite E. cbn [snd].
    apply (put_homes w2 t o2 (set_coords (Some c) o2) w3 S2 Eo2); [|exact E].
    destruct (kept_home _ _ _ _ _ Hk Eo Eo2) as [Sa Ct].
    assert (C' : cls_of w' t = cls_of w t) by apply H.
    assert (V : cls_of w t <> Some CMetric -> exists a, lookup t c (o_indices o) w2 = (Ok a, w2)).
    { intros Nm. destruct b; [injection E2 as <-; exact (check_there _ _ _ _ _ Nm Eb)|]. apply (transform_there w'); [rewrite C'; exact Nm|exact E2]. }
    destruct (cls_of w t) as [[]|] eqn:Et; try (left; unfold other_class; rewrite Ct; auto; fail).
    5: { exfalso. unfold obj_of in Eo. unfold cls_of in Et. destruct (nth_error (heap w) t); discriminate. }
    all: right; intros (c1 & d1 & a1 & _ & _ & _ & Vi); destruct V as (a & Ea); [congruence|]; destruct (lookup_inv _ _ _ _ _ _ Ea) as (_ & o1 & d & Ho1 & Hd & Ha);
      exists c, d, a; assert (o1 = o2) by congruence; subst o1; cbn [set_coords o_coords o_comps o_indices]; destruct Sa as (_ & _ & Sa & _); split; [reflexivity|]; split; [exact Hd|]; split; [congruence|exact Vi].
  - unfold change_name. destruct n; try exact S0. unfold mbind, getobj. destruct (obj_of w t) as [o|] eqn:Eo; [|exact S0].
    apply (put_homes' _ _ _ _ S0 Eo). apply home_same; reflexivity.
  - unfold change_symbol. destruct n; try exact S0; (unfold mbind, getobj; destruct (obj_of w t) as [o|] eqn:Eo; [|exact S0];
      apply (put_homes' _ _ _ _ S0 Eo); apply home_same; reflexivity).
  - unfold simplify_tensor. unfold mbind at 1, getobj. destruct (obj_of w t) as [o|] eqn:Eo; [|exact S0].
    destruct (o_coords o) as [c|]; [|exact S0]. unfold mbind at 1, mopt, mret at 1. unfold mbind at 1.
    pose proof (coord_components_same c w) as E. destruct (coord_components c w) as [[x|e] w']; cbn in E; subst w'; [|exact S0].
    destruct (o_rank o =? 0); [destruct (flat_map snd (o_comps o)); exact S0|].
    apply (put_homes' _ _ _ _ S0 Eo). apply home_simplify.
  - intros i o Hi. apply delete_sub in Hi. unfold other_class. destruct (delete_carried w t silent) as [Hc _]. rewrite Hc. apply (S0 i o Hi).
Qed.

Theorem reachable_homes w : reachable w -> homes w.
Proof.
  intros H. induction H as [|w o Hr IH HL]; [|apply run_op_homes; [apply reachable_sound, Hr|exact IH]].
  intros i o H; unfold obj_of, empty_world in H; destruct i; discriminate.
Qed.

Lemma home_read w t o : typed w -> homes w -> obj_of w t = Some o -> cls_of w t <> Some CCoordinates -> cls_of w t <> Some CMetric ->
  exists c a, at_home w t o c /\ valid_cfg (o_indices o) /\ get_components t None None w = (Ok a, w).
Proof.
  intros Hty Hh Ho N1 N2. destruct (Hh t o Ho) as [[H|H]|(c & d & a & H1 & H2 & H3 & H4)]; [congruence|congruence|].
  exists c, a. split; [split; [exact Ho|]; split; [exact N1|]; split; [exact H1|congruence]|]. split; [exact H4|].
  destruct (has_class _ _ _ Ho) as [k Hk].
  assert (G : get_components t None None w = get_components t (Some c) (Some (o_indices o)) w).
  { unfold get_components. rewrite !(bind_ok _ _ o w w) by (apply getobj_ok, Ho). rewrite H1. reflexivity. }
  rewrite G. apply (get_stored w t k o c (o_indices o) d a); auto; [congruence|apply (Hty t o Ho), H1].
Qed.
Lemma tensor_home w t o : reachable w -> obj_of w t = Some o -> cls_of w t <> Some CCoordinates -> cls_of w t <> Some CMetric ->
  exists c a, at_home w t o c /\ valid_cfg (o_indices o) /\ get_components t None None w = (Ok a, w).
Proof. intros R. apply home_read; [apply reachable_sound, R|apply reachable_homes, R]. Qed.
End Home.
