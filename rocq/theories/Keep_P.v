(** Reading components changes nothing but caches. *)
From Verif Require Import Alg Alg_P Arr Arr_P Spec UtilsM Arr2_P TensorM WorldM SpecWorld World_P Registry_P History_P CalcM SpecCalc.
Local Open Scope nat_scope.

Section Keep.
Context {A : AlgOps}.

Lemma same_attrs_refl (o : obj) : same_attrs o o.
Proof. repeat split. Qed.
Lemma same_attrs_trans (o1 o2 o3 : obj) : same_attrs o1 o2 -> same_attrs o2 o3 -> same_attrs o1 o3.
Proof. unfold same_attrs. intuition congruence. Qed.
Lemma kept_refl w : kept w w.
Proof.
  split; [reflexivity|]. split; [reflexivity|]. split; [reflexivity|].
  intros i. destruct (obj_of w i); [|exact I]. split; [apply same_attrs_refl|reflexivity].
Qed.
Lemma kept_trans w1 w2 w3 : kept w1 w2 -> kept w2 w3 -> kept w1 w3.
Proof.
  intros (a1 & a2 & a3 & a4) (b1 & b2 & b3 & b4). split; [congruence|]. split; [congruence|].
  split; [intros; rewrite b3; apply a3|]. intros i. specialize (a4 i). specialize (b4 i).
  rewrite a3 in b4. destruct (obj_of w1 i), (obj_of w2 i), (obj_of w3 i); try tauto.
  destruct a4 as [a4 a5], b4 as [b4 b5]. split; [exact (same_attrs_trans _ _ _ a4 b4)|].
  intros H. rewrite b5, a5 by exact H. reflexivity.
Qed.

Lemma kept_obj w w' i o : kept w w' -> obj_of w i = Some o -> exists o', obj_of w' i = Some o' /\ same_attrs o o' /\
  (cls_of w i = Some CCoordinates -> o_comps o' = o_comps o).
Proof. intros (_ & _ & _ & H) Ho. specialize (H i). rewrite Ho in H. destruct (obj_of w' i) as [o'|]; [eauto|destruct H]. Qed.
Lemma kept_obj_inv w w' i o' : kept w w' -> obj_of w' i = Some o' -> exists o, obj_of w i = Some o /\ same_attrs o o' /\
  (cls_of w i = Some CCoordinates -> o_comps o' = o_comps o).
Proof. intros (_ & _ & _ & H) Ho. specialize (H i). rewrite Ho in H. destruct (obj_of w i) as [o|]; [eauto|destruct H]. Qed.

Lemma kept_typed w w' : kept w w' -> typed w -> typed w'.
Proof.
  intros H Ht i o' Ho'. destruct (kept_obj_inv _ _ _ _ H Ho') as (o & Ho & Hs & _).
  destruct (Ht i o Ho) as [H1 H2]. destruct Hs as (_ & _ & _ & _ & Ec & Em & _). destruct H as (_ & _ & Hc & _).
  split; [intros m|intros c]; rewrite ?Em, ?Ec, Hc; auto.
Qed.

Lemma kept_system w w' c n : kept w w' -> coordinate_system w c n -> coordinate_system w' c n.
Proof.
  intros H (Hc & o & d & x & Ho & Hd & Hx & Hn). destruct (kept_obj _ _ _ _ H Ho) as (o' & Ho' & _ & E).
  split; [destruct H as (_ & _ & H & _); rewrite H; exact Hc|]. exists o', d, x. split; [exact Ho'|].
  rewrite (E Hc). auto.
Qed.

Lemma put_kept w0 w w' x o o' : kept w0 w -> obj_of w x = Some o -> same_attrs o o' ->
  (cls_of w0 x = Some CCoordinates -> o_comps o' = o_comps o) ->
  put x o' w = (Ok tt, w') -> kept w0 w'.
Proof.
  intros H Ho Hs Hc E. destruct (put_spec w x o o' Ho) as (w1 & E1 & Hi & Hl & Hcl & Hj).
  rewrite E1 in E. injection E as <-. destruct H as (a1 & a2 & a3 & a4).
  split; [congruence|]. split; [congruence|]. split; [intros; rewrite Hcl; apply a3|].
  intros i. rewrite Hj. specialize (a4 i). destruct (Nat.eqb_spec x i) as [<-|N]; [|exact a4].
  rewrite Ho in a4. destruct (obj_of w0 x); [|exact a4]. destruct a4 as [a4 a5].
  split; [exact (same_attrs_trans _ _ _ a4 Hs)|]. intros H. rewrite Hc, a5 by exact H. reflexivity.
Qed.

Section W0.
Variable w0 : world.
Hypothesis Hty : typed w0.
Notation P := (kept w0).
Notation PX x o := (fun w => kept w0 w /\ obj_of w x = Some o).
Definition notco (x : oid) : Prop := cls_of w0 x <> Some CCoordinates.

Lemma k_get {Y} x (k : obj -> M Y) :
  (forall o, (forall m, o_metric o = Some m -> cls_of w0 m = Some CMetric) ->
             (forall c, o_coords o = Some c -> cls_of w0 c = Some CCoordinates) ->
             hoare (PX x o) (k o) (fun _ => P) P) ->
  hoare P (mbind (getobj x) k) (fun _ => P) P.
Proof.
  intros H w Hw. unfold mbind, getobj. destruct (obj_of w x) as [o|] eqn:Ho; [|exact Hw].
  destruct (kept_typed _ _ Hw Hty x o Ho) as [H1 H2]. destruct Hw as (a1 & a2 & a3 & a4) eqn:E.
  apply (H o); [intros m Hm; rewrite <- a3; auto|intros c Hc; rewrite <- a3; auto|].
  split; [exact Hw|exact Ho].
Qed.
Lemma k_weak {Y} x o (k : M Y) : hoare P k (fun _ => P) P -> hoare (PX x o) k (fun _ => P) P.
Proof. apply h_weak. intros w H; apply H. Qed.
Lemma k_get' {Y} x (k : obj -> M Y) :
  (forall o, (forall m, o_metric o = Some m -> cls_of w0 m = Some CMetric) ->
             (forall c, o_coords o = Some c -> cls_of w0 c = Some CCoordinates) ->
             hoare P (k o) (fun _ => P) P) ->
  hoare P (mbind (getobj x) k) (fun _ => P) P.
Proof. intros H. apply k_get. intros o H1 H2. apply k_weak, H; assumption. Qed.
Lemma k_put x o o' : same_attrs o o' -> (cls_of w0 x = Some CCoordinates -> o_comps o' = o_comps o) ->
  hoare (PX x o) (put x o') (fun _ => P) P.
Proof.
  intros H1 H2 w [Hw Ho]. destruct (put_spec w x o o' Ho) as (w1 & E1 & _). rewrite E1.
  exact (put_kept _ _ _ _ _ _ Hw Ho H1 H2 E1).
Qed.
Lemma k_bind {X Y} (m : M X) (k : X -> M Y) :
  hoare P m (fun _ => P) P -> (forall x, hoare P (k x) (fun _ => P) P) -> hoare P (mbind m k) (fun _ => P) P.
Proof. intros H1 H2. eapply h_bind; [exact H1|exact H2]. Qed.
Lemma k_opt {X} e (x : option X) : hoare P (mopt e x) (fun _ => P) P.
Proof. apply h_opt; auto. Qed.
Lemma k_lift {X} (x : res X) : hoare P (mlift x) (fun _ => P) P.
Proof. apply h_lift; auto. Qed.

Lemma comps_attrs (o : obj) cs : same_attrs o (set_comps cs o).
Proof. repeat split. Qed.
Lemma jacs_attrs (o : obj) js : same_attrs o (set_jacs js o).
Proof. repeat split. Qed.

Lemma calc_jac_keep self coords : hoare P (w_calculate_jacobian self coords) (fun _ => P) P.
Proof.
  unfold w_calculate_jacobian. apply k_get. intros so _ _.
  intros w [Hw Hs]. unfold mbind at 1, getobj. destruct (obj_of w coords) as [co|]; [|exact Hw].
  revert w Hw Hs. enough (H : hoare (PX self so) (let! rules := mopt EKeyError (dget Nat.eqb coords (o_trans so)) in
    let! j := mlift (calculate_jacobian (o_syms so) (o_syms co) rules) in
    put self (set_jacs (dset Nat.eqb coords j (o_jacs so)) so)) (fun _ => P) P) by (intros w Hw Hs; exact (H w (conj Hw Hs))).
  apply b_opt; [tauto|]. intros R _. apply b_lift; [tauto|]. intros j _.
  apply k_put; [apply jacs_attrs|reflexivity].
Qed.
Lemma check_jac_keep self coords : hoare P (w_check_jacobians self coords) (fun _ => P) P.
Proof.
  unfold w_check_jacobians. apply k_get'. intros so _ _. destruct (dmem _ _ _); [apply h_ret; auto|].
  destruct (dmem _ _ _); [apply calc_jac_keep|]. apply k_get'. intros co _ _. apply h_raise; auto.
Qed.
Lemma lookup_keep t c i : hoare P (lookup t c i) (fun _ => P) P.
Proof. unfold lookup. apply k_get'. intros o _ _. apply k_bind; [apply k_opt|intros d; apply k_opt]. Qed.
Lemma store_keep t c i a : notco t -> hoare P (store t c i a) (fun _ => P) P.
Proof. intros N. unfold store. apply k_get. intros o _ _. apply k_put; [apply comps_attrs|intros H; destruct (N H)]. Qed.

Lemma need_array_keep o c : hoare P (need_array o c) (fun _ => P) P.
Proof. unfold need_array. destruct (is_expr o c); [apply h_raise; auto|apply h_ret; auto]. Qed.

Lemma base_transform_keep t c i : notco t -> hoare P (base_transform t c i) (fun _ => P) P.
Proof.
  intros N. unfold base_transform. apply k_get'. intros o _ _. apply k_bind; [apply k_opt|intros c0].
  apply k_bind; [apply check_jac_keep|intro_]. apply k_bind; [apply lookup_keep|intros a].
  apply k_get'. intros co _ _. apply k_bind; [apply k_opt|intros [[J Ji] C]]. apply k_bind; [apply k_opt|intros R].
  apply k_bind; [apply need_array_keep|intro_]. apply k_bind; [apply k_lift|intros x]. apply store_keep, N.
Qed.
Lemma chr_transform_keep t c i : notco t -> hoare P (w_christoffel_transform t c i) (fun _ => P) P.
Proof.
  intros N. unfold w_christoffel_transform. apply k_get'. intros o _ _. apply k_bind; [apply k_opt|intros c0].
  apply k_bind; [apply check_jac_keep|intro_]. apply k_bind; [apply lookup_keep|intros a].
  apply k_get'. intros co _ _. apply k_bind; [apply k_opt|intros [[J Ji] C]]. apply k_bind; [apply k_opt|intros R].
  apply k_bind; [apply need_array_keep|intro_]. apply k_bind; [apply k_lift|intros x]. apply store_keep, N.
Qed.
Lemma curve_transform_keep f t c i : notco t -> hoare P (w_curve_transform f t c i) (fun _ => P) P.
Proof.
  intros N. unfold w_curve_transform. apply k_get'. intros o _ _. apply k_bind; [apply k_opt|intros c0].
  apply k_bind; [apply check_jac_keep|intro_]. apply k_bind; [apply lookup_keep|intros a].
  apply k_get'. intros co _ _. apply k_bind; [apply k_opt|intros [[J Ji] C]]. apply k_bind; [apply k_opt|intros R].
  apply k_bind; [apply need_array_keep|intro_]. apply k_get'. intros no _ _. apply k_bind; [apply k_lift|intros x]. apply store_keep, N.
Qed.
Lemma metric_transform_keep t c i : notco t -> hoare P (metric_transform t c i) (fun _ => P) P.
Proof.
  intros N. unfold metric_transform. apply k_bind; [apply base_transform_keep, N|intro_].
  apply k_get. intros o _ _. apply b_opt; [tauto|]. intros d _. destruct (metric_fill _ _ _) as [d' r].
  eapply h_bind; [apply k_put; [apply comps_attrs|intros H; destruct (N H)]|intro_]. apply k_lift.
Qed.
Lemma metric_check_keep t c : hoare P (metric_check t c) (fun _ => P) P.
Proof. unfold metric_check. apply k_get'. intros o _ _. apply h_ret; auto. Qed.
Lemma raise_lower_keep t c i : notco t -> hoare P (w_raise_lower t c i) (fun _ => P) P.
Proof.
  intros N. unfold w_raise_lower. apply k_get'. intros o Hm _.
  apply (h_weak _ P _ _ _ (fun w H => H)). intros w Hw. unfold mbind at 1.
  destruct (o_metric o) as [m|] eqn:Em; cbn [mopt mret mraise]; [|exact Hw]. specialize (Hm m eq_refl).
  assert (Nm : notco m) by (unfold notco; rewrite Hm; discriminate).
  revert w Hw. apply k_bind; [apply metric_check_keep|intros b].
  apply k_bind; [destruct b; [apply h_ret; auto|apply metric_transform_keep, Nm]|intro_].
  apply k_get'. intros o' _ _. apply k_bind; [apply k_opt|intros d]. apply k_bind; [apply k_opt|intros [src a]].
  apply k_bind; [apply lookup_keep|intros gg]. apply k_bind; [apply lookup_keep|intros gi].
  apply k_bind; [apply k_lift|intros x]. apply store_keep, N.
Qed.
Lemma tensor_check_keep t c i : notco t -> hoare P (tensor_check t c i) (fun _ => P) P.
Proof.
  intros N. unfold tensor_check. apply k_get'. intros o _ _. destruct (dget _ _ _) as [d|]; [|apply h_ret; auto].
  destruct (dmem _ _ _); [apply h_ret; auto|]. apply k_bind; [apply raise_lower_keep, N|intro_; apply h_ret; auto].
Qed.
Lemma tensor_transform_keep t c i : notco t -> hoare P (tensor_transform t c i) (fun _ => P) P.
Proof.
  intros N. unfold tensor_transform. apply k_get'. intros o _ _. apply k_bind; [apply k_opt|intros c0].
  apply k_bind; [apply tensor_check_keep, N|intros b].
  apply k_bind; [destruct b; [apply h_ret; auto|apply raise_lower_keep, N]|intro_]. apply base_transform_keep, N.
Qed.
Lemma check_rep_keep t c i : hoare P (check_representation t c i) (fun _ => P) P.
Proof.
  intros w Hw. unfold check_representation. destruct (cls_of w t) as [k|] eqn:Ek; [|exact Hw].
  assert (N : k <> CCoordinates -> notco t).
  { intros Hk H. destruct Hw as (_ & _ & Hc & _). rewrite Hc in Ek. congruence. }
  destruct k; [exact Hw|apply metric_check_keep, Hw|apply tensor_check_keep; [apply N; discriminate|exact Hw]..].
Qed.
Lemma transform_coords_keep t c i : hoare P (transform_coordinates t c i) (fun _ => P) P.
Proof.
  intros w Hw. unfold transform_coordinates. destruct (cls_of w t) as [k|] eqn:Ek; [|exact Hw].
  assert (N : k <> CCoordinates -> notco t).
  { intros Hk H. destruct Hw as (_ & _ & Hc & _). rewrite Hc in Ek. congruence. }
  destruct k; [exact Hw|apply metric_transform_keep|apply tensor_transform_keep|apply chr_transform_keep|apply curve_transform_keep|apply curve_transform_keep];
    try (apply N; discriminate); exact Hw.
Qed.
Lemma get_rep_keep t c i : hoare P (get_representation t c i) (fun _ => P) P.
Proof.
  unfold get_representation. apply k_bind; [apply h_isinstance; auto|intros b].
  destruct (negb b); [apply h_raise; auto|]. apply k_get'. intros o _ _. apply k_bind; [apply k_lift|intro_].
  apply k_bind; [apply check_rep_keep|intros b'].
  apply k_bind; [destruct b'; [apply h_ret; auto|apply transform_coords_keep]|intro_]. apply lookup_keep.
Qed.
Lemma get_comp_keep t c i : hoare P (get_components t c i) (fun _ => P) P.
Proof.
  unfold get_components. apply k_get'. intros o _ _.
  apply k_bind; [destruct c; [apply h_ret; auto|apply k_opt]|intros k]. apply get_rep_keep.
Qed.
End W0.

Lemma get_components_kept w t c i r w' : typed w -> get_components t c i w = (r, w') -> kept w w'.
Proof.
  intros Hty E. assert (H := get_comp_keep w Hty t c i w (kept_refl w)). rewrite E in H. destruct r; exact H.
Qed.

End Keep.
