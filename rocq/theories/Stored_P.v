(** Every stored configuration of a tensor has as many indices as the tensor. *)
From Verif Require Import Alg Alg_P Arr Arr_P Spec UtilsM Arr2_P TensorM WorldM SpecWorld World_P Registry_P History_P CalcM SpecCalc Keep_P Calc_P Typed_P SpecPrefer Prefer_P Home_P SpecRank Rank_P.
Local Open Scope nat_scope.

Section Stored.
Context {A : AlgOps}.

Definition keyed (o : obj) : Prop := forall c d i, In (c, d) (o_comps o) -> In i (map fst d) -> length i = o_rank o.
Definition keyeds (w : world) : Prop := forall i o, obj_of w i = Some o -> other_class w i \/ keyed o.

Lemma keyed_same o o' : o_comps o' = o_comps o -> o_rank o' = o_rank o -> keyed o -> keyed o'.
Proof. unfold keyed. intros E1 E2. rewrite E1, E2. auto. Qed.
Lemma in_set_cfg (i : list Z) (a : arr) (d : reps) j : In j (map fst (dset cfg_eqb i a d)) -> j = i \/ In j (map fst d).
Proof.
  induction d as [|[k v] d IH]; cbn; [intuition|]. destruct (cfg_eqb i k) eqn:E; cbn.
  - apply cfg_eqb_spec in E. subst k. intuition.
  - intuition.
Qed.
Lemma in_set_sys {X} (c : oid) (x : X) l c' y : In (c', y) (dset Nat.eqb c x l) -> y = x \/ In (c', y) l.
Proof.
  induction l as [|[k v] l IH]; cbn; [intros [H|[]]; injection H as _ <-; auto|]. destruct (c =? k); cbn.
  - intros [H|H]; [injection H as _ <-; auto|auto].
  - intros [H|H]; [auto|]. destruct (IH H); auto.
Qed.
Lemma get_in {X} (c : oid) (l : list (oid * X)) x : dget Nat.eqb c l = Some x -> In (c, x) l.
Proof. induction l as [|[k v] l IH]; cbn; [discriminate|]. destruct (Nat.eqb_spec c k) as [->|]; [intros E; injection E as <-; auto|auto]. Qed.
Lemma keyed_store o c i a : length i = o_rank o -> keyed o -> keyed (set_comps (dset Nat.eqb c (dset cfg_eqb i a match dget Nat.eqb c (o_comps o) with Some d => d | None => [] end) (o_comps o)) o).
Proof.
  intros F K c' d j. cbn [o_comps o_rank set_comps]. intros H Hj. apply in_set_sys in H as [->|H]; [|exact (K c' d j H Hj)].
  apply in_set_cfg in Hj as [->|Hj]; [exact F|]. destruct (dget Nat.eqb c (o_comps o)) as [d'|] eqn:E; [|destruct Hj]. exact (K c d' j (get_in _ _ _ E) Hj).
Qed.
Lemma put_keyeds w x o o' w' : keyeds w -> obj_of w x = Some o -> (other_class w x \/ (keyed o -> keyed o')) -> put x o' w = (Ok tt, w') -> keyeds w'.
Proof.
  intros H Ho Hx E. destruct (put_spec w x o o' Ho) as (w1 & E1 & _ & _ & Hc & Hj). rewrite E1 in E. injection E as <-.
  intros i oi Hi. unfold other_class. rewrite Hc. rewrite Hj in Hi. destruct (Nat.eqb_spec x i) as [<-|N]; [|exact (H i oi Hi)].
  injection Hi as <-. destruct Hx as [Hx|Hx]; [left; exact Hx|]. destruct (H x o Ho) as [G|G]; [left; exact G|right; exact (Hx G)].
Qed.

Section W0.
Variable w0 : world.
Hypothesis Hty : typed w0.
Hypothesis Hrk : forall i o, obj_of w0 i = Some o -> well_ranked o.
Notation P := (fun w => kept w0 w /\ keyeds w).
Notation PX x o := (fun w => (kept w0 w /\ keyeds w) /\ obj_of w x = Some o).
Definition h_notco (x : oid) : Prop := cls_of w0 x <> Some CCoordinates.

Lemma h_k_get {Y} x (k : obj -> M Y) :
  (forall o, (forall o0, obj_of w0 x = Some o0 -> same_attrs o0 o) ->
             (forall m, o_metric o = Some m -> cls_of w0 m = Some CMetric) ->
             (forall c, o_coords o = Some c -> cls_of w0 c = Some CCoordinates) ->
             hoare (PX x o) (k o) (fun _ => P) P) ->
  hoare P (mbind (getobj x) k) (fun _ => P) P.
Proof.
  intros H w Hw. unfold mbind, getobj. destruct (obj_of w x) as [o|] eqn:Ho; [|exact Hw].
  destruct Hw as [Hk Hh]. destruct (kept_typed _ _ Hk Hty x o Ho) as [H1 H2].
  assert (Hc : forall i, cls_of w i = cls_of w0 i) by apply Hk.
  apply (H o); [intros o0 Ho0; apply (kept_home _ _ _ _ _ Hk Ho0 Ho)|intros m Hm; rewrite <- Hc; auto|intros c Hc'; rewrite <- Hc; auto|].
  split; [split; assumption|exact Ho].
Qed.
Lemma h_k_weak {Y} x o (k : M Y) : hoare P k (fun _ => P) P -> hoare (PX x o) k (fun _ => P) P.
Proof. apply h_weak. intros w H; apply H. Qed.
Lemma h_k_get' {Y} x (k : obj -> M Y) :
  (forall o, (forall o0, obj_of w0 x = Some o0 -> same_attrs o0 o) ->
             (forall m, o_metric o = Some m -> cls_of w0 m = Some CMetric) ->
             (forall c, o_coords o = Some c -> cls_of w0 c = Some CCoordinates) ->
             hoare P (k o) (fun _ => P) P) ->
  hoare P (mbind (getobj x) k) (fun _ => P) P.
Proof. intros H. apply h_k_get. intros o H0 H1 H2. apply h_k_weak, H; assumption. Qed.
Definition other0 (x : oid) : Prop := cls_of w0 x = Some CMetric \/ cls_of w0 x = Some CCoordinates.
Lemma h_k_put x o o' : same_attrs o o' -> (cls_of w0 x = Some CCoordinates -> o_comps o' = o_comps o) -> (other0 x \/ ((forall o0, obj_of w0 x = Some o0 -> same_attrs o0 o) -> keyed o -> keyed o')) ->
  hoare (PX x o) (put x o') (fun _ => P) P.
Proof.
  intros H1 H2 H3 w [[Hw Hh] Ho]. destruct (put_spec w x o o' Ho) as (w1 & E1 & _). rewrite E1.
  split; [exact (put_kept _ _ _ _ _ _ Hw Ho H1 H2 E1)|]. apply (put_keyeds w x o o' w1 Hh Ho); [|exact E1].
  destruct H3 as [H3|H3]; [left|right; intros K; exact (H3 (fun o0 Ho0 => proj1 (kept_home _ _ _ _ _ Hw Ho0 Ho)) K)]. unfold other_class. replace (cls_of w x) with (cls_of w0 x); [exact H3|symmetry; apply Hw].
Qed.
Lemma h_k_bind {X Y} (m : M X) (k : X -> M Y) :
  hoare P m (fun _ => P) P -> (forall x, hoare P (k x) (fun _ => P) P) -> hoare P (mbind m k) (fun _ => P) P.
Proof. intros H1 H2. eapply h_bind; [exact H1|exact H2]. Qed.
Lemma h_k_opt {X} e (x : option X) : hoare P (mopt e x) (fun _ => P) P.
Proof. apply h_opt; auto. Qed.
Lemma h_k_lift {X} (x : res X) : hoare P (mlift x) (fun _ => P) P.
Proof. apply h_lift; auto. Qed.

Lemma h_calc_jac_keep self coords : hoare P (w_calculate_jacobian self coords) (fun _ => P) P.
Proof.
  unfold w_calculate_jacobian. apply h_k_get. intros so _ _ _.
  intros w [Hw Hs]. unfold mbind at 1, getobj. destruct (obj_of w coords) as [co|]; [|exact Hw].
  revert w Hw Hs. enough (H : hoare (PX self so) (let! rules := mopt EKeyError (dget Nat.eqb coords (o_trans so)) in
    let! j := mlift (calculate_jacobian (o_syms so) (o_syms co) rules) in
    put self (set_jacs (dset Nat.eqb coords j (o_jacs so)) so)) (fun _ => P) P) by (intros w Hw Hs; exact (H w (conj Hw Hs))).
  apply b_opt; [tauto|]. intros R _. apply b_lift; [tauto|]. intros j _.
  apply h_k_put; [apply jacs_attrs|reflexivity|right; intros _; apply keyed_same; reflexivity].
Qed.
Lemma h_check_jac_keep self coords : hoare P (w_check_jacobians self coords) (fun _ => P) P.
Proof.
  unfold w_check_jacobians. apply h_k_get'. intros so _ _ _. destruct (dmem _ _ _); [apply h_ret; auto|].
  destruct (dmem _ _ _); [apply h_calc_jac_keep|]. apply h_k_get'. intros co _ _ _. apply h_raise; auto.
Qed.
Lemma h_lookup_keep t c i : hoare P (lookup t c i) (fun _ => P) P.
Proof. unfold lookup. apply h_k_get'. intros o _ _ _. apply h_k_bind; [apply h_k_opt|intros d; apply h_k_opt]. Qed.
Definition fits (t : oid) (i : list Z) : Prop := forall o0, obj_of w0 t = Some o0 -> length i = o_rank o0.
Definition okst (t : oid) (i : list Z) : Prop := other0 t \/ fits t i.
Lemma was_there x (w : world) o : kept w0 w -> obj_of w x = Some o -> exists o0, obj_of w0 x = Some o0 /\ same_attrs o0 o.
Proof. intros (_ & _ & _ & K) Ho. specialize (K x). rewrite Ho in K. destruct (obj_of w0 x) as [o0|]; [|destruct K]. exists o0. split; [reflexivity|apply K]. Qed.
Lemma h_store_keep t c i a : h_notco t -> okst t i -> hoare P (store t c i a) (fun _ => P) P.
Proof.
  intros N F. unfold store. apply h_k_get. intros o Sa _ _ w Hw. destruct (was_there t w o (proj1 (proj1 Hw)) (proj2 Hw)) as (o0 & Ho0 & S0). revert w Hw.
  apply h_k_put; [apply comps_attrs|intros H; destruct (N H)|]. destruct F as [F|F]; [left; exact F|right]. intros _. apply keyed_store.
  destruct S0 as (_ & _ & _ & S0 & _). rewrite S0. apply F, Ho0.
Qed.

Lemma h_need_array_keep o c : hoare P (need_array o c) (fun _ => P) P.
Proof. unfold need_array. destruct (is_expr o c); [apply h_raise; auto|apply h_ret; auto]. Qed.

Lemma h_base_transform_keep t c i : h_notco t -> okst t i -> hoare P (base_transform t c i) (fun _ => P) P.
Proof.
  intros N F. unfold base_transform. apply h_k_get'. intros o _ _ _. apply h_k_bind; [apply h_k_opt|intros c0].
  apply h_k_bind; [apply h_check_jac_keep|intro_]. apply h_k_bind; [apply h_lookup_keep|intros a].
  apply h_k_get'. intros co _ _ _. apply h_k_bind; [apply h_k_opt|intros [[J Ji] C]]. apply h_k_bind; [apply h_k_opt|intros R].
  apply h_k_bind; [apply h_need_array_keep|intro_]. apply h_k_bind; [apply h_k_lift|intros x]. apply h_store_keep; [exact N|exact F].
Qed.
Lemma h_chr_transform_keep t c i : h_notco t -> okst t i -> hoare P (w_christoffel_transform t c i) (fun _ => P) P.
Proof.
  intros N F. unfold w_christoffel_transform. apply h_k_get'. intros o _ _ _. apply h_k_bind; [apply h_k_opt|intros c0].
  apply h_k_bind; [apply h_check_jac_keep|intro_]. apply h_k_bind; [apply h_lookup_keep|intros a].
  apply h_k_get'. intros co _ _ _. apply h_k_bind; [apply h_k_opt|intros [[J Ji] C]]. apply h_k_bind; [apply h_k_opt|intros R].
  apply h_k_bind; [apply h_need_array_keep|intro_]. apply h_k_bind; [apply h_k_lift|intros x]. apply h_store_keep; [exact N|exact F].
Qed.
Lemma h_curve_transform_keep f t c i : h_notco t -> okst t i -> hoare P (w_curve_transform f t c i) (fun _ => P) P.
Proof.
  intros N F. unfold w_curve_transform. apply h_k_get'. intros o _ _ _. apply h_k_bind; [apply h_k_opt|intros c0].
  apply h_k_bind; [apply h_check_jac_keep|intro_]. apply h_k_bind; [apply h_lookup_keep|intros a].
  apply h_k_get'. intros co _ _ _. apply h_k_bind; [apply h_k_opt|intros [[J Ji] C]]. apply h_k_bind; [apply h_k_opt|intros R].
  apply h_k_bind; [apply h_need_array_keep|intro_]. apply h_k_get'. intros no _ _ _. apply h_k_bind; [apply h_k_lift|intros x]. apply h_store_keep; [exact N|exact F].
Qed.
Lemma h_metric_transform_keep t c i : cls_of w0 t = Some CMetric -> hoare P (metric_transform t c i) (fun _ => P) P.
Proof.
  intros Mt. assert (N : h_notco t) by (unfold h_notco; rewrite Mt; discriminate). unfold metric_transform. apply h_k_bind; [apply h_base_transform_keep; [exact N|left; left; exact Mt]|intro_].
  apply h_k_get. intros o _ _ _. apply b_opt; [tauto|]. intros d _. destruct (metric_fill _ _ _) as [d' r].
  eapply h_bind; [apply h_k_put; [apply comps_attrs|intros H; destruct (N H)|left; left; exact Mt]|intro_]. apply h_k_lift.
Qed.
Lemma h_metric_check_keep t c : hoare P (metric_check t c) (fun _ => P) P.
Proof. unfold metric_check. apply h_k_get'. intros o _ _ _. apply h_ret; auto. Qed.
Lemma h_raise_lower_keep t c i : h_notco t -> okst t i -> hoare P (w_raise_lower t c i) (fun _ => P) P.
Proof.
  intros N F. unfold w_raise_lower. apply h_k_get'. intros o _ Hm _.
  apply (h_weak _ P _ _ _ (fun w H => H)). intros w Hw. unfold mbind at 1.
  destruct (o_metric o) as [m|] eqn:Em; cbn [mopt mret mraise]; [|exact Hw]. specialize (Hm m eq_refl).
  assert (Nm : h_notco m) by (unfold h_notco; rewrite Hm; discriminate).
  revert w Hw. apply h_k_bind; [apply h_metric_check_keep|intros b].
  apply h_k_bind; [destruct b; [apply h_ret; auto|apply h_metric_transform_keep, Hm]|intro_].
  apply h_k_get'. intros o' _ _ _. apply h_k_bind; [apply h_k_opt|intros d]. apply h_k_bind; [apply h_k_opt|intros [src a]].
  apply h_k_bind; [apply h_lookup_keep|intros gg]. apply h_k_bind; [apply h_lookup_keep|intros gi].
  apply h_k_bind; [apply h_k_lift|intros x]. apply h_store_keep; [exact N|exact F].
Qed.
Lemma h_tensor_check_keep t c i : h_notco t -> okst t i -> hoare P (tensor_check t c i) (fun _ => P) P.
Proof.
  intros N F. unfold tensor_check. apply h_k_get'. intros o _ _ _. destruct (dget _ _ _) as [d|]; [|apply h_ret; auto].
  destruct (dmem _ _ _); [apply h_ret; auto|]. apply h_k_bind; [apply h_raise_lower_keep; [exact N|exact F]|intro_; apply h_ret; auto].
Qed.
Lemma h_tensor_transform_keep t c i : h_notco t -> okst t i -> hoare P (tensor_transform t c i) (fun _ => P) P.
Proof.
  intros N F. unfold tensor_transform. apply h_k_get'. intros o _ _ _. apply h_k_bind; [apply h_k_opt|intros c0].
  apply h_k_bind; [apply h_tensor_check_keep; [exact N|exact F]|intros b].
  apply h_k_bind; [destruct b; [apply h_ret; auto|apply h_raise_lower_keep; [exact N|exact F]]|intro_]. apply h_base_transform_keep; [exact N|exact F].
Qed.
Lemma h_check_rep_keep t c i : okst t i -> hoare P (check_representation t c i) (fun _ => P) P.
Proof.
  intros F w Hw. unfold check_representation. destruct (cls_of w t) as [k|] eqn:Ek; [|exact Hw].
  assert (N : k <> CCoordinates -> h_notco t).
  { intros Hk H. destruct Hw as ((_ & _ & Hc & _) & _). rewrite Hc in Ek. congruence. }
  destruct k; [exact Hw|apply h_metric_check_keep, Hw|apply h_tensor_check_keep; [apply N; discriminate|exact F|exact Hw]..].
Qed.
Lemma h_transform_coords_keep t c i : okst t i -> hoare P (transform_coordinates t c i) (fun _ => P) P.
Proof.
  intros F w Hw. unfold transform_coordinates. destruct (cls_of w t) as [k|] eqn:Ek; [|exact Hw].
  assert (N : k <> CCoordinates -> h_notco t).
  { intros Hk H. destruct Hw as ((_ & _ & Hc & _) & _). rewrite Hc in Ek. congruence. }
  destruct k; [exact Hw|apply h_metric_transform_keep; [destruct Hw as ((_ & _ & Hc & _) & _); rewrite <- Hc; exact Ek|exact Hw]|apply h_tensor_transform_keep|apply h_chr_transform_keep|apply h_curve_transform_keep|apply h_curve_transform_keep];
    try (apply N; discriminate); try exact F; exact Hw.
Qed.
Lemma h_get_rep_keep t c i : hoare P (get_representation t c i) (fun _ => P) P.
Proof.
  unfold get_representation. apply h_k_bind; [apply h_isinstance; auto|intros b].
  destruct (negb b); [apply h_raise; auto|]. apply h_k_get'. intros o Sa _ _.
  intros w Hw. unfold mbind at 1, mlift. destruct (validate_indices (VTuple i) None (Some (length (o_indices o)))) as [u|e] eqn:Ev; [|exact Hw].
  apply validate_inv in Ev. destruct Ev as (_ & _ & Vl). specialize (Vl _ eq_refl).
  assert (F : okst t i).
  { right. intros o0 Ho0. destruct (Sa o0 Ho0) as (_ & _ & Si & _). destruct (Hrk t o0 Ho0) as [R _]. rewrite R, <- Si. symmetry. exact Vl. }
  revert w Hw. apply h_k_bind; [apply h_check_rep_keep, F|intros b'].
  apply h_k_bind; [destruct b'; [apply h_ret; auto|apply h_transform_coords_keep, F]|intro_]. apply h_lookup_keep.
Qed.
Lemma h_get_comp_keep t c i : hoare P (get_components t c i) (fun _ => P) P.
Proof.
  unfold get_components. apply h_k_get'. intros o _ _ _.
  apply h_k_bind; [destruct c; [apply h_ret; auto|apply h_k_opt]|intros k]. apply h_get_rep_keep.
Qed.
End W0.


Lemma get_keyeds w t c i r w' : typed w -> (forall i o, obj_of w i = Some o -> well_ranked o) -> keyeds w -> get_components t c i w = (r, w') -> keyeds w'.
Proof. intros Hty Hrk Hh E. assert (H := h_get_comp_keep w Hty Hrk t c i w (conj (kept_refl w) Hh)). rewrite E in H. destruct r; apply H. Qed.

Lemma fresh_keyeds w k o : keyeds w -> (k = CMetric \/ k = CCoordinates \/ keyed o) -> keyeds (fresh_world w k o).
Proof.
  intros H Hk i oi. rewrite obj_of_fresh. destruct (Nat.eqb_spec i (length (heap w))) as [->|N].
  - intros E. injection E as <-. unfold other_class. rewrite cls_fresh_new. destruct Hk as [->|[->|Hk]]; auto.
  - intros E. unfold other_class. rewrite cls_of_fresh by exact N. apply (H i oi E).
Qed.

Lemma keyed_simplify o : keyed o -> keyed (set_comps (map (fun cd => (fst cd, simplify_reps (snd cd))) (o_comps o)) o).
Proof.
  intros K c d i. cbn [o_comps o_rank set_comps]. intros H Hi. apply in_map_iff in H as ([c' d'] & E & H). injection E as <- <-. cbn [snd] in Hi.
  unfold simplify_reps in Hi. rewrite map_map in Hi. cbn [fst] in Hi. exact (K c' d' i H Hi).
Qed.
Lemma put_keyeds' w x o o' : keyeds w -> obj_of w x = Some o -> (keyed o -> keyed o') -> keyeds (snd (put x o' w)).
Proof. intros H Ho G. destruct (put_spec w x o o' Ho) as (w1 & E & _). rewrite E. exact (put_keyeds w x o o' w1 H Ho (or_intror G) E). Qed.

Lemma run_op_keyeds w (o : op) : typed w -> (forall i o, obj_of w i = Some o -> well_ranked o) -> keyeds w -> keyeds (snd (run_op o w)).
Proof.
  intros Hty Hrk S0.
  assert (Tn : forall k n c m x i s, keyeds (snd ((new_tensor_as k n c m x i s ;; mret tt) w))).
  { intros k n c m x i s. unfold mbind. destruct (new_tensor_spec k n c m x i s w) as [[e E]|(m' & c' & a & y & Hm & Hmc & Hc & Hcc & Ha & Hx & Hv & E)]; rewrite E; [exact S0|].
    cbn [snd mret]. apply fresh_keyeds; [exact S0|]. right; right. intros c1 d1 j. cbn [o_comps o_rank]. intros [H|[]]. injection H as <- <-. cbn [map fst]. intros [<-|[]].
    apply base_object in Hv. symmetry. apply (object_ranked _ _ _ _ _ Ha Hv). }
  destruct o as [n c i s tr|n c x i s|n c m x i s|n c m x i s|n c m x i s|n c m x i s|self c r|t c i|t i|t c|t n|t n|t|t silent]; cbn [run_op];
    try apply Tn.
  - unfold mbind. destruct (new_coordinates_spec n c i s tr w) as [[e E]|(a & Ha & Hr & E)]; rewrite E; [exact S0|].
    cbn [snd mret]. apply fresh_keyeds; [exact S0|auto].
  - unfold mbind. destruct (new_metric_cases n c x i s w) as [[e E]|(c' & o & w' & r & Hc & Hk & E & Hw' & _)]; rewrite E; [exact S0|].
    assert (S1 : keyeds w') by (rewrite Hw'; apply fresh_keyeds; [exact S0|auto]).
    destruct r; exact S1.
  - unfold add_coord_transformation. destruct c; try exact S0.
    unfold mbind at 1, isinstance. destruct (negb _); [exact S0|]. destruct (self =? i); [exact S0|].
    unfold mbind, getobj. destruct (obj_of w self) as [o|] eqn:Eo; [|exact S0].
    destruct r; [destruct (forallb _ _)|destruct (dmem _ _ _)]; try exact S0; (apply (put_keyeds' _ _ _ _ S0 Eo); apply keyed_same; reflexivity).
  - unfold mbind. destruct (get_components t c i w) as [r w'] eqn:E. pose proof (get_keyeds _ _ _ _ _ _ Hty Hrk S0 E). destruct r; assumption.
  - unfold change_default_indices. unfold mbind at 1, getobj. destruct (obj_of w t) as [o|] eqn:Eo; [|exact S0].
    unfold mbind at 1, mlift. destruct (validate_indices (VTuple i) None _) as [u|] eqn:Ev; [|exact S0].
    apply validate_inv in Ev. destruct Ev as (_ & _ & Vl). specialize (Vl _ eq_refl).
    assert (F : okst w t i) by (right; intros o0 Ho0; assert (o0 = o) by congruence; subst o0; destruct (Hrk t o Eo) as [R _]; congruence).
    destruct (o_coords o) as [c|] eqn:Ec; [|exact S0]. unfold mbind at 1, mopt, mret. unfold mbind at 1.
    pose proof (h_check_rep_keep w Hty t c i F w (conj (kept_refl w) S0)) as H. destruct (check_representation t c i w) as [[b|e] w'] eqn:Eb; [|apply H].
    destruct H as [Hk S1]. destruct b; [|exact S1].
    unfold mbind, getobj. destruct (obj_of w' t) as [o'|] eqn:Eo'; [|exact S1].
    destruct (put_spec w' t o' (set_indices i o') Eo') as (w3 & E & _). rewrite E. cbn [snd].
    apply (put_keyeds w' t o' (set_indices i o') w3 S1 Eo'); [right; apply keyed_same; reflexivity|exact E].
  - unfold change_default_coords. unfold mbind at 1, isinstance. destruct (cls_of w c) as [k|] eqn:Ek; [|exact S0].
    destruct (cls_eqb CCoordinates k) eqn:Ec; cbn [negb]; [|exact S0].
    unfold mbind at 1, getobj. destruct (obj_of w t) as [o|] eqn:Eo; [|exact S0].
    destruct (o_coords o) as [c0|]; [|exact S0]. cbn [mopt]. unfold mbind at 1, mret at 1. destruct (c0 =? c); [exact S0|].
    unfold mbind at 1. destruct (obj_of w c0) as [co|]; [|exact S0]. destruct (negb _).
    { unfold mbind. destruct (obj_of w c); exact S0. }
    unfold mbind at 1.
    assert (F : okst w t (o_indices o)) by (right; intros o0 Ho0; assert (o0 = o) by congruence; subst o0; destruct (Hrk t o Eo) as [R _]; congruence).
    pose proof (h_check_rep_keep w Hty t c (o_indices o) F w (conj (kept_refl w) S0)) as H. destruct (check_representation t c (o_indices o) w) as [[b|e] w'] eqn:Eb; [|apply H].
    assert (H2 : hoare (fun w2 => kept w w2 /\ keyeds w2) (if b then mret tt else transform_coordinates t c (o_indices o)) (fun _ w2 => kept w w2 /\ keyeds w2) (fun w2 => kept w w2 /\ keyeds w2)).
    { destruct b; [apply h_ret; auto|apply (h_transform_coords_keep w Hty), F]. }
    unfold mbind at 1. specialize (H2 w' H). destruct ((if b then mret tt else transform_coordinates t c (o_indices o)) w') as [[[]|e] w2] eqn:E2; [|apply H2].
    destruct H2 as [Hk S2]. unfold mbind. destruct (obj_of w2 t) as [o2|] eqn:Eo2; [|exact S2].
    destruct (put_spec w2 t o2 (set_coords (Some c) o2) Eo2) as (w3 & E & _). rewrite E. cbn [snd].
    apply (put_keyeds w2 t o2 (set_coords (Some c) o2) w3 S2 Eo2); [right; apply keyed_same; reflexivity|exact E].
  - unfold change_name. destruct n; try exact S0. unfold mbind, getobj. destruct (obj_of w t) as [o|] eqn:Eo; [|exact S0].
    apply (put_keyeds' _ _ _ _ S0 Eo). apply keyed_same; reflexivity.
  - unfold change_symbol. destruct n; try exact S0; (unfold mbind, getobj; destruct (obj_of w t) as [o|] eqn:Eo; [|exact S0];
      apply (put_keyeds' _ _ _ _ S0 Eo); apply keyed_same; reflexivity).
  - unfold simplify_tensor. unfold mbind at 1, getobj. destruct (obj_of w t) as [o|] eqn:Eo; [|exact S0].
    destruct (o_coords o) as [c|]; [|exact S0]. unfold mbind at 1, mopt, mret at 1. unfold mbind at 1.
    pose proof (coord_components_same c w) as E. destruct (coord_components c w) as [[x|e] w']; cbn in E; subst w'; [|exact S0].
    destruct (o_rank o =? 0); [destruct (flat_map snd (o_comps o)); exact S0|].
    apply (put_keyeds' _ _ _ _ S0 Eo). apply keyed_simplify.
  - intros i o Hi. apply delete_sub in Hi. unfold other_class. destruct (delete_carried w t silent) as [Hc _]. rewrite Hc. apply (S0 i o Hi).
Qed.

Theorem reachable_keyeds w : reachable w -> keyeds w.
Proof.
  intros H. induction H as [|w o Hr IH HL]; [|apply run_op_keyeds; [apply reachable_sound, Hr|intros i o' Ho; apply (reachable_ranked w i o' Hr Ho)|exact IH]].
  intros i o H; unfold obj_of, empty_world in H; destruct i; discriminate.
Qed.
Theorem stored_ranked w t o c d i a : reachable w -> obj_of w t = Some o -> cls_of w t <> Some CCoordinates -> cls_of w t <> Some CMetric ->
  In (c, d) (o_comps o) -> In (i, a) d -> length i = o_rank o.
Proof.
  intros R Ho N1 N2 Hd Hi. destruct (reachable_keyeds w R t o Ho) as [[H|H]|K]; [congruence|congruence|]. apply (K c d i Hd). change i with (fst (i, a)). apply in_map, Hi.
Qed.
Lemma rank_all w : ranks w -> forall i o, obj_of w i = Some o -> well_ranked o.
Proof. intros H i o Ho. apply (H i o Ho). Qed.
(** A new tensor. *)
Lemma tensor_fresh w k n s i m c a x : k <> CMetric -> k <> CCoordinates -> validate_base n x s i c = Ok tt -> as_array x = Some a ->
  forall nm sy cc, homes w -> keyeds w ->
  let o := mkObj nm sy (default_indices i (rank a)) (rank a) (Some cc) m [(cc, [(default_indices i (rank a), a)])] [] [] [] in
  homes (fresh_world w k o) /\ keyeds (fresh_world w k o).
Proof.
  intros N1 N2 Hv Ha nm sy cc H1 H2 o. split.
  - apply Home_P.fresh_homes; [exact H1|]. right; right. exists cc, [(default_indices i (rank a), a)], a. cbn [o o_coords o_comps o_indices dget fst snd].
    rewrite Nat.eqb_refl. split; [reflexivity|]. split; [reflexivity|]. split; [|exact (validated_default _ _ _ _ _ _ Ha Hv)].
    assert (R : forall l, cfg_eqb l l = true) by (intros l; apply cfg_eqb_spec; reflexivity). rewrite R. reflexivity.
  - apply fresh_keyeds; [exact H2|]. right; right. intros c1 d1 j. cbn [o o_comps o_rank]. intros [H|[]]. injection H as <- <-. cbn [map fst]. intros [<-|[]].
    apply base_object in Hv. symmetry. apply (object_ranked _ _ _ _ _ Ha Hv).
Qed.
End Stored.
