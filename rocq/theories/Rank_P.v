(** The rank of an object is the number of its default indices and never changes. *)
From Verif Require Import Alg Alg_P Arr Arr_P Spec UtilsM Arr2_P TensorM WorldM SpecWorld World_P Registry_P History_P CalcM SpecCalc Keep_P Calc_P Typed_P SpecPrefer Prefer_P Home_P SpecRank.
Local Open Scope nat_scope.

Section Rank.
Context {A : AlgOps}.

Definition same_rank (o o' : obj) : Prop := o_rank o' = o_rank o /\ length (o_indices o') = length (o_indices o) /\ (valid_cfg (o_indices o) -> valid_cfg (o_indices o')).
(** A new object has an identity that was not in use. *)
Definition grown (w w' : world) : Prop :=
  length (heap w) <= length (heap w') /\ (forall i, i < length (heap w) -> cls_of w' i = cls_of w i) /\
  forall i o', obj_of w' i = Some o' -> (exists o, obj_of w i = Some o /\ same_rank o o') \/
    (length (heap w) <= i /\ well_ranked o' /\ (cls_of w' i = Some CCoordinates -> o_rank o' = 1)).

Lemma same_rank_refl o : same_rank o o.
Proof. split; [reflexivity|]. split; auto. Qed.
Lemma grown_refl w : grown w w.
Proof. split; [lia|]. split; [reflexivity|]. intros i o H. left. exists o. split; [exact H|apply same_rank_refl]. Qed.
Lemma obj_lt w i o : obj_of w i = Some o -> i < length (heap w).
Proof. unfold obj_of. intros H. apply nth_error_Some. destruct (nth_error (heap w) i); discriminate. Qed.
Lemma grown_trans w w1 w2 : grown w w1 -> grown w1 w2 -> grown w w2.
Proof.
  intros (L1 & C1 & H1) (L2 & C2 & H2). split; [lia|]. split; [intros i Hi; rewrite C2 by lia; auto|].
  intros i o2 E2. destruct (H2 i o2 E2) as [(o1 & E1 & R1 & R2 & R3)|(Hl & W & Cc)].
  - destruct (H1 i o1 E1) as [(o & E & Q1 & Q2 & Q3)|(Hl & (W1 & W2) & Cc)].
    + left. exists o. split; [exact E|]. split; [congruence|]. split; [congruence|auto].
    + right. split; [exact Hl|]. split; [split; [congruence|auto]|]. rewrite R1. intros K. apply Cc. rewrite <- K. symmetry. apply C2. exact (obj_lt _ _ _ E1).
  - right. split; [lia|auto].
Qed.
Lemma kept_grown w w' : kept w w' -> grown w w'.
Proof.
  intros (_ & Hl & Hc & Ho). split; [lia|]. split; [auto|]. intros i o' E. specialize (Ho i). rewrite E in Ho. destruct (obj_of w i) as [o|]; [|destruct Ho].
  left. exists o. split; [reflexivity|]. destruct Ho as [(_ & _ & Hi & Hr & _) _]. split; [exact Hr|]. rewrite Hi. auto.
Qed.
Lemma put_grown w x o o' : obj_of w x = Some o -> same_rank o o' -> grown w (snd (put x o' w)).
Proof.
  intros Ho S. destruct (put_spec w x o o' Ho) as (w1 & E & _ & Hl & Hc & Hj). rewrite E. cbn [snd]. split; [lia|]. split; [auto|].
  intros i oi Hi. rewrite Hj in Hi. left. destruct (Nat.eqb_spec x i) as [<-|N].
  - injection Hi as <-. exists o. auto.
  - exists oi. split; [exact Hi|apply same_rank_refl].
Qed.
Lemma fresh_grown w k o : well_ranked o -> (k = CCoordinates -> o_rank o = 1) -> grown w (fresh_world w k o).
Proof.
  intros W K. split; [unfold fresh_world; cbn [heap]; rewrite app_length; lia|]. split; [intros i Hi; apply cls_of_fresh; lia|].
  intros i oi. rewrite obj_of_fresh. destruct (Nat.eqb_spec i (length (heap w))) as [->|N].
  - intros E. injection E as <-. right. split; [lia|]. split; [exact W|]. rewrite cls_fresh_new. intros E. injection E as E. auto.
  - intros E. left. exists oi. split; [exact E|apply same_rank_refl].
Qed.

Lemma object_ranked name comps symbol indices a : as_array comps = Some a -> validate_object name comps symbol indices = Ok tt ->
  rank a = length (default_indices indices (rank a)) /\ valid_cfg (default_indices indices (rank a)).
Proof.
  intros Ha. unfold validate_object. destruct name; try discriminate. rewrite Ha.
  assert (G : (if negb (forallb (fun d => d =? hd 0 (shape a)) (shape a)) then Err ETensorDimension else validate_indices indices (Some (rank a)) None) = Ok tt ->
    rank a = length (default_indices indices (rank a)) /\ valid_cfg (default_indices indices (rank a))).
  { destruct (negb _); [discriminate|]. destruct indices; try discriminate.
    - intros _. cbn [default_indices]. split; [symmetry; apply repeat_length|]. apply Forall_forall. intros z Hz. apply repeat_spec in Hz. auto.
    - intros E. apply validate_inv in E. cbn [default_indices]. destruct E as (E1 & E2 & _). split; [apply E2; reflexivity|exact E1]. }
  destruct symbol; try discriminate; apply G.
Qed.
Lemma base_object name comps symbol indices n : validate_base name comps symbol indices n = Ok tt -> validate_object name comps symbol indices = Ok tt.
Proof. unfold validate_base. destruct (validate_object _ _ _ _) as [[]|]; [reflexivity|discriminate]. Qed.

Lemma new_metric_rank name comps coords indices symbol w :
  (exists e, new_metric name comps coords indices symbol w = (Err e, w)) \/
  (exists o r, new_metric name comps coords indices symbol w = (r, fresh_world w CMetric o) /\ well_ranked o /\
    (forall m, r = Ok m -> m = length (heap w) /\ o_rank o = 2)).
Proof.
  remember (new_metric name comps coords indices symbol w) as RES eqn:E.
  unfold new_metric in E. unfold mbind at 1, mlift at 1 in E.
  destruct (validate_metric _ _ _ _) as [[]|e] eqn:Ev; [|left; eexists; exact E].
  unfold mbind at 1 in E.
  destruct (base_ctor_spec CMetric name (mat_to_array comps) coords indices symbol None w) as [[e H]|(c & a & x & Hc & Hk & Ha & Hx & Hv & H)].
  { rewrite H in E. left; eexists; exact E. }
  rewrite H in E. right. clear H Hx.
  assert (Ha' : as_array (mat_to_array comps) = Some a).
  { destruct comps; cbn in Ha |- *; exact Ha. }
  assert (Hr : rank a = length (default_indices indices (rank a)) /\ valid_cfg (default_indices indices (rank a))).
  { apply base_object in Hv. destruct comps; cbn [mat_to_array] in *; exact (object_ranked _ _ _ _ _ Ha' Hv). }
  set (o0 := mkObj (name_of name) (sym_of symbol) (default_indices indices (rank a)) (rank a) (Some c) None
    [(c, [(default_indices indices (rank a), a)])] [] [] []) in E.
  set (w0 := fresh_world w CMetric o0) in E.
  assert (Ho0 : obj_of w0 (length (heap w)) = Some o0).
  { unfold w0. rewrite obj_of_fresh, Nat.eqb_refl. reflexivity. }
  unfold mbind at 1, getobj in E. rewrite Ho0 in E.
  assert (Hput : forall o1 o2, put (length (heap w)) o2 (fresh_world w CMetric o1) = (Ok tt, fresh_world w CMetric o2)).
  { intros o1 o2. unfold put, fresh_world. cbn [heap insts].
    rewrite nth_error_app2 by lia. rewrite Nat.sub_diag. cbn [nth_error].
    f_equal. f_equal. clear. induction (heap w) as [|y l IH]; cbn; [reflexivity|]. rewrite IH. reflexivity. }
  unfold mbind at 1 in E. unfold w0 in E. rewrite Hput in E.
  cbn [o_coords set_metric o0 mopt] in E. unfold mbind at 1, mret at 1 in E.
  cbn [o_comps set_metric o0 dget] in E. rewrite Nat.eqb_refl in E.
  cbn [mopt] in E. unfold mbind at 1, mret at 1 in E. cbn [o_indices set_metric o0 dget] in E. rewrite cfg_eqb_refl in E.
  cbn [mopt] in E. unfold mbind at 1, mret at 1 in E. unfold mbind at 1 in E. rewrite Hput in E.
  destruct indices as [| | |l| | | | |];
    try (eexists; eexists; split; [exact E|]; split; [exact Hr|discriminate]).
  assert (H2 : rank a = 2).
  { destruct Hr as [Hr _]. cbn [default_indices] in Hr. rewrite Hr. unfold validate_metric in Ev. rewrite Ha' in Ev.
    destruct (validate_object _ _ _ _) as [[]|]; [|discriminate]. cbn [rbind] in Ev. match type of Ev with rbind ?m _ = _ => destruct m; [|discriminate] end. cbn [rbind] in Ev.
    destruct (_ || _); [discriminate|]. destruct (cfg_eqb l [1; -1]%Z || cfg_eqb l [-1; 1]%Z); [discriminate|].
    destruct (Nat.eqb_spec (length l) 2); [assumption|discriminate]. }
  unfold mbind at 1, mlift at 1 in E. destruct (ainv a) as [gi|e] eqn:Ei.
  - unfold mbind at 1 in E. rewrite Hput in E. unfold mret in E. eexists; eexists; split; [exact E|]; split; [exact Hr|].
    intros m Em. injection Em as <-. split; [reflexivity|exact H2].
  - eexists; eexists; split; [exact E|]; split; [exact Hr|discriminate].
Qed.

Lemma cls_length w w' : (forall i, cls_of w' i = cls_of w i) -> length (heap w) <= length (heap w').
Proof.
  intros H. apply Nat.le_ngt. intros L. specialize (H (length (heap w'))). unfold cls_of in H. rewrite (proj2 (nth_error_None (heap w') _)) in H by lia.
  destruct (nth_error (heap w) (length (heap w'))) eqn:E; [discriminate|]. apply nth_error_None in E. lia.
Qed.

Lemma run_op_grown w (o : op) : typed w -> grown w (snd (run_op o w)).
Proof.
  intros Hty. assert (S0 := grown_refl w).
  assert (Tn : forall k n c m x i s, k <> CCoordinates -> grown w (snd ((new_tensor_as k n c m x i s ;; mret tt) w))).
  { intros k n c m x i s Nk. unfold mbind. destruct (new_tensor_spec k n c m x i s w) as [[e E]|(m' & c' & a & y & Hm & Hmc & Hc & Hcc & Ha & Hx & Hv & E)]; rewrite E; [exact S0|].
    cbn [snd mret]. apply fresh_grown; [|intros; contradiction]. apply base_object in Hv. exact (object_ranked _ _ _ _ _ Ha Hv). }
  destruct o as [n c i s tr|n c x i s|n c m x i s|n c m x i s|n c m x i s|n c m x i s|self c r|t c i|t i|t c|t n|t n|t|t silent]; cbn [run_op];
    try (apply Tn; discriminate).
  - unfold mbind. destruct (new_coordinates_spec n c i s tr w) as [[e E]|(a & Ha & Hr & E)].
    { rewrite E; exact S0. }
    assert (Hv : validate_object n c s i = Ok tt).
    { unfold new_coordinates, mbind, mlift in E. destruct (validate_coordinates n c i s tr) as [u|e] eqn:Ev; [|discriminate]. unfold validate_coordinates in Ev.
      destruct (validate_object n c s i) as [[]|]; [reflexivity|discriminate]. }
    rewrite E. cbn [snd mret]. apply fresh_grown; [exact (object_ranked _ _ _ _ _ Ha Hv)|intros _; exact Hr].
  - unfold mbind. destruct (new_metric_rank n c x i s w) as [[e E]|(o & r & E & W & _)]; rewrite E; [exact S0|].
    assert (S1 : grown w (fresh_world w CMetric o)) by (apply fresh_grown; [exact W|discriminate]).
    destruct r; exact S1.
  - unfold add_coord_transformation. destruct c; try exact S0.
    unfold mbind at 1, isinstance. destruct (negb _); [exact S0|]. destruct (self =? i); [exact S0|].
    unfold mbind, getobj. destruct (obj_of w self) as [o|] eqn:Eo; [|exact S0].
    destruct r; [destruct (forallb _ _)|destruct (dmem _ _ _)]; try exact S0; (apply (put_grown _ _ _ _ Eo); split; [reflexivity|]; split; auto).
  - unfold mbind. pose proof (get_comp_keep w Hty t c i w (kept_refl w)) as H. destruct (get_components t c i w) as [[r|e] w'] eqn:E; apply kept_grown, H.
  - unfold change_default_indices. unfold mbind at 1, getobj. destruct (obj_of w t) as [o|] eqn:Eo; [|exact S0].
    unfold mbind at 1, mlift. destruct (validate_indices (VTuple i) None _) as [u|] eqn:Ev; [|exact S0].
    apply validate_inv in Ev. destruct Ev as (V & _ & Vl). specialize (Vl _ eq_refl).
    destruct (o_coords o) as [c|] eqn:Ec; [|exact S0]. unfold mbind at 1, mopt, mret. unfold mbind at 1.
    pose proof (check_rep_keep w Hty t c i w (kept_refl w)) as H. destruct (check_representation t c i w) as [[b|e] w'] eqn:Eb; [|apply kept_grown, H].
    destruct b; [|apply kept_grown, H].
    unfold mbind, getobj. destruct (obj_of w' t) as [o'|] eqn:Eo'; [|apply kept_grown, H].
    apply (grown_trans w w'); [apply kept_grown, H|]. apply (put_grown _ _ _ _ Eo'). destruct (kept_home _ _ _ _ _ H Eo Eo') as [(_ & _ & Hi & _) _].
    split; [reflexivity|]. cbn [set_indices o_indices]. split; [congruence|auto].
  - unfold change_default_coords. unfold mbind at 1, isinstance. destruct (cls_of w c) as [k|] eqn:Ek; [|exact S0].
    destruct (cls_eqb CCoordinates k) eqn:Ec; cbn [negb]; [|exact S0].
    unfold mbind at 1, getobj. destruct (obj_of w t) as [o|] eqn:Eo; [|exact S0].
    destruct (o_coords o) as [c0|]; [|exact S0]. cbn [mopt]. unfold mbind at 1, mret at 1. destruct (c0 =? c); [exact S0|].
    unfold mbind at 1. destruct (obj_of w c0) as [co|]; [|exact S0]. destruct (negb _).
    { unfold mbind. destruct (obj_of w c); exact S0. }
    unfold mbind at 1.
    pose proof (check_rep_keep w Hty t c (o_indices o) w (kept_refl w)) as H. destruct (check_representation t c (o_indices o) w) as [[b|e] w'] eqn:Eb; [|apply kept_grown, H].
    assert (H2 : hoare (kept w) (if b then mret tt else transform_coordinates t c (o_indices o)) (fun _ => kept w) (kept w)).
    { destruct b; [apply h_ret; auto|apply (transform_coords_keep w Hty)]. }
    unfold mbind at 1. specialize (H2 w' H). destruct ((if b then mret tt else transform_coordinates t c (o_indices o)) w') as [[[]|e] w2] eqn:E2; [|apply kept_grown, H2].
    unfold mbind. destruct (obj_of w2 t) as [o2|] eqn:Eo2; [|apply kept_grown, H2].
    apply (grown_trans w w2); [apply kept_grown, H2|]. apply (put_grown _ _ _ _ Eo2). split; [reflexivity|]. split; auto.
  - unfold change_name. destruct n; try exact S0. unfold mbind, getobj. destruct (obj_of w t) as [o|] eqn:Eo; [|exact S0].
    apply (put_grown _ _ _ _ Eo). split; [reflexivity|]. split; auto.
  - unfold change_symbol. destruct n; try exact S0; (unfold mbind, getobj; destruct (obj_of w t) as [o|] eqn:Eo; [|exact S0];
      apply (put_grown _ _ _ _ Eo); split; [reflexivity|]; split; auto).
  - unfold simplify_tensor. unfold mbind at 1, getobj. destruct (obj_of w t) as [o|] eqn:Eo; [|exact S0].
    destruct (o_coords o) as [c|]; [|exact S0]. unfold mbind at 1, mopt, mret at 1. unfold mbind at 1.
    pose proof (coord_components_same c w) as E. destruct (coord_components c w) as [[x|e] w']; cbn in E; subst w'; [|exact S0].
    destruct (o_rank o =? 0); [destruct (flat_map snd (o_comps o)); exact S0|].
    apply (put_grown _ _ _ _ Eo). split; [reflexivity|]. split; auto.
  - destruct (delete_carried w t silent) as [Hc _]. split; [|split; [intros i _; apply Hc|]].
    + apply cls_length. intros i. apply Hc.
    + intros i o Hi. apply delete_sub in Hi. left. exists o. split; [exact Hi|apply same_rank_refl].
Qed.

(** The ranks of all objects. *)
Definition ranks (w : world) : Prop := forall i o, obj_of w i = Some o -> well_ranked o /\ (cls_of w i = Some CCoordinates -> o_rank o = 1).
Lemma grown_ranks w w' : grown w w' -> ranks w -> ranks w'.
Proof.
  intros (Hl & Hc & G) IH i o Ho. destruct (G i o Ho) as [(o0 & E & R1 & R2 & R3)|(_ & W & K)]; [|auto].
  destruct (IH i o0 E) as [[W1 W2] K]. split; [split; [congruence|auto]|]. rewrite R1, Hc by exact (obj_lt _ _ _ E). exact K.
Qed.
Theorem reachable_ranked w i o : reachable w -> obj_of w i = Some o -> well_ranked o /\ (cls_of w i = Some CCoordinates -> o_rank o = 1).
Proof.
  intros H. revert i o. induction H as [|w p Hr IH HL]; intros i o Ho.
  - unfold obj_of, empty_world in Ho; destruct i; discriminate.
  - destruct (run_op_grown w p (proj1 (reachable_sound w Hr))) as (Hl & Hc & G). destruct (G i o Ho) as [(o0 & E & R1 & R2 & R3)|(_ & W & K)]; [|auto].
    destruct (IH i o0 E) as [[W1 W2] K]. split; [split; [congruence|auto]|]. rewrite R1, Hc by exact (obj_lt _ _ _ E). exact K.
Qed.

Theorem counted w i o : reachable w -> obj_of w i = Some o -> o_rank o = length (o_indices o) /\ Forall (fun z => z = 1 \/ z = -1)%Z (o_indices o).
Proof.
  intros R H. destruct (reachable_ranked w i o R H) as [[H1 H2] _]. split; [exact H1|]. eapply Forall_impl; [|exact H2]. intros z Hz. cbn in Hz |- *. tauto.
Qed.

Lemma later_reachable w w' : reachable w -> later w w' -> reachable w'.
Proof. intros R H. induction H as [|w' p H IH HL]; [exact R|]. apply reach_step; assumption. Qed.
Lemma later_grown w w' : reachable w -> later w w' -> grown w w'.
Proof.
  intros R H. induction H as [|w' p H IH HL]; [apply grown_refl|]. apply (grown_trans w w'); [exact IH|].
  apply run_op_grown. exact (proj1 (reachable_sound w' (later_reachable _ _ R H))).
Qed.
Theorem rank_constant w w' i o o' : reachable w -> later w w' -> obj_of w i = Some o -> obj_of w' i = Some o' -> o_rank o' = o_rank o.
Proof.
  intros R H Ho Ho'. destruct (later_grown w w' R H) as (_ & _ & G). destruct (G i o' Ho') as [(o1 & E & S & _)|(Hl & _)]; [congruence|].
  apply obj_lt in Ho. lia.
Qed.
Theorem metric_rank name comps coords indices symbol w m w' : new_metric name comps coords indices symbol w = (Ok m, w') -> exists o, obj_of w' m = Some o /\ o_rank o = 2.
Proof.
  intros E. destruct (new_metric_rank name comps coords indices symbol w) as [[e E']|(o & r & E' & _ & H)]; rewrite E' in E; [discriminate|].
  injection E as -> <-. destruct (H m eq_refl) as [-> H2]. exists o. split; [|exact H2]. rewrite obj_of_fresh, Nat.eqb_refl. reflexivity.
Qed.
End Rank.
