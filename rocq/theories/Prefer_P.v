(** Changes of the defaults of a tensor are requests for its components. *)
From Verif Require Import Alg Alg_P Arr Arr_P Spec UtilsM Arr2_P TensorM WorldM SpecWorld World_P Registry_P History_P CalcM SpecCalc Keep_P Calc_P SpecPrefer.
Local Open Scope nat_scope.

Section Prefer.
Context {A : AlgOps}.

Lemma valid_of_check l n : validate_indices (VTuple l) None (Some n) = Ok tt -> valid_cfg l /\ length l = n.
Proof.
  unfold validate_indices. destruct (forallb _ l) eqn:E; cbn [negb]; [|discriminate].
  destruct (Nat.eqb_spec n (length l)) as [->|N]; cbn [negb]; [|discriminate]. intros _. split; [|reflexivity].
  apply Forall_forall. intros z Hz. rewrite forallb_forall in E. specialize (E z Hz).
  apply orb_prop in E as [E|E]; apply Z.eqb_eq in E; auto.
Qed.

Lemma check_home w t o c i b w1 : obj_of w t = Some o -> dget Nat.eqb c (o_comps o) <> None ->
  check_representation t c i w = (Ok b, w1) -> b = true.
Proof.
  intros Ho Hd. unfold check_representation. destruct (cls_of w t) as [[]|]; try discriminate.
  1: { unfold metric_check. rewrite (bind_ok _ _ o w w) by (apply getobj_ok, Ho). unfold dmem. destruct (dget Nat.eqb c (o_comps o)); [|congruence]. intros E. now injection E. }
  all: unfold tensor_check; rewrite (bind_ok _ _ o w w) by (apply getobj_ok, Ho); destruct (dget Nat.eqb c (o_comps o)) as [d|]; [|congruence];
    destruct (dmem cfg_eqb i d); [intros E; now injection E|]; intros E; apply bind_inv in E as (u & w2 & _ & E); now injection E.
Qed.

Lemma lookup_inv t c i a w w' : lookup t c i w = (Ok a, w') -> w' = w /\ exists o d, obj_of w t = Some o /\ dget Nat.eqb c (o_comps o) = Some d /\ dget cfg_eqb i d = Some a.
Proof.
  unfold lookup, mbind, getobj. destruct (obj_of w t) as [o|]; [|discriminate]. destruct (dget Nat.eqb c (o_comps o)) as [d|] eqn:Ed; [|discriminate].
  cbn [mopt mret]. destruct (dget cfg_eqb i d) as [x|] eqn:Ex; [|discriminate]. intros E. injection E as -> <-. split; [reflexivity|]. exists o, d. auto.
Qed.

(** After the attributes are set. *)
Lemma defaults_set w1 t k o1 c i d a (f : obj -> obj) :
  cls_of w1 t = Some k -> k <> CCoordinates -> obj_of w1 t = Some o1 -> cls_of w1 c = Some CCoordinates ->
  dget Nat.eqb c (o_comps o1) = Some d -> dget cfg_eqb i d = Some a -> valid_cfg i ->
  f o1 = mkObj (o_name o1) (o_symbol o1) i (o_rank o1) (Some c) (o_metric o1) (o_comps o1) (o_syms o1) (o_trans o1) (o_jacs o1) ->
  exists w', put t (f o1) w1 = (Ok tt, w') /\ other_defaults w1 w' t c i /\ get_components t None None w' = (Ok a, w').
Proof.
  intros Hk Nk Ho Hc Hd Ha V Ef. destruct (put_spec w1 t o1 (f o1) Ho) as (w' & E & Hi & _ & Hcl & Hj). exists w'. split; [exact E|].
  assert (Ho' : obj_of w' t = Some (f o1)) by (rewrite Hj, Nat.eqb_refl; reflexivity). split.
  - split; [exact Hi|]. split; [exact Hcl|]. split; [intros j Nj; rewrite Hj; destruct (Nat.eqb_spec t j); congruence|].
    exists o1, (f o1). split; [exact Ho|]. split; [exact Ho'|]. rewrite Ef. repeat split.
  - assert (G : get_components t None None w' = get_components t (Some c) (Some i) w').
    { unfold get_components. rewrite !(bind_ok _ _ (f o1) w' w') by (apply getobj_ok, Ho'). rewrite Ef. reflexivity. }
    rewrite G. apply (get_stored w' t k (f o1) c i d a); [rewrite Hcl; exact Hk|exact Nk|exact Ho'|rewrite Hcl; exact Hc| |exact Ha|exact V|]; rewrite Ef; [exact Hd|reflexivity].
Qed.

Lemma kept_home w w1 t o o1 : kept w w1 -> obj_of w t = Some o -> obj_of w1 t = Some o1 -> same_attrs o o1 /\ cls_of w1 t = cls_of w t.
Proof. intros H Ho Ho1. destruct (kept_obj _ _ _ _ H Ho) as (o' & Ho' & S & _). assert (o' = o1) by congruence. subst. split; [exact S|apply H]. Qed.

Lemma has_class w t o : obj_of w t = Some o -> exists k, cls_of w t = Some k.
Proof. intros H. destruct (obj_of_cls _ _ _ H) as [k Hk]. exists k. unfold cls_of. rewrite Hk. reflexivity. Qed.

Lemma indices_ok w t o c i a w1 : typed w -> at_home w t o c -> get_components t None (Some i) w = (Ok a, w1) ->
  exists w', change_default_indices t i w = (Ok tt, w') /\ other_defaults w1 w' t c i /\ get_components t None None w' = (Ok a, w').
Proof.
  intros Hty (Ho & Nt & Hc & Hd) E. assert (Hk := get_components_kept _ _ _ _ _ _ Hty E).
  assert (Hcc : cls_of w c = Some CCoordinates) by (apply (Hty t o Ho), Hc).
  unfold get_components in E. rewrite (bind_ok _ _ o w w) in E by (apply getobj_ok, Ho). rewrite Hc in E. rewrite (bind_ok _ _ c w w) in E by reflexivity.
  unfold get_representation in E. rewrite (bind_ok _ _ true w w) in E by (unfold isinstance; rewrite Hcc; reflexivity). cbn [negb] in E.
  rewrite (bind_ok _ _ o w w) in E by (apply getobj_ok, Ho).
  apply bind_inv in E as ([] & w2 & Ev & E). assert (Ev' : validate_indices (VTuple i) None (Some (length (o_indices o))) = Ok tt /\ w = w2) by (unfold mlift in Ev; split; congruence). clear Ev. destruct Ev' as [Ev <-].
  apply bind_inv in E as (b & w3 & Eb & E). assert (b = true) by (eapply check_home; eauto). subst b.
  rewrite (bind_ok _ _ tt w3 w3) in E by reflexivity.
  destruct (lookup_inv _ _ _ _ _ _ E) as (<- & o1 & d & Ho1 & Hd1 & Ha).
  destruct (kept_home _ _ _ _ _ Hk Ho Ho1) as [S Ht]. destruct (has_class _ _ _ Ho1) as [k Hkk].
  destruct (valid_of_check _ _ Ev) as [V Hl].
  destruct (defaults_set w1 t k o1 c i d a (set_indices i)) as (w' & Ep & Hod & Hg); auto.
  { congruence. } { replace (cls_of w1 c) with (cls_of w c); [exact Hcc|symmetry; apply Hk]. }
  { unfold set_indices. f_equal. destruct S as (_ & _ & _ & _ & S & _). congruence. }
  exists w'. split; [|split; [exact Hod|exact Hg]].
  unfold change_default_indices. rewrite (bind_ok _ _ o w w) by (apply getobj_ok, Ho). rewrite (bind_ok _ _ tt w w) by (apply mlift_ok, Ev).
  rewrite Hc. rewrite (bind_ok _ _ c w w) by reflexivity. rewrite (bind_ok _ _ true w w1) by exact Eb. rewrite (bind_ok _ _ o1 w1 w1) by (apply getobj_ok, Ho1). exact Ep.
Qed.

(** A representation that was checked or computed is there. *)
Definition there (t c : oid) (i : list Z) {X} (m : M X) : Prop := forall w x w', m w = (Ok x, w') -> exists a, lookup t c i w' = (Ok a, w').
Lemma there_bind {X Y} t c i (m : M X) (k : X -> M Y) : (forall x, there t c i (k x)) -> there t c i (mbind m k).
Proof. intros H w y w' E. apply bind_inv in E as (x & w1 & _ & E). exact (H x w1 y w' E). Qed.
Lemma there_store t c i a : there t c i (store t c i a).
Proof.
  intros w x w' E. unfold store in E. apply bind_inv in E as (o & w1 & E1 & E). unfold getobj in E1. destruct (obj_of w t) as [o0|] eqn:Ho; [|discriminate]. injection E1 as -> <-. cbv zeta in E.
  match type of E with put t ?q w = _ => destruct (put_spec w t o q Ho) as (w2 & E2 & _ & _ & _ & Hj); rewrite E2 in E; injection E as _ <-; exists a;
    unfold lookup; rewrite (bind_ok _ _ q w2 w2) by (apply getobj_ok; rewrite Hj, Nat.eqb_refl; reflexivity) end.
  cbn [o_comps set_comps]. rewrite dget_dset_same. unfold mopt at 1. unfold mbind, mret. rewrite cget_set_same. reflexivity.
Qed.
Ltac there := repeat (first [solve [apply there_store]|apply there_bind; let x := fresh in intros x; cbv beta; lazymatch type of x with prod (prod _ _) _ => destruct x as [[? ?] ?] | prod _ _ => destruct x as [? ?] | _ => idtac end]).
Lemma there_raise_lower t c i : there t c i (w_raise_lower t c i).
Proof. unfold w_raise_lower. there. Qed.
Lemma there_base t c i : there t c i (base_transform t c i).
Proof. unfold base_transform. there. Qed.
Lemma there_chr t c i : there t c i (w_christoffel_transform t c i).
Proof. unfold w_christoffel_transform. there. Qed.
Lemma there_curve f t c i : there t c i (w_curve_transform f t c i).
Proof. unfold w_curve_transform. there. Qed.
Lemma there_tensor t c i : there t c i (tensor_transform t c i).
Proof. unfold tensor_transform. do 4 (apply there_bind; intros). apply there_base. Qed.

Lemma check_there w t c i w' : cls_of w t <> Some CMetric -> check_representation t c i w = (Ok true, w') -> exists a, lookup t c i w' = (Ok a, w').
Proof.
  intros Nm. unfold check_representation. destruct (cls_of w t) as [[]|]; try discriminate; try congruence.
  all: unfold tensor_check; intros E; apply bind_inv in E as (o & w1 & E1 & E); unfold getobj in E1; destruct (obj_of w t) as [o0|] eqn:Ho; [|discriminate]; injection E1 as -> <-;
    destruct (dget Nat.eqb c (o_comps o)) as [d|] eqn:Ed; [|discriminate]; destruct (dmem cfg_eqb i d) eqn:Em;
    [injection E as <-; unfold dmem in Em; destruct (dget cfg_eqb i d) as [a|] eqn:Ea; [|discriminate]; exists a; unfold lookup;
     rewrite (bind_ok _ _ o w w) by (apply getobj_ok, Ho); rewrite Ed; rewrite (bind_ok _ _ d w w) by reflexivity; rewrite Ea; reflexivity
    |apply bind_inv in E as (u & w2 & E2 & E); injection E as <-; exact (there_raise_lower t c i _ _ _ E2)].
Qed.
Lemma transform_there w t c i w' : cls_of w t <> Some CMetric -> transform_coordinates t c i w = (Ok tt, w') -> exists a, lookup t c i w' = (Ok a, w').
Proof.
  intros Nm. unfold transform_coordinates. destruct (cls_of w t) as [[]|]; try discriminate; try congruence; intros E;
    first [exact (there_tensor t c i _ _ _ E)|exact (there_chr t c i _ _ _ E)|exact (there_curve _ t c i _ _ _ E)].
Qed.

Lemma indices_err w t o c i e w1 : typed w -> at_home w t o c -> cls_of w t <> Some CMetric -> get_components t None (Some i) w = (Err e, w1) ->
  change_default_indices t i w = (Err e, w1).
Proof.
  intros Hty (Ho & Nt & Hc & Hd) Nm E. assert (Hcc : cls_of w c = Some CCoordinates) by (apply (Hty t o Ho), Hc).
  unfold get_components in E. rewrite (bind_ok _ _ o w w) in E by (apply getobj_ok, Ho). rewrite Hc in E. rewrite (bind_ok _ _ c w w) in E by reflexivity.
  unfold get_representation in E. rewrite (bind_ok _ _ true w w) in E by (unfold isinstance; rewrite Hcc; reflexivity). cbn [negb] in E.
  rewrite (bind_ok _ _ o w w) in E by (apply getobj_ok, Ho).
  unfold change_default_indices. rewrite (bind_ok _ _ o w w) by (apply getobj_ok, Ho). unfold mbind at 1 in E. unfold mbind at 1.
  destruct (mlift (validate_indices (VTuple i) None (Some (length (o_indices o)))) w) as [[[]|e'] w2] eqn:Ev; [|congruence].
  assert (w2 = w) by (unfold mlift in Ev; congruence). subst w2. rewrite Hc. rewrite (bind_ok _ _ c w w) by reflexivity.
  unfold mbind at 1 in E. unfold mbind at 1. destruct (check_representation t c i w) as [[b|e'] w3] eqn:Eb; [|congruence].
  assert (b = true) by (eapply check_home; eauto). subst b. rewrite (bind_ok _ _ tt w3 w3) in E by reflexivity.
  destruct (check_there _ _ _ _ _ Nm Eb) as [a Ea]. rewrite Ea in E. discriminate.
Qed.

Lemma rules_member w c c' : has_rules w c c' -> exists co, obj_of w c = Some co /\ dmem Nat.eqb c' (o_trans co) = true.
Proof. intros (co & H & N). exists co. split; [exact H|]. unfold dmem. destruct (dget Nat.eqb c' (o_trans co)); [reflexivity|congruence]. Qed.

Lemma coords_ok w t o c c' a w1 : typed w -> at_home w t o c -> cls_of w c' = Some CCoordinates -> c <> c' -> has_rules w c c' ->
  get_components t (Some c') None w = (Ok a, w1) ->
  exists w', change_default_coords t c' w = (Ok tt, w') /\ other_defaults w1 w' t c' (o_indices o) /\ get_components t None None w' = (Ok a, w').
Proof.
  intros Hty (Ho & Nt & Hc & Hd) Hcc Nc Hr E. assert (Hk := get_components_kept _ _ _ _ _ _ Hty E).
  destruct (rules_member _ _ _ Hr) as (co & Hco & Hm).
  unfold get_components in E. rewrite (bind_ok _ _ o w w) in E by (apply getobj_ok, Ho). rewrite (bind_ok _ _ c' w w) in E by reflexivity.
  unfold get_representation in E. rewrite (bind_ok _ _ true w w) in E by (unfold isinstance; rewrite Hcc; reflexivity). cbn [negb] in E.
  rewrite (bind_ok _ _ o w w) in E by (apply getobj_ok, Ho).
  apply bind_inv in E as ([] & w2 & Ev & E). assert (Ev' : validate_indices (VTuple (o_indices o)) None (Some (length (o_indices o))) = Ok tt /\ w = w2) by (unfold mlift in Ev; split; congruence). clear Ev. destruct Ev' as [Ev <-].
  apply bind_inv in E as (b & w3 & Eb & E). apply bind_inv in E as ([] & w4 & Et & E).
  destruct (lookup_inv _ _ _ _ _ _ E) as (<- & o1 & d & Ho1 & Hd1 & Ha).
  destruct (kept_home _ _ _ _ _ Hk Ho Ho1) as [S Ht]. destruct (has_class _ _ _ Ho1) as [k Hkk].
  destruct (valid_of_check _ _ Ev) as [V Hl].
  destruct (defaults_set w1 t k o1 c' (o_indices o) d a (set_coords (Some c'))) as (w' & Ep & Hod & Hg); auto.
  { congruence. } { replace (cls_of w1 c') with (cls_of w c'); [exact Hcc|symmetry; apply Hk]. }
  { unfold set_coords. f_equal. destruct S as (_ & _ & S & _). congruence. }
  exists w'. split; [|split; [exact Hod|exact Hg]].
  unfold change_default_coords. rewrite (bind_ok _ _ true w w) by (unfold isinstance; rewrite Hcc; reflexivity). cbn [negb].
  rewrite (bind_ok _ _ o w w) by (apply getobj_ok, Ho). rewrite Hc. rewrite (bind_ok _ _ c w w) by reflexivity.
  destruct (Nat.eqb_spec c c') as [|_]; [congruence|]. rewrite (bind_ok _ _ co w w) by (apply getobj_ok, Hco). rewrite Hm. cbn [negb].
  rewrite (bind_ok _ _ b w w3) by exact Eb. rewrite (bind_ok _ _ tt w3 w1) by exact Et. rewrite (bind_ok _ _ o1 w1 w1) by (apply getobj_ok, Ho1). exact Ep.
Qed.

Lemma check_class w t c i b w3 : typed w -> check_representation t c i w = (Ok b, w3) -> cls_of w3 t = cls_of w t.
Proof. intros Hty E. assert (H := check_rep_keep w Hty t c i w (kept_refl w)). rewrite E in H. apply H. Qed.

Lemma coords_err w t o c c' e w1 : typed w -> at_home w t o c -> cls_of w t <> Some CMetric -> valid_cfg (o_indices o) -> cls_of w c' = Some CCoordinates -> c <> c' -> has_rules w c c' ->
  get_components t (Some c') None w = (Err e, w1) -> change_default_coords t c' w = (Err e, w1).
Proof.
  intros Hty (Ho & Nt & Hc & Hd) Nm V Hcc Nc Hr E. destruct (rules_member _ _ _ Hr) as (co & Hco & Hm).
  unfold get_components in E. rewrite (bind_ok _ _ o w w) in E by (apply getobj_ok, Ho). rewrite (bind_ok _ _ c' w w) in E by reflexivity.
  unfold get_representation in E. rewrite (bind_ok _ _ true w w) in E by (unfold isinstance; rewrite Hcc; reflexivity). cbn [negb] in E.
  rewrite (bind_ok _ _ o w w) in E by (apply getobj_ok, Ho).
  rewrite (bind_ok _ _ tt w w) in E.
  2:{ apply mlift_ok, validate_ok; [exact V|discriminate|intros q Hq; injection Hq as <-; auto]. }
  unfold change_default_coords. rewrite (bind_ok _ _ true w w) by (unfold isinstance; rewrite Hcc; reflexivity). cbn [negb].
  rewrite (bind_ok _ _ o w w) by (apply getobj_ok, Ho). rewrite Hc. rewrite (bind_ok _ _ c w w) by reflexivity.
  destruct (Nat.eqb_spec c c') as [|_]; [congruence|]. rewrite (bind_ok _ _ co w w) by (apply getobj_ok, Hco). rewrite Hm. cbn [negb].
  unfold mbind at 1 in E. unfold mbind at 1. destruct (check_representation t c' (o_indices o) w) as [[b|e'] w3] eqn:Eb; [|congruence].
  unfold mbind at 1 in E. unfold mbind at 1. destruct b.
  - cbn [mret] in *. destruct (check_there _ _ _ _ _ Nm Eb) as [a Ea]. rewrite Ea in E. discriminate.
  - destruct (transform_coordinates t c' (o_indices o) w3) as [[[]|e'] w4] eqn:Et; [|congruence].
    destruct (transform_there _ _ _ _ _ (eq_ind_r (fun x => x <> _) Nm (check_class _ _ _ _ _ _ Hty Eb)) Et) as [a Ea]. rewrite Ea in E. discriminate.
Qed.

Lemma coords_same w t o c : typed w -> at_home w t o c -> change_default_coords t c w = (Ok tt, w).
Proof.
  intros Hty (Ho & Nt & Hc & Hd). assert (Hcc : cls_of w c = Some CCoordinates) by (apply (Hty t o Ho), Hc).
  unfold change_default_coords. rewrite (bind_ok _ _ true w w) by (unfold isinstance; rewrite Hcc; reflexivity). cbn [negb].
  rewrite (bind_ok _ _ o w w) by (apply getobj_ok, Ho). rewrite Hc. rewrite (bind_ok _ _ c w w) by reflexivity. rewrite Nat.eqb_refl. reflexivity.
Qed.

Lemma coords_refused w t o c c' oc' : at_home w t o c -> obj_of w c <> None -> cls_of w c' = Some CCoordinates -> obj_of w c' = Some oc' -> c <> c' -> ~ has_rules w c c' ->
  change_default_coords t c' w = (Err ETransformation, w).
Proof.
  intros (Ho & Nt & Hc & Hd) Hco Hcc Hoc Nc Hr.
  unfold change_default_coords. rewrite (bind_ok _ _ true w w) by (unfold isinstance; rewrite Hcc; reflexivity). cbn [negb].
  rewrite (bind_ok _ _ o w w) by (apply getobj_ok, Ho). rewrite Hc. rewrite (bind_ok _ _ c w w) by reflexivity.
  destruct (Nat.eqb_spec c c') as [|_]; [congruence|]. destruct (obj_of w c) as [co|] eqn:Eo; [|congruence]. rewrite (bind_ok _ _ co w w) by (apply getobj_ok, Eo).
  unfold dmem. destruct (dget Nat.eqb c' (o_trans co)) as [R|] eqn:Ed; [exfalso; apply Hr; exists co; split; [exact Eo|congruence]|]. cbn [negb].
  rewrite (bind_ok _ _ oc' w w) by (apply getobj_ok, Hoc). reflexivity.
Qed.
End Prefer.
