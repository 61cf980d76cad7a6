(** In every reachable session the metrics are metrics and the coordinates are coordinates. *)
From Verif Require Import Alg Alg_P Arr Arr_P Spec UtilsM Arr2_P TensorM WorldM SpecWorld World_P Registry_P History_P CalcM SpecCalc Keep_P Calc_P.
Local Open Scope nat_scope.

Section Typed.
Context {A : AlgOps}.

Definition sound (w : world) : Prop := typed w /\ complete w.

(** Nothing that is looked at changes. *)
Definition carried (w w' : world) : Prop :=
  (forall i, cls_of w' i = cls_of w i) /\
  forall i o', obj_of w' i = Some o' -> exists o, obj_of w i = Some o /\ o_coords o' = o_coords o /\ o_metric o' = o_metric o.

Lemma carried_refl w : carried w w.
Proof. split; [reflexivity|]. intros i o H. exists o. auto. Qed.

Lemma carried_sound w w' : carried w w' -> sound w -> sound w'.
Proof.
  intros [Hc Ho] [T K]. split; intros i o' Hi; destruct (Ho i o' Hi) as (o & H & -> & ->).
  - destruct (T i o H) as [T1 T2]. split; intros x X; rewrite Hc; auto.
  - rewrite Hc. apply (K i o H).
Qed.

Lemma kept_carried w w' : kept w w' -> carried w w'.
Proof.
  intros H. split; [apply H|]. intros i o' Ho'. destruct (kept_obj_inv _ _ _ _ H Ho') as (o & Ho & Hs & _).
  exists o. destruct Hs as (_ & _ & _ & _ & Ec & Em & _). auto.
Qed.

Lemma put_carried w i o o' : obj_of w i = Some o -> o_coords o' = o_coords o -> o_metric o' = o_metric o -> carried w (snd (put i o' w)).
Proof.
  intros Ho Ec Em. destruct (put_spec w i o o' Ho) as (w' & E & _ & _ & Hc & Hj). rewrite E. split; [exact Hc|].
  intros j oj. cbn [snd]. rewrite Hj. destruct (Nat.eqb_spec i j) as [<-|]; [|intros H; exists oj; auto].
  intros H. injection H as <-. exists o. auto.
Qed.

Lemma fresh_sound w k o : sound w ->
  (forall m, o_metric o = Some m -> (m = length (heap w) /\ k = CMetric) \/ cls_of w m = Some CMetric) ->
  (forall c, o_coords o = Some c -> cls_of w c = Some CCoordinates) ->
  (k <> CCoordinates -> o_metric o <> None /\ o_coords o <> None) -> sound (fresh_world w k o).
Proof.
  intros [T K] Hm Hc Hk. split; intros i oi; rewrite obj_of_fresh; destruct (Nat.eqb_spec i (length (heap w))) as [->|N].
  - intros E. injection E as <-. split; [intros m Em|intros c Ec; apply cls_fresh_old, Hc, Ec].
    destruct (Hm m Em) as [[-> ->]|H]; [apply cls_fresh_new|apply cls_fresh_old, H].
  - intros H. destruct (T i oi H) as [T1 T2]. split; intros x X; apply cls_fresh_old; auto.
  - intros E. injection E as <-. rewrite cls_fresh_new. intros Nk. apply Hk. congruence.
  - intros H. rewrite cls_of_fresh by exact N. apply (K i oi H).
Qed.

Lemma delete_carried w t s : carried w (snd (delete t s w)).
Proof.
  unfold delete; cbv zeta. match goal with |- context [find ?f ?l] => destruct (find f l) as [j|] end.
  { destruct (obj_of w j), (obj_of w t); apply carried_refl. }
  assert (R : forall l, carried w (mkW (heap w) l)) by (intros l; split; [reflexivity|intros i o H; exists o; auto]).
  destruct (obj_of w t) eqn:Et; [|destruct s; [destruct (index_of Nat.eqb t (insts w)); [apply R|apply carried_refl]|apply carried_refl]].
  destruct (obj_of_cls _ _ _ Et) as [c Hc]. rewrite Hc.
  assert (D : forall l, carried w (mkW (set_nth t (c, None) (heap w)) l)).
  { intros l. assert (Hlt : (t <? length (heap w)) = true) by (apply Nat.ltb_lt; eapply obj_of_lt, Et). split; intros i.
    - unfold cls_of. cbn [heap]. rewrite nth_set_nth, Hlt, andb_true_r. destruct (Nat.eqb_spec t i) as [<-|N]; [rewrite Hc; reflexivity|reflexivity].
    - intros o'. unfold obj_of at 1. cbn [heap]. rewrite nth_set_nth, Hlt, andb_true_r. destruct (Nat.eqb_spec t i) as [<-|N]; [discriminate|].
      intros H. exists o'. auto. }
  destruct (index_of Nat.eqb t (insts w)); apply D.
Qed.

Lemma coord_components_same c w : snd (coord_components c w) = w.
Proof.
  unfold coord_components, mbind, getobj. destruct (obj_of w c) as [o|]; [|reflexivity].
  destruct (dget Nat.eqb c (o_comps o)) as [d|]; [|reflexivity]. cbn. destruct (dget cfg_eqb [1%Z] d); reflexivity.
Qed.

Lemma simplify_carried w t : carried w (snd (simplify_tensor t w)).
Proof.
  unfold simplify_tensor. unfold mbind at 1, getobj. destruct (obj_of w t) as [o|] eqn:Eo; [|apply carried_refl].
  destruct (o_coords o) as [c|]; [|apply carried_refl]. unfold mbind at 1, mopt, mret at 1. unfold mbind at 1.
  pose proof (coord_components_same c w) as E. destruct (coord_components c w) as [[x|e] w']; cbn in E; subst w'; [|apply carried_refl].
  destruct (o_rank o =? 0); [destruct (flat_map snd (o_comps o)); apply carried_refl|].
  apply (put_carried _ _ _ _ Eo); reflexivity.
Qed.

Lemma run_op_sound w (o : op) : sound w -> sound (snd (run_op o w)).
Proof.
  intros S0. assert (Hty : typed w) by apply S0.
  assert (Tn : forall k n c m x i s, k <> CCoordinates -> sound (snd ((new_tensor_as k n c m x i s ;; mret tt) w))).
  { intros k n c m x i s Nk. unfold mbind. destruct (new_tensor_spec k n c m x i s w) as [[e E]|(m' & c' & a & y & Hm & Hmc & Hc & Hcc & Ha & Hx & Hv & E)]; rewrite E; [exact S0|].
    cbn [snd mret]. apply fresh_sound; cbn [o_metric o_coords]; [exact S0| | |intros _; split; discriminate].
    - intros u U. injection U as <-. right. exact Hmc.
    - intros u U. injection U as <-. exact Hcc. }
  destruct o as [n c i s tr|n c x i s|n c m x i s|n c m x i s|n c m x i s|n c m x i s|self c r|t c i|t i|t c|t n|t n|t|t silent]; cbn [run_op];
    try (apply Tn; discriminate).
  - unfold mbind. destruct (new_coordinates_spec n c i s tr w) as [[e E]|(a & Ha & Hr & E)]; rewrite E; [exact S0|].
    cbn [snd mret]. apply fresh_sound; cbn [o_metric o_coords]; [exact S0|discriminate|discriminate|congruence].
  - unfold mbind. destruct (new_metric_cases n c x i s w) as [[e E]|(c' & o & w' & r & Hc & Hk & E & Hw' & H1 & H2 & H3 & H4 & Hr & Hl)]; rewrite E; [exact S0|].
    assert (S1 : sound w').
    { rewrite Hw'. apply fresh_sound; rewrite ?H1, ?H2; [exact S0| | |intros _; split; discriminate].
      - intros m U. injection U as <-. left. auto.
      - intros u U. injection U as <-. exact Hk. }
    destruct r; exact S1.
  - eapply carried_sound; [|exact S0]. unfold add_coord_transformation. destruct c; try apply carried_refl.
    unfold mbind at 1, isinstance. destruct (negb _); [apply carried_refl|]. destruct (self =? i); [apply carried_refl|].
    unfold mbind, getobj. destruct (obj_of w self) as [o|] eqn:Eo; [|apply carried_refl].
    destruct r; [destruct (forallb _ _)|destruct (dmem _ _ _)]; try apply carried_refl; apply (put_carried _ _ _ _ Eo); reflexivity.
  - eapply carried_sound; [|exact S0]. unfold mbind. destruct (get_components t c i w) as [r w'] eqn:E.
    pose proof (kept_carried _ _ (get_components_kept _ _ _ _ _ _ Hty E)). destruct r; assumption.
  - unfold change_default_indices. unfold mbind at 1, getobj. destruct (obj_of w t) as [o|] eqn:Eo; [|exact S0].
    unfold mbind at 1, mlift. destruct (validate_indices _ _ _); [|exact S0].
    destruct (o_coords o) as [c|]; [|exact S0]. unfold mbind at 1, mopt, mret. unfold mbind at 1.
    pose proof (check_rep_keep w Hty t c i w (kept_refl w)) as H. destruct (check_representation t c i w) as [[b|e] w'].
    2:{ exact (carried_sound _ _ (kept_carried _ _ H) S0). }
    pose proof (carried_sound _ _ (kept_carried _ _ H) S0) as S1. destruct b; [|exact S1].
    unfold mbind, getobj. destruct (obj_of w' t) as [o'|] eqn:Eo'; [|exact S1].
    eapply carried_sound; [|exact S1]. apply (put_carried _ _ _ _ Eo'); reflexivity.
  - unfold change_default_coords. unfold mbind at 1, isinstance. destruct (cls_of w c) as [k|] eqn:Ek; [|exact S0].
    destruct (cls_eqb CCoordinates k) eqn:Ec; cbn [negb]; [|exact S0].
    assert (k = CCoordinates) by (destruct k; try discriminate; reflexivity). subst k.
    unfold mbind at 1, getobj. destruct (obj_of w t) as [o|] eqn:Eo; [|exact S0].
    destruct (o_coords o) as [c0|]; [|exact S0]. cbn [mopt]. unfold mbind at 1, mret at 1. destruct (c0 =? c); [exact S0|].
    unfold mbind at 1. destruct (obj_of w c0) as [co|]; [|exact S0]. destruct (negb _).
    { unfold mbind. destruct (obj_of w c); exact S0. }
    unfold mbind at 1.
    pose proof (check_rep_keep w Hty t c (o_indices o) w (kept_refl w)) as H. destruct (check_representation t c (o_indices o) w) as [[b|e] w'].
    2:{ exact (carried_sound _ _ (kept_carried _ _ H) S0). }
    assert (H2 : hoare (kept w) (if b then mret tt else transform_coordinates t c (o_indices o)) (fun _ => kept w) (kept w)).
    { destruct b; [apply h_ret; auto|apply transform_coords_keep, Hty]. }
    unfold mbind at 1. specialize (H2 w' H). destruct ((if b then mret tt else transform_coordinates t c (o_indices o)) w') as [[u|e] w2].
    2:{ exact (carried_sound _ _ (kept_carried _ _ H2) S0). }
    pose proof (carried_sound _ _ (kept_carried _ _ H2) S0) as S2. unfold mbind. destruct (obj_of w2 t) as [o2|] eqn:Eo2; [|exact S2].
    destruct (put_spec w2 t o2 (set_coords (Some c) o2) Eo2) as (w3 & E & _ & _ & Hc & Hj). rewrite E. cbn [snd].
    assert (Cc : cls_of w3 c = Some CCoordinates) by (rewrite Hc; destruct H2 as (_ & _ & H2 & _); rewrite H2; exact Ek).
    destruct S2 as [T2 K2]. split; intros j oj; rewrite Hj; destruct (Nat.eqb_spec t j) as [<-|N].
    + intros U. injection U as <-. cbn [set_coords o_metric o_coords]. destruct (T2 t o2 Eo2) as [T3 T4]. split; [intros m Hm; rewrite Hc; auto|].
      intros x X. injection X as <-. exact Cc.
    + intros U. destruct (T2 j oj U) as [T3 T4]. split; intros x X; rewrite Hc; auto.
    + intros U. injection U as <-. rewrite Hc. intros Nk. split; [apply (K2 t o2 Eo2 Nk)|discriminate].
    + intros U. rewrite Hc. apply (K2 j oj U).
  - unfold change_name. destruct n; try exact S0. unfold mbind, getobj. destruct (obj_of w t) as [o|] eqn:Eo; [|exact S0].
    eapply carried_sound; [|exact S0]. apply (put_carried _ _ _ _ Eo); reflexivity.
  - unfold change_symbol. destruct n; try exact S0; (unfold mbind, getobj; destruct (obj_of w t) as [o|] eqn:Eo; [|exact S0];
      eapply carried_sound; [|exact S0]; apply (put_carried _ _ _ _ Eo); reflexivity).
  - eapply carried_sound; [|exact S0]. apply simplify_carried.
  - eapply carried_sound; [|exact S0]. apply delete_carried.
Qed.

Theorem reachable_sound w : reachable w -> typed w /\ complete w.
Proof.
  induction 1 as [|w o _ IH HL]; [|apply run_op_sound, IH].
  split; intros i o H; unfold obj_of, empty_world in H; destruct i; discriminate.
Qed.

End Typed.
