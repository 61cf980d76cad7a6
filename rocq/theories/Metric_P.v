(** What the metric constructor stores in a session. *)
From Verif Require Import Alg Arr Arr_P Spec UtilsM TensorM WorldM SpecWorld World_P Jacobian_P.

Section Metric.
Context {A : AlgOps}.

Lemma two_indices (l : list Z) :
  forallb (fun z => (z =? -1) || (z =? 1))%Z l = true -> length l = 2 ->
  cfg_eqb l [1; -1]%Z || cfg_eqb l [-1; 1]%Z = false ->
  l = [-1; -1]%Z \/ l = [1; 1]%Z.
Proof.
  intros H L E. destruct l as [|i [|j [|]]]; try discriminate L.
  cbn [forallb] in H. apply andb_prop in H as [Hi H]. apply andb_prop in H as [Hj _].
  apply orb_prop in Hi, Hj. rewrite !Z.eqb_eq in Hi, Hj.
  destruct Hi as [-> | ->], Hj as [-> | ->]; auto; discriminate E.
Qed.

Lemma new_metric_stored name comps coords l symbol w t w' :
  new_metric name comps coords (VTuple l) symbol w = (Ok t, w') ->
  exists c o a d, coords = VObj c /\ as_array (mat_to_array comps) = Some a /\
    obj_of w' t = Some o /\ o_coords o = Some c /\ o_metric o = Some t /\ o_indices o = l /\
    (l = [-1; -1]%Z \/ l = [1; 1]%Z) /\
    dget Nat.eqb c (o_comps o) = Some d /\ metric_representations l a = Ok d.
Proof.
  intros E. unfold new_metric in E. unfold mbind at 1, mlift at 1 in E.
  destruct (validate_metric _ _ _ _) as [[]|e] eqn:Ev; [|discriminate].
  unfold mbind at 1 in E.
  destruct (base_ctor_spec CMetric name (mat_to_array comps) coords (VTuple l) symbol None w) as [[e H]|(c & a & x & Hc & Hk & Ha & Hx & Hv & H)].
  { rewrite H in E. discriminate. }
  rewrite H in E. clear H Hx.
  assert (Ha' : as_array (mat_to_array comps) = Some a).
  { destruct comps; cbn in Ha |- *; exact Ha. }
  assert (Hl : l = [-1; -1]%Z \/ l = [1; 1]%Z).
  { unfold validate_metric in Ev. rewrite Ha' in Ev.
    unfold validate_object in Ev. destruct name; try discriminate.
    destruct symbol; try discriminate; rewrite Ha' in Ev;
      (destruct (negb (forallb _ (shape a))); [discriminate|];
       cbn [validate_indices] in Ev;
       destruct (forallb _ l) eqn:F; [|discriminate]; cbn [negb] in Ev;
       destruct (negb (rank a =? length l)); [discriminate|]; cbn [rbind] in Ev;
       destruct (match shape a with [] => _ | _ => _ end) as [m|]; [|discriminate]; cbn [rbind] in Ev;
       destruct (mdet0 m (data a) || _); [discriminate|];
       destruct (cfg_eqb l [1; -1]%Z || cfg_eqb l [-1; 1]%Z) eqn:C; [discriminate|];
       destruct (Nat.eqb_spec (length l) 2) as [L|L]; [|discriminate];
       apply two_indices; assumption). }
  set (o0 := mkObj (name_of name) (sym_of symbol) (default_indices (VTuple l) (rank a)) (rank a) (Some c) None
    [(c, [(default_indices (VTuple l) (rank a), a)])] [] [] []) in E.
  assert (Ho0 : obj_of (fresh_world w CMetric o0) (length (heap w)) = Some o0).
  { rewrite obj_of_fresh, Nat.eqb_refl. reflexivity. }
  unfold mbind at 1, getobj in E. rewrite Ho0 in E.
  assert (Hput : forall o1 o2, put (length (heap w)) o2 (fresh_world w CMetric o1) = (Ok tt, fresh_world w CMetric o2)).
  { intros o1 o2. unfold put, fresh_world. cbn [heap insts].
    rewrite nth_error_app2 by lia. rewrite Nat.sub_diag. cbn [nth_error].
    f_equal. f_equal. clear. induction (heap w) as [|y l' IH]; cbn; [reflexivity|]. rewrite IH. reflexivity. }
  unfold mbind at 1 in E. rewrite Hput in E.
  cbn [o_coords set_metric o0 mopt] in E. unfold mbind at 1, mret at 1 in E.
  cbn [o_comps set_metric o0 dget] in E. rewrite Nat.eqb_refl in E.
  cbn [mopt] in E. unfold mbind at 1, mret at 1 in E. cbn [o_indices set_metric o0 dget] in E. rewrite cfg_eqb_refl in E.
  cbn [mopt] in E. unfold mbind at 1, mret at 1 in E. unfold mbind at 1 in E. rewrite Hput in E.
  unfold mbind at 1, mlift at 1 in E. destruct (ainv a) as [gi|e] eqn:Ei; [|discriminate].
  unfold mbind at 1 in E. rewrite Hput in E. unfold mret in E.
  assert (Et : length (heap w) = t) by congruence.
  pose proof (f_equal snd E) as Ew. cbn [snd] in Ew. symmetry in Ew.
  eexists c, _, a, _. split; [exact Hc|]. split; [exact Ha'|].
  split; [rewrite Ew, <- Et, obj_of_fresh, Nat.eqb_refl; reflexivity|].
  split; [reflexivity|]. split; [rewrite <- Et; reflexivity|].
  split; [cbn; destruct Hl as [-> | ->]; reflexivity|]. split; [exact Hl|].
  split; [cbn; rewrite Nat.eqb_refl; cbn; rewrite Nat.eqb_refl; reflexivity|].
  unfold metric_representations. rewrite Ei. destruct Hl as [-> | ->]; reflexivity.
Qed.

Context {L : AlgLaws A} {IL : InvLaws A}.

Theorem new_metric_session name comps coords l symbol w t w' n g :
  new_metric name comps coords (VTuple l) symbol w = (Ok t, w') ->
  as_array (mat_to_array comps) = Some g -> square n g ->
  (l = [-1; -1]%Z \/ l = [1; 1]%Z) /\
  exists c o d, coords = VObj c /\ obj_of w' t = Some o /\ o_coords o = Some c /\
    o_metric o = Some t /\ o_indices o = l /\ dget Nat.eqb c (o_comps o) = Some d /\
    dget cfg_eqb l d = Some g /\
    dget cfg_eqb [1; -1]%Z d = Some (eye n) /\ dget cfg_eqb [-1; 1]%Z d = Some (eye n) /\
    exists gi, dget cfg_eqb (map Z.opp l) d = Some gi /\ square n gi /\
      inverse_fun n (mfun g) (mfun gi).
Proof.
  intros E Ea Sq. destruct (new_metric_stored _ _ _ _ _ _ _ _ E)
    as (c & o & a & d & H1 & H2 & H3 & H4 & H5 & H6 & H7 & H8 & H9).
  assert (a = g) by congruence. subst a. split; [exact H7|].
  destruct (metric_representations_spec n l g d Sq H7 H9) as (G1 & G2 & G3 & gi & G4 & _ & G5 & G6).
  exists c, o, d. repeat (split; [assumption|]). exists gi. auto.
Qed.

End Metric.
