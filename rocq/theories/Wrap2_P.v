(** The methods that make objects, with their default arguments. *)
From Coq Require Import Bool.
From Verif Require Import Alg Arr Arr_P Spec UtilsM TensorM WorldM SpecWorld World_P Registry_P Metric_P WrapM Wrap_P.

Section Wrap2.
Context {A : AlgOps}.
Implicit Types (w : world) (o : obj).

Lemma new_tensor_whole w name comps metric coords indices symbol i w' : new_tensor name comps metric coords indices symbol w = (Ok i, w') ->
  exists m c a o, metric = VObj m /\ coords = VObj c /\ array_like comps a /\
    obj_of w' i = Some o /\ cls_of w' i = Some CTensor /\ obj_of w i = None /\ insts w' = insts w ++ [i] /\
    (forall j, j <> i -> obj_of w' j = obj_of w j /\ cls_of w' j = cls_of w j) /\
    VStr (o_name o) = name /\ (VStr (o_symbol o) = symbol \/ VSymbol (o_symbol o) = symbol) /\ o_rank o = rank a /\
    o_indices o = match indices with VTuple l => l | _ => repeat (-1)%Z (rank a) end /\
    o_coords o = Some c /\ o_metric o = Some m /\ o_comps o = [(c, [(o_indices o, a)])].
Proof.
  intros H. destruct (proj1 (new_tensor_valid w name comps metric coords indices symbol) (ex_intro _ i (ex_intro _ w' H)))
    as (_ & _ & _ & _ & _ & _ & _ & _ & [s ->] & [s' Hs] & _).
  destruct (new_tensor_spec CTensor (VStr s) comps metric coords indices symbol w)
      as [[e E]|(m & c & a & x & Hm & Hmc & Hc & Hcc & Ha & Hx & Hv & E)].
  { unfold new_tensor in H. congruence. }
  unfold new_tensor in H. rewrite E in H. injection H as <- <-.
  eexists m, c, a, _. split; [exact Hm|]. split; [exact Hc|]. split; [apply array_like_spec, Ha|].
  split; [rewrite obj_of_fresh, Nat.eqb_refl; reflexivity|].
  split; [unfold cls_of, fresh_world; cbn [heap]; rewrite nth_error_app2 by lia; rewrite Nat.sub_diag; reflexivity|].
  split; [apply obj_of_ge; lia|]. split; [reflexivity|]. split.
  { intros j N. split; [rewrite obj_of_fresh; destruct (Nat.eqb_spec j (length (heap w))); [contradiction|reflexivity]|apply cls_of_fresh, N]. }
  cbn [o_name o_symbol o_rank o_indices o_coords o_metric o_comps]. split; [reflexivity|]. split; [destruct Hs as [-> | ->]; auto|]. split; [reflexivity|].
  split; [destruct indices; reflexivity|]. split; [reflexivity|]. split; reflexivity.
Qed.

(** m.new_tensor(name, components) *)
Lemma metric_new_tensor_ok w m o c n name comps :
  cls_of w m = Some CMetric -> obj_of w m = Some o -> o_coords o = Some c -> coordinate_system w c n ->
  ((exists i w', metric_new_tensor m name comps None None None w = (Ok i, w')) <->
   (exists s, name = VStr s) /\ exists a, array_like comps a /\ Forall (fun d => d = n) (shape a)) /\
  forall i w', metric_new_tensor m name comps None None None w = (Ok i, w') ->
  exists a t, array_like comps a /\
    obj_of w' i = Some t /\ cls_of w' i = Some CTensor /\ obj_of w i = None /\ insts w' = insts w ++ [i] /\
    (forall j, j <> i -> obj_of w' j = obj_of w j /\ cls_of w' j = cls_of w j) /\
    VStr (o_name t) = name /\ o_symbol t = "T"%string /\ o_rank t = rank a /\
    o_indices t = repeat (-1)%Z (rank a) /\ o_coords t = Some c /\ o_metric t = Some m /\ o_comps t = [(c, [(o_indices t, a)])].
Proof.
  intros Hm Ho Hc Hs.
  assert (E : metric_new_tensor m name comps None None None w = new_tensor name comps (VObj m) (VObj c) VNone (VSymbol "T") w).
  { unfold metric_new_tensor. cbn [given]. unfold mbind, getobj. rewrite Ho, Hc. reflexivity. }
  rewrite E. split.
  - rewrite new_tensor_valid. split.
    + intros (m' & c' & n' & a & _ & _ & [= <-] & Hs' & Hn & _ & Ha & Hsh & _). split; [exact Hn|]. exists a. split; [exact Ha|].
      assert (n' = n); [|subst; exact Hsh]. destruct Hs as (_ & o1 & d1 & x1 & H1 & H2 & H3 & <-), Hs' as (_ & o2 & d2 & x2 & H1' & H2' & H3' & <-). congruence.
    + intros (Hn & a & Ha & Hsh). exists m, c, n, a. split; [reflexivity|]. split; [exact Hm|]. split; [reflexivity|]. split; [exact Hs|].
      split; [exact Hn|]. split; [eauto|]. auto.
  - intros i w' H. destruct (new_tensor_whole _ _ _ _ _ _ _ _ _ H) as (m' & c' & a & t & [= <-] & [= <-] & Ha & H1 & H2 & H3 & H4 & H5 & H6 & H7 & H8).
    exists a, t. split; [exact Ha|]. split; [exact H1|]. split; [exact H2|]. split; [exact H3|]. split; [exact H4|]. split; [exact H5|]. split; [exact H6|].
    split; [destruct H7 as [H7|H7]; [discriminate|injection H7 as ->; reflexivity]|]. exact H8.
Qed.

(** m.new_tensor(...) with coordinates *)
Lemma metric_new_tensor_given m name comps v indices symbol : v <> VNone ->
  metric_new_tensor m name comps (Some v) indices symbol = py_new_tensor name comps (VObj m) v indices symbol.
Proof. intros N. unfold metric_new_tensor, py_new_tensor. cbn [given]. destruct v; try reflexivity. congruence. Qed.

Lemma change_coords_sets t c w w' : change_default_coords t c w = (Ok tt, w') -> exists o, obj_of w' t = Some o /\ o_coords o = Some c.
Proof.
  unfold change_default_coords. intros H. apply bind_inv in H as (b & w1 & Hb & H). destruct b; cbn [negb] in H; [|discriminate].
  assert (w1 = w) by (unfold isinstance in Hb; congruence). subst w1.
  apply bind_inv in H as (o & w1 & Ho & H). unfold getobj in Ho. destruct (obj_of w t) as [o'|] eqn:Eo; [|discriminate]. injection Ho as <- <-.
  apply bind_inv in H as (c0 & w1 & Hc & H). destruct (o_coords o') as [c1|] eqn:Ec; [|discriminate]. injection Hc as <- <-.
  destruct (Nat.eqb_spec c1 c) as [->|N]; [injection H as <-; eauto|].
  apply bind_inv in H as (co & w1 & _ & H). destruct (dmem _ _ _); cbn [negb] in H; [|apply bind_inv in H as (? & ? & _ & H); discriminate].
  apply bind_inv in H as (b & w2 & _ & H). apply bind_inv in H as (u & w3 & _ & H). apply bind_inv in H as (o2 & w4 & Ho & H).
  unfold getobj in Ho. destruct (obj_of w3 t) as [o3|] eqn:E3; [|discriminate]. injection Ho as <- <-.
  destruct (put_spec w3 t o3 (set_coords (Some c) o3) E3) as (w5 & E5 & _ & _ & _ & H5). rewrite E5 in H. injection H as <-.
  exists (set_coords (Some c) o3). split; [rewrite H5, Nat.eqb_refl; reflexivity|reflexivity].
Qed.

(** c.new_metric(...) is new_metric with the coordinates c *)
Lemma coords_new_metric_same c name comps indices symbol :
  coords_new_metric c name comps indices symbol = py_new_metric name comps (VObj c) indices symbol.
Proof. reflexivity. Qed.

(** c.new_metric(name, components) *)
Lemma coords_new_metric_ok {DL : DetLaws A} w c n name comps :
  coordinate_system w c n -> (forall a, array_like comps a -> awf a) ->
  ((exists i w', coords_new_metric c name comps None None w = (Ok i, w')) <->
   (exists s, name = VStr s) /\ exists a, array_like comps a /\ shape a = [n; n] /\ mdet0 n (data a) = false /\
     (forall i j, i < n -> j < n -> kisz (simp (ksub (aget a [i; j]) (aget a [j; i]))) = true)) /\
  forall i w', coords_new_metric c name comps None None w = (Ok i, w') ->
  exists t, obj_of w' i = Some t /\ cls_of w' i = Some CMetric /\ insts w' = insts w ++ [i] /\
    VStr (o_name t) = name /\ o_symbol t = "g"%string /\ o_indices t = [-1; -1]%Z /\ o_coords t = Some c /\ o_metric t = Some i.
Proof.
  intros Hs Hwf. unfold coords_new_metric. cbn [given]. split.
  - rewrite (new_metric_valid w name comps (VObj c) _ _ Hwf). split.
    + intros (c' & n' & a & [= <-] & Hs' & Hn & _ & Ha & Hsh & _ & Hd & Hy). split; [exact Hn|]. exists a.
      assert (n' = n); [|subst; auto]. destruct Hs as (_ & o1 & d1 & x1 & H1 & H2 & H3 & <-), Hs' as (_ & o2 & d2 & x2 & H1' & H2' & H3' & <-). congruence.
    + intros (Hn & a & Ha & Hsh & Hd & Hy). exists c, n, a. split; [reflexivity|]. split; [exact Hs|]. split; [exact Hn|]. split; [eauto|]. auto 8.
  - intros i w' H. destruct (new_metric_object _ _ _ _ _ _ _ _ H) as (c' & t & n' & a & gi & l & [= <-] & [= <-] & _ & _ & _ & H1 & H2 & _ & H3 & _ & H4 & H5 & _ & H6 & H7 & H8 & _).
    exists t. split; [exact H1|]. split; [exact H2|]. split; [exact H3|]. split; [exact H4|].
    split; [destruct H5 as [H5|H5]; [discriminate|injection H5 as ->; reflexivity]|]. auto.
Qed.

(** new_coordinates(name, components) *)
Lemma py_new_coordinates_ok w name comps :
  ((exists i w', py_new_coordinates name comps None None None w = (Ok i, w')) <->
   (exists s, name = VStr s) /\ exists a, (comps = VArr a \/ exists sh l, comps = VSyms sh l /\ a = mkArr sh (map ksym l)) /\ rank a = 1) /\
  forall i w', py_new_coordinates name comps None None None w = (Ok i, w') ->
  exists t a, as_array comps = Some a /\ obj_of w' i = Some t /\ cls_of w' i = Some CCoordinates /\ insts w' = insts w ++ [i] /\
    VStr (o_name t) = name /\ o_symbol t = "x"%string /\ o_indices t = [1]%Z /\ o_trans t = [] /\ o_comps t = [(i, [([1]%Z, a)])].
Proof.
  unfold py_new_coordinates. cbn [given]. split.
  - rewrite new_coordinates_valid. split.
    + intros (a & Ha & R & Hn & _). eauto.
    + intros (Hn & a & Ha & R). exists a. split; [exact Ha|]. split; [exact R|]. split; [exact Hn|]. split; [eauto|]. right. split; [reflexivity|intros c r []].
  - intros i w' H. destruct (new_coordinates_object _ _ _ _ _ _ _ _ H) as (t & a & Ha & H1 & H2 & _ & H3 & _ & H4 & H5 & _ & H6 & H7 & _ & H8 & _).
    exists t, a. split; [exact Ha|]. split; [exact H1|]. split; [exact H2|]. split; [exact H3|]. split; [exact H4|].
    split; [destruct H5 as [H5|H5]; [discriminate|injection H5 as ->; reflexivity]|]. auto.
Qed.

(** The default coordinates of the metric when the method is called. *)
Lemma new_tensor_follows w m c w1 name comps i w' :
  change_default_coords m c w = (Ok tt, w1) -> metric_new_tensor m name comps None None None w1 = (Ok i, w') ->
  exists t, obj_of w' i = Some t /\ o_coords t = Some c /\ o_metric t = Some m.
Proof.
  intros H H'. destruct (change_coords_sets _ _ _ _ H) as (o & Ho & Hc).
  assert (E : metric_new_tensor m name comps None None None w1 = new_tensor name comps (VObj m) (VObj c) VNone (VSymbol "T") w1).
  { unfold metric_new_tensor. cbn [given]. unfold mbind, getobj. rewrite Ho, Hc. reflexivity. }
  rewrite E in H'. destruct (new_tensor_whole _ _ _ _ _ _ _ _ _ H') as (m' & c' & a & t & [= <-] & [= <-] & _ & H1 & _ & _ & _ & _ & _ & _ & _ & _ & H2 & H3 & _). eauto.
Qed.
End Wrap2.
