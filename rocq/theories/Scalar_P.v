(** Proofs about scalars, negation, division and simplification. *)
From Verif Require Import Alg Alg_P Arr Arr_P Spec UtilsM Utils_P Arr2_P TensorM WorldM SpecWorld World_P Registry_P Keep_P CalcM SpecCalc Calc_P Calc3_P SpecScalar.
Local Open Scope nat_scope.

Section Scalar.
Context {A : AlgOps} {L : AlgLaws A} {D : DiffLaws A}.
Add Ring Kring : kring (setoid keq_equiv kring_ext).

Lemma elsewhere_expr o c : is_expr o c = true <-> made_elsewhere o c.
Proof.
  unfold is_expr, made_elsewhere. rewrite andb_true_iff, Nat.eqb_eq, negb_true_iff. split; intros [H H']; (split; [exact H|]).
  - intros d l E. rewrite E, Nat.eqb_refl in H'. discriminate.
  - destruct (o_comps o) as [|[c0 d] l]; [reflexivity|]. destruct (Nat.eqb_spec c0 c) as [->|N]; [destruct (H' d l eq_refl)|reflexivity].
Qed.
Lemma here_expr o c : ~ made_elsewhere o c -> is_expr o c = false.
Proof. intros H. destruct (is_expr o c) eqn:E; [destruct H; apply elsewhere_expr, E|reflexivity]. Qed.

(** *** Simplification *)
Lemma simplified_array (a : arr) : same_array a (amap simp a).
Proof.
  split; [reflexivity|]. unfold amap. cbn [data]. induction (data a) as [|x l IH]; cbn [map]; constructor; [symmetry; apply simp_ok|exact IH].
Qed.
Lemma simplified_values (d : compsd) : same_values d (map (fun cd => (fst cd, simplify_reps (snd cd))) d).
Proof.
  induction d as [|[c r] d IH]; cbn [map]; constructor; [|exact IH]. cbn [fst snd]. split; [reflexivity|]. unfold simplify_reps.
  induction r as [|[i a] r IHr]; cbn [map]; constructor; [|exact IHr]. cbn [fst snd]. split; [reflexivity|apply simplified_array].
Qed.
Lemma coord_read w c n : coordinate_system w c n -> exists x, coord_components c w = (Ok x, w).
Proof.
  intros (_ & o & d & x & Ho & Hd & Hx & _). exists x. unfold coord_components. rewrite (bind_ok _ _ o w w) by (apply getobj_ok, Ho).
  rewrite Hd. rewrite (bind_ok _ _ d w w) by reflexivity. apply mopt_ok, Hx.
Qed.

Theorem simplify_values w t o c n : obj_of w t = Some o -> o_coords o = Some c -> coordinate_system w c n -> 0 < o_rank o ->
  exists w' o', simplify_tensor t w = (Ok tt, w') /\ replaced_object w w' t o' /\ same_attrs o o' /\ same_values (o_comps o) (o_comps o').
Proof.
  intros Ho Hc Hs Hr. unfold simplify_tensor. rewrite (bind_ok _ _ o w w) by (apply getobj_ok, Ho). rewrite Hc.
  rewrite (bind_ok _ _ c w w) by reflexivity. destruct (coord_read w c n Hs) as [x Hx]. rewrite (bind_ok _ _ x w w) by exact Hx.
  destruct (Nat.eqb_spec (o_rank o) 0) as [E|_]; [lia|].
  destruct (put_spec w t o (set_comps (map (fun cd => (fst cd, simplify_reps (snd cd))) (o_comps o)) o) Ho) as (w' & E & Hi & Hl & Hcl & Hj).
  exists w', (set_comps (map (fun cd => (fst cd, simplify_reps (snd cd))) (o_comps o)) o). split; [exact E|]. split; [|split; [repeat split; exact eq_refl|apply simplified_values]].
  split; [exact Hi|]. split; [intros j; apply Hcl|]. split; [rewrite Hj, Nat.eqb_refl; reflexivity|].
  intros j N. rewrite Hj. destruct (Nat.eqb_spec t j); [congruence|reflexivity].
Qed.

Theorem simplify_scalar w t o c n a : obj_of w t = Some o -> stored_default o c a -> coordinate_system w c n -> o_rank o = 0 ->
  simplify_tensor t w = (Err EValueError, w).
Proof.
  intros Ho (Hc & d & Hd & Ha) Hs Hr. unfold simplify_tensor. rewrite (bind_ok _ _ o w w) by (apply getobj_ok, Ho). rewrite Hc.
  rewrite (bind_ok _ _ c w w) by reflexivity. destruct (coord_read w c n Hs) as [x Hx]. rewrite (bind_ok _ _ x w w) by exact Hx. rewrite Hr. cbn [Nat.eqb].
  destruct (flat_map snd (o_comps o)) as [|p q] eqn:E; [|reflexivity]. exfalso.
  assert (I : In (c, d) (o_comps o)).
  { clear -Hd. revert Hd. induction (o_comps o) as [|[c' d'] l IH]; cbn; [discriminate|]. destruct (Nat.eqb_spec c c') as [->|N]; intros H; [injection H as ->; left; reflexivity|right; auto]. }
  assert (J : In (o_indices o, a) d).
  { clear -Ha. revert Ha. induction d as [|[i b] d IH]; cbn; [discriminate|]. destruct (cfg_eqb (o_indices o) i) eqn:E; intros H; [apply cfg_eqb_spec in E; subst; injection H as ->; left; reflexivity|right; auto]. }
  assert (K0 : In (o_indices o, a) (flat_map snd (o_comps o))) by (apply in_flat_map; exists (c, d); auto).
  rewrite E in K0. destruct K0.
Qed.

(** *** A scalar in further coordinates *)
Lemma base_elsewhere w t o c c' i r w' : obj_of w t = Some o -> o_coords o = Some c -> made_elsewhere o c ->
  base_transform t c' i w = (r, w') -> exists e, r = Err e.
Proof.
  intros Ho Hc Hm. apply elsewhere_expr in Hm. unfold base_transform. rewrite (bind_ok _ _ o w w) by (apply getobj_ok, Ho). rewrite Hc.
  rewrite (bind_ok _ _ c w w) by reflexivity. unfold need_array. rewrite Hm. intros E. destruct r as [x|e]; [|eauto]. exfalso.
  apply bind_inv in E as (? & ? & _ & E). apply bind_inv in E as (? & ? & _ & E). apply bind_inv in E as (co & ? & _ & E).
  apply bind_inv in E as ([[J Ji] X] & ? & _ & E). apply bind_inv in E as (? & ? & _ & E). discriminate E.
Qed.
Lemma curve_elsewhere f w t o c c' i r w' : obj_of w t = Some o -> o_coords o = Some c -> made_elsewhere o c ->
  w_curve_transform f t c' i w = (r, w') -> exists e, r = Err e.
Proof.
  intros Ho Hc Hm. apply elsewhere_expr in Hm. unfold w_curve_transform. rewrite (bind_ok _ _ o w w) by (apply getobj_ok, Ho). rewrite Hc.
  rewrite (bind_ok _ _ c w w) by reflexivity. unfold need_array. rewrite Hm. intros E. destruct r as [x|e]; [|eauto]. exfalso.
  apply bind_inv in E as (? & ? & _ & E). apply bind_inv in E as (? & ? & _ & E). apply bind_inv in E as (co & ? & _ & E).
  apply bind_inv in E as ([[J Ji] X] & ? & _ & E). apply bind_inv in E as (? & ? & _ & E). discriminate E.
Qed.
Lemma chr_elsewhere w t o c c' i r w' : obj_of w t = Some o -> o_coords o = Some c -> made_elsewhere o c ->
  w_christoffel_transform t c' i w = (r, w') -> exists e, r = Err e.
Proof.
  intros Ho Hc Hm. apply elsewhere_expr in Hm. unfold w_christoffel_transform. rewrite (bind_ok _ _ o w w) by (apply getobj_ok, Ho). rewrite Hc.
  rewrite (bind_ok _ _ c w w) by reflexivity. unfold need_array. rewrite Hm. intros E. destruct r as [x|e]; [|eauto]. exfalso.
  apply bind_inv in E as (? & ? & _ & E). apply bind_inv in E as (? & ? & _ & E). apply bind_inv in E as (co & ? & _ & E).
  apply bind_inv in E as ([[J Ji] X] & ? & _ & E). apply bind_inv in E as (? & ? & _ & E). discriminate E.
Qed.

Section There.
Variables (w : world) (t c c' : oid) (o : obj) (a : arr).
Hypotheses (Ho : obj_of w t = Some o) (Sd : stored_default o c a) (Hi : o_indices o = []) (Hm : made_elsewhere o c)
  (Hn : ~ In c' (map fst (o_comps o))).

Lemma not_stored : dget Nat.eqb c' (o_comps o) = None.
Proof.
  revert Hn. induction (o_comps o) as [|[k d] l IH]; cbn; [reflexivity|]. intros N. destruct (Nat.eqb_spec c' k) as [->|_]; [tauto|]. apply IH. tauto.
Qed.
Lemma check_default : tensor_check t c [] w = (Ok true, w).
Proof.
  destruct Sd as (Hc & d & Hd & Ha). unfold tensor_check. rewrite (bind_ok _ _ o w w) by (apply getobj_ok, Ho). rewrite Hd.
  rewrite Hi in Ha. unfold dmem. rewrite Ha. reflexivity.
Qed.
Lemma check_there : check_representation t c' [] w = (Ok false, w) \/ exists e, check_representation t c' [] w = (Err e, w).
Proof.
  assert (E : tensor_check t c' [] w = (Ok false, w)).
  { unfold tensor_check. rewrite (bind_ok _ _ o w w) by (apply getobj_ok, Ho). rewrite not_stored. reflexivity. }
  assert (E' : metric_check t c' w = (Ok false, w)).
  { unfold metric_check. rewrite (bind_ok _ _ o w w) by (apply getobj_ok, Ho). unfold dmem. rewrite not_stored. reflexivity. }
  unfold check_representation. destruct (cls_of w t) as [[]|]; auto; right; eexists; reflexivity.
Qed.
Lemma transform_there r w' : transform_coordinates t c' [] w = (r, w') -> exists e, r = Err e.
Proof.
  destruct Sd as (Hc & _). unfold transform_coordinates. destruct (cls_of w t) as [[]|].
  - intros E. injection E as <- _. eauto.
  - unfold metric_transform. intros E. destruct r as [x|e]; [|eauto]. apply bind_inv in E as (? & ? & E & _). destruct (base_elsewhere w t o c _ _ _ _ Ho Hc Hm E) as [e Hf]. discriminate Hf.
  - unfold tensor_transform. rewrite (bind_ok _ _ o w w) by (apply getobj_ok, Ho). rewrite Hc. rewrite (bind_ok _ _ c w w) by reflexivity.
    rewrite (bind_ok _ _ true w w) by apply check_default. rewrite (bind_ok _ _ tt w w) by reflexivity. apply (base_elsewhere w t o c); auto.
  - apply (chr_elsewhere w t o c); auto.
  - apply (curve_elsewhere _ w t o c); auto.
  - apply (curve_elsewhere _ w t o c); auto.
  - intros E. injection E as <- _. eauto.
Qed.

Theorem get_elsewhere i r w' : get_components t (Some c') i w = (r, w') -> exists e, r = Err e.
Proof.
  unfold get_components. rewrite (bind_ok _ _ o w w) by (apply getobj_ok, Ho). rewrite (bind_ok _ _ c' w w) by reflexivity.
  unfold get_representation. intros E. destruct r as [x|e]; [|eauto].
  apply bind_inv in E as (b & w1 & Eb & E). unfold isinstance in Eb. injection Eb as <- <-.
  destruct (negb _); [discriminate E|]. rewrite (bind_ok _ _ o w w) in E by (apply getobj_ok, Ho).
  apply bind_inv in E as (u & w1 & Ev & E).
  assert (Ei : match i with Some i => i | None => o_indices o end = [] /\ w1 = w).
  { rewrite Hi in Ev |- *. destruct i as [[|z l]|]; [| |]; unfold mlift in Ev; destruct (validate_indices _ _ _) eqn:V; try discriminate Ev; injection Ev as _ <-; auto.
    exfalso. revert V. unfold validate_indices. cbn. destruct (negb _); cbn; discriminate. }
  destruct Ei as [Ei ->]. rewrite Ei in E. destruct check_there as [C|[e C]].
  2:{ unfold mbind at 1 in E. rewrite C in E. discriminate E. }
  rewrite (bind_ok _ _ false w w) in E by exact C. apply bind_inv in E as (u' & w2 & E1 & _). destruct (transform_there _ _ E1) as [e Hf]. discriminate Hf.
Qed.

Theorem coords_elsewhere r w' : c' <> c -> change_default_coords t c' w = (r, w') -> exists e, r = Err e.
Proof.
  intros Nc. unfold change_default_coords. intros E. destruct r as [x|e]; [|eauto].
  apply bind_inv in E as (b & w1 & Eb & E). unfold isinstance in Eb. injection Eb as <- <-.
  destruct (negb _); [discriminate E|]. rewrite (bind_ok _ _ o w w) in E by (apply getobj_ok, Ho). destruct Sd as (Hc & _).
  rewrite Hc in E. rewrite (bind_ok _ _ c w w) in E by reflexivity. destruct (Nat.eqb_spec c c') as [F|_]; [congruence|].
  apply bind_inv in E as (co & w1 & Ec & E). assert (w1 = w) as ->. { unfold getobj in Ec. destruct (obj_of w c); [injection Ec; auto|discriminate Ec]. }
  destruct (negb _). { apply bind_inv in E as (? & ? & _ & E). discriminate E. }
  rewrite Hi in E. destruct check_there as [C|[e C]].
  2:{ unfold mbind at 1 in E. rewrite C in E. discriminate E. }
  rewrite (bind_ok _ _ false w w) in E by exact C. apply bind_inv in E as (u' & w2 & E1 & _). destruct (transform_there _ _ E1) as [e Hf]. discriminate Hf.
Qed.

(** With the Jacobian at hand the error is the AttributeError of SymPy. *)
Theorem get_elsewhere_error co J rules : cls_of w t = Some CTensor -> cls_of w c' = Some CCoordinates -> obj_of w c = Some co ->
  dget Nat.eqb c' (o_jacs co) = Some J -> dget Nat.eqb c' (o_trans co) = Some rules ->
  get_components t (Some c') None w = (Err EAttributeError, w).
Proof.
  intros Hk Hc' Hco HJ HR. unfold get_components. rewrite (bind_ok _ _ o w w) by (apply getobj_ok, Ho). rewrite (bind_ok _ _ c' w w) by reflexivity.
  unfold get_representation. unfold mbind at 1, isinstance. rewrite Hc'. cbv beta iota delta [cls_eqb negb]. rewrite (bind_ok _ _ o w w) by (apply getobj_ok, Ho).
  rewrite Hi. rewrite (bind_ok _ _ tt w w) by reflexivity.
  assert (C : check_representation t c' [] w = (Ok false, w)).
  { unfold check_representation. rewrite Hk. unfold tensor_check. rewrite (bind_ok _ _ o w w) by (apply getobj_ok, Ho). rewrite not_stored. reflexivity. }
  rewrite (bind_ok _ _ false w w) by exact C. unfold mbind at 1.
  assert (E : transform_coordinates t c' [] w = (Err EAttributeError, w)).
  { unfold transform_coordinates. rewrite Hk. unfold tensor_transform. destruct Sd as (Hc & d & Hd & Ha).
    rewrite (bind_ok _ _ o w w) by (apply getobj_ok, Ho). rewrite Hc. rewrite (bind_ok _ _ c w w) by reflexivity.
    rewrite (bind_ok _ _ true w w) by apply check_default. rewrite (bind_ok _ _ tt w w) by reflexivity.
    unfold base_transform. rewrite (bind_ok _ _ o w w) by (apply getobj_ok, Ho). rewrite Hc. rewrite (bind_ok _ _ c w w) by reflexivity.
    rewrite (bind_ok _ _ tt w w).
    2:{ unfold w_check_jacobians. rewrite (bind_ok _ _ co w w) by (apply getobj_ok, Hco). unfold dmem. rewrite HJ. reflexivity. }
    rewrite (bind_ok _ _ a w w).
    2:{ unfold lookup. rewrite (bind_ok _ _ o w w) by (apply getobj_ok, Ho). rewrite Hd. rewrite (bind_ok _ _ d w w) by reflexivity. rewrite Hi in Ha. apply mopt_ok, Ha. }
    rewrite (bind_ok _ _ co w w) by (apply getobj_ok, Hco). rewrite HJ. rewrite (bind_ok _ _ J w w) by reflexivity. destruct J as [[J Ji] X].
    rewrite HR. rewrite (bind_ok _ _ rules w w) by reflexivity. unfold need_array. rewrite (proj2 (elsewhere_expr o c) Hm). reflexivity. }
  rewrite E. reflexivity.
Qed.
End There.

(** *** Negation and division *)
Section Arith.
Variables (w : world) (x : calc) (t : oid) (o : obj) (m c : oid) (n : nat) (a : arr).
Hypotheses (Hty : typed w) (Hx : labelled w x t o) (Sd : stored_default o c a) (Mo : o_metric o = Some m) (Hc : coordinate_system w c n)
  (Ha : cubic n a) (Hr : rank a = o_rank o).

Lemma syms_range f : (forall s, In s (c_syms x) -> f s < n) -> inb (shape a) (map f (c_syms x)) = true.
Proof.
  intros Hf. destruct Hx as (_ & _ & _ & _ & Ln & K & _). destruct Ha as [_ ->]. rewrite Hr, K, <- Ln. apply inb_assign, Hf.
Qed.

Theorem neg_values : ~ made_elsewhere o c -> exists z w' b, calc_neg x w = (Ok z, w') /\ result_is w' z (c_syms x) m c (o_indices o) b /\ cubic n b /\
  forall f, (forall s, In s (c_syms x) -> f s < n) -> keq (aget b (map f (c_syms x))) (kopp (aget a (map f (c_syms x)))).
Proof.
  intros Hm. eexists _, _, _. split; [apply (neg_run w x t o m c n a); auto; apply here_expr, Hm|]. split; [apply result_new|].
  destruct (amap_values n kopp a Ha) as (H1 & _ & H3). split; [exact H1|]. intros f Hf. rewrite H3 by (apply syms_range, Hf). reflexivity.
Qed.

Theorem scale_values k : exists z w' b, calc_mul x (OScalar k) w = (Ok z, w') /\ result_is w' z (c_syms x) m c (o_indices o) b /\ cubic n b /\
  forall f, (forall s, In s (c_syms x) -> f s < n) -> keq (aget b (map f (c_syms x))) (kmul k (aget a (map f (c_syms x)))).
Proof.
  eexists _, _, _. split; [apply (scale_run w x k t o m c n a); auto|]. split; [apply result_new|].
  destruct (amap_values n (kmul k) a Ha) as (H1 & _ & H3). split; [exact H1|]. intros f Hf. rewrite H3 by (apply syms_range, Hf). reflexivity.
Qed.

Lemma div_run k : is_expr o c = false -> calc_div x k w = calc_mul x (OScalar k) w.
Proof.
  intros He. destruct Hx as (Rx & Tx & Ox & Nx & Lx & Kx & Vx). unfold calc_div, calc_mul. rewrite Rx. cbn [is_tensor_role negb].
  rewrite !(bind_ok _ _ t w w) by (unfold tensor_of; rewrite Tx; reflexivity).
  rewrite !(bind_ok _ _ a w w) by (eapply stored_default_run; eauto).
  rewrite !(bind_ok _ _ o w w) by (apply getobj_ok, Ox). destruct Sd as [Hco _].
  rewrite (bind_ok _ _ tt w w) by (unfold need_components; rewrite Hco, He; reflexivity). reflexivity.
Qed.
Theorem div_values k y : ~ made_elsewhere o c -> keq (kmul k y) k1 ->
  exists z w' b, calc_div x k w = (Ok z, w') /\ result_is w' z (c_syms x) m c (o_indices o) b /\ cubic n b /\
  forall f, (forall s, In s (c_syms x) -> f s < n) -> keq (kmul y (aget b (map f (c_syms x)))) (aget a (map f (c_syms x))).
Proof.
  intros Hm Hk. destruct (scale_values k) as (z & w' & b & E & R & Cb & V). exists z, w', b. split; [rewrite div_run; [exact E|apply here_expr, Hm]|].
  split; [exact R|]. split; [exact Cb|]. intros f Hf. rewrite (V f Hf).
  transitivity (kmul (kmul k y) (aget a (map f (c_syms x)))); [ring|]. rewrite Hk. ring.
Qed.

Theorem neg_elsewhere : made_elsewhere o c -> calc_neg x w = (Err ETypeError, w).
Proof.
  intros Hm. apply elsewhere_expr in Hm. destruct Hx as (Rx & Tx & Ox & Nx & Lx & Kx & Vx). unfold calc_neg. rewrite Rx. cbn [is_tensor_role negb].
  rewrite (bind_ok _ _ t w w) by (unfold tensor_of; rewrite Tx; reflexivity).
  rewrite (bind_ok _ _ a w w) by (eapply stored_default_run; eauto).
  rewrite (bind_ok _ _ o w w) by (apply getobj_ok, Ox). destruct Sd as [Hco _]. unfold mbind at 1, need_components. rewrite Hco, Hm. reflexivity.
Qed.
Theorem div_elsewhere k : made_elsewhere o c -> calc_div x k w = (Err ETypeError, w).
Proof.
  intros Hm. apply elsewhere_expr in Hm. destruct Hx as (Rx & Tx & Ox & Nx & Lx & Kx & Vx). unfold calc_div. rewrite Rx. cbn [is_tensor_role negb].
  rewrite (bind_ok _ _ t w w) by (unfold tensor_of; rewrite Tx; reflexivity).
  rewrite (bind_ok _ _ a w w) by (eapply stored_default_run; eauto).
  rewrite (bind_ok _ _ o w w) by (apply getobj_ok, Ox). destruct Sd as [Hco _]. unfold mbind at 1, need_components. rewrite Hco, Hm. reflexivity.
Qed.
End Arith.

(** Subtraction *)
Theorem sub_values w x y t1 o1 t2 o2 k1' m c n a1 a2 : typed w -> labelled w x t1 o1 -> labelled w y t2 o2 ->
  cls_of w t1 = Some k1' -> k1' <> CCoordinates ->
  o_metric o1 = Some m -> o_metric o2 = Some m -> stored_default o1 c a1 -> stored_default o2 c a2 -> coordinate_system w c n ->
  Permutation (c_syms x) (c_syms y) -> same_indices (c_syms x) (o_indices o1) (c_syms y) (o_indices o2) ->
  cubic n a1 -> rank a1 = o_rank o1 -> cubic n a2 -> rank a2 = o_rank o2 -> ~ made_elsewhere o2 c ->
  exists z w' b, calc_sub x (OCalc y) w = (Ok z, w') /\ result_is w' z (c_syms x) m c (o_indices o1) b /\ cubic n b /\
  forall f, (forall s, In s (c_syms x) -> f s < n) ->
    keq (aget b (map f (c_syms x))) (ksub (aget a1 (map f (c_syms x))) (aget a2 (map f (c_syms y)))).
Proof.
  intros Hty Hx Hy Kt1 Nk M1 M2 S1 S2 Hc Hp Hi Ca1 R1 Ca2 R2 Hm. apply here_expr in Hm.
  assert (E := neg_run w y t2 o2 m c n a2 Hty Hy S2 M2 Hc Ca2 R2 Hm).
  assert (Hx' := Hx). assert (Hy' := Hy).
  destruct Hx' as (Rx & Tx & Ox & Nx & Lx & Kx & Vx), Hy' as (Ry & Ty & Oy & Ny & Ly & Ky & Vy).
  destruct (amap_values n kopp a2 Ca2) as (H1 & H2 & H3).
  set (w1 := fresh_world w CTensor (tobj "TEMP" "T" (o_indices o2) c m (amap kopp a2))) in *.
  assert (Hc1 : coordinate_system w1 c n) by (apply system_fresh, Hc).
  assert (Tm : cls_of w m = Some CMetric) by (destruct (Hty t2 o2 Oy) as [H _]; apply H, M2).
  destruct (add_values w1 x (new_calc w (c_syms y)) t1 o1 (length (heap w)) (tobj "TEMP" "T" (o_indices o2) c m (amap kopp a2)) m c n (o_indices o2) a1 w1 (amap kopp a2) w1)
    as (z & w' & b & Ez & Rz & Cb & V); try assumption; try reflexivity.
  - apply typed_fresh; [exact Hty| |]; intros j Hj; injection Hj as <-; [exact Tm|apply Hc].
  - apply labelled_fresh, Hx.
  - apply new_labelled; auto.
  - apply S1.
  - apply (stored_default_get w1 t1 k1' o1 c a1); auto; [apply cls_fresh_old, Kt1|apply obj_fresh_old, Ox|apply Hc1].
  - apply (stored_default_get w1 _ CTensor (tobj "TEMP" "T" (o_indices o2) c m (amap kopp a2)) c); auto;
      [apply cls_fresh_new|discriminate|apply obj_fresh_new|apply tobj_stored|apply Hc1].
  - rewrite H2, R2. exact Ky.
  - exists z, w', b. split; [|split; [exact Rz|split; [exact Cb|]]].
    + rewrite <- Ez. unfold calc_sub. rewrite Rx, Ry. cbn [is_tensor_role negb orb].
      rewrite (bind_ok _ _ t1 w w) by (unfold tensor_of; rewrite Tx; reflexivity). rewrite (bind_ok _ _ o1 w w) by (apply getobj_ok, Ox).
      rewrite (bind_ok _ _ t2 w w) by (unfold tensor_of; rewrite Ty; reflexivity). rewrite (bind_ok _ _ o2 w w) by (apply getobj_ok, Oy).
      assert (Hlen := Permutation_length Hp).
      assert (Er : (o_rank o1 =? o_rank o2) = true) by (apply Nat.eqb_eq; congruence). rewrite Er. cbn [negb].
      assert (Ep : is_permutation (c_syms x) (c_syms y) = true) by (apply is_permutation_spec, Hp). rewrite Ep, andb_false_r.
      rewrite (bind_ok _ _ _ _ _ E). reflexivity.
    + intros f Hf. rewrite (V f Hf). cbn [c_syms new_calc]. rewrite H3.
      2:{ destruct Ca2 as [_ ->]. rewrite R2, Ky, <- Ly. apply inb_assign. intros s Hs. apply Hf. apply (Permutation_in _ (Permutation_sym Hp)), Hs. }
      ring.
Qed.
(** In general subtraction is addition of the negated operand. *)
Theorem sub_is_add w x y t1 o1 t2 o2 z w1 : labelled w x t1 o1 -> labelled w y t2 o2 -> o_rank o1 = o_rank o2 ->
  Permutation (c_syms x) (c_syms y) -> calc_neg y w = (Ok z, w1) -> calc_sub x (OCalc y) w = calc_add x (OCalc z) w1.
Proof.
  intros (Rx & Tx & Ox & Nx & Lx & Kx & Vx) (Ry & Ty & Oy & Ny & Ly & Ky & Vy) Er Hp E. unfold calc_sub. rewrite Rx, Ry. cbn [is_tensor_role negb orb].
  rewrite (bind_ok _ _ t1 w w) by (unfold tensor_of; rewrite Tx; reflexivity). rewrite (bind_ok _ _ o1 w w) by (apply getobj_ok, Ox).
  rewrite (bind_ok _ _ t2 w w) by (unfold tensor_of; rewrite Ty; reflexivity). rewrite (bind_ok _ _ o2 w w) by (apply getobj_ok, Oy).
  rewrite Er, Nat.eqb_refl. cbn [negb]. assert (Ep : is_permutation (c_syms x) (c_syms y) = true) by (apply is_permutation_spec, Hp).
  rewrite Ep, andb_false_r. rewrite (bind_ok _ _ _ _ _ E). reflexivity.
Qed.
Theorem sub_elsewhere w x y t1 o1 t2 o2 c a2 : labelled w x t1 o1 -> labelled w y t2 o2 -> stored_default o2 c a2 ->
  o_rank o1 = o_rank o2 -> made_elsewhere o2 c -> calc_sub x (OCalc y) w = (Err ETypeError, w).
Proof.
  intros Hx Hy S2 Er Hm. assert (N := neg_elsewhere w y t2 o2 c a2 Hy S2 Hm).
  destruct Hx as (Rx & Tx & Ox & Nx & Lx & Kx & Vx), Hy as (Ry & Ty & Oy & Ny & Ly & Ky & Vy). unfold calc_sub. rewrite Rx, Ry. cbn [is_tensor_role negb orb].
  rewrite (bind_ok _ _ t1 w w) by (unfold tensor_of; rewrite Tx; reflexivity). rewrite (bind_ok _ _ o1 w w) by (apply getobj_ok, Ox).
  rewrite (bind_ok _ _ t2 w w) by (unfold tensor_of; rewrite Ty; reflexivity). rewrite (bind_ok _ _ o2 w w) by (apply getobj_ok, Oy).
  rewrite Er, Nat.eqb_refl. cbn [negb]. destruct Hm as [Hr _]. assert (El : length (c_syms x) = 0) by congruence. rewrite El. cbn [Nat.eqb negb andb].
  unfold mbind at 1. rewrite N. reflexivity.
Qed.

(** *** A function applied to the components *)
Theorem function_values w t o c n a f : obj_of w t = Some o -> o_coords o = Some c ->
  get_components t None None w = (Ok a, w) -> 1 <= n -> cubic n a -> ~ made_elsewhere o c ->
  exists b, get_components_with f t None None w = (Ok b, w) /\ cubic n b /\ shape b = shape a /\
    forall idx, inb (shape a) idx = true -> aget b idx = f (aget a idx).
Proof.
  intros Ho Hc G Hn Ha Hm. destruct (map_to_array_spec n a f Hn Ha) as (b & E & Hb & Hs & V). exists b. split; [|split; [|auto]].
  - unfold get_components_with. rewrite (bind_ok _ _ o w w) by (apply getobj_ok, Ho). rewrite Hc. rewrite (bind_ok _ _ c w w) by reflexivity.
    rewrite (bind_ok _ _ a w w) by exact G. rewrite (bind_ok _ _ o w w) by (apply getobj_ok, Ho). rewrite (here_expr _ _ Hm), E. reflexivity.
  - destruct Ha as [_ Ha]. split; [exact Hb|]. unfold rank. rewrite Hs. exact Ha.
Qed.
(** In any coordinates, whatever the call stores on the way. *)
Theorem function_general w t o c i n a w' o' f : obj_of w t = Some o ->
  get_components t (Some c) i w = (Ok a, w') -> 1 <= n -> cubic n a -> obj_of w' t = Some o' -> ~ made_elsewhere o' c ->
  exists b, get_components_with f t (Some c) i w = (Ok b, w') /\ cubic n b /\ shape b = shape a /\
    forall idx, inb (shape a) idx = true -> aget b idx = f (aget a idx).
Proof.
  intros Ho G Hn Ha Ho' Hm. destruct (map_to_array_spec n a f Hn Ha) as (b & E & Hb & Hs & V). exists b. split; [|split; [|auto]].
  - unfold get_components_with. rewrite (bind_ok _ _ o w w) by (apply getobj_ok, Ho). rewrite (bind_ok _ _ c w w) by reflexivity.
    rewrite (bind_ok _ _ a w w') by exact G. rewrite (bind_ok _ _ o' w' w') by (apply getobj_ok, Ho'). rewrite (here_expr _ _ Hm), E. reflexivity.
  - destruct Ha as [_ Ha]. split; [exact Hb|]. unfold rank. rewrite Hs. exact Ha.
Qed.
Theorem function_elsewhere w t o c i a w' o' f : obj_of w t = Some o ->
  get_components t (Some c) i w = (Ok a, w') -> obj_of w' t = Some o' -> made_elsewhere o' c ->
  get_components_with f t (Some c) i w = (Err ETypeError, w').
Proof.
  intros Ho G Ho' Hm. unfold get_components_with. rewrite (bind_ok _ _ o w w) by (apply getobj_ok, Ho). rewrite (bind_ok _ _ c w w) by reflexivity.
  rewrite (bind_ok _ _ a w w') by exact G. rewrite (bind_ok _ _ o' w' w') by (apply getobj_ok, Ho'). rewrite (proj2 (elsewhere_expr _ _) Hm). reflexivity.
Qed.
End Scalar.
