(** Products of scalars and tensors. *)
From Verif Require Import Alg Alg_P Arr Arr_P Spec UtilsM Utils_P Arr2_P TensorM WorldM SpecWorld World_P Registry_P History_P CalcM SpecCalc Keep_P Calc_P Calc2_P Calc3_P Calc4_P SpecScalar.
Local Open Scope nat_scope.

Section Frame.
Context {A : AlgOps}.
Lemma dmem_some {V} (k : oid) (d : list (oid * V)) : dmem Nat.eqb k d = true -> exists v, dget Nat.eqb k d = Some v.
Proof. unfold dmem. destruct (dget Nat.eqb k d); [eauto|discriminate]. Qed.
Lemma dmem_set_nil {V} (v : V) (d : list (list Z * V)) : dmem cfg_eqb [] (dset cfg_eqb [] v d) = true.
Proof. unfold dmem. induction d as [|[[|z k] v'] d IH]; cbn; try reflexivity. exact IH. Qed.
Lemma store_scalar o c a : scalar_object o ->
  scalar_object (set_comps (dset Nat.eqb c (dset cfg_eqb [] a match dget Nat.eqb c (o_comps o) with Some d => d | None => [] end) (o_comps o)) o).
Proof.
  intros (H1 & H2 & H3 & H4). split; [exact H1|]. split; [exact H2|]. cbn [o_comps set_comps o_coords]. split.
  - intros c' d. destruct (Nat.eq_dec c' c) as [->|N].
    + rewrite dget_dset_same. intros E. injection E as <-. apply dmem_set_nil.
    + rewrite dget_dset_other by exact N. apply H3.
  - intros c' Hc. unfold dmem. destruct (Nat.eq_dec c' c) as [->|N]; [rewrite dget_dset_same; reflexivity|].
    rewrite dget_dset_other by exact N. apply (H4 c' Hc).
Qed.

Section W0.
Variables (w0 : world) (t : oid).
Hypothesis Hty : typed w0.
Hypothesis Ht : cls_of w0 t = Some CTensor.
Definition framed (w : world) : Prop :=
  kept w0 w /\ (forall j, j <> t -> cls_of w0 j <> Some CCoordinates -> obj_of w j = obj_of w0 j) /\
  exists o, obj_of w t = Some o /\ scalar_object o.
Notation P := framed.
Notation PX x o := (fun w => framed w /\ obj_of w x = Some o).
Lemma f_get {Y} x (k : obj -> M Y) :
  (forall o, (forall c, o_coords o = Some c -> cls_of w0 c = Some CCoordinates) -> hoare (PX x o) (k o) (fun _ => P) P) ->
  hoare P (mbind (getobj x) k) (fun _ => P) P.
Proof.
  intros H w Hw. unfold mbind, getobj. destruct (obj_of w x) as [o|] eqn:Ho; [|exact Hw].
  assert (K := proj1 Hw). destruct (kept_typed _ _ K Hty x o Ho) as [_ H2]. destruct K as (_ & _ & a3 & _).
  apply (H o); [intros c Hc; rewrite <- a3; auto|]. split; [exact Hw|exact Ho].
Qed.
Lemma f_weak {Y} x o (k : M Y) : hoare P k (fun _ => P) P -> hoare (PX x o) k (fun _ => P) P.
Proof. apply h_weak. intros w H; apply H. Qed.
Lemma f_get' {Y} x (k : obj -> M Y) :
  (forall o, (forall c, o_coords o = Some c -> cls_of w0 c = Some CCoordinates) -> hoare P (k o) (fun _ => P) P) ->
  hoare P (mbind (getobj x) k) (fun _ => P) P.
Proof. intros H. apply f_get. intros o H1. apply f_weak, H, H1. Qed.
Lemma f_bind {X Y} (m : M X) (k : X -> M Y) :
  hoare P m (fun _ => P) P -> (forall x, hoare P (k x) (fun _ => P) P) -> hoare P (mbind m k) (fun _ => P) P.
Proof. intros H1 H2. eapply h_bind; [exact H1|exact H2]. Qed.
Lemma f_opt {X} e (x : option X) : hoare P (mopt e x) (fun _ => P) P.
Proof. apply h_opt; auto. Qed.
Lemma f_lift {X} (x : res X) : hoare P (mlift x) (fun _ => P) P.
Proof. apply h_lift; auto. Qed.
Lemma f_put x o o' : same_attrs o o' -> (cls_of w0 x = Some CCoordinates -> o_comps o' = o_comps o) ->
  x = t /\ (scalar_object o -> scalar_object o') \/ x <> t /\ cls_of w0 x = Some CCoordinates ->
  hoare (PX x o) (put x o') (fun _ => P) P.
Proof.
  intros H1 H2 H3 w [Hw Ho]. destruct (put_spec w x o o' Ho) as (w1 & E1 & _ & _ & _ & Hj). rewrite E1.
  destruct Hw as (Hk & Hf & os & Hs & Sc). split; [exact (put_kept _ _ _ _ _ _ Hk Ho H1 H2 E1)|]. split.
  - intros j N Nc. rewrite Hj. destruct (Nat.eqb_spec x j) as [E|]; [|apply Hf; assumption].
    destruct H3 as [[E' _]|[_ Hc]]; [congruence|]. rewrite E in Hc. contradiction.
  - destruct H3 as [[-> H3]|[N _]]; rewrite Hj.
    + rewrite Nat.eqb_refl. exists o'. split; [reflexivity|]. apply H3. congruence.
    + destruct (Nat.eqb_spec x t); [contradiction|]. eauto.
Qed.
Lemma coords_other c : cls_of w0 c = Some CCoordinates -> c <> t.
Proof. intros H ->. congruence. Qed.
Lemma calc_jac_framed self coords : cls_of w0 self = Some CCoordinates -> hoare P (w_calculate_jacobian self coords) (fun _ => P) P.
Proof.
  intros Hc. unfold w_calculate_jacobian. apply f_get. intros so _.
  intros w [Hw Hs]. unfold mbind at 1, getobj. destruct (obj_of w coords) as [co|]; [|exact Hw].
  revert w Hw Hs. enough (H : hoare (PX self so) (let! rules := mopt EKeyError (dget Nat.eqb coords (o_trans so)) in
    let! j := mlift (calculate_jacobian (o_syms so) (o_syms co) rules) in
    put self (set_jacs (dset Nat.eqb coords j (o_jacs so)) so)) (fun _ => P) P) by (intros w Hw Hs; exact (H w (conj Hw Hs))).
  apply b_opt; [tauto|]. intros R _. apply b_lift; [tauto|]. intros j _.
  apply f_put; [apply jacs_attrs|reflexivity|]. right. split; [apply coords_other, Hc|exact Hc].
Qed.
Lemma check_jac_framed self coords : cls_of w0 self = Some CCoordinates -> hoare P (w_check_jacobians self coords) (fun _ => P) P.
Proof.
  intros Hc. unfold w_check_jacobians. apply f_get'. intros so _. destruct (dmem _ _ _); [apply h_ret; auto|].
  destruct (dmem _ _ _); [apply calc_jac_framed, Hc|]. apply f_get'. intros co _. apply h_raise; auto.
Qed.
Lemma lookup_framed x c i : hoare P (lookup x c i) (fun _ => P) P.
Proof. unfold lookup. apply f_get'. intros o _. apply f_bind; [apply f_opt|intros d; apply f_opt]. Qed.
Lemma store_framed c a : hoare P (store t c [] a) (fun _ => P) P.
Proof.
  unfold store. apply f_get. intros o _. apply f_put; [apply comps_attrs|congruence|]. left. split; [reflexivity|]. apply store_scalar.
Qed.
Lemma need_array_framed o c : hoare P (need_array o c) (fun _ => P) P.
Proof. unfold need_array. destruct (is_expr o c); [apply h_raise; auto|apply h_ret; auto]. Qed.
Lemma opt_bind {X Y} e (x : option X) (k : X -> M Y) : (forall y, x = Some y -> hoare P (k y) (fun _ => P) P) -> hoare P (mbind (mopt e x) k) (fun _ => P) P.
Proof. intros H w Hw. destruct x as [y|]; [exact (H y eq_refl w Hw)|exact Hw]. Qed.
Lemma base_transform_framed c : hoare P (base_transform t c []) (fun _ => P) P.
Proof.
  unfold base_transform. apply f_get'. intros o Hc. apply opt_bind. intros c0 E0. specialize (Hc c0 E0).
  apply f_bind; [apply check_jac_framed, Hc|intro_]. apply f_bind; [apply lookup_framed|intros a].
  apply f_get'. intros co _. apply f_bind; [apply f_opt|intros [[J Ji] C]]. apply f_bind; [apply f_opt|intros R].
  apply f_bind; [apply need_array_framed|intro_]. apply f_bind; [apply f_lift|intros x]. apply store_framed.
Qed.
Lemma tensor_check_framed c : hoare P (tensor_check t c []) (fun _ => P) P.
Proof.
  unfold tensor_check. apply f_get. intros o _ w [Hw Ho]. destruct (dget Nat.eqb c (o_comps o)) as [d|] eqn:Ed; [|exact Hw].
  destruct Hw as (Hk & Hf & os & Hs & Sc). assert (os = o) by congruence. subst os. rewrite (proj1 (proj2 (proj2 Sc)) c d Ed).
  split; [exact Hk|]. split; [exact Hf|]. eauto.
Qed.
Lemma tensor_transform_framed c : hoare P (tensor_transform t c []) (fun _ => P) P.
Proof.
  unfold tensor_transform. apply f_get. intros o _ w [Hw Ho]. destruct (o_coords o) as [c0|] eqn:E0; [|exact Hw].
  unfold mbind at 1. cbn [mopt mret]. unfold mbind at 1.
  assert (E : tensor_check t c0 [] w = (Ok true, w)).
  { unfold tensor_check, mbind, getobj. rewrite Ho. destruct Hw as (_ & _ & os & Hs & Sc). assert (os = o) by congruence. subst os.
    destruct (dmem_some _ _ (proj2 (proj2 (proj2 Sc)) c0 E0)) as (d & Ed). rewrite Ed, (proj1 (proj2 (proj2 Sc)) c0 d Ed). reflexivity. }
  rewrite E. unfold mbind at 1. cbn [mret]. apply base_transform_framed, Hw.
Qed.
Lemma get_framed c : hoare P (get_components t (Some c) None) (fun _ => P) P.
Proof.
  unfold get_components. apply f_get. intros o _ w [Hw Ho]. unfold mbind at 1. cbn [mret].
  assert (I : o_indices o = []) by (destruct Hw as (_ & _ & os & Hs & Sc); assert (os = o) by congruence; subst os; apply Sc).
  rewrite I. revert w Hw Ho. enough (X : hoare P (get_representation t c []) (fun _ => P) P) by (intros w Hw _; exact (X w Hw)).
  unfold get_representation. apply f_bind; [apply h_isinstance; auto|intros b]. destruct (negb b); [apply h_raise; auto|].
  apply f_get'. intros o' _. apply f_bind; [apply f_lift|intro_]. apply f_bind.
  - intros w Hw. unfold check_representation. destruct (proj1 Hw) as (_ & _ & Hc & _). rewrite Hc, Ht. apply tensor_check_framed, Hw.
  - intros b'. apply f_bind; [|intro_; apply lookup_framed]. destruct b'; [apply h_ret; auto|].
    intros w Hw. unfold transform_coordinates. destruct (proj1 Hw) as (_ & _ & Hc & _). rewrite Hc, Ht. apply tensor_transform_framed, Hw.
Qed.
End W0.

Lemma scalar_get_frame w t o c r w1 : typed w -> cls_of w t = Some CTensor -> obj_of w t = Some o -> scalar_object o ->
  get_components t (Some c) None w = (r, w1) ->
  kept w w1 /\ forall j, j <> t -> cls_of w j <> Some CCoordinates -> obj_of w1 j = obj_of w j.
Proof.
  intros Hty Hk Ho Sc E. assert (H := get_framed w t Hty Hk c w). rewrite E in H.
  assert (X : framed w t w) by (split; [apply kept_refl|split; [reflexivity|eauto]]). specialize (H X). destruct r; split; apply H.
Qed.
End Frame.

Section Product.
Context {A : AlgOps} {L : AlgLaws A} {D : DiffLaws A}.
Variables (w : world) (x y : calc) (t1 t2 : oid) (o1 o2 : obj) (m c : oid) (n : nat) (a : arr).
Hypothesis Hty : typed w.
Hypothesis Hx : labelled w x t1 o1.
Hypothesis Hy : labelled w y t2 o2.
Hypothesis K1 : cls_of w t1 = Some CTensor.
Hypothesis K2 : cls_of w t2 <> Some CCoordinates.
Hypothesis S1 : scalar_object o1.
Hypothesis R2 : 0 < o_rank o2.
Hypothesis M2 : o_metric o2 = Some m.
Hypothesis Hc : coordinate_system w c n.
Hypothesis Hs : stored_default o2 c a.
Hypothesis Ha : cubic n a.
Hypothesis Hr : rank a = o_rank o2.

Lemma scalar_mul_start : (calc_mul x (OCalc y) w = calc_mul y (OCalc x) w) /\
  calc_mul x (OCalc y) w = match get_components t1 (Some c) None w with
    | (Ok s, w1) => match scalar_of s w1 with
        | (Ok k, w2) => (let! t := make_tensor CTensor "TEMP" (amap (kmul k) a) (Some m) (Some c) (o_indices o2) "T" in calc_init (Some t) (c_syms y) RTensor) w1
        | (Err e, w2) => (Err e, w2)
        end
    | (Err e, w1) => (Err e, w1)
    end.
Proof.
  destruct Hx as (Rx & Tx & Ox & Nx & Lx & Kx & Vx), Hy as (Ry & Ty & Oy & Ny & Ly & Ky & Vy). destruct S1 as (I1 & Z1 & _ & _).
  assert (N : t2 <> t1) by (intros ->; rewrite Ox in Oy; injection Oy as <-; lia).
  assert (B : (0 <? o_rank o2) = true) by (apply Nat.ltb_lt, R2). assert (B2 : (o_rank o2 =? 0) = false) by (apply Nat.eqb_neq; lia).
  assert (X1 : calc_mul x (OCalc y) w = match get_components t1 (Some c) None w with
    | (Ok s, w1) => match scalar_of s w1 with
        | (Ok k, w2) => (let! t := make_tensor CTensor "TEMP" (amap (kmul k) a) (Some m) (Some c) (o_indices o2) "T" in calc_init (Some t) (c_syms y) RTensor) w1
        | (Err e, w2) => (Err e, w2)
        end
    | (Err e, w1) => (Err e, w1)
    end).
  { unfold calc_mul. rewrite Rx. cbn [is_tensor_role negb].
    rewrite (bind_ok _ _ t2 w w) by (unfold tensor_of; rewrite Ty; reflexivity). rewrite (bind_ok _ _ o2 w w) by (apply getobj_ok, Oy).
    rewrite (bind_ok _ _ t1 w w) by (unfold tensor_of; rewrite Tx; reflexivity). rewrite (bind_ok _ _ o1 w w) by (apply getobj_ok, Ox).
    rewrite B, B2, Z1, (proj1 Hs). cbn [Nat.ltb Nat.leb andb Nat.eqb].
    destruct (get_components t1 (Some c) None w) as [[s|e] w1] eqn:G.
    2:{ apply bind_err. apply bind_err. exact G. }
    destruct (scalar_get_frame w t1 o1 c _ w1 Hty K1 Ox S1 G) as (Kp & Fr).
    assert (O2 : obj_of w1 t2 = Some o2) by (rewrite Fr; assumption).
    destruct (scalar_of s w1) as [[k|e] w2] eqn:Es.
    2:{ apply bind_err. rewrite (bind_ok _ _ _ _ _ G). apply bind_err. exact Es. }
    assert (W2 : w2 = w1) by (unfold scalar_of in Es; destruct (shape s); [destruct (data s) as [|q [|? ?]]|]; cbv [mret mraise] in Es; congruence). subst w2.
    rewrite (bind_ok _ _ (amap (kmul k) a, o2, c_syms y) w w1).
    2:{ rewrite (bind_ok _ _ _ _ _ G), (bind_ok _ _ _ _ _ Es). rewrite (bind_ok _ _ a w1 w1) by (eapply stored_default_run; eauto).
        rewrite (bind_ok _ _ o2 w1 w1) by (apply getobj_ok, O2). reflexivity. }
    rewrite (bind_ok _ _ (amap (kmul k) a, o2, c_syms y) w1 w1) by reflexivity. rewrite M2, (proj1 Hs). reflexivity. }
  split; [|exact X1]. rewrite X1. symmetry.
  unfold calc_mul. rewrite Ry. cbn [is_tensor_role negb].
  rewrite (bind_ok _ _ t1 w w) by (unfold tensor_of; rewrite Tx; reflexivity). rewrite (bind_ok _ _ o1 w w) by (apply getobj_ok, Ox).
  rewrite (bind_ok _ _ t2 w w) by (unfold tensor_of; rewrite Ty; reflexivity). rewrite (bind_ok _ _ o2 w w) by (apply getobj_ok, Oy).
  rewrite B, B2, Z1, (proj1 Hs). cbn [Nat.ltb Nat.leb andb Nat.eqb].
  rewrite (bind_ok _ _ (mkArr [] [], o2, c_syms y) w w) by reflexivity.
  destruct (get_components t1 (Some c) None w) as [[s|e] w1] eqn:G.
  2:{ apply bind_err. apply bind_err. exact G. }
  destruct (scalar_get_frame w t1 o1 c _ w1 Hty K1 Ox S1 G) as (Kp & Fr).
  assert (O2 : obj_of w1 t2 = Some o2) by (rewrite Fr; assumption).
  destruct (scalar_of s w1) as [[k|e] w2] eqn:Es.
  2:{ apply bind_err. rewrite (bind_ok _ _ _ _ _ G). apply bind_err. exact Es. }
  assert (W2 : w2 = w1) by (unfold scalar_of in Es; destruct (shape s); [destruct (data s) as [|q [|? ?]]|]; cbv [mret mraise] in Es; congruence). subst w2.
  rewrite (bind_ok _ _ (amap (kmul k) a, o2, c_syms y) w w1).
  2:{ rewrite (bind_ok _ _ _ _ _ G), (bind_ok _ _ _ _ _ Es). rewrite (bind_ok _ _ a w1 w1) by (eapply stored_default_run; eauto).
      rewrite (bind_ok _ _ o2 w1 w1) by (apply getobj_ok, O2). reflexivity. }
  cbv beta iota. rewrite M2, (proj1 Hs). reflexivity.
Qed.
Theorem scalar_mul_order : calc_mul y (OCalc x) w = calc_mul x (OCalc y) w.
Proof. symmetry. apply scalar_mul_start. Qed.
Theorem scalar_mul_error e w1 : get_components t1 (Some c) None w = (Err e, w1) -> calc_mul x (OCalc y) w = (Err e, w1).
Proof. intros G. rewrite (proj2 scalar_mul_start), G. reflexivity. Qed.
Theorem scalar_mul_value k w1 : get_components t1 (Some c) None w = (Ok (mkArr [] [k]), w1) ->
  exists z w' b, calc_mul x (OCalc y) w = (Ok z, w') /\ result_is w' z (c_syms y) m c (o_indices o2) b /\ cubic n b /\
    forall idx, inb (shape a) idx = true -> aget b idx = kmul k (aget a idx).
Proof.
  intros G. destruct Hx as (Rx & Tx & Ox & Nx & Lx & Kx & Vx), Hy as (Ry & Ty & Oy & Ny & Ly & Ky & Vy).
  rewrite (proj2 scalar_mul_start), G. cbn [scalar_of shape data mret].
  destruct (scalar_get_frame w t1 o1 c _ w1 Hty K1 Ox S1 G) as (Kp & Fr).
  destruct (amap_values n (kmul k) a Ha) as (P1 & P2 & P3).
  assert (Em : cls_of w m = Some CMetric) by (destruct (Hty t2 o2 Oy) as [H _]; apply H, M2).
  assert (Em1 : cls_of w1 m = Some CMetric) by (destruct Kp as (_ & _ & H & _); rewrite H; exact Em).
  rewrite (make_calc w1 "TEMP" (amap (kmul k) a) m c (o_indices o2) "T" n (c_syms y) Em1 (kept_system _ _ _ _ Kp Hc) P1 Vy) by congruence.
  eexists _, _, _. split; [reflexivity|]. split; [apply result_new|]. split; [exact P1|exact P3].
Qed.
Theorem scalar_matmul_refused : o_metric o1 <> o_metric o2 -> matmul x y w = (Err EValueError, w) /\ matmul y x w = (Err EValueError, w).
Proof.
  intros N. destruct Hx as (Rx & Tx & Ox & _), Hy as (Ry & Ty & Oy & _).
  assert (B : forall p q, p <> q -> opt_oid_eqb p q = false).
  { intros [p|] [q|] H; cbn; try reflexivity; [apply Nat.eqb_neq; congruence|contradiction]. }
  unfold matmul, matmul_with, matmul0. rewrite Rx, Ry. unfold metric_attr. rewrite Tx, Ty. unfold mbind, mret, mraise. rewrite Ox, Oy.
  rewrite (B _ _ N), (B (o_metric o2) (o_metric o1)) by congruence. split; reflexivity.
Qed.
End Product.
