(** A metric that changes its default coordinates. *)
From Verif Require Import Alg Alg_P Arr Arr_P Spec Act_P Arr2_P UtilsM TensorM RL_P Tensor_P RL_P Jacobian_P WorldM SpecWorld World_P Registry_P CalcM SpecCalc Calc_P CurvM SpecCurv SpecDim SpecDefault SpecStart SpecMove WrapM Wrap_P DefaultsM Curv_P Curv2_P CurvDim_P CurvDim2_P Scale_P Start_P Default_P DefaultRun_P StartDefault_P.
Local Open Scope nat_scope.

Section Move.
Context {A : AlgOps} {L : AlgLaws A} {D : DiffLaws A} {IL : InvLaws A} {DL : DetLaws A}.
Add Ring Kring : kring (setoid keq_equiv kring_ext).
Local Open Scope K_scope.

Lemma subs_seq_proper R x y : (forall s, In s (map fst R) -> substitutable s) -> x == y -> subs_seq R x == subs_seq R y.
Proof.
  unfold subs_seq. revert x y. induction R as [|[s q] R IH]; intros x y H E; cbn [fold_left]; [exact E|]. apply IH.
  - intros t Ht. apply H. right. exact Ht.
  - apply (H s); [left; reflexivity|exact E].
Qed.
Lemma low_valid : valid_cfg [-1; -1]%Z.
Proof. apply Forall_cons; [auto|]. apply Forall_cons; [auto|apply Forall_nil]. Qed.
Lemma transform_moved n xs ys R J Ji G x : square n J -> square n Ji -> square n G -> (forall s, In s (map fst R) -> substitutable s) ->
  (forall i j, (i < n)%nat -> (j < n)%nat -> aget J [i; j] == rule_derivative xs ys R i j) ->
  transform J Ji R 2 [-1; -1]%Z G = Ok x ->
  square n x /\ forall i j, (i < n)%nat -> (j < n)%nat -> aget x [i; j] == moved_metric n xs ys R (mfun G) i j.
Proof.
  intros SJ SJi SG HS HJ E. destruct (proj1 (square_cubic n G) SG) as [Hc Hr].
  destruct (transform_spec n J Ji R [-1; -1]%Z G Hc SJ SJi low_valid ltac:(rewrite Hr; reflexivity)) as (b & Eb & Wb & Sb & Gb).
  rewrite Hr in Eb. assert (b = x) by congruence. subst b. split; [split; [exact Wb|rewrite Sb; apply SG]|].
  intros i j Hi Hj. destruct (Gb [i; j]) as (y & Hy & ->). { apply (square_in n); assumption. }
  unfold moved_metric. apply subs_seq_proper; [exact HS|]. rewrite Hy. cbn [map]. rewrite act2. apply nsum_ext. intros k Hk. apply nsum_ext. intros l Hl.
  unfold jac. cbn [Z.eqb]. unfold mtr, mfun. rewrite (HJ k i), (HJ l j) by assumption. ring.
Qed.

Lemma moved_symmetric n xs ys R g : (forall s, In s (map fst R) -> substitutable s) -> symmetric_fun n g -> symmetric_fun n (moved_metric n xs ys R g).
Proof.
  intros HS Hg i j Hi Hj. unfold moved_metric. apply subs_seq_proper; [exact HS|]. rewrite nsum_swap. apply nsum_ext. intros k Hk. apply nsum_ext. intros l Hl.
  rewrite (Hg k l Hk Hl). ring.
Qed.

Local Open Scope nat_scope.
Lemma dget_absent {V : Type} k (l : list (oid * V)) : dmem Nat.eqb k l = false -> dget Nat.eqb k l = None.
Proof. unfold dmem. destruct (dget Nat.eqb k l); [discriminate|reflexivity]. Qed.

Theorem metric_moves w n m c name xs g gi c' ys R w' :
  metric_session w n m c name xs g gi -> chart w n c' ys -> c <> c' -> only_in w m c -> new_rules w c c' R ->
  NoDup (map fst R) -> (forall s, In s (map fst R) -> substitutable s) ->
  change_default_coords m c' w = (Ok tt, w') ->
  exists gi', metric_session w' n m c' name ys (moved_metric n xs ys R g) gi' /\
    insts w' = insts w /\ (forall s j, named w' s j <-> named w s j).
Proof.
  intros MS Ch Ncc (o1 & Ho1 & Hk) (oc & Hoc & HR & HJ) ND HS H.
  destruct (session_chart _ _ _ _ _ _ _ _ MS) as [(O1 & O2 & O3) Chc].
  destruct MS as (_ & _ & _ & Hn & Hsys & Hin & Hnt & (oc1 & Hoc1 & Exs & Lxs) & Hmc & Hmi & Hmt & Hsym & Hinv & (o & G & Ho & Eo & Mo & Io & Ro & (Co & Li & d & Hd & HG) & Hval)).
  assert (o1 = o) by congruence. subst o1. assert (oc1 = oc) by congruence. subst oc1.
  destruct Ch as (_ & Hsys' & Hin' & Hnt' & (oy & Hoy & Eys & Lys)).
  assert (Hcc : cls_of w c = Some CCoordinates) by apply Hsys. assert (Hcc' : cls_of w c' = Some CCoordinates) by apply Hsys'.
  assert (Nmc : m <> c) by congruence. assert (Nmc' : m <> c') by congruence.
  assert (Hno : dget Nat.eqb c' (o_comps o) = None).
  { destruct (o_comps o) as [|[k v] [|p l]]; try discriminate Hk. injection Hk as ->. cbn [dget]. destruct (Nat.eqb_spec c' c); [congruence|reflexivity]. }
  unfold change_default_coords in H. unfold mbind at 1, isinstance at 1 in H. rewrite Hcc' in H. cbn [cls_eqb negb] in H.
  unfold mbind at 1, getobj at 1 in H. rewrite Ho in H. rewrite Co in H. cbn [mopt] in H. unfold mbind at 1, mret at 1 in H.
  destruct (Nat.eqb_spec c c') as [|_]; [contradiction|].
  unfold mbind at 1, getobj at 1 in H. rewrite Hoc in H. unfold dmem at 1 in H. rewrite HR in H. cbn [negb] in H.
  unfold mbind at 1, check_representation at 1 in H. rewrite Hmc in H. unfold metric_check, mbind at 1, getobj at 1 in H. rewrite Ho in H. unfold mret at 1, dmem at 1 in H. rewrite Hno in H.
  apply bind_inv in H as (u1 & w4 & H & Hlast). unfold transform_coordinates in H. rewrite Hmc, Io in H.
  unfold metric_transform in H. apply bind_inv in H as (u2 & w2 & Hbase & H).
  (* base_transform *)
  unfold base_transform in Hbase. unfold mbind at 1, getobj at 1 in Hbase. rewrite Ho, Co in Hbase. cbn [mopt] in Hbase. unfold mbind at 1, mret at 1 in Hbase.
  apply bind_inv in Hbase as (u3 & w1 & Hchk & Hbase).
  unfold w_check_jacobians, mbind at 1, getobj at 1 in Hchk. rewrite Hoc in Hchk. unfold dmem at 1 in Hchk. rewrite HJ in Hchk. unfold dmem in Hchk. rewrite HR in Hchk.
  unfold w_calculate_jacobian, mbind at 1, getobj at 1 in Hchk. rewrite Hoc in Hchk. unfold mbind at 1, getobj at 1 in Hchk. rewrite Hoy in Hchk.
  rewrite HR in Hchk. cbn [mopt] in Hchk. unfold mbind at 1, mret at 1 in Hchk. rewrite Exs, Eys in Hchk.
  unfold mbind at 1, mlift in Hchk. destruct (calculate_jacobian xs ys R) as [[[J Ji] C]|e] eqn:EJ; [|discriminate Hchk].
  destruct (put_spec w c oc (set_jacs (dset Nat.eqb c' (J, Ji, C) (o_jacs oc)) oc) Hoc) as (w1' & P1 & I1 & _ & K1 & B1). rewrite P1 in Hchk. injection Hchk as <- <-.
  assert (Ho1m : obj_of w1' m = Some o) by (rewrite B1; destruct (Nat.eqb_spec c m); [congruence|exact Ho]).
  assert (Ho1c : obj_of w1' c = Some (set_jacs (dset Nat.eqb c' (J, Ji, C) (o_jacs oc)) oc)) by (rewrite B1, Nat.eqb_refl; reflexivity).
  unfold mbind at 1, lookup, mbind at 1, getobj at 1 in Hbase. rewrite Ho1m in Hbase. rewrite Hd in Hbase. cbn [mopt] in Hbase. unfold mbind at 1, mret at 1 in Hbase.
  destruct (HG (-1)%Z (-1)%Z low_valid) as (Hg & Cg & Rg). rewrite Hg in Hbase. cbn [mopt] in Hbase. unfold mret at 1 in Hbase.
  unfold mbind at 1, getobj at 1 in Hbase. rewrite Ho1c in Hbase. cbn [set_jacs o_jacs o_trans] in Hbase.
  assert (Dj : dget Nat.eqb c' (dset Nat.eqb c' (J, Ji, C) (o_jacs oc)) = Some (J, Ji, C)).
  { clear. induction (o_jacs oc) as [|[k v] l IH]; cbn [dset dget]; [rewrite Nat.eqb_refl; reflexivity|]. destruct (Nat.eqb_spec c' k) as [->|N]; cbn [dget]; [rewrite Nat.eqb_refl; reflexivity|].
    destruct (Nat.eqb_spec c' k); [contradiction|exact IH]. }
  rewrite Dj in Hbase. cbn [mopt] in Hbase. unfold mbind at 1, mret at 1 in Hbase. rewrite HR in Hbase. cbn [mopt] in Hbase. unfold mbind at 1, mret at 1 in Hbase.
  unfold mbind at 1, need_array at 1, is_expr in Hbase. rewrite Ro in Hbase. cbn [Nat.eqb andb] in Hbase. unfold mret at 1 in Hbase.
  unfold mbind at 1, mlift in Hbase. destruct (transform J Ji R 2 [-1; -1]%Z (G (-1)%Z (-1)%Z)) as [x|e] eqn:ET; [|discriminate Hbase].
  unfold store, mbind at 1, getobj at 1 in Hbase. rewrite Ho1m in Hbase. rewrite Hno in Hbase. cbv zeta in Hbase. cbn [dset] in Hbase.
  destruct (put_spec w1' m o (set_comps (dset Nat.eqb c' [([-1; -1]%Z, x)] (o_comps o)) o) Ho1m) as (w2' & P2 & I2 & _ & K2 & B2). rewrite P2 in Hbase. injection Hbase as <- <-.
  (* metric_fill *)
  assert (Ho2m : obj_of w2' m = Some (set_comps (dset Nat.eqb c' [([-1; -1]%Z, x)] (o_comps o)) o)) by (rewrite B2, Nat.eqb_refl; reflexivity).
  unfold mbind at 1, getobj at 1 in H. rewrite Ho2m in H. cbn [set_comps o_comps o_indices] in H.
  assert (Dg : forall (V : Type) (v : V) l, dget Nat.eqb c' (dset Nat.eqb c' v l) = Some v).
  { clear. intros V v l. induction l as [|[k u] l IH]; cbn [dset dget]; [rewrite Nat.eqb_refl; reflexivity|]. destruct (Nat.eqb_spec c' k) as [->|N]; cbn [dget]; [rewrite Nat.eqb_refl; reflexivity|].
    destruct (Nat.eqb_spec c' k); [contradiction|exact IH]. }
  rewrite Dg in H. cbn [mopt] in H. unfold mbind at 1, mret at 1 in H. rewrite Io in H.
  destruct (metric_fill [-1; -1]%Z [-1; -1]%Z [([-1; -1]%Z, x)]) as [d' r] eqn:EF.
  match type of H with mbind (put m ?oo) _ _ = _ => set (o3 := oo) in *; destruct (put_spec w2' m _ o3 Ho2m) as (w3' & P3 & I3 & _ & K3 & B3) end.
  unfold mbind at 1 in H. rewrite P3 in H. unfold mlift in H. injection H as -> <-.
  (* set_coords *)
  assert (Ho3m : obj_of w3' m = Some o3) by (rewrite B3, Nat.eqb_refl; reflexivity).
  unfold mbind at 1, getobj at 1 in Hlast. rewrite Ho3m in Hlast.
  destruct (put_spec w3' m o3 (set_coords (Some c') o3) Ho3m) as (w4' & P4 & I4 & _ & K4 & B4). rewrite P4 in Hlast. injection Hlast as <-.
  assert (Kc : forall j, cls_of w4' j = cls_of w j) by (intros j; rewrite K4, K3, K2, K1; reflexivity).
  assert (Ic : insts w4' = insts w) by congruence.
  assert (Bm : obj_of w4' m = Some (set_coords (Some c') o3)) by (rewrite B4, Nat.eqb_refl; reflexivity).
  assert (Bc : obj_of w4' c = Some (set_jacs (dset Nat.eqb c' (J, Ji, C) (o_jacs oc)) oc)).
  { rewrite B4. destruct (Nat.eqb_spec m c); [contradiction|]. rewrite B3. destruct (Nat.eqb_spec m c); [contradiction|]. rewrite B2. destruct (Nat.eqb_spec m c); [contradiction|]. exact Ho1c. }
  assert (Bo : forall j, j <> m -> j <> c -> obj_of w4' j = obj_of w j).
  { intros j Nm Nc. rewrite B4. destruct (Nat.eqb_spec m j); [congruence|]. rewrite B3. destruct (Nat.eqb_spec m j); [congruence|]. rewrite B2. destruct (Nat.eqb_spec m j); [congruence|].
    rewrite B1. destruct (Nat.eqb_spec c j); [congruence|reflexivity]. }
  destruct u1.
  (* the values *)
  destruct (calculate_jacobian_spec n xs ys R Hn Lxs Lys ND J Ji C EJ) as (SJ & SJi & _ & _ & _ & GJ & _).
  assert (SG : square n (G (-1)%Z (-1)%Z)) by (apply square_cubic; auto).
  destruct (transform_moved n xs ys R J Ji _ x SJ SJi SG HS GJ ET) as [Sx Vx].
  assert (Vx' : forall i j, i < n -> j < n -> keq (aget x [i; j]) (moved_metric n xs ys R g i j)).
  { intros i j Hi Hj. rewrite Vx by assumption. unfold moved_metric. apply subs_seq_proper; [exact HS|]. apply nsum_ext. intros k Hk'. apply nsum_ext. intros l Hl.
    unfold mfun. rewrite (proj1 (Hval k l Hk' Hl)). reflexivity. }
  assert (Sy : symmetric_fun n (mfun x)).
  { intros i j Hi Hj. unfold mfun, mtr. rewrite !Vx' by assumption. exact (moved_symmetric n xs ys R g HS Hsym i j Hi Hj). }
  destruct (metric_fill_spec n [-1; -1]%Z x d' Sx Sy (or_introl eq_refl) EF) as (D1 & (ti & D2 & St & Inv) & (m1 & D3 & Sm1 & Q1) & (m2 & D4 & Sm2 & Q2)).
  cbn [map Z.opp] in D2.
  assert (Nmd : forall s j, named w4' s j <-> named w s j).
  { intros s j. unfold named. destruct (Nat.eq_dec j m) as [->|Nm].
    - rewrite Bm, Ho. split; intros (q & [= <-] & Hq); eexists; (split; [reflexivity|]); exact Hq.
    - destruct (Nat.eq_dec j c) as [->|Nc]; [|rewrite Bo by assumption; reflexivity].
      rewrite Bc, Hoc. split; intros (q & [= <-] & Hq); eexists; (split; [reflexivity|]); exact Hq. }
  assert (T' : typed w4').
  { intros j oj Hj. destruct (Nat.eq_dec j m) as [->|Nm].
    - rewrite Bm in Hj. injection Hj as <-. split; intros q Hq; rewrite Kc.
      + cbn in Hq. rewrite Mo in Hq. injection Hq as <-. exact Hmc.
      + cbn in Hq. injection Hq as <-. exact Hcc'.
    - destruct (Nat.eq_dec j c) as [->|Nc].
      + rewrite Bc in Hj. injection Hj as <-. destruct (O1 c oc Hoc) as [X1 X2]. split; intros q Hq; rewrite Kc; auto.
      + rewrite Bo in Hj by assumption. destruct (O1 j oj Hj) as [X1 X2]. split; intros q Hq; rewrite Kc; auto. }
  assert (Rf : forall j oj q, obj_of w4' j = Some oj -> refers oj q -> q = c' \/ exists oj0, obj_of w j = Some oj0 /\ refers oj0 q).
  { intros j oj q Hj Hr. destruct (Nat.eq_dec j m) as [->|Nm].
    - rewrite Bm in Hj. injection Hj as <-. destruct Hr as [Hr|[Hr|[Hr|Hr]]]; cbn [set_coords set_comps o_comps o_metric o_coords o_trans o3] in Hr.
      + assert (Hq : q = c' \/ In q (map fst (o_comps o))).
        { destruct (o_comps o) as [|[k v] [|p l]]; try discriminate Hk. injection Hk as ->. cbn [dset] in Hr. destruct (Nat.eqb_spec c' c); [congruence|].
          cbn [dset map fst In] in Hr |- *. destruct (Nat.eqb_spec c' c); [congruence|]. cbn [dset map fst In] in Hr.
          rewrite ?Nat.eqb_refl in Hr. cbn in Hr. intuition congruence. }
        destruct Hq as [->|Hq]; [auto|]. right. exists o. split; [exact Ho|]. left. exact Hq.
      + right. exists o. split; [exact Ho|]. right. left. exact Hr.
      + injection Hr as <-. auto.
      + right. exists o. split; [exact Ho|]. right. right. right. exact Hr.
    - destruct (Nat.eq_dec j c) as [->|Nc].
      + rewrite Bc in Hj. injection Hj as <-. right. exists oc. split; [exact Hoc|]. exact Hr.
      + rewrite Bo in Hj by assumption. right. eauto. }
  assert (I' : integrity w4').
  { destruct O2 as [[R1 R2] R3]. split; [split|].
    - rewrite Ic. exact R1.
    - rewrite Ic. intros j Hj. destruct (Nat.eq_dec j m) as [->|Nm]; [rewrite Bm; discriminate|]. destruct (Nat.eq_dec j c) as [->|Nc]; [rewrite Bc; discriminate|]. rewrite Bo by assumption. apply R2, Hj.
    - rewrite Ic. intros j oj q Hj Hoj Hr. destruct (Rf j oj q Hoj Hr) as [->|(oj0 & E0 & Hr0)]; [exact Hin'|]. exact (R3 j oj0 q Hj E0 Hr0). }
  assert (U' : temps_unused w4').
  { intros q Hq Hn' (j & oj & Hj & Njq & Hoj & Hr). rewrite Ic in Hq, Hj. apply Nmd in Hn'. destruct (Rf j oj q Hoj Hr) as [->|(oj0 & E0 & Hr0)]; [exact (Hnt' Hn')|].
    apply (O3 q Hq Hn'). exists j, oj0. auto. }
  exists (mfun ti). split; [|split; assumption].
  assert (Bc' : obj_of w4' c' = Some oy) by (rewrite Bo by congruence; exact Hoy).
  apply (session_ext w4' n m c' name ys (mfun x)); [exact Vx'|].
  split; [exact T'|]. split; [exact I'|]. split; [exact U'|]. split; [exact Hn|].
  split. { destruct Hsys' as [_ (o5 & d5 & x5 & Z1 & Z2)]. split; [rewrite Kc; exact Hcc'|]. exists o5, d5, x5. split; [rewrite Bc'; congruence|exact Z2]. }
  split; [rewrite Ic; exact Hin'|]. split; [rewrite Nmd; exact Hnt'|]. split; [exists oy; auto|].
  split; [rewrite Kc; exact Hmc|]. split; [rewrite Ic; exact Hmi|]. split; [rewrite Nmd; exact Hmt|].
  split; [exact Sy|]. split; [exact Inv|].
  exists (set_coords (Some c') o3), (fun z0 z1 => match z0, z1 with (-1)%Z, (-1)%Z => x | 1%Z, 1%Z => ti | 1%Z, (-1)%Z => m1 | _, _ => m2 end).
  split; [exact Bm|]. split; [exact Eo|]. split; [exact Mo|]. split; [exact Io|]. split; [exact Ro|]. split.
  - split; [reflexivity|]. split; [exact Li|]. exists d'. split; [apply Dg|]. intros z0 z1 V. assert (V0 := Forall_inv V). assert (V1 := Forall_inv (Forall_inv_tail V)).
    assert (Sq : forall b, square n b -> cubic n b /\ rank b = 2) by (intros b; apply square_cubic).
    destruct V0 as [-> | ->], V1 as [-> | ->]; (split; [assumption|apply Sq; assumption]).
  - intros i j Hi Hj. split; [reflexivity|]. split; [reflexivity|]. split; [apply Q1; assumption|apply Q2; assumption].
Qed.
End Move.
