(** Importing Defaults.py. *)
From Verif Require Import Alg Alg_P Arr Arr_P Spec Act_P TensorM WorldM SpecWorld World_P Registry_P CalcM SpecCalc Calc_P CurvM SpecCurv SpecDim SpecDefault SpecStart WrapM Wrap_P DefaultsM Curv_P Curv2_P CurvDim_P CurvDim2_P Scale_P Start_P Default_P DefaultRun_P.
Local Open Scope nat_scope.

Section Transform.
Context {A : AlgOps}.

(** A transformation is added to a coordinate system. *)
Lemma add_transformation_start w n c xs n' d ys l : in_order w -> chart w n c xs -> chart w n' d ys -> c <> d -> forallb rule_ok l = true ->
  exists w' o, add_coord_transformation c (VObj d) (Some l) w = (Ok tt, w') /\ obj_of w c = Some o /\
    obj_of w' c = Some (set_trans (dset Nat.eqb d (stored_rules l) (o_trans o)) o) /\ insts w' = insts w /\
    (forall j, cls_of w' j = cls_of w j) /\ (forall j, j <> c -> obj_of w' j = obj_of w j) /\ (forall s j, named w' s j <-> named w s j) /\
    in_order w' /\ still_usable [] w w'.
Proof.
  intros (O1 & O2 & O3) Hc Hd N Hl. destruct (proj2 (proj2 (proj2 (proj2 Hc)))) as (o & Ho & _).
  assert (Hdc : cls_of w d = Some CCoordinates) by apply Hd.
  destruct (put_spec w c o (set_trans (dset Nat.eqb d (stored_rules l) (o_trans o)) o) Ho) as (w' & E & Hi & _ & Hcl & Hob).
  assert (E' : add_coord_transformation c (VObj d) (Some l) w = (Ok tt, w')).
  { unfold add_coord_transformation, mbind at 1, isinstance. rewrite Hdc. cbn [cls_eqb negb]. destruct (Nat.eqb_spec c d); [contradiction|].
    unfold mbind, getobj. rewrite Ho, Hl. exact E. }
  exists w', o. split; [exact E'|]. split; [exact Ho|]. split; [rewrite Hob, Nat.eqb_refl; reflexivity|]. split; [exact Hi|]. split; [exact Hcl|].
  assert (Hoth : forall j, j <> c -> obj_of w' j = obj_of w j).
  { intros j Nj. rewrite Hob. destruct (Nat.eqb_spec c j); [congruence|reflexivity]. }
  split; [exact Hoth|].
  assert (Hnm : forall s j, named w' s j <-> named w s j).
  { intros s j. unfold named. rewrite Hob. destruct (Nat.eqb_spec c j) as [<-|_]; [|reflexivity]. rewrite Ho.
    split; intros (x & [= <-] & Hx); eexists; (split; [reflexivity|]); exact Hx. }
  split; [exact Hnm|].
  assert (T' : typed w').
  { intros j oj. rewrite Hob. destruct (Nat.eqb_spec c j) as [<-|_].
    - intros [= <-]. cbn [set_trans o_metric o_coords]. destruct (O1 c o Ho) as [X1 X2]. split; intros x Hx; rewrite Hcl; auto.
    - intros Hj. destruct (O1 j oj Hj) as [X1 X2]. split; intros x Hx; rewrite Hcl; auto. }
  assert (I' : integrity w').
  { assert (H := run_op_integrity w (OpAdd c (VObj d) (Some l)) O2). cbn [run_op live_args live] in H. rewrite E' in H. apply H. apply Hd. }
  assert (U' : temps_unused w').
  { intros j Hj Hn (i & oi & Hii & Nij & Hoi & Hr). rewrite Hi in Hj, Hii. apply Hnm in Hn. rewrite Hob in Hoi. destruct (Nat.eqb_spec c i) as [<-|Nci].
    - injection Hoi as <-. destruct Hr as [Hr|[Hr|[Hr|Hr]]]; cbn [set_trans o_comps o_metric o_coords o_trans] in Hr.
      + apply (O3 j Hj Hn). exists c, o. unfold refers. auto 8.
      + apply (O3 j Hj Hn). exists c, o. unfold refers. auto 8.
      + apply (O3 j Hj Hn). exists c, o. unfold refers. auto 8.
      + assert (Hk : j = d \/ In j (map fst (o_trans o))).
        { clear - Hr. induction (o_trans o) as [|[k v] t IH]; cbn [dset map fst In] in Hr; [destruct Hr as [<-|[]]; auto|].
          destruct (Nat.eqb_spec d k) as [->|Nk]; cbn [map fst In] in Hr; [destruct Hr as [<-|Hr]; [left; reflexivity|right; right; exact Hr]|].
          destruct Hr as [<-|Hr]; [right; left; reflexivity|]. destruct (IH Hr); [auto|right; right; assumption]. }
        destruct Hk as [->|Hk]; [apply Hd, Hn|]. apply (O3 j Hj Hn). exists c, o. unfold refers. auto 8.
    - apply (O3 j Hj Hn). exists i, oi. auto. }
  assert (O' : in_order w') by (split; [|split]; assumption). split; [exact O'|].
  assert (Hold : forall j oj, obj_of w j = Some oj -> exists oj', obj_of w' j = Some oj' /\ o_comps oj' = o_comps oj /\ o_syms oj' = o_syms oj /\ o_name oj' = o_name oj /\
     o_metric oj' = o_metric oj /\ o_coords oj' = o_coords oj /\ o_indices oj' = o_indices oj /\ o_rank oj' = o_rank oj).
  { intros j oj Hj. rewrite Hob. destruct (Nat.eqb_spec c j) as [<-|_]; [|exists oj; auto 12]. rewrite Ho in Hj. injection Hj as <-.
    eexists. split; [reflexivity|]. repeat split. }
  assert (Hch : forall n2 c2 xs2, chart w n2 c2 xs2 -> chart w' n2 c2 xs2).
  { intros n2 c2 xs2 (H1 & [H2 (o2 & d2 & x2 & H3 & H4)] & H5 & H6 & (oc & H7 & H8)). destruct (Hold _ _ H3) as (o3 & X1 & X2 & X3 & _).
    split; [exact H1|]. split; [split; [rewrite Hcl; exact H2|exists o3, d2, x2; rewrite X2; auto]|]. split; [rewrite Hi; exact H5|].
    split; [rewrite Hnm; exact H6|]. exists o3. rewrite X3. assert (oc = o2) by congruence. subst oc. auto. }
  split; [exact Hch|]. split.
  - intros n2 m2 c2 name2 xs2 g2 gi2 H. assert (Hx := H). apply session_chart in Hx as [_ Hx]. apply Hch in Hx as (C1 & C2 & C3 & C4 & C5).
    destruct H as (_ & _ & _ & _ & _ & _ & _ & _ & M1 & M2 & M3 & M4 & M5 & (om & G & Hom & Y1 & Y2 & Y3 & Y4 & (Y5 & Y6 & Y7) & Y8)).
    destruct (Hold _ _ Hom) as (o3 & X1 & X2 & X3 & X4 & X5 & X6 & X7 & X8).
    repeat (split; [assumption|]). split; [rewrite Hcl; exact M1|]. split; [rewrite Hi; exact M2|]. split; [rewrite Hnm; exact M3|].
    split; [exact M4|]. split; [exact M5|]. exists o3, G. split; [exact X1|]. split; [congruence|]. split; [congruence|]. split; [congruence|]. split; [congruence|].
    split; [|exact Y8]. split; [congruence|]. split; [congruence|]. rewrite X2. exact Y7.
  - assert (Kn : forall n2 m2 c2 s i f, known w n2 m2 c2 s i f -> known w' n2 m2 c2 s i f).
    { intros n2 m2 c2 s i f Kw j Hj Hn. rewrite Hi in Hj. apply Hnm in Hn. destruct (Kw j Hj Hn) as (k & oj & a & Z1 & Z2 & Z3 & Z4 & Z5 & Z6 & (Z7 & dd & Z8 & Z9) & Z10).
      destruct (Hold _ _ Z3) as (o3 & X1 & X2 & X3 & X4 & X5 & X6 & X7 & X8). exists k, o3, a. split; [rewrite Hcl; exact Z1|]. split; [exact Z2|]. split; [exact X1|].
      split; [congruence|]. split; [congruence|]. split; [congruence|]. split; [|exact Z10]. split; [congruence|]. exists dd. rewrite X2, X7. auto. }
    intros n2 m2 c2 name2 xs2 g2 gi2 _ (K1 & K2 & K3 & K4 & K5 & K6). repeat split; apply Kn; assumption.
Qed.

Lemma usable_refl w : still_usable [] w w.
Proof. split; [auto|]. split; auto. Qed.
Lemma usable_trans l1 l2 w1 w2 w3 : still_usable l1 w1 w2 -> still_usable l2 w2 w3 -> still_usable (l1 ++ l2) w1 w3.
Proof.
  intros (A1 & A2 & A3) (B1 & B2 & B3). split; [eauto|]. split; [eauto|]. intros n m c name xs g gi N K.
  apply B3; [intros s Hs; apply N, in_app_iff; auto|]. apply A3; [intros s Hs; apply N, in_app_iff; auto|exact K].
Qed.
End Transform.

Section Defaults.
Context {A : AlgOps} {L : AlgLaws A} {D : DiffLaws A} {IL : InvLaws A} {DL : DetLaws A}.
Add Ring Kring : kring (setoid keq_equiv kring_ext).

Lemma session_ext w n m c name xs g g' gi : (forall i j, i < n -> j < n -> keq (g i j) (g' i j)) ->
  metric_session w n m c name xs g gi -> metric_session w n m c name xs g' gi.
Proof.
  intros E (H1 & H2 & H3 & H4 & H5 & H6 & H7 & H8 & H9 & H10 & H11 & H12 & (I1 & I2) & (o & G & H14 & H15 & H16 & H17 & H18 & H19 & H20)).
  repeat (split; [assumption|]). split; [intros i j Hi Hj; rewrite <- !E by assumption; apply H12; assumption|]. split.
  - split; intros i j Hi Hj; [rewrite <- (I1 i j Hi Hj)|rewrite <- (I2 i j Hi Hj)]; apply nsum_ext; intros k Hk; rewrite E by assumption; reflexivity.
  - exists o, G. repeat (split; [assumption|]). intros i j Hi Hj. destruct (H20 i j Hi Hj) as (X1 & X2 & X3 & X4). repeat (split; [try assumption|]); [rewrite <- E by assumption; exact X1|assumption].
Qed.

Variable F : functions.
Lemma diag4_entry (a b c d : K) i j : i < 4 -> j < 4 -> aget (diag4 a b c d) [i; j] = diagonal [a; b; c; d] i j.
Proof. intros Hi Hj. destruct i as [|[|[|[|]]]]; try lia; destruct j as [|[|[|[|]]]]; try lia; reflexivity. Qed.
Lemma diag4_symmetric (a b c d : K) : (forall e, In e (data (diag4 a b c d)) -> kisz (simp (ksub e e)) = true) ->
  forall i j, i < 4 -> j < 4 -> kisz (simp (ksub (aget (diag4 a b c d) [i; j]) (aget (diag4 a b c d) [j; i]))) = true.
Proof. intros H i j Hi Hj. destruct i as [|[|[|[|]]]]; try lia; destruct j as [|[|[|[|]]]]; try lia; apply H; cbn; auto 20. Qed.
Lemma diag4_wf (a b c d : K) : awf (diag4 a b c d) /\ shape (diag4 a b c d) = [4; 4].
Proof. split; reflexivity. Qed.

Lemma added_old_named w w' t s j : added w w' t -> In j (insts w') -> named w' s j -> (In j (insts w) /\ named w s j) \/ j = t.
Proof.
  intros Ad Hj Hn. destruct (Nat.eq_dec j t) as [->|N]; [auto|]. left. apply (added_in _ _ _ _ Ad) in Hj as [Hj|Hj]; [|contradiction].
  split; [exact Hj|]. apply (added_named _ _ _ _ _ Ad N), Hn.
Qed.
Lemma named_one w s s' j : named w s j -> named w s' j -> s = s'.
Proof. intros (o & Ho & <-) (o' & Ho' & <-). congruence. Qed.
Lemma session_named w n m c name xs g gi : metric_session w n m c name xs g gi -> named w name m.
Proof. intros (_ & _ & _ & _ & _ & _ & _ & _ & _ & _ & _ & _ & _ & (o & G & Ho & E & _)). exists o. auto. Qed.

Lemma import_defaults_run w : in_order w ->
  (forall a, In a [minkowski_matrix; schwarzschild_array F; flrw_array F] -> mdet0 4 (data a) = false /\ forall e, In e (data a) -> kisz (simp (ksub e e)) = true) ->
  exists d w' g1 g2 g3, import_defaults F w = (Ok d, w') /\
    insts w' = insts w ++ [d_cartesian d; d_spherical d; d_minkowski d; d_schwarzschild d; d_flrw d] /\
    named w' "4D Cartesian" (d_cartesian d) /\ named w' "4D Spherical" (d_spherical d) /\
    (exists o, obj_of w' (d_cartesian d) = Some o /\ o_trans o = [(d_spherical d, stored_rules (to_spherical F))] /\ o_jacs o = []) /\
    (exists o, obj_of w' (d_spherical d) = Some o /\ o_trans o = [(d_cartesian d, stored_rules (to_cartesian F))] /\ o_jacs o = []) /\
    metric_session w' 4 (d_minkowski d) (d_cartesian d) "4D Minkowski" ["t"; "x"; "y"; "z"]%string minkowski g1 /\
    metric_session w' 4 (d_schwarzschild d) (d_spherical d) "Schwarzschild" ["t"; "r"; "theta"; "phi"]%string
      (schwarzschild (ksym "M") (ksym "r") (f_inv F (ksym "r")) (f_sin F (ksym "theta")) (f_inv F (horizon_function (ksym "M") (f_inv F (ksym "r"))))) g2 /\
    metric_session w' 4 (d_flrw d) (d_spherical d) "FLRW" ["t"; "r"; "theta"; "phi"]%string
      (flrw (f_a F) (ksym "r") (f_sin F (ksym "theta")) (f_inv F (curvature_function (ksym "k") (ksym "r")))) g3 /\
    (forall s j, In j (insts w') -> named w' s j -> (In j (insts w) /\ named w s j) \/ In s ["4D Cartesian"; "4D Spherical"; "4D Minkowski"; "Schwarzschild"; "FLRW"]%string) /\
    still_usable ["4D Cartesian"; "4D Spherical"; "4D Minkowski"; "Schwarzschild"; "FLRW"]%string w w' /\
    (forall m c, In (m, c) [(d_minkowski d, d_cartesian d); (d_schwarzschild d, d_spherical d); (d_flrw d, d_spherical d)] ->
       exists o, obj_of w' m = Some o /\ map fst (o_comps o) = [c]).
Proof.
  intros HO HA.
  destruct (new_coordinates_start w "4D Cartesian" 4 ["t"; "x"; "y"; "z"]%string (VSymbol "x") HO ltac:(lia) eq_refl ltac:(discriminate) ltac:(eauto))
    as (c & w1 & E1 & Ad1 & N1 & O1 & C1 & U1).
  assert (T1 : exists o, obj_of w1 c = Some o /\ o_trans o = [] /\ o_jacs o = []).
  { destruct (new_coordinates_object _ _ _ _ _ _ _ _ E1) as (o & a & _ & Ho & _ & _ & _ & _ & _ & _ & _ & _ & To & Jo & _). exists o. auto. }
  destruct (new_coordinates_start w1 "4D Spherical" 4 ["t"; "r"; "theta"; "phi"]%string (VSymbol "x") O1 ltac:(lia) eq_refl ltac:(discriminate) ltac:(eauto))
    as (s & w2 & E2 & Ad2 & N2 & O2 & C2 & U2).
  assert (T2 : exists o, obj_of w2 s = Some o /\ o_trans o = [] /\ o_jacs o = []).
  { destruct (new_coordinates_object _ _ _ _ _ _ _ _ E2) as (o & a & _ & Ho & _ & _ & _ & _ & _ & _ & _ & _ & To & Jo & _). exists o. auto. }
  assert (Ncs : c <> s). { intros ->. destruct T1 as (o & Ho & _). destruct Ad2 as [X _]. congruence. }
  assert (C1' := proj1 U2 _ _ _ C1).
  destruct T1 as (oc & Hoc & Tc & Jc). destruct T2 as (os & Hos & Ts & Js).
  destruct (add_transformation_start w2 4 c _ 4 s _ (to_spherical F) O2 C1' C2 Ncs eq_refl) as (w3 & oc2 & E3 & Hc2 & Hc3 & I3 & K3 & B3 & M3 & O3 & U3).
  assert (oc2 = oc) by (destruct (added_old _ _ _ _ _ Ad2 Hoc) as [X _]; congruence). subst oc2.
  assert (C1'' := proj1 U3 _ _ _ C1'). assert (C2' := proj1 U3 _ _ _ C2).
  destruct (add_transformation_start w3 4 s _ 4 c _ (to_cartesian F) O3 C2' C1'' ltac:(congruence) eq_refl) as (w4 & os2 & E4 & Hs3 & Hs4 & I4 & K4 & B4 & M4 & O4 & U4).
  assert (os2 = os) by (rewrite B3 in Hs3 by congruence; congruence). subst os2.
  assert (C1q := proj1 U4 _ _ _ C1''). assert (C2q := proj1 U4 _ _ _ C2').
  destruct (HA minkowski_matrix ltac:(cbn; auto)) as [D1 S1]. destruct (HA (schwarzschild_array F) ltac:(cbn; auto)) as [D2 S2]. destruct (HA (flrw_array F) ltac:(cbn; auto)) as [D3 S3].
  destruct (new_metric_start w4 "4D Minkowski" 4 c _ (VMat minkowski_matrix) minkowski_matrix (VSymbol "g") O4 C1q ltac:(discriminate) ltac:(eauto)
    ltac:(unfold array_like; auto) eq_refl eq_refl D1 (diag4_symmetric _ _ _ _ S1)) as (m1 & w5 & g1 & E5 & Ad5 & MS5 & _ & U5).
  destruct (session_chart _ _ _ _ _ _ _ _ MS5) as [O5 _].
  destruct (new_metric_start w5 "Schwarzschild" 4 s _ (VArr (schwarzschild_array F)) (schwarzschild_array F) (VSymbol "g") O5 (proj1 U5 _ _ _ C2q) ltac:(discriminate) ltac:(eauto)
    ltac:(unfold array_like; auto) eq_refl eq_refl D2 (diag4_symmetric _ _ _ _ S2)) as (m2 & w6 & g2 & E6 & Ad6 & MS6 & _ & U6).
  destruct (session_chart _ _ _ _ _ _ _ _ MS6) as [O6 Ch6].
  destruct (new_metric_start w6 "FLRW" 4 s _ (VArr (flrw_array F)) (flrw_array F) (VSymbol "g") O6 Ch6 ltac:(discriminate) ltac:(eauto)
    ltac:(unfold array_like; auto) eq_refl eq_refl D3 (diag4_symmetric _ _ _ _ S3)) as (m3 & w7 & g3 & E7 & Ad7 & MS7 & _ & U7).
  exists (mkDefaults c s m1 m2 m3), w7, g1, g2, g3. cbn [d_cartesian d_spherical d_minkowski d_schwarzschild d_flrw].
  split.
  { unfold import_defaults, py_new_coordinates, coords_new_metric. cbn [given]. unfold mbind at 1. rewrite E1. unfold mbind at 1. rewrite E2.
    unfold mbind at 1. rewrite E3. unfold mbind at 1. rewrite E4. unfold mbind at 1. rewrite E5. unfold mbind at 1. rewrite E6. unfold mbind at 1. rewrite E7. reflexivity. }
  assert (Keep : forall j o, obj_of w4 j = Some o -> obj_of w7 j = Some o).
  { intros j o H. apply (added_old _ _ _ _ _ Ad5) in H as [H _]. apply (added_old _ _ _ _ _ Ad6) in H as [H _]. apply (added_old _ _ _ _ _ Ad7) in H as [H _]. exact H. }
  assert (Hc7 : obj_of w7 c = Some (set_trans (dset Nat.eqb s (stored_rules (to_spherical F)) (o_trans oc)) oc)) by (apply Keep; rewrite B4 by congruence; exact Hc3).
  assert (Hs7 : obj_of w7 s = Some (set_trans (dset Nat.eqb c (stored_rules (to_cartesian F)) (o_trans os)) os)) by (apply Keep; exact Hs4).
  split.
  { destruct Ad7 as (_ & -> & _). destruct Ad6 as (_ & -> & _). destruct Ad5 as (_ & -> & _). rewrite I4, I3. destruct Ad2 as (_ & -> & _). destruct Ad1 as (_ & -> & _).
    rewrite <- !app_assoc. reflexivity. }
  assert (Nc : named w7 "4D Cartesian" c). { eexists. split; [exact Hc7|]. destruct N1 as (o & Ho & E). cbn. congruence. }
  assert (Ns : named w7 "4D Spherical" s). { eexists. split; [exact Hs7|]. destruct N2 as (o & Ho & E). cbn. congruence. }
  split; [exact Nc|]. split; [exact Ns|].
  split; [eexists; split; [exact Hc7|]; cbn [set_trans o_trans o_jacs]; rewrite Tc; auto|].
  split; [eexists; split; [exact Hs7|]; cbn [set_trans o_trans o_jacs]; rewrite Ts; auto|].
  assert (MS5' := proj1 (proj2 U7) _ _ _ _ _ _ _ (proj1 (proj2 U6) _ _ _ _ _ _ _ MS5)).
  assert (MS6' := proj1 (proj2 U7) _ _ _ _ _ _ _ MS6).
  split; [eapply session_ext; [|exact MS5']; intros i j Hi Hj; unfold minkowski_matrix; rewrite diag4_entry by assumption; reflexivity|].
  split; [eapply session_ext; [|exact MS6']; intros i j Hi Hj; unfold schwarzschild_array; cbv zeta; rewrite diag4_entry by assumption; reflexivity|].
  split; [eapply session_ext; [|exact MS7]; intros i j Hi Hj; unfold flrw_array; cbv zeta; rewrite diag4_entry by assumption; reflexivity|].
  assert (P5 := session_named _ _ _ _ _ _ _ _ MS5'). assert (P6 := session_named _ _ _ _ _ _ _ _ MS6'). assert (P7 := session_named _ _ _ _ _ _ _ _ MS7).
  split.
  - intros x j Hj Hn. destruct (added_old_named _ _ _ _ _ Ad7 Hj Hn) as [[Hj6 Hn6]| ->]; [|right; rewrite (named_one _ _ _ _ Hn P7); cbn; auto 8].
    destruct (added_old_named _ _ _ _ _ Ad6 Hj6 Hn6) as [[Hj5 Hn5]| ->]; [|right; rewrite (named_one _ _ _ _ Hn P6); cbn; auto 8].
    destruct (added_old_named _ _ _ _ _ Ad5 Hj5 Hn5) as [[Hj4 Hn4]| ->]; [|right; rewrite (named_one _ _ _ _ Hn P5); cbn; auto 8].
    rewrite I4, I3 in Hj4. apply M4, M3 in Hn4.
    destruct (added_old_named _ _ _ _ _ Ad2 Hj4 Hn4) as [[Hj1 Hn1]| ->]; [|right; rewrite (named_one _ _ _ _ Hn Ns); cbn; auto 8].
    destruct (added_old_named _ _ _ _ _ Ad1 Hj1 Hn1) as [[Hj0 Hn0]| ->]; [|right; rewrite (named_one _ _ _ _ Hn Nc); cbn; auto 8].
    left. auto.
  - split; [exact (usable_trans _ _ _ _ _ U1 (usable_trans _ _ _ _ _ U2 (usable_trans _ _ _ _ _ U3 (usable_trans _ _ _ _ _ U4 (usable_trans _ _ _ _ _ U5 (usable_trans _ _ _ _ _ U6 U7))))))|].
    assert (One : forall name comps cc wa m wb, new_metric name comps (VObj cc) (VTuple [-1; -1]%Z) (VSymbol "g") wa = (Ok m, wb) -> exists o, obj_of wb m = Some o /\ map fst (o_comps o) = [cc]).
    { intros name comps cc wa m wb E. destruct (new_metric_object _ _ _ _ _ _ _ _ E) as (c' & o & n & a & gi & l & [= <-] & _ & _ & _ & _ & Ho & _ & _ & _ & _ & _ & _ & _ & _ & _ & _ & Po). exists o. rewrite Po. auto. }
    intros m cc [[= <- <-]|[[= <- <-]|[[= <- <-]|[]]]].
    + destruct (One _ _ _ _ _ _ E5) as (o & Ho & Po). exists o. split; [|exact Po]. apply (added_old _ _ _ _ _ Ad6) in Ho as [Ho _]. apply (added_old _ _ _ _ _ Ad7) in Ho as [Ho _]. exact Ho.
    + destruct (One _ _ _ _ _ _ E6) as (o & Ho & Po). exists o. split; [|exact Po]. apply (added_old _ _ _ _ _ Ad7) in Ho as [Ho _]. exact Ho.
    + exact (One _ _ _ _ _ _ E7).
Qed.

Lemma names_longer : forall name s, In s ["4D Cartesian"; "4D Spherical"; "4D Minkowski"; "Schwarzschild"; "FLRW"]%string ->
  In name ["4D Minkowski"; "Schwarzschild"; "FLRW"]%string -> ~ In s (result_names name).
Proof. intros name s Hs Hn H. cbn in Hs, Hn. destruct Hn as [<-|[<-|[<-|[]]]]; cbn in H; repeat (destruct Hs as [<-|Hs]; [cbv in H; intuition discriminate|]); destruct Hs. Qed.

Local Open Scope K_scope.
Lemma minkowski_constant xs k i j : kdiff (cx xs k) (minkowski i j) == k0.
Proof.
  unfold minkowski, diagonal. destruct (i =? j)%nat; [|apply kdiff_0].
  assert (H1 : forall s, kdiff s k1 == k0) by (intros; apply kdiff_1).
  destruct i as [|[|[|[|i]]]]; cbn [nth]; rewrite ?kdiff_opp, ?H1, ?kdiff_0; try ring. destruct i; apply kdiff_0.
Qed.

Lemma import_defaults_curvature w d w' a1 a2 : in_order w ->
  (forall a, In a [minkowski_matrix; schwarzschild_array F; flrw_array F] -> mdet0 4 (data a) = false /\ forall e, In e (data a) -> kisz (simp (ksub e e)) = true) ->
  let xs := ["t"; "r"; "theta"; "phi"]%string in
  let r := ksym "r" in let ri := f_inv F r in let s := f_sin F (ksym "theta") in
  spherical_functions xs r ri s (f_inv F s) (f_cos F (ksym "theta")) -> constant_in xs (ksym "M") -> constant_in xs (ksym "k") ->
  horizon_function (ksym "M") ri * f_inv F (horizon_function (ksym "M") ri) == k1 -> curvature_function (ksym "k") r * f_inv F (curvature_function (ksym "k") r) == k1 ->
  f_a F * f_inv F (f_a F) == k1 -> depends_on xs 0 (f_a F) a1 -> depends_on xs 0 a1 a2 ->
  (forall name, In name ["4D Minkowski"; "Schwarzschild"; "FLRW"]%string -> unnamed w (result_names name)) ->
  import_defaults F w = (Ok d, w') ->
  (exists t w2, calc_riemann (d_minkowski d) w' = (Ok t, w2) /\ tensor_value w2 4 (d_minkowski d) (d_cartesian d) t [1; -1; -1; -1]%Z (fun _ => k0)) /\
  (exists t w2, calc_riemann (d_schwarzschild d) w' = (Ok t, w2) /\ tensor_value w2 4 (d_schwarzschild d) (d_spherical d) t [1; -1; -1; -1]%Z
     (at4 (planes (schwarzschild (ksym "M") r ri s (f_inv F (horizon_function (ksym "M") ri))) (schwarzschild_planes (ksym "M" * (ri * ri * ri)))))) /\
  (exists t w2, calc_ricci (d_schwarzschild d) w' = (Ok t, w2) /\ tensor_value w2 4 (d_schwarzschild d) (d_spherical d) t [-1; -1]%Z (fun _ => k0)) /\
  (exists t w2, calc_ricci_scalar (d_flrw d) w' = (Ok t, w2) /\ tensor_value w2 4 (d_flrw d) (d_spherical d) t []
     (fun _ => knat 6 * (a2 * f_inv F (f_a F) + (a1 * a1 + ksym "k") * (f_inv F (f_a F) * f_inv F (f_a F))))).
Proof.
  intros HO HA xs r ri s Hf HM Hk Hh Hw Ha Ha1 Ha2 Free E.
  destruct (import_defaults_run w HO HA) as (d' & w1 & g1 & g2 & g3 & E' & _ & _ & _ & _ & _ & S1 & S2 & S3 & Hn & _).
  rewrite E in E'. injection E' as <- <-.
  assert (Kn : forall name m c xs g gi, In name ["4D Minkowski"; "Schwarzschild"; "FLRW"]%string -> known_results 4 xs g gi w' m c name).
  { intros name m c ys g gi Hname. apply known_free. intros x j Hx Hj Nj. destruct (Hn x j Hj Nj) as [[Hj0 Hn0]|Hs].
    - exact (Free name Hname x j Hx Hj0 Hn0).
    - exact (names_longer name x Hs Hname Hx). }
  split; [|split; [|split]].
  - destruct (riemann_gives 4 _ _ _ _ _ _ w' S1 (Kn "4D Minkowski"%string _ _ _ _ _ ltac:(cbn; auto))) as (t & w2 & E2 & _ & V & _). exists t, w2. split; [exact E2|].
    eapply value_ext; [|exact V]. intros idx Hx. destruct (range4 4 idx Hx) as (B0 & B1 & B2 & B3). unfold at4. apply flat_rie; try assumption.
    intros; apply minkowski_constant.
  - destruct (schwarzschild_computed _ _ _ _ _ _ w' S2 (ksym "M") r ri s (f_inv F s) (f_cos F (ksym "theta")) _ Hf HM Hh ltac:(intros; reflexivity) (Kn "Schwarzschild"%string _ _ _ _ _ ltac:(cbn; auto)))
      as (_ & (t & w2 & E2 & _ & V & _) & _). eauto.
  - destruct (schwarzschild_computed _ _ _ _ _ _ w' S2 (ksym "M") r ri s (f_inv F s) (f_cos F (ksym "theta")) _ Hf HM Hh ltac:(intros; reflexivity) (Kn "Schwarzschild"%string _ _ _ _ _ ltac:(cbn; auto)))
      as (_ & _ & (t & w2 & E2 & _ & V & _) & _). eauto.
  - destruct (flrw_computed _ _ _ _ _ _ w' S3 (f_a F) (f_inv F (f_a F)) a1 a2 (ksym "k") r ri s (f_inv F s) (f_cos F (ksym "theta")) _ Hf Hk Ha Ha1 Ha2 Hw ltac:(intros; reflexivity) (Kn "FLRW"%string _ _ _ _ _ ltac:(cbn; auto)))
      as (_ & _ & _ & (t & w2 & E2 & _ & V & _) & _). eauto.
Qed.
End Defaults.
