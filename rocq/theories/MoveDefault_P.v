(** Minkowski's metric in spherical coordinates. *)
From Verif Require Import Alg Alg_P Arr Arr_P Spec Act_P Arr2_P UtilsM TensorM RL_P Tensor_P Jacobian_P WorldM SpecWorld World_P Registry_P CalcM SpecCalc Calc_P CurvM SpecCurv SpecDim SpecDefault SpecStart SpecMove WrapM Wrap_P DefaultsM Curv_P Curv2_P CurvDim_P CurvDim2_P Scale_P Start_P Default_P DefaultRun_P StartDefault_P Move_P.
Local Open Scope nat_scope.

Section MoveDefault.
Context {A : AlgOps} {L : AlgLaws A} {D : DiffLaws A} {IL : InvLaws A} {DL : DetLaws A}.
Add Ring Kring : kring (setoid keq_equiv kring_ext).
Local Open Scope K_scope.

Section Table.
Variables r st ct sp cp : K.
(** The Jacobian matrix *)
Definition polar_table (i j : nat) : K :=
  match i, j with
  | 0, 0 => k1
  | 1, 1 => st * cp | 1, 2 => r * ct * cp | 1, 3 => - (r * st * sp)
  | 2, 1 => st * sp | 2, 2 => r * ct * sp | 2, 3 => r * st * cp
  | 3, 1 => ct | 3, 2 => - (r * st)
  | _, _ => k0
  end.
Lemma polar_metric i j : (i < 4)%nat -> (j < 4)%nat -> st * st + ct * ct == k1 -> sp * sp + cp * cp == k1 ->
  nsum 4 (fun k => nsum 4 (fun l => polar_table k i * polar_table l j * minkowski k l)) == flat_spherical r st i j.
Proof.
  intros Hi Hj Ht Hp. assert (E1 : ct * ct == k1 - st * st) by (rewrite <- Ht; ring). assert (E2 : cp * cp == k1 - sp * sp) by (rewrite <- Hp; ring).
  destruct i as [|[|[|[|]]]]; try lia; destruct j as [|[|[|[|]]]]; try lia;
    unfold nsum, minkowski, flat_spherical, diagonal; cbn [lsum seq polar_table Nat.eqb nth]; ring [E1 E2].
Qed.
End Table.

Variable F : functions.
Let xs := ["t"; "r"; "theta"; "phi"]%string.
Let r := ksym "r". Let st := f_sin F (ksym "theta"). Let ct := f_cos F (ksym "theta"). Let sp := f_sin F (ksym "phi"). Let cp := f_cos F (ksym "phi").
Lemma polar_jacobian ri si k i : (k < 4)%nat -> (i < 4)%nat -> spherical_functions xs r ri st si ct -> azimuth_functions xs sp cp ->
  rule_derivative ["t"; "x"; "y"; "z"]%string xs (stored_rules (to_spherical F)) k i == polar_table r st ct sp cp k i.
Proof.
  intros Hk Hi (_ & _ & _ & _ & Hr & Hs & Hc) (_ & Hsp & Hcp). unfold depends_on in *. specialize (Hr i Hi). specialize (Hs i Hi). specialize (Hc i Hi). specialize (Hsp i Hi). specialize (Hcp i Hi).
  unfold rule_derivative, to_spherical, stored_rules, xs in *. fold r st ct sp cp.
  destruct k as [|[|[|[|]]]]; try lia; cbn [flat_map app nth dget String.eqb Ascii.eqb Bool.eqb fst snd]; fold r st ct sp cp.
  1: { destruct i as [|[|[|[|]]]]; try lia; reflexivity. }
  all: unfold s_r, s_theta, s_phi; fold r st ct sp cp; rewrite !kdiff_mul; fold r st ct sp cp; rewrite Hr, ?Hs, ?Hc, ?Hsp, ?Hcp;
    destruct i as [|[|[|[|]]]]; try lia; cbn [Nat.eqb polar_table]; ring.
Qed.

Lemma subs_seq_keeps R e : (forall s q, In s (map fst R) -> ksub1 s q e == e) -> (forall s, In s (map fst R) -> substitutable s) -> subs_seq R e == e.
Proof.
  unfold subs_seq. induction R as [|[s q] R IH]; intros H HS; cbn [fold_left]; [reflexivity|].
  transitivity (fold_left (fun y r0 => ksub1 (fst r0) (snd r0) y) R e).
  - apply (subs_seq_proper R); [intros t Ht; apply HS; right; exact Ht|]. apply H. left. reflexivity.
  - apply IH; intros; [apply H|apply HS]; right; assumption.
Qed.
Lemma sub_zero s q : substitutable s -> ksub1 s q k0 == k0.
Proof.
  intros (P & Ad & _ & _). assert (E := Ad q k0 k0). assert (E2 : ksub1 s q (k0 + k0) == ksub1 s q k0) by (apply P; ring). rewrite E2 in E.
  transitivity (ksub1 s q k0 + ksub1 s q k0 - ksub1 s q k0); [ring|]. rewrite <- E. ring.
Qed.
Lemma sub_opp s q x : substitutable s -> ksub1 s q (- x) == - ksub1 s q x.
Proof.
  intros H. assert (Z := sub_zero s q H). destruct H as (P & Ad & _ & _). assert (E := Ad q x (- x)). assert (E2 : ksub1 s q (x + - x) == ksub1 s q k0) by (apply P; ring).
  rewrite E2, Z in E. transitivity (ksub1 s q x + ksub1 s q (- x) - ksub1 s q x); [ring|]. rewrite <- E. ring.
Qed.
Lemma moved_flat ri si i j : (i < 4)%nat -> (j < 4)%nat -> spherical_functions xs r ri st si ct -> azimuth_functions xs sp cp ->
  (forall s, In s ["x"; "y"; "z"]%string -> substitutable s /\ free_of s r /\ free_of s st) ->
  moved_metric 4 ["t"; "x"; "y"; "z"]%string xs (stored_rules (to_spherical F)) minkowski i j == flat_spherical r st i j.
Proof.
  intros Hi Hj Hf Ha HS. unfold moved_metric.
  assert (HS' : forall s, In s (map fst (stored_rules (to_spherical F))) -> substitutable s) by (intros s Hs; apply HS, Hs).
  transitivity (subs_seq (stored_rules (to_spherical F)) (flat_spherical r st i j)).
  - apply subs_seq_proper; [exact HS'|]. rewrite <- (polar_metric r st ct sp cp i j Hi Hj); [|apply Hf|apply Ha].
    apply nsum_ext. intros k Hk. apply nsum_ext. intros l Hl. rewrite !(polar_jacobian ri si) by assumption. reflexivity.
  - apply subs_seq_keeps; [|exact HS']. intros s q Hs. destruct (HS s Hs) as (Sb & [_ Fr] & [_ Fs]). assert (Z := sub_zero s q Sb). assert (O := fun x => sub_opp s q x Sb).
    destruct Sb as (P & _ & Mu & On). unfold flat_spherical, diagonal. destruct (i =? j)%nat; [|exact Z].
    destruct i as [|[|[|[|]]]]; try lia; cbn [nth]; rewrite ?O, ?Mu, ?On, ?Fr, ?Fs; reflexivity.
Qed.

Theorem minkowski_moves w d w' w2 ri si : in_order w ->
  (forall a, In a [minkowski_matrix; schwarzschild_array F; flrw_array F] -> mdet0 4 (data a) = false /\ forall e, In e (data a) -> kisz (simp (ksub e e)) = true) ->
  spherical_functions xs r ri st si ct -> azimuth_functions xs sp cp ->
  (forall s, In s ["x"; "y"; "z"]%string -> substitutable s /\ free_of s r /\ free_of s st) ->
  unnamed w (result_names "4D Minkowski") ->
  import_defaults F w = (Ok d, w') -> change_default_coords (d_minkowski d) (d_spherical d) w' = (Ok tt, w2) ->
  (exists gi, metric_session w2 4 (d_minkowski d) (d_spherical d) "4D Minkowski" xs (flat_spherical r st) gi) /\
  exists t w3, calc_riemann (d_minkowski d) w2 = (Ok t, w3) /\ tensor_value w3 4 (d_minkowski d) (d_spherical d) t [1; -1; -1; -1]%Z (fun _ => k0).
Proof.
  intros HO HA Hf Ha HS Free E Em.
  destruct (import_defaults_run F w HO HA) as (d' & w1 & g1 & g2 & g3 & E' & _ & _ & _ & (oc & Hoc & Tc & Jc) & _ & S1 & S2 & S3 & Hn & _ & One).
  rewrite E in E'. injection E' as <- <-.
  destruct (session_chart _ _ _ _ _ _ _ _ S2) as [_ Ch].
  assert (N : d_cartesian d <> d_spherical d).
  { intros EQ. destruct (session_chart _ _ _ _ _ _ _ _ S1) as [_ (_ & _ & _ & _ & (o1 & Q1 & Q2 & _))]. destruct Ch as (_ & _ & _ & _ & (o2 & Q3 & Q4 & _)). rewrite EQ, Q3 in Q1. injection Q1 as <-. rewrite Q2 in Q4. discriminate Q4. }
  destruct (metric_moves w' 4 _ _ _ _ _ _ (d_spherical d) xs (stored_rules (to_spherical F)) w2 S1 Ch N) as (gi & MS & Ic & Nm).
  - exact (One _ _ (or_introl eq_refl)).
  - exists oc. rewrite Tc, Jc. cbn [dget]. rewrite Nat.eqb_refl. auto.
  - repeat constructor; cbn; intuition discriminate.
  - intros s Hs. apply HS, Hs.
  - exact Em.
  - assert (MS' : metric_session w2 4 (d_minkowski d) (d_spherical d) "4D Minkowski" xs (flat_spherical r st) gi).
    { eapply session_ext; [|exact MS]. intros i j Hi Hj. apply (moved_flat ri si); assumption. }
    split; [eauto|].
    assert (MZ : metric_session w2 4 (d_minkowski d) (d_spherical d) "4D Minkowski" xs (schwarzschild k0 r ri st k1) gi).
    { eapply session_ext; [|exact MS']. intros i j Hi Hj. unfold flat_spherical, schwarzschild, diagonal. destruct (i =? j)%nat; [|reflexivity].
      destruct i as [|[|[|[|]]]]; try lia; cbn [nth]; unfold horizon_function; ring. }
    destruct (schwarzschild_computed _ _ _ _ _ _ w2 MZ k0 r ri st si ct k1 Hf) as (_ & (t & w3 & E3 & _ & V & _) & _).
    + intros p Hp. apply kdiff_0.
    + unfold horizon_function. ring.
    + intros; reflexivity.
    + apply known_free. intros s j Hs Hj Nj. rewrite Ic in Hj. apply Nm in Nj. destruct (Hn s j Hj Nj) as [[Hj0 Hn0]|Hs'].
      * exact (Free s j Hs Hj0 Hn0).
      * exact (names_longer "4D Minkowski"%string s Hs' ltac:(cbn; auto) Hs).
    + exists t, w3. split; [exact E3|]. eapply value_ext; [|exact V]. intros idx Hx. destruct (range4 4 idx Hx) as (B0 & B1 & B2 & B3). unfold at4, planes.
      assert (Q : forall p q, schwarzschild_planes (k0 * (ri * ri * ri)) p q == k0).
      { intros p q. destruct p as [|[|[|[|p]]]]; destruct q as [|[|[|[|q]]]]; cbn; try reflexivity; ring. }
      rewrite Q. ring.
Qed.
End MoveDefault.
