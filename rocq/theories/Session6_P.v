(** Lagrangians, geodesics, displays and imports keep the invariants of a session. *)
From Verif Require Import Alg Alg_P Arr Arr_P Spec UtilsM Arr2_P TensorM WorldM SpecWorld World_P Registry_P History_P CalcM SpecCalc Keep_P Calc_P Run_P Typed_P Self_P CurvM GeodM LineM Session_P Session2_P Session3_P Session4_P Session5_P.
Local Open Scope nat_scope.

Section Session6.
Context {A : AlgOps}.
Implicit Types (G : list fact) (P : option oid -> Prop).

Ltac step P := eapply s_gbind; [first [apply (gs_derivative _ _ _ P)|apply (gs_call _ _ _ P); inG|apply (gs_matmul0 _ _ _ P); inG
  |apply (gs_add _ _ _ P Any); inG|apply (gs_sub _ _ _ P Any); inG|apply (gs_scale _ _ _ P); inG]|]; intros ?; cbn [app out].

Lemma first_instance_same k name l : forall w, snd (first_instance k name l w) = w.
Proof.
  induction l as [|i l IH]; [reflexivity|]. cbn [first_instance]. apply same_bind; [reflexivity|]. intros b w. destruct (negb b); [apply IH|].
  revert w. apply same_bind; [apply same_getobj|]. intros o w. destruct (String.eqb _ _); [reflexivity|apply IH].
Qed.
Lemma first_instance_in k name l : forall w x w', first_instance k name l w = (Ok (Some x), w') -> In x l.
Proof.
  induction l as [|i l IH]; intros w x w'; cbn [first_instance]; [discriminate|]. unfold mbind at 1, isinstance. destruct (negb _); [intros E; right; eapply IH, E|].
  unfold mbind, getobj. destruct (obj_of w i) as [o|]; [|discriminate].
  destruct (String.eqb _ _); [|intros E; right; eapply IH, E]. intros E. injection E as <- _. left; reflexivity.
Qed.
Lemma gs_find_instance G k name : gsafe G (find_instance k name) (fun x => [Reg x; Held x]).
Proof.
  intros w Gw S. unfold find_instance. pose proof (first_instance_same k name (insts w) w) as E. destruct (first_instance k name (insts w) w) as [[x|e] w'] eqn:F; cbn in E; subst w'.
  2:{ split; [exact Gw|apply geff_refl]. }
  split; [exact Gw|]. split; [apply geff_refl|].
  assert (Sr : sem (Reg x) w) by (intros t ->; eapply first_instance_in, F).
  facts; [exact Sr|]. eapply (reg_held [Reg x]); [left; reflexivity|exact Gw|]. facts. exact Sr.
Qed.
Lemma gs_change_coords G t c : gsafe G (change_default_coords t c) (fun _ => []).
Proof. apply (gs_op _ _ (OpCoords t c)); [reflexivity|discriminate|intros; exact I]. Qed.

Lemma s_cached_curve G k m coords suffix compute : In (Held (Some m)) G -> In (Held coords) G -> long suffix ->
  (forall c name, name <> "TEMP"%string -> safe [Held (Some m); Reg (Some m); Held (Some c)] (compute c name) (christ m)) ->
  safe G (cached_curve k m coords suffix compute) (christ m).
Proof.
  intros Hm Hc L Hk. unfold cached_curve. eapply s_gbind; [apply gs_isinstance|]. intros b. cbn [app]. destruct (negb b); [apply s_raise|].
  eapply (s_gbind _ _ _ (fun _ => [])); [apply gs_same; destruct coords; reflexivity|]. intros b'. cbn [app]. destruct (negb b'); [apply s_raise|].
  eapply s_gbind; [apply (gs_getobj _ _ Any); right; exact Hm|]. intros o. cbn [app].
  eapply (s_gbind _ _ _ (fun c => [Held (Some c)])).
  { destruct coords as [c|].
    - apply gs_ret. intros w _ S. facts. eapply sat_in; [|exact S]. do 5 right. exact Hc.
    - eapply gs_pre; [apply (gs_weak [Reg (o_coords o)] _ (fun c => [Pure (o_coords o = Some c)] ++ [Reg (o_coords o)]))|].
      + apply gs_frame, gs_opt.
      + intros c w Gw S. facts. assert (E : sem (Pure (o_coords o = Some c)) w) by (eapply sat_in; [|exact S]; inG). cbn in E. rewrite <- E.
        eapply reg_held; [|exact Gw|exact S]. inG.
      + intros w _ S. facts. eapply sat_in; [|exact S]. inG. }
  intros c. cbn [app]. cbv zeta. eapply s_gbind; [apply gs_find_instance|]. intros known. cbn [app]. destruct known as [i|].
  - eapply (s_pre _ [Held (Some i); Reg (Some i); Reg (Some m)]).
    2:{ intros w _ S. facts; (eapply sat_in; [|exact S]); inG. }
    eapply s_gbind; [apply gs_getobj0|]. intros oi. cbn [app]. destruct (opt_oid_eqb _ _).
    + apply s_ret. intros w _ S. exact S.
    + eapply s_gbind; [apply gs_change_coords|]. intros u. cbn [app]. apply s_ret. intros w _ S. exact S.
  - eapply s_pre; [apply Hk, long_name, L|]. intros w _ S. facts; (eapply sat_in; [|exact S]); try (do 8 right; exact Hm); inG.
Qed.

Lemma gs_vector G m c f : In (Reg (Some m)) G -> In (Held (Some c)) G -> gsafe G (temp_vector m c f) (fun t => newt t CTensor (Some m)).
Proof.
  intros H1 H2. unfold temp_vector. eapply gs_bind; [apply gs_getobj0|]. intros oc. cbn [app]. cbv zeta. apply gs_make; [discriminate|discriminate|exact H1|exact H2].
Qed.
Lemma s_reg_metric {X} G r m (p : M X) R : In (Reg (Some r)) G -> In (Opnd (Some r) (eq m)) G -> safe (Reg m :: G) p R -> safe G p R.
Proof.
  intros H1 H2 Hp. eapply s_pre; [exact Hp|]. intros w Gw S. constructor; [|exact S]. pose proof (sat_in _ _ _ H1 S r eq_refl) as Hr.
  destruct (sat_in _ _ _ H2 S r eq_refl) as (_ & _ & X2). destruct (good_ok _ Gw) as [_ Ha]. specialize (Ha r Hr).
  destruct (obj_of w r) as [o|] eqn:E; [|congruence]. eapply reg_metric; eauto. symmetry. apply X2. reflexivity.
Qed.
Lemma s_publish_curve G k m c r f name ind sy : k <> CMetric -> k <> CCoordinates -> In (Reg (Some r)) G -> In (Opnd (Some r) (eq (Some m))) G -> In (Held (Some c)) G -> In (Held (Some r)) G ->
  name <> "TEMP"%string -> safe G (let! t := publish_curve k m c r f name ind sy in finish_calc r ;; mret t) (christ m).
Proof.
  intros Nk Nk' H1 H2 H3 H3' N. eapply s_reg_metric; [exact H1|exact H2|]. unfold publish_curve. apply s_assoc. eapply s_gbind; [apply gs_get|]. intros a. cbn [app].
  eapply s_weak; [apply s_made_finish; [exact Nk|exact Nk'|inG|right; exact H3|right; exact H3'|exact N]|].
  intros t w _ S. unfold christ, made in *. facts; (eapply sat_in; [|exact S]); inG.
Qed.

Lemma s_lagrangian G m coords : In (Held (Some m)) G -> In (Held coords) G -> safe G (calc_lagrangian m coords) (christ m).
Proof.
  intros H1 H2. unfold calc_lagrangian. apply s_cached_curve; [exact H1|exact H2|unfold long; cbn; lia|]. intros c name N.
  eapply s_gbind; [apply gs_vector; inG|]. intros v. cbn [app newt]. do 3 step (eq (Some m)).
  eapply s_bind; [apply (s_run _ _ _ _ _ (eq (Some m))); inG|]; intros r; cbn [app res_of filter durable Held].
  apply s_publish_curve; [discriminate|discriminate|inG|inG|inG|inG|exact N].
Qed.
Lemma s_geodesic_lagrangian G p m coords : In (Held (Some m)) G -> In (Held coords) G -> safe G (calc_geodesic_lagrangian_with p m coords) (christ m).
Proof.
  intros H1 H2. unfold calc_geodesic_lagrangian_with. apply s_cached_curve; [exact H1|exact H2|unfold long; cbn; lia|]. intros c name N.
  eapply s_bind; [apply s_lagrangian; inG|]. intros l. cbn [app filter durable Held christ].
  eapply s_gbind; [apply gs_get|]. intros a. cbn [app]. cbv zeta. eapply s_gbind; [apply gs_getobj0|]. intros oc. cbn [app].
  eapply s_weak; [apply s_made_pass; [discriminate|discriminate|inG|inG|exact N]|].
  intros t w _ S. unfold christ, made in *. facts; (eapply sat_in; [|exact S]); inG.
Qed.
Lemma s_geodesic_christoffel G m coords : In (Held (Some m)) G -> In (Held coords) G -> safe G (calc_geodesic_christoffel m coords) (christ m).
Proof.
  intros H1 H2. unfold calc_geodesic_christoffel. apply s_cached_curve; [exact H1|exact H2|unfold long; cbn; lia|]. intros c name N.
  eapply s_bind; [apply s_christoffel; inG|]. intros chr. cbn [app filter durable Held christ].
  eapply s_gbind; [apply gs_vector; inG|]. intros v. cbn [app newt]. eapply s_gbind; [apply gs_vector; inG|]. intros a. cbn [app newt].
  step (eq (Some m)). do 5 step Any. step (eq (Some m)).
  eapply s_bind; [apply (s_run _ _ _ _ _ (eq (Some m))); inG|]; intros r; cbn [app res_of filter durable Held].
  apply s_publish_curve; [discriminate|discriminate|inG|inG|inG|inG|exact N].
Qed.
Lemma s_geodesic_time G m coords : In (Held (Some m)) G -> In (Held coords) G -> safe G (calc_geodesic_time m coords) (christ m).
Proof.
  intros H1 H2. unfold calc_geodesic_time. apply s_cached_curve; [exact H1|exact H2|unfold long; cbn; lia|]. intros c name N.
  eapply s_bind; [apply s_christoffel; inG|]. intros chr. cbn [app filter durable Held christ].
  eapply s_gbind; [apply gs_vector; inG|]. intros v. cbn [app newt]. eapply s_gbind; [apply gs_vector; inG|]. intros a. cbn [app newt].
  eapply s_gbind; [apply gs_get|]. intros e. cbn [app].
  eapply s_gbind; [apply gs_make; [discriminate|discriminate|inG|inG]|]. intros chr0. cbn [app newt].
  step (eq (Some m)). do 9 step Any. step (eq (Some m)).
  eapply s_bind; [apply (s_run _ _ _ _ _ (eq (Some m))); inG|]; intros r; cbn [app res_of filter durable Held].
  apply s_publish_curve; [discriminate|discriminate|inG|inG|inG|inG|exact N].
Qed.

End Session6.
