(** Sessions of all public functions keep the invariants: the displays, and the theorems. *)
From Verif Require Import Alg Alg_P Arr Arr_P Spec UtilsM Arr2_P TensorM WorldM SpecWorld World_P Registry_P History_P CalcM SpecCalc Keep_P Calc_P Run_P Typed_P Self_P CurvM GeodM LineM InfoM CurveM ShowM Base LexM ParseM InterpM ExportM Session_P Session2_P Session3_P Session4_P Session5_P Session6_P SpecSession Export7_P Session7_P.
Local Open Scope nat_scope.

Section Session8.
Context {A : AlgOps} {O : PyOps} {C : CodeOps} {N : NumSubs A}.

(** *** Displays *)
Lemma same_ret {X} (x : X) w : snd (mret x w) = w.
Proof. reflexivity. Qed.
Lemma same_lift {X} (r : res X) w : snd (mlift r w) = w.
Proof. destruct r; reflexivity. Qed.
Lemma same_raised {X} e w : snd (mraise (X := X) e w) = w.
Proof. reflexivity. Qed.
Lemma same_shown r a w : snd (shown_form r a w) = w.
Proof. unfold shown_form, as_column. destruct (_ =? _); [|reflexivity]. destruct (shape a) as [|n l]; [reflexivity|]. destruct (_ =? _); reflexivity. Qed.
Lemma same_function f o c a w : snd (apply_function f o c a w) = w.
Proof. unfold apply_function. destruct f; [|reflexivity]. destruct (is_expr o c); [reflexivity|apply same_lift]. Qed.
Lemma same_asked c o w : snd (asked c o w) = w.
Proof. unfold asked. destruct c; [reflexivity|apply same_mopt]. Qed.
Lemma same_parameter time p xs w : snd (parameter time p xs w) = w.
Proof. unfold parameter. destruct time; [apply same_mopt|reflexivity]. Qed.

Ltac look := repeat (first [apply same_bind; [|intros ?]|apply same_getobj|apply same_asked|apply same_shown|apply same_function|apply same_parameter|apply same_mopt|apply same_ret]).
Ltac displays := eapply gs_bind; [apply gs_same; look|]; intros ?; eapply gs_bind; [apply gs_same; look|]; intros ?;
  eapply gs_bind; [apply gs_get|]; intros ?; apply gs_same; look.

Lemma gs_components G f r t c i : gsafe G (get_components_all f r t c i) (fun _ => []).
Proof. unfold get_components_all. displays. Qed.
Lemma gs_show G f r t c i : gsafe G (show_components f r t c i) (fun _ => []).
Proof. unfold show_components. displays. Qed.
Lemma gs_list G f r t c i : gsafe G (list_components f r t c i) (fun _ => []).
Proof. unfold list_components. displays. Qed.
Lemma gs_curve G b p f r t c i : gsafe G (get_curve_all b p f r t c i) (fun _ => []).
Proof. unfold get_curve_all. displays. Qed.
Lemma gs_show_curve G b p f r t c i : gsafe G (show_curve b p f r t c i) (fun _ => []).
Proof. unfold show_curve. displays. Qed.
Lemma gs_list_curve G b p f r t c i : gsafe G (list_curve b p f r t c i) (fun _ => []).
Proof. unfold list_curve. displays. Qed.

Lemma same_names l : forall w, snd (names_of l w) = w.
Proof.
  induction l as [|i l IH]; [reflexivity|]. cbn [names_of]. apply same_bind; [apply same_getobj|]. intros o. apply same_bind; [exact IH|]. reflexivity.
Qed.
Lemma same_users key f t w : snd (users_entry key f t w) = w.
Proof.
  unfold users_entry. destruct (insts w); [reflexivity|]. revert w. apply same_bind; [reflexivity|]. intros us. apply same_bind; [apply same_names|]. reflexivity.
Qed.
Lemma same_entry key x w : snd (name_entry key x w) = w.
Proof. unfold name_entry. revert w. apply same_bind; [apply same_mopt|]. intros i. apply same_bind; [apply same_getobj|]. reflexivity. Qed.
Lemma same_info t w : snd (info t w) = w.
Proof.
  revert w. unfold info. apply same_bind; [|reflexivity]. intros w. unfold get_info. unfold mbind at 1, getobj. destruct (obj_of w t) as [o|]; [|reflexivity].
  set (b := base_info (cls_of w t) o). clearbody b.
  destruct (cls_of w t) as [[]|]; revert w; (apply same_bind; [first [apply same_entry|idtac]|intros x; apply same_bind; [first [apply same_entry|apply same_users]|reflexivity]]).
  destruct (o_trans o); [reflexivity|]. apply same_bind; [apply same_names|reflexivity].
Qed.

(** Line and volume elements, of a metric. *)
Definition mshape (m : oid) {X} (p : M X) : Prop :=
  (forall L, hoare (II L) p (fun _ => II L) (II L)) /\
  (forall w0, typed w0 -> notco w0 m -> hoare (kept w0) p (fun _ => kept w0) (kept w0)) /\
  (forall w0, typed w0 -> cls_of w0 m = Some CMetric -> hoare (fun w => kept w0 w /\ Home_P.homes w) p (fun _ w => kept w0 w /\ Home_P.homes w) (fun w => kept w0 w /\ Home_P.homes w)) /\
  forall w0, typed w0 -> cls_of w0 m = Some CMetric -> hoare (fun w => kept w0 w /\ Stored_P.keyeds w) p (fun _ w => kept w0 w /\ Stored_P.keyeds w) (fun w => kept w0 w /\ Stored_P.keyeds w).
Lemma ms_same m {X} (p : M X) : (forall w, snd (p w) = w) -> mshape m p.
Proof. intros H. split; [|split; [|split]]; intros; intros w Hw; specialize (H w); destruct (p w) as [[x|e] w']; cbn in H; subst w'; exact Hw. Qed.
Lemma ms_bind m {X Y} (p : M X) (q : X -> M Y) : mshape m p -> (forall x, mshape m (q x)) -> mshape m (mbind p q).
Proof. intros (a1 & a2 & a3 & a4) b. split; [|split; [|split]]; intros; (eapply h_bind; [auto|intros x; apply b; auto]). Qed.
Lemma ms_display m c : mshape m (display_components m c).
Proof.
  unfold display_components. apply ms_bind; [apply ms_same; destruct c; reflexivity|]. intros ok. destruct (negb ok); [apply ms_same; reflexivity|].
  apply ms_bind; [apply ms_same, same_getobj|]. intros o. apply ms_bind; [apply ms_same; destruct c; [reflexivity|apply same_mopt]|]. intros c'.
  apply ms_bind; [split; [intros; apply metric_check_II|split; [intros; apply metric_check_keep; assumption|split; intros; [apply Home_P.h_metric_check_keep|apply Stored_P.h_metric_check_keep]; assumption]]|]. intros b.
  apply ms_bind; [destruct b; [apply ms_same; reflexivity|split; [intros; apply metric_transform_II|split; [intros; apply metric_transform_keep; assumption|split; intros; [apply Home_P.h_metric_transform_keep|apply Stored_P.h_metric_transform_keep]; assumption]]]|]. intros u.
  apply ms_bind; [apply ms_same, same_lookup|]. intros; apply ms_same; reflexivity.
Qed.
Lemma ms_line m c : mshape m (line_element m c).
Proof.
  unfold line_element. apply ms_bind; [apply ms_display|]. intros [c' a]. apply ms_bind; [apply ms_same, same_getobj|]. intros co. cbv zeta.
  destruct (_ || _); apply ms_same; reflexivity.
Qed.
Lemma ms_volume m c : mshape m (volume_element m c).
Proof. unfold volume_element. apply ms_bind; [apply ms_display|]. intros [c' a]. apply ms_same; reflexivity. Qed.

Lemma shape_good m {X} (p : M X) w : mshape m p -> good w -> cls_of w m = Some CMetric -> good (snd (p w)) /\ eff w (snd (p w)).
Proof.
  intros (H1 & H2 & H3 & H4) Gw Hm.
  assert (Q1 : Home_P.homes (snd (p w))).
  { specialize (H3 w (good_typed _ Gw) Hm w (conj (kept_refl w) (g_home _ Gw))). destruct (p w) as [[x|e] w']; apply H3. }
  assert (Q2 : Stored_P.keyeds (snd (p w))).
  { specialize (H4 w (good_typed _ Gw) Hm w (conj (kept_refl w) (g_key _ Gw))). destruct (p w) as [[x|e] w']; apply H4. }
  assert (I' : II (insts w) (snd (p w))).
  { specialize (H1 (insts w) w (conj (g_int _ Gw) eq_refl)). destruct (p w) as [[x|e] w']; exact H1. }
  assert (K' : kept w (snd (p w))).
  { assert (Nm : notco w m) by (unfold notco; rewrite Hm; discriminate). specialize (H2 w (good_typed _ Gw) Nm w (kept_refl w)). destruct (p w) as [[x|e] w']; exact H2. }
  split; [split; [apply I'|eapply carried_sound; [apply kept_carried, K'|apply Gw]|eapply steady_self; [apply kept_steady, K'|apply Gw]|exact (Rank_P.grown_ranks _ _ (Rank_P.kept_grown _ _ K') (g_rank _ Gw))|exact Q1|exact Q2]|].
  apply steady_geff, kept_steady, K'.
Qed.

(** *** One call *)
Definition clears (c : call) : bool := match c with CallClear | CallImportAll _ _ => true | _ => false end.
Definition named_temp (c : call) : bool := match c with CallCalc _ name _ _ => String.eqb name "TEMP" | _ => false end.
Definition gives (c : call) (r : outcome) : list fact :=
  match r with
  | Nothing => []
  | Formula x => [Held (c_tensor x)]
  | Object t => [Held (Some t); Reg (if named_temp c then None else Some t)]
  end.
Definition steps (w : world) (c : call) : Prop :=
  match run_call c w with
  | (Ok r, w') => good w' /\ eff w w' /\ sat (gives c r) w'
  | (Err _, w') => good w' /\ eff w w'
  end.
Lemma held_fact w x : held w x -> registry_ok w -> sem (Held (Some x)) w.
Proof.
  intros H R t E. injection E as <-. destruct H as [H|[H1 H2]]; (split; [|split; [|intros; exact I]]); auto. apply (registered_lt _ _ R H).
Qed.
Lemma held_arg_fact w x : held_arg w x -> registry_ok w -> sem (Held x) w.
Proof. destruct x; [apply held_fact|]. intros _ _ t X. discriminate X. Qed.

Lemma steps_nothing {X} (m : M X) w c : good w -> run_call c = nothing m -> safe [] m (fun _ => []) -> steps w c.
Proof.
  intros Gw E H. specialize (H w Gw (Forall_nil _)). unfold steps. rewrite E. unfold nothing, mbind. destruct (m w) as [[x|e] w']; [|exact H].
  cbn [mret]. destruct H as (H1 & H2 & _). split; [exact H1|split; [exact H2|apply Forall_nil]].
Qed.
Lemma steps_object (m : M oid) w c G R : good w -> run_call c = object m -> sat G w -> safe G m R ->
  (forall t w', good w' -> sat (R t) w' -> sat (gives c (Object t)) w') -> steps w c.
Proof.
  intros Gw E S H Q. specialize (H w Gw S). unfold steps. rewrite E. unfold object, mbind. destruct (m w) as [[x|e] w']; [|exact H].
  cbn [mret]. destruct H as (H1 & H2 & H3). auto.
Qed.
Lemma steps_formula (m : M calc) w c G R : good w -> run_call c = formula_of m -> sat G w -> safe G m R ->
  (forall x w', good w' -> sat (R x) w' -> sem (Held (c_tensor x)) w') -> steps w c.
Proof.
  intros Gw E S H Q. specialize (H w Gw S). unfold steps. rewrite E. unfold formula_of, mbind. destruct (m w) as [[x|e] w']; [|exact H].
  cbn [mret]. destruct H as (H1 & H2 & H3). split; [exact H1|split; [exact H2|]]. cbn [gives]. facts. apply (Q x w'); assumption.
Qed.

Definition keeps (w : world) (l : list calc) : Prop := forall x, In x l -> sem (Held (c_tensor x)) w.

Lemma out_held w' (x : calc) : sat (out Any (c_tensor x)) w' -> sem (Held (c_tensor x)) w'.
Proof. intros H. inversion H; assumption. Qed.
Lemma reg_gives c t w' : named_temp c = false -> sat (Session4_P.registered t) w' -> sat (gives c (Object t)) w'.
Proof. intros E H. cbn [gives]. rewrite E. unfold Session4_P.registered in H. inversion H as [|? ? a b]; inversion b; subst. facts; assumption. Qed.
Lemma christ_gives c m t w' : named_temp c = false -> sat (christ m t) w' -> sat (gives c (Object t)) w'.
Proof. intros E H. cbn [gives]. rewrite E. unfold christ in H. inversion H as [|? ? a b]; inversion b; subst. facts; assumption. Qed.

Lemma call_steps w l c : good w -> keeps w l -> call_ok w l c -> clears c = false -> steps w c.
Proof.
  intros Gw Kl Ok Nc. assert (Rk := good_ok _ Gw).
  assert (One : forall m, held w m -> sat [Held (Some m)] w) by (intros m H; facts; apply held_fact; assumption).
  assert (Two : forall m c, held w m /\ held_arg w c -> sat [Held (Some m); Held c] w) by (intros m c' [H1 H2]; facts; [apply held_fact; assumption|apply held_arg_fact; assumption]).
  destruct c as [o|m|m|m|m|m|m|m|m c|m c|m c|m c|m c|m c|t a|t a|t a|b p t a|b p t a|b p t a|t|t| |n s|n s|b| |t sy|sy|sy|x y|x y|x y|x y|x|x y|x k|x y|x name symbol ind];
    cbn [call_ok clears] in *; try discriminate Nc.
  - unfold steps. cbn [run_call]. unfold nothing, mbind. destruct (run_op_good w o Gw Ok) as (H1 & H2 & _). destruct (run_op o w) as [[u|e] w']; cbn [snd mret] in *; [split; [|split; [|apply Forall_nil]]|]; auto.
  - eapply steps_object; [exact Gw|reflexivity|apply (One m Ok)|apply s_christoffel; inG|]. intros; eapply christ_gives; [reflexivity|eassumption].
  - eapply steps_object; [exact Gw|reflexivity|apply (One m Ok)|apply s_riemann; inG|]. intros; apply reg_gives; [reflexivity|assumption].
  - eapply steps_object; [exact Gw|reflexivity|apply (One m Ok)|apply s_ricci; inG|]. intros; apply reg_gives; [reflexivity|assumption].
  - eapply steps_object; [exact Gw|reflexivity|apply (One m Ok)|apply s_ricci_scalar; inG|]. intros; apply reg_gives; [reflexivity|assumption].
  - eapply steps_object; [exact Gw|reflexivity|apply (One m Ok)|apply s_einstein; inG|]. intros; apply reg_gives; [reflexivity|assumption].
  - eapply steps_object; [exact Gw|reflexivity|apply (One m Ok)|apply s_weyl; inG|]. intros; apply reg_gives; [reflexivity|assumption].
  - eapply steps_object; [exact Gw|reflexivity|apply (One m Ok)|apply s_norm; inG|]. intros; apply reg_gives; [reflexivity|assumption].
  - eapply steps_object; [exact Gw|reflexivity|apply (Two m c Ok)|apply s_lagrangian; inG|]. intros; eapply christ_gives; [reflexivity|eassumption].
  - eapply steps_object; [exact Gw|reflexivity|apply (Two _ _ Ok)|apply s_geodesic_lagrangian; inG|]. intros; eapply christ_gives; [reflexivity|eassumption].
  - eapply steps_object; [exact Gw|reflexivity|apply (Two m c Ok)|apply s_geodesic_christoffel; inG|]. intros; eapply christ_gives; [reflexivity|eassumption].
  - eapply steps_object; [exact Gw|reflexivity|apply (Two m c Ok)|apply s_geodesic_time; inG|]. intros; eapply christ_gives; [reflexivity|eassumption].
  - destruct (shape_good m _ w (ms_line m c) Gw Ok) as [H1 H2]. unfold steps. cbn [run_call]. unfold nothing, mbind. destruct (line_element m c w) as [[u|e] w']; cbn [snd mret] in *; [split; [|split; [|apply Forall_nil]]|]; auto.
  - destruct (shape_good m _ w (ms_volume m c) Gw Ok) as [H1 H2]. unfold steps. cbn [run_call]. unfold nothing, mbind. destruct (volume_element m c w) as [[u|e] w']; cbn [snd mret] in *; [split; [|split; [|apply Forall_nil]]|]; auto.
  - destruct a as [[[f r] c'] i]. eapply steps_nothing; [exact Gw|reflexivity|apply gsafe_safe, gs_components].
  - destruct a as [[[f r] c'] i]. eapply steps_nothing; [exact Gw|reflexivity|apply gsafe_safe, gs_show].
  - destruct a as [[[f r] c'] i]. eapply steps_nothing; [exact Gw|reflexivity|apply gsafe_safe, gs_list].
  - destruct a as [[[f r] c'] i]. eapply steps_nothing; [exact Gw|reflexivity|apply gsafe_safe, gs_curve].
  - destruct a as [[[f r] c'] i]. eapply steps_nothing; [exact Gw|reflexivity|apply gsafe_safe, gs_show_curve].
  - destruct a as [[[f r] c'] i]. eapply steps_nothing; [exact Gw|reflexivity|apply gsafe_safe, gs_list_curve].
  - eapply steps_nothing; [exact Gw|reflexivity|apply gsafe_safe, gs_same, same_info].
  - eapply steps_nothing; [exact Gw|reflexivity|apply gsafe_safe, gs_same; intros v; apply export_changes_nothing].
  - eapply steps_nothing; [exact Gw|reflexivity|apply gsafe_safe, gs_same; intros v; apply export_changes_nothing].
  - eapply (steps_object _ _ _ []); [exact Gw|reflexivity|apply Forall_nil|apply s_import|]. intros; apply reg_gives; [reflexivity|assumption].
  - eapply steps_nothing; [exact Gw|reflexivity|apply s_delete_results].
  - eapply steps_formula; [exact Gw|reflexivity|apply (One t Ok)|apply gsafe_safe, (gs_call _ _ _ Any); inG|]. intros x w' _ H. apply out_held, H.
  - eapply (steps_formula _ _ _ []); [exact Gw|reflexivity|apply Forall_nil|apply gsafe_safe, (gs_derivative _ _ _ Any)|]. intros x w' _ H. apply out_held, H.
  - eapply (steps_formula _ _ _ []); [exact Gw|reflexivity|apply Forall_nil|apply gsafe_safe, (gs_derivative _ _ _ Any)|]. intros x w' _ H. apply out_held, H.
  - destruct Ok as [Hx Hy]. eapply (steps_formula _ _ _ (match y with OCalc z => [Held (c_tensor x); Held (c_tensor z)] | _ => [Held (c_tensor x)] end) (fun c => out Any (c_tensor c))); [exact Gw|reflexivity| | |intros z w' _ H; apply out_held, H].
    + destruct y; facts; apply Kl; assumption.
    + apply gsafe_safe. destruct y; [apply gs_ret; intros v _ S; unfold out; inversion S; facts; assumption|eapply (gs_add _ _ _ Any Any); inG|apply gs_raise|apply gs_raise].
  - destruct Ok as [Hx Hy]. eapply (steps_formula _ _ _ (match y with OCalc z => [Held (c_tensor x); Held (c_tensor z)] | _ => [Held (c_tensor x)] end) (fun c => out Any (c_tensor c))); [exact Gw|reflexivity| | |intros z w' _ H; apply out_held, H].
    + destruct y; facts; apply Kl; assumption.
    + apply gsafe_safe. destruct y; [apply gs_ret; intros v _ S; unfold out; inversion S; facts; assumption|eapply (gs_sub _ _ _ Any Any); inG|apply gs_raise|apply gs_raise].
  - destruct Ok as [Hx Hy]. eapply (steps_formula _ _ _ (match y with OCalc z => [Held (c_tensor x); Held (c_tensor z)] | _ => [Held (c_tensor x)] end) (fun c => out Any (c_tensor c))); [exact Gw|reflexivity| | |intros z w' _ H; apply out_held, H].
    + destruct y; facts; apply Kl; assumption.
    + apply gsafe_safe. unfold calc_radd. destruct y; [apply gs_ret; intros v _ S; unfold out; inversion S; facts; assumption|eapply (gs_add _ _ _ Any Any); inG|apply gs_raise|apply gs_raise].
  - destruct Ok as [Hx Hy]. eapply (steps_formula _ _ _ [Held (c_tensor x)]); [exact Gw|reflexivity|facts; apply Kl; assumption|unfold calc_rsub; apply gsafe_safe, (gs_neg _ _ Any); inG|]. intros z w' _ H. apply out_held, H.
  - eapply (steps_formula _ _ _ [Held (c_tensor x)]); [exact Gw|reflexivity|facts; apply Kl; assumption|apply gsafe_safe, (gs_neg _ _ Any); inG|]. intros z w' _ H. apply out_held, H.
  - destruct Ok as [Hx Hy]. eapply (steps_formula _ _ _ (match y with OCalc z => [Held (c_tensor x); Held (c_tensor z)] | _ => [Held (c_tensor x)] end) (fun c => out Any (c_tensor c))); [exact Gw|reflexivity| | |intros z w' _ H; apply out_held, H].
    + destruct y; facts; apply Kl; assumption.
    + apply gsafe_safe. destruct y; [|apply gs_mul; inG|apply gs_scale; inG|].
      * change (gsafe [Held (c_tensor x)] (calc_mul x (OScalar k0)) (fun c => out Any (c_tensor c))). apply gs_scale; inG.
      * unfold calc_mul. destruct (negb _); apply gs_raise.
  - eapply (steps_formula _ _ _ [Held (c_tensor x)]); [exact Gw|reflexivity|facts; apply Kl; assumption|apply gsafe_safe, (gs_div _ _ _ Any); inG|]. intros z w' _ H. apply out_held, H.
  - destruct Ok as [Hx Hy]. eapply (steps_formula _ _ _ [Held (c_tensor y); Held (c_tensor y0)]); [exact Gw|reflexivity|facts; apply Kl; assumption|apply s_matmul; inG|]. intros z w' _ H. apply out_held, H.
  - eapply (steps_object _ _ _ [Held (c_tensor x)]); [exact Gw|reflexivity|facts; apply Kl; assumption|apply (s_run _ _ _ _ _ Any); inG|].
    intros t w' _ H. unfold res_of, sat in H. rewrite Forall_forall in H. cbn [gives named_temp]. facts; apply H; inG.
Qed.

(** *** The theorems *)
Lemma session_good w l : session w l -> good w /\ keeps w l.
Proof.
  induction 1 as [|w l c S [Gw Kl] Ok].
  - split; [|intros x []]. split; [split; [split; [constructor|intros i []]|intros i o j []]| |intros i o []|intros i o H; unfold obj_of in H; cbn in H; destruct i; discriminate H..]. split; intros i o H; unfold obj_of in H; cbn in H; destruct i; discriminate H.
  - destruct (clears c) eqn:Ec.
    + destruct c; try discriminate Ec; cbn [after]; (split; [|intros x []]); cbn [run_call]; unfold nothing, mbind.
      * pose proof (import_all_good fuel s w Gw) as H. destruct (import_all_from_string fuel s w) as [[u|e] w']; exact H.
      * pose proof (clear_good w Gw) as H. destruct (clear_instances w) as [[u|e] w']; exact H.
    + pose proof (call_steps w l c Gw Kl Ok Ec) as H. unfold steps in H.
      assert (E : after c (fst (run_call c w)) l = match fst (run_call c w) with Ok (Formula x) => x :: l | _ => l end) by (destruct c; try discriminate Ec; reflexivity).
      rewrite E. destruct (run_call c w) as [[r|e] w']; cbn [fst snd].
      * destruct H as (H1 & H2 & H3). split; [exact H1|].
        assert (Q : keeps w' l) by (intros x Hx; eapply sem_eff; [reflexivity|apply good_ok, Gw|exact H2|apply Kl, Hx]).
        destruct r as [|x|t]; [exact Q| |exact Q]. intros y [<-|Hy]; [|apply Q, Hy]. cbn [gives] in H3. inversion H3; assumption.
      * destruct H as (H1 & H2). split; [exact H1|]. intros x Hx. eapply sem_eff; [reflexivity|apply good_ok, Gw|exact H2|apply Kl, Hx].
Qed.

Theorem session_sound w l : session w l -> integrity w /\ typed w /\ complete w /\ own_metrics w.
Proof.
  intros S. destruct (session_good w l S) as [[I [T K] F _ _ _] _]. split; [exact I|]. split; [exact T|]. split; [exact K|].
  intros m o H1 H2 H3. apply (F m o H1 H3 H2).
Qed.
Theorem session_ranked w l i o : session w l -> obj_of w i = Some o -> (o_rank o = length (o_indices o) /\ Forall (fun z => z = 1 \/ z = -1)%Z (o_indices o)) /\ (cls_of w i = Some CCoordinates -> o_rank o = 1).
Proof. intros S H. destruct (session_good w l S) as [G _]. exact (g_rank _ G i o H). Qed.
Theorem kept_formulas w l x t : session w l -> In x l -> c_tensor x = Some t -> held w t.
Proof.
  intros S Hx E. destruct (session_good w l S) as [_ K]. destruct (K x Hx t E) as (H1 & [H2|H2] & _); [left; exact H2|right; auto].
Qed.
Theorem references_kept w l c : session w l -> call_ok w l c -> (forall n s, c <> CallImportAll n s) -> c <> CallClear ->
  let w' := snd (run_call c w) in
  (forall t, held w t -> held w' t) /\
  (forall t, t < length (heap w) -> obj_of w t = None -> obj_of w' t = None) /\
  (forall t k, cls_of w t = Some k -> cls_of w' t = Some k) /\
  (forall t, t < length (heap w) -> In t (insts w') -> In t (insts w)).
Proof.
  intros S Ok N1 N2. destruct (session_good w l S) as [Gw Kl].
  assert (Ec : clears c = false) by (destruct c; try reflexivity; [exfalso; eapply N1; reflexivity|congruence]).
  pose proof (call_steps w l c Gw Kl Ok Ec) as H. unfold steps in H.
  assert (Q : eff w (snd (run_call c w))) by (destruct (run_call c w) as [[r|e] w']; apply H). cbv zeta. split; [|split; [|split]].
  - intros t Ht. apply (fun H => held_fact w t H (good_ok _ Gw)) in Ht. eapply sem_eff in Ht; [|reflexivity|apply good_ok, Gw|exact Q].
    destruct (Ht t eq_refl) as (H1 & [H2|H2] & _); [left; exact H2|right; auto].
  - intros t Hl Ho. destruct (obj_of (snd (run_call c w)) t) as [o'|] eqn:E; [|reflexivity]. destruct (e_obj _ _ Q t o' Hl E) as (o & X & _). congruence.
  - apply (e_cls _ _ Q).
  - apply (e_old _ _ Q).
Qed.
Theorem results_registered w l c t w' : session w l -> call_ok w l c -> (forall x symbol ind, c <> CallCalc x "TEMP" symbol ind) ->
  run_call c w = (Ok (Object t), w') -> In t (insts w').
Proof.
  intros S Ok Nt E. destruct (session_good w l S) as [Gw Kl]. destruct (clears c) eqn:Ec.
  - exfalso. destruct c; try discriminate Ec; cbn [run_call] in E; unfold nothing, mbind in E.
    + destruct (import_all_from_string fuel s w) as [[u|e] v]; discriminate E.
    + destruct (clear_instances w) as [[u|e] v]; discriminate E.
  - pose proof (call_steps w l c Gw Kl Ok Ec) as H. unfold steps in H. rewrite E in H. destruct H as (_ & _ & H). cbn [gives] in H.
    assert (Et : named_temp c = false).
    { destruct c; try reflexivity. cbn [named_temp]. destruct (String.eqb_spec name "TEMP") as [->|]; [exfalso; eapply Nt; reflexivity|reflexivity]. }
    rewrite Et in H. unfold sat in H. rewrite Forall_forall in H. exact (H (Reg (Some t)) ltac:(inG) t eq_refl).
Qed.

Theorem session_healthy w l : session w l -> healthy w.
Proof.
  intros S. destruct (session_good w l S) as [[I J F] _]. split; [exact I|]. split; [exact J|exact F].
Qed.

(** Default components and stored configurations in all sessions. *)
Theorem session_home w l t o : session w l -> obj_of w t = Some o -> cls_of w t <> Some CCoordinates -> cls_of w t <> Some CMetric ->
  exists c a, SpecPrefer.at_home w t o c /\ valid_cfg (o_indices o) /\ get_components t None None w = (Ok a, w).
Proof. intros S. destruct (session_good w l S) as [G _]. apply Home_P.home_read; [exact (good_typed _ G)|exact (g_home _ G)]. Qed.
Theorem session_stored w l t o c d i a : session w l -> obj_of w t = Some o -> cls_of w t <> Some CCoordinates -> cls_of w t <> Some CMetric ->
  In (c, d) (o_comps o) -> In (i, a) d -> length i = o_rank o.
Proof.
  intros S Ho N1 N2 Hd Hi. destruct (g_key _ (proj1 (session_good w l S)) t o Ho) as [[H|H]|Kr]; [congruence|congruence|].
  apply (Kr c d i Hd). change i with (fst (i, a)). apply in_map, Hi.
Qed.

(** The states of the smaller language are states of sessions. *)
Theorem reachable_session w : reachable w -> session w [].
Proof.
  induction 1 as [|w o R IH Lv]; [constructor|]. pose proof (session_call w [] (CallOp o) IH Lv) as H. cbn [run_call after] in H. unfold nothing, mbind in H.
  destruct (run_op o w) as [[u|e] w'] eqn:E; exact H.
Qed.

End Session8.
