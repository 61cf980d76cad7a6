(** The operators of formulas, Calc and the curvature functions keep the invariants of a session. *)
From Verif Require Import Alg Alg_P Arr Arr_P Spec UtilsM Arr2_P TensorM WorldM SpecWorld World_P Registry_P History_P CalcM SpecCalc Keep_P Calc_P Run_P Typed_P Self_P CurvM Session_P.
Local Open Scope nat_scope.

Ltac inG := cbn [app filter durable Held]; solve [repeat first [left; reflexivity|right]].

Ltac facts := unfold sat; repeat first [apply Forall_nil|apply Forall_cons].

Section Session2.
Context {A : AlgOps}.
Implicit Types (G : list fact) (P : option oid -> Prop).

(** *** Reading *)
Lemma gs_getobj G t P : In (Opnd (Some t) P) G ->
  gsafe G (getobj t) (fun o => [Reg (Some t); Reg (o_metric o); Reg (o_coords o); Pure (P (o_metric o))]).
Proof.
  intros H w Gw S. unfold getobj. destruct (obj_of w t) as [o|] eqn:E; [|split; [exact Gw|apply geff_refl]].
  split; [exact Gw|]. split; [apply geff_refl|]. pose proof (sat_in _ _ _ H S t eq_refl) as (_ & [Ht|Ht] & HP); [|congruence].
  specialize (HP o E). pose proof (g_int _ Gw) as [_ Hr]. specialize (fun j => Hr t o j Ht E). unfold refers in Hr.
  constructor; [|constructor; [|constructor; [|constructor; [exact HP|constructor]]]]; cbn; intros x X.
  - injection X as <-. exact Ht.
  - apply Hr. auto.
  - apply Hr. auto.
Qed.
Lemma gs_getobj0 G t : gsafe G (getobj t) (fun _ => []).
Proof. apply gs_same. intros w. unfold getobj. destruct (obj_of w t); reflexivity. Qed.
Lemma gs_tensor_of G c P : In (Opnd (c_tensor c) P) G -> gsafe G (tensor_of c) (fun t => [Opnd (Some t) P; Held (Some t)]).
Proof.
  intros H. unfold tensor_of. destruct (c_tensor c) as [t|]; [|apply gs_raise]. apply gs_ret. intros w _ S. pose proof (sat_in _ _ _ H S) as X.
  constructor; [exact X|]. constructor; [|constructor]. intros u E. destruct (X u E) as (X1 & X2 & _). repeat split; auto.
Qed.
Lemma gs_get G t c i : gsafe G (get_components t c i) (fun _ => []).
Proof.
  apply (gs_op _ _ (OpGet t c i)); [|discriminate|intros; exact I]. intros w. cbn [run_op]. unfold mbind. destruct (get_components t c i w) as [[x|e] w']; reflexivity.
Qed.
Lemma gs_isinstance G i c : gsafe G (isinstance i c) (fun b => [OfCls (if b then Some i else None) c]).
Proof.
  intros w Gw S. cbn. split; [exact Gw|]. split; [apply geff_refl|]. constructor; [|constructor]. cbn. intros t E.
  destruct (cls_of w i) as [k|] eqn:Ek; [|discriminate]. destruct (cls_eqb c k) eqn:Ec; [|discriminate]. injection E as <-.
  destruct c, k; try discriminate; exact Ek.
Qed.
Lemma same_mopt {X} e (x : option X) w : snd (mopt e x w) = w.
Proof. destruct x; reflexivity. Qed.
Lemma same_bind {X Y} (m : M X) (k : X -> M Y) : (forall w, snd (m w) = w) -> (forall x w, snd (k x w) = w) -> forall w, snd (mbind m k w) = w.
Proof. intros H1 H2 w. unfold mbind. specialize (H1 w). destruct (m w) as [[x|e] w']; cbn in H1; subst w'; [apply H2|reflexivity]. Qed.
Lemma same_getobj t w : snd (getobj t w) = w.
Proof. unfold getobj. destruct (obj_of w t); reflexivity. Qed.
Lemma same_lookup t c i w : snd (lookup t c i w) = w.
Proof. revert w. unfold lookup. apply same_bind; [apply same_getobj|]. intros o. apply same_bind; [apply same_mopt|]. intros d. apply same_mopt. Qed.
Lemma same_default t w : snd (default_components t w) = w.
Proof. revert w. unfold default_components. apply same_bind; [apply same_getobj|]. intros o. apply same_bind; [apply same_mopt|]. intros d. apply same_lookup. Qed.
Lemma same_symbols c w : snd (coord_symbols c w) = w.
Proof. revert w. unfold coord_symbols. apply same_bind; [apply same_getobj|]. intros o. apply same_bind; [apply coord_components_same|]. reflexivity. Qed.
Lemma same_need o w : snd (need_components o w) = w.
Proof. unfold need_components. destruct (o_coords o); [destruct (is_expr _ _)|]; reflexivity. Qed.
Lemma same_first name l : forall w, snd (CalcM.first_named name l w) = w.
Proof.
  induction l as [|i l IH]; [reflexivity|]. cbn [CalcM.first_named]. apply same_bind; [apply same_getobj|]. intros o w. destruct (String.eqb _ _); [reflexivity|apply IH].
Qed.
Lemma gs_mmap {X Y} G (f : X -> M Y) R l : (forall x, gsafe G (f x) R) -> gsafe G (mmap f l) (fun ys => flat_map R ys).
Proof.
  intros H. induction l as [|x l IH]; cbn [mmap]; [apply gs_ret; constructor|].
  eapply gs_bind; [apply H|]. intros y. eapply gs_bind; [eapply gs_pre; [exact IH|]; intros w _ S; apply sat_app in S; apply S|].
  intros ys. apply gs_ret. intros w _ S. cbn [flat_map]. rewrite !sat_app in *. tauto.
Qed.
Lemma gs_mmap0 {X Y} G (f : X -> M Y) l : (forall x w, snd (f x w) = w) -> gsafe G (mmap f l) (fun _ => []).
Proof.
  intros H. apply gs_same. induction l as [|x l IH]; [reflexivity|]. cbn [mmap]. apply same_bind; [apply H|]. intros y. apply same_bind; [exact IH|]. reflexivity.
Qed.
Lemma gs_mfold {X Y} G (f : X -> Y -> M X) (F : X -> list fact) l : (forall x y, gsafe (F x ++ G) (f x y) F) -> forall x, gsafe (F x ++ G) (mfold f l x) F.
Proof.
  intros H. induction l as [|y l IH]; intros x; cbn [mfold]; [apply gs_ret; intros w _ S; apply sat_app in S; apply S|].
  eapply gs_bind; [apply H|]. intros x'. eapply gs_pre; [apply IH|]. intros w _ S. rewrite !sat_app in *. tauto.
Qed.

(** *** New tensors *)
Definition newt (t : oid) (k : cls) (m : option oid) : list fact := [Opnd (Some t) (eq m); Held (Some t); Reg (Some t); OfCls (Some t) k].

Lemma make_spec k name a (m c : option oid) i s w : k <> CMetric -> k <> CCoordinates -> good w -> (forall j, m = Some j -> In j (insts w)) ->
  (forall j, c = Some j -> j < length (heap w) /\ (In j (insts w) \/ obj_of w j = None)) ->
  match make_tensor k name a m c i s w with
  | (Err _, w') => w' = w
  | (Ok t, w') => t = length (heap w) /\ good w' /\ geff w w' /\ In t (insts w') /\ cls_of w' t = Some k /\
      exists o mm, obj_of w' t = Some o /\ o_metric o = m /\ o_name o = name /\ m = Some mm
  end.
Proof.
  intros Nk Nk' Gw Hm Hc. unfold make_tensor; cbv beta zeta.
  set (vm := match m with Some _ => _ | None => _ end). set (vc := match c with Some _ => _ | None => _ end).
  destruct (new_tensor_spec k (VStr name) (VArr a) vm vc (VTuple i) (VSymbol s) w)
    as [[e E]|(m' & c' & a' & y & Em & Hmc & Ec & Hcc & Ha & Hx & Hv & E)]; rewrite E; [reflexivity|]. subst vm vc.
  destruct m as [m|]; [|discriminate Em]. injection Em as <-. destruct c as [c|]; [|discriminate Ec]. injection Ec as <-.
  specialize (Hm m eq_refl). destruct (Hc c eq_refl) as (Lc & [Rc|Rc]).
  2:{ exfalso. unfold coord_components, mbind, getobj in Hx. rewrite Rc in Hx. discriminate. }
  set (o := mkObj _ _ _ _ _ _ _ _ _ _). split; [reflexivity|].
  assert (Gf : good (fresh_world w k o)).
  { split.
    - apply integrity_fresh; [apply Gw|]. intros j [Hj|[Hj|[Hj|Hj]]]; cbn in Hj.
      + destruct Hj as [<-|[]]. right; exact Rc.
      + injection Hj as <-. right; exact Hm.
      + injection Hj as <-. right; exact Rc.
      + destruct Hj.
    - apply fresh_sound; [apply Gw| | |intros _; split; discriminate]; cbn; intros x X; injection X as <-; auto.
    - apply fresh_selfr; [apply good_ok, Gw|apply Gw|congruence].
    - apply (Rank_P.grown_ranks w); [|apply Gw]. apply Rank_P.fresh_grown; [|intros; contradiction]. apply Rank_P.base_object in Hv. exact (Rank_P.object_ranked _ _ _ _ _ Ha Hv).
    - exact (proj1 (Stored_P.tensor_fresh w k _ _ _ _ _ _ _ Nk Nk' Hv Ha _ _ _ (g_home _ Gw) (g_key _ Gw))).
    - exact (proj2 (Stored_P.tensor_fresh w k _ _ _ _ _ _ _ Nk Nk' Hv Ha _ _ _ (g_home _ Gw) (g_key _ Gw))). }
  split; [exact Gf|]. split; [apply fresh_geff|]. split; [apply in_app_iff; right; left; reflexivity|].
  split; [apply cls_fresh_new|]. exists o, m. rewrite obj_of_fresh, Nat.eqb_refl. repeat split; reflexivity.
Qed.

Lemma new_facts w t k m o : good w -> In t (insts w) -> cls_of w t = Some k -> obj_of w t = Some o -> o_metric o = m -> sat (newt t k m) w.
Proof.
  intros Gw H1 H2 H3 H4. assert (L : t < length (heap w)) by (eapply obj_of_lt, H3).
  facts; cbn; intros u U; injection U as <-; auto.
  - split; [exact L|]. split; [auto|]. intros o' H. congruence.
  - split; [exact L|]. split; [auto|]. intros; exact I.
Qed.

Lemma gs_make G k name a m c i s : k <> CMetric -> k <> CCoordinates -> In (Reg m) G -> In (Held c) G ->
  gsafe G (make_tensor k name a m c i s) (fun t => newt t k m).
Proof.
  intros Nk Nk' Hm Hc w Gw S. pose proof (sat_in _ _ _ Hm S) as Sm. pose proof (sat_in _ _ _ Hc S) as Sc. cbn in Sm, Sc.
  assert (Sc' : forall j, c = Some j -> j < length (heap w) /\ (In j (insts w) \/ obj_of w j = None)) by (intros j E; destruct (Sc j E) as (? & ? & _); auto).
  pose proof (make_spec k name a m c i s w Nk Nk' Gw Sm Sc') as H. destruct (make_tensor k name a m c i s w) as [[t|e] w'].
  - destruct H as (_ & H1 & H2 & H3 & H4 & o & mm & H5 & H6 & _). split; [exact H1|]. split; [exact H2|]. eapply new_facts; eauto.
  - subst w'. split; [exact Gw|apply geff_refl].
Qed.

Lemma reg_held G c : In (Reg c) G -> forall w, good w -> sat G w -> sem (Held c) w.
Proof.
  intros H w Gw S t E. pose proof (sat_in _ _ _ H S t E) as X. split; [exact (registered_lt _ _ (good_ok _ Gw) X)|]. split; [auto|]. intros; exact I.
Qed.
Lemma gs_make_reg G k name a m c i s : k <> CMetric -> k <> CCoordinates -> In (Reg m) G -> In (Reg c) G ->
  gsafe G (make_tensor k name a m c i s) (fun t => newt t k m).
Proof.
  intros Nk Nk' Hm Hc. eapply gs_pre; [apply (gs_make (Held c :: G)); auto using in_eq, in_cons|]. intros w Gw S. constructor; [|exact S].
  eapply reg_held; eauto.
Qed.

(** *** Operators *)
Definition out P (x : option oid) : list fact := [Opnd x P; Held x].

Lemma out_new P t k m w : P m -> sat (newt t k m) w -> sat (out P (Some t)) w.
Proof.
  intros Hp S. inversion S as [|? ? S1 S2]; subst. inversion S2 as [|? ? S3 _]; subst. constructor; [|constructor; [exact S3|constructor]].
  intros u U. destruct (S1 u U) as (X1 & X2 & X3). repeat split; auto. intros o Ho. rewrite <- (X3 o Ho). exact Hp.
Qed.

Lemma gs_trace G x P sy s : In (Opnd x P) G -> gsafe G (trace_step (x, sy) s) (fun y => [Opnd (fst y) P]).
Proof.
  intros H. unfold trace_step. destruct (2 <? _); [apply gs_raise|]. destruct (_ =? 2).
  2:{ apply gs_ret. intros w _ S. constructor; [|constructor]. exact (sat_in _ _ _ H S). }
  destruct x as [t|]; [|apply gs_raise]. cbn [mopt]. eapply gs_bind; [apply (gs_ret _ t (fun u => [Pure (u = t)])); repeat constructor|]. intros t'. cbv zeta.
  destruct (Nat.eq_dec t' t) as [->|N]; [|intros w _ S; inversion S as [|? ? S1 _]; subst; contradiction].
  eapply gs_bind; [apply (gs_getobj _ _ P); right; exact H|]. intros o. cbn [app].
  eapply gs_bind; [apply gs_same, same_mopt|]. intros z0. cbn [app].
  eapply gs_bind; [apply gs_same, same_mopt|]. intros z1. cbn [app].
  eapply gs_bind; [apply gs_opt|]. intros m. cbn [app].
  eapply gs_bind; [apply gs_get|]. intros g. cbn [app].
  eapply gs_bind; [apply gs_get|]. intros a. cbn [app].
  eapply gs_bind; [apply gs_lift|]. intros y. cbn [app].
  eapply gs_bind; [apply (gs_getobj _ _ P); do 6 right; exact H|]. intros o'. cbn [app].
  eapply gs_bind; [apply gs_make_reg; [discriminate|discriminate|inG|inG]|]. intros t'. cbn [app].
  apply gs_ret. intros w _ S. cbn [fst].
  assert (HP : P (o_metric o')) by (eapply (sat_in _ _ (Pure (P (o_metric o')))); [|exact S]; cbn; tauto).
  assert (S' : sat (newt t' CTensor (o_metric o')) w) by (apply (sat_app (newt t' CTensor (o_metric o'))) in S; apply S).
  apply (out_new P) in S'; [|exact HP]. inversion S'; subst. constructor; [assumption|constructor].
Qed.

Lemma gs_init G x P sy r : In (Opnd x P) G -> gsafe G (calc_init x sy r) (fun c => out P (c_tensor c)).
Proof.
  intros H. unfold calc_init. eapply (gs_bind _ _ _ (fun _ => [])).
  { apply gs_same. intros w. destruct x as [t|]; [|reflexivity]. destruct (cls_of w t) as [[]|]; reflexivity. }
  intros _. cbn [app]. eapply (gs_bind _ _ _ (fun _ => [])).
  { destruct x as [t|]; [|apply gs_ret; constructor]. eapply gs_bind; [apply gs_getobj0|]. intros o. cbn [app].
    eapply gs_bind; [apply gs_get|]. intros a. apply gs_lift. }
  intros _. cbn [app]. eapply gs_bind.
  { eapply gs_pre; [apply (gs_mfold G trace_step (fun y => [Opnd (fst y) P]))|].
    - intros [x' sy'] s. apply gs_trace. left; reflexivity.
    - intros w _ S. constructor; [exact (sat_in _ _ _ H S)|exact S]. }
  intros [x' sy']. cbn [fst app]. apply gs_ret. intros w _ S. cbn [c_tensor]. inversion S as [|? ? S1 _]; subst.
  constructor; [exact S1|]. constructor; [|constructor]. intros u U. destruct (S1 u U) as (? & ? & _). repeat split; auto.
Qed.

(** The end of an operator. *)
Lemma gs_wrap G a o i sy P : In (Reg (o_metric o)) G -> In (Reg (o_coords o)) G -> In (Pure (P (o_metric o))) G ->
  gsafe G (let! t := make_tensor CTensor "TEMP" a (o_metric o) (o_coords o) i "T" in calc_init (Some t) sy RTensor) (fun c => out P (c_tensor c)).
Proof.
  intros H1 H2 H3. eapply gs_bind; [apply gs_make_reg; [discriminate|discriminate|exact H1|exact H2]|]. intros t.
  eapply gs_pre; [apply (gs_init (Opnd (Some t) P :: G)); left; reflexivity|]. intros w _ S. apply sat_app in S as [S1 S2].
  constructor; [|exact S2]. pose proof (sat_in _ _ _ H3 S2) as HP. cbn in HP. apply (out_new P) in S1; [|exact HP]. inversion S1; assumption.
Qed.

Ltac bind_same := eapply gs_bind; [apply gs_same; first [apply same_mopt|apply same_default|apply same_need|apply same_symbols]|]; intros ?; cbn [app].
Ltac bind_get := eapply gs_bind; [apply gs_get|]; intros ?; cbn [app].
Ltac bind_lift := eapply gs_bind; [apply gs_lift|]; intros ?; cbn [app].
Ltac bind_opt := eapply gs_bind; [apply gs_opt|]; intros ?; cbn [app].

Lemma gs_attr G t : gsafe G (metric_attr t) (fun _ => []).
Proof. apply gs_same. reflexivity. Qed.

Lemma same_pos s sy w : snd ((fun s => mopt EKeyError (spos s sy)) s w) = w.
Proof. apply same_mopt. Qed.

Lemma gs_add G self other P Q : In (Opnd (c_tensor self) P) G -> In (Opnd (c_tensor other) Q) G ->
  gsafe G (calc_add self (OCalc other)) (fun c => out P (c_tensor c)).
Proof.
  intros H1 H2. unfold calc_add. destruct (_ || _); [apply gs_raise|].
  eapply gs_bind; [apply gs_attr|]. intros m1. cbn [app]. eapply gs_bind; [apply gs_attr|]. intros m2. cbn [app].
  destruct (negb _); [apply gs_raise|].
  eapply gs_bind; [apply (gs_tensor_of _ _ P), H1|]. intros t1. cbn [app].
  eapply gs_bind; [apply (gs_getobj _ _ P); inG|]. intros o1. cbn [app].
  eapply gs_bind; [apply (gs_tensor_of _ _ Q); do 6 right; exact H2|]. intros t2. cbn [app].
  eapply gs_bind; [apply (gs_getobj _ _ Q); inG|]. intros o2. cbn [app].
  destruct (negb _); [apply gs_raise|]. cbv zeta. destruct (_ && _); [apply gs_raise|].
  bind_get. eapply gs_bind; [apply gs_mmap0; intros; apply same_mopt|]. intros p. cbn [app].
  eapply gs_bind; [apply gs_mmap0; intros; apply same_mopt|]. intros q. cbn [app].
  eapply gs_bind; [apply gs_mmap0; intros; apply same_mopt|]. intros i2. cbn [app].
  bind_get. bind_lift. bind_lift. apply gs_wrap; inG.
Qed.

Lemma gs_neg G self P : In (Opnd (c_tensor self) P) G -> gsafe G (calc_neg self) (fun c => out P (c_tensor c)).
Proof.
  intros H. unfold calc_neg. destruct (negb _); [apply gs_raise|].
  eapply gs_bind; [apply (gs_tensor_of _ _ P), H|]. intros t. cbn [app]. bind_same.
  eapply gs_bind; [apply (gs_getobj _ _ P); inG|]. intros o. cbn [app]. bind_same. apply gs_wrap; inG.
Qed.

Lemma gs_sub G self other P Q : In (Opnd (c_tensor self) P) G -> In (Opnd (c_tensor other) Q) G ->
  gsafe G (calc_sub self (OCalc other)) (fun c => out P (c_tensor c)).
Proof.
  intros H1 H2. unfold calc_sub. destruct (_ || _); [apply gs_raise|].
  eapply gs_bind; [apply (gs_tensor_of _ _ P), H1|]. intros t1. cbn [app]. eapply gs_bind; [apply gs_getobj0|]. intros o1. cbn [app].
  eapply gs_bind; [apply (gs_tensor_of _ _ Q); do 2 right; exact H2|]. intros t2. cbn [app]. eapply gs_bind; [apply gs_getobj0|]. intros o2. cbn [app].
  destruct (negb _); [apply gs_raise|]. cbv zeta. destruct (_ && _); [apply gs_raise|].
  eapply gs_bind; [apply (gs_neg _ _ Q); do 4 right; exact H2|]. intros n. cbn [app out].
  apply (gs_add _ _ _ P Q); [do 6 right; exact H1|left; reflexivity].
Qed.

Lemma gs_scale G self k P : In (Opnd (c_tensor self) P) G -> gsafe G (calc_mul self (OScalar k)) (fun c => out P (c_tensor c)).
Proof.
  intros H. unfold calc_mul. destruct (negb _); [apply gs_raise|]. cbv zeta.
  eapply gs_bind; [apply (gs_tensor_of _ _ P), H|]. intros t. cbn [app]. bind_same.
  eapply gs_bind; [apply (gs_getobj _ _ P); inG|]. intros o. cbn [app]. apply gs_wrap; inG.
Qed.

Lemma gs_scalar_of G a : gsafe G (scalar_of a) (fun _ => []).
Proof. apply gs_same. intros w. unfold scalar_of. destruct (shape a); [destruct (data a) as [|x [|]]|]; reflexivity. Qed.

Lemma gs_mul G self other P : In (Opnd (c_tensor self) P) G -> In (Opnd (c_tensor other) P) G ->
  gsafe G (calc_mul self (OCalc other)) (fun c => out P (c_tensor c)).
Proof.
  intros H1 H2. unfold calc_mul. destruct (negb _); [apply gs_raise|]. cbv zeta.
  eapply gs_bind; [apply (gs_tensor_of _ _ P), H2|]. intros t2. cbn [app].
  eapply gs_bind; [apply (gs_getobj _ _ P); inG|]. intros o2. cbn [app].
  eapply gs_bind; [apply (gs_tensor_of _ _ P); do 6 right; exact H1|]. intros t1. cbn [app].
  eapply gs_bind; [apply (gs_getobj _ _ P); inG|]. intros o1. cbn [app].
  destruct (_ && _); [apply gs_raise|].
  set (G0 := _ :: _).
  assert (I1 : In (Opnd (Some t1) P) G0) by (unfold G0; inG). assert (I2 : In (Opnd (Some t2) P) G0) by (unfold G0; inG).
  assert (M1 : In (Reg (o_metric o1)) G0 /\ In (Reg (o_coords o1)) G0 /\ In (Pure (P (o_metric o1))) G0) by (unfold G0; repeat split; inG).
  set (D := fun r : arr * obj * list string => [Reg (o_metric (snd (fst r))); Reg (o_coords (snd (fst r))); Pure (P (o_metric (snd (fst r))))]).
  clearbody G0.
  eapply (gs_bind _ _ _ D).
  { destruct (_ =? 0).
    - bind_get. eapply gs_bind; [apply gs_scalar_of|]. intros k. cbn [app]. bind_same.
      eapply gs_bind; [apply (gs_getobj _ _ P), I2|]. intros o. apply gs_ret. intros w _ S. unfold D; cbn [fst snd]. facts; (eapply sat_in; [|exact S]); inG.
    - apply gs_ret. intros w _ S. unfold D; cbn [fst snd]. destruct M1 as (a1 & a2 & a3). facts; eapply sat_in; eassumption. }
  intros r. set (G1 := D r ++ G0). assert (I1' : In (Opnd (Some t1) P) G1) by (apply in_app_iff; right; exact I1).
  assert (M : forall f, In f (D r) -> In f G1) by (intros f Hf; apply in_app_iff; left; exact Hf). clearbody G1.
  eapply (gs_bind _ _ _ D).
  { destruct (_ =? 0).
    - bind_get. eapply gs_bind; [apply gs_scalar_of|]. intros k. cbn [app]. bind_same.
      eapply gs_bind; [apply (gs_getobj _ _ P), I1'|]. intros o. apply gs_ret. intros w _ S. unfold D; cbn [fst snd]. facts; (eapply sat_in; [|exact S]); inG.
    - apply gs_ret. intros w _ S. apply Forall_forall. intros f Hf. exact (sat_in _ _ _ (M f Hf) S). }
  intros [[a o] sy]. cbn [app D fst snd]. apply gs_wrap; inG.
Qed.

Lemma gs_div G self k P : In (Opnd (c_tensor self) P) G -> gsafe G (calc_div self k) (fun c => out P (c_tensor c)).
Proof.
  intros H. unfold calc_div. destruct (negb _); [apply gs_raise|].
  eapply gs_bind; [apply (gs_tensor_of _ _ P), H|]. intros t. cbn [app]. bind_same.
  eapply gs_bind; [apply (gs_getobj _ _ P); inG|]. intros o. cbn [app]. bind_same. apply gs_wrap; inG.
Qed.

Lemma gs_partial G s1 s2 t ts pos P : In (Opnd (Some t) P) G -> gsafe G (partial_product s1 s2 t ts pos) (fun c => out P (c_tensor c)).
Proof.
  intros H. unfold partial_product. cbv zeta. eapply gs_bind; [apply (gs_getobj _ _ P), H|]. intros o. cbn [app].
  eapply (gs_bind _ _ _ (fun _ => [])).
  { apply gs_same. intros w. destruct (shared s1 s2) as [|[x pq] l]; [reflexivity|]. unfold mset. destruct (_ <? _); reflexivity. }
  intros i. cbn [app]. bind_get. bind_opt. bind_same. bind_lift. apply gs_wrap; inG.
Qed.

Lemma gs_product G self other t1 t2 o1 o2 P : In (Reg (o_metric o1)) G -> In (Reg (o_coords o1)) G -> In (Pure (P (o_metric o1))) G ->
  gsafe G (tensor_product self other t1 t2 o1 o2) (fun c => out P (c_tensor c)).
Proof.
  intros H1 H2 H3. unfold tensor_product. cbv zeta. bind_get.
  eapply (gs_bind _ _ _ (fun _ => [])).
  { destruct (shared _ _); [apply gs_ret; constructor|]. apply gs_mmap0. intros [j s]. cbn [fst snd]. destruct (spos _ _); [|apply same_mopt].
    apply same_bind; [apply same_mopt|reflexivity]. }
  intros i2. cbn [app]. bind_get. bind_lift. apply gs_wrap; assumption.
Qed.

Lemma gs_matmul0 G self other P : In (Opnd (c_tensor self) P) G -> In (Opnd (c_tensor other) P) G ->
  gsafe G (matmul0 self other) (fun c => out P (c_tensor c)).
Proof.
  intros H1 H2. unfold matmul0. destruct (c_role self), (c_role other); try apply gs_raise.
  - eapply gs_bind; [apply gs_attr|]. intros m1. cbn [app]. eapply gs_bind; [apply gs_attr|]. intros m2. cbn [app].
    destruct (negb _); [apply gs_raise|].
    eapply gs_bind; [apply (gs_tensor_of _ _ P), H1|]. intros t1. cbn [app].
    eapply gs_bind; [apply (gs_getobj _ _ P); inG|]. intros o1. cbn [app].
    destruct (_ =? 0); [apply gs_mul; do 6 right; assumption|].
    eapply gs_bind; [apply (gs_tensor_of _ _ P); do 6 right; exact H2|]. intros t2. cbn [app].
    eapply gs_bind; [apply (gs_getobj _ _ P); inG|]. intros o2. cbn [app].
    destruct (_ =? 0); [apply gs_mul; do 12 right; assumption|]. apply gs_product; inG.
  - eapply gs_bind; [apply (gs_tensor_of _ _ P), H1|]. intros t1. cbn [app]. apply gs_partial. left; reflexivity.
  - eapply gs_bind; [apply (gs_tensor_of _ _ P), H2|]. intros t1. cbn [app]. apply gs_partial. left; reflexivity.
Qed.

Lemma gs_derivative G r sy P : gsafe G (derivative r sy) (fun c => out P (c_tensor c)).
Proof.
  unfold derivative. destruct sy as [|x [|]]; [| |apply gs_raise]; apply gs_ret; intros w _ _; cbn [c_tensor]; facts; cbn; discriminate.
Qed.
Lemma gs_call G t sy P : In (Opnd (Some t) P) G -> gsafe G (calc_call t sy) (fun c => out P (c_tensor c)).
Proof. apply gs_init. Qed.

End Session2.
