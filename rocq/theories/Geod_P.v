(** The runs of the Lagrangian and of the geodesic equations in a session with one metric. *)
From Verif Require Import Alg Alg_P Arr Arr_P Spec UtilsM Utils_P Arr2_P Act_P RL_P TensorM WorldM SpecWorld World_P Registry_P CalcM SpecCalc Keep_P Calc_P Calc2_P Calc3_P Calc4_P Trace_P Run_P CurvM SpecCurv Form_P Form2_P CurvRun_P CurvRun2_P Weyl_P GeodM SpecGeod.
From Verif Require History_P.
Local Open Scope nat_scope.

Section Steps.
Context {A : AlgOps} {L : AlgLaws A} {D : DiffLaws A}.
Add Ring Kring : kring (setoid keq_equiv kring_ext).
Variables (w0 : world) (n : nat) (m c : oid) (name : string) (xs : list string) (g gi : nat -> nat -> K).
Hypothesis HS : metric_session w0 n m c name xs g gi.
Notation form := (form w0 m c).
Notation tens := (tens n m c).
Notation runs := (runs w0 m c).
Notation new_tens := (new_tens w0 n m c).

(** *** New temporary tensors *)
Definition temp_tensor (w : world) (t : oid) (i : list Z) (h : list nat -> K) : Prop :=
  tensor_value w n m c t i h /\ cls_of w t = Some CTensor /\ length (heap w0) <= t /\
  exists a, obj_of w t = Some (tobj "TEMP" "T" i c m a).
Lemma r_temp w a i h : form w -> cubic n a -> rank a = length i -> valid_cfg i ->
  (forall idx, in_range n (length i) idx -> keq (aget a idx) (h idx)) ->
  runs w (make_tensor CTensor "TEMP" a (Some m) (Some c) i "T") (fun t w' => temp_tensor w' t i h).
Proof.
  intros F Ca Ra V Ha. eexists _, _.
  split; [apply (make_tensor_ok w CTensor "TEMP" a m c i "T" n); [apply (form_metric w0 n m c name xs g gi HS w F)|apply (form_system w0 n m c name xs g gi HS w F)|exact Ca|exact V|congruence]|].
  split; [eapply form_fresh; [exact HS|exact F]|]. split; [apply grow_fresh|].
  split; [|split; [apply cls_fresh_new|split; [apply F|exists a; apply obj_fresh_new]]].
  exists CTensor, (tobj "TEMP" "T" i c m a), a. split; [apply cls_fresh_new|]. split; [discriminate|]. split; [apply obj_fresh_new|].
  split; [reflexivity|]. split; [reflexivity|]. split; [reflexivity|]. split; [apply tobj_stored|]. split; [exact Ca|]. split; [exact Ra|exact Ha].
Qed.
Lemma r_vector w f : form w ->
  runs w (temp_vector m c f) (fun t w' => temp_tensor w' t [1]%Z (fun idx => f (nth 0 idx 0) (cx xs (nth 0 idx 0)))).
Proof.
  intros F. destruct (form_syms w0 n m c name xs g gi HS w F) as (oc & Hoc & Es & Ls). unfold temp_vector.
  assert (Hl : length (map (fun ix => f (fst ix) (snd ix)) (combine (seq 0 n) xs)) = n).
  { rewrite map_length, combine_length, seq_length, Ls. apply Nat.min_id. }
  destruct (r_temp w (mkArr [n] (map (fun ix => f (fst ix) (snd ix)) (combine (seq 0 n) xs))) [1]%Z
    (fun idx => f (nth 0 idx 0) (cx xs (nth 0 idx 0))) F) as (t & w' & E & R).
  - split; [|reflexivity]. unfold awf. cbn [shape data]. rewrite Hl. cbn. lia.
  - reflexivity.
  - apply valid_cfgb_spec; reflexivity.
  - intros idx [Hli Hr]. destruct idx as [|k [|]]; try discriminate. apply Forall_inv in Hr as Hk. cbn [nth].
    unfold aget. cbn [shape data]. replace (offset [n] [k]) with k by (cbn; lia).
    rewrite (nth_indep _ _ (f (fst (0, ""%string)) (snd (0, ""%string)))) by lia. rewrite (map_nth (fun ix => f (fst ix) (snd ix))), combine_nth by (rewrite seq_length; congruence).
    cbn [fst snd]. rewrite seq_nth by lia. reflexivity.
  - exists t, w'. split; [|exact R]. rewrite (bind_ok _ _ oc w w) by (apply getobj_ok, Hoc). cbv zeta. rewrite Es, Ls. exact E.
Qed.

(** t(s) for a temporary tensor. *)
Lemma r_call_new w t s i h : form w -> temp_tensor w t i h -> distinctb s = true -> (length s =? length i) = true -> valid_cfgb i = true ->
  runs w (calc_call t s) (fun x w' => w' = w /\ new_tens w x s i (fun f => h (map f s))).
Proof.
  intros F (V & Hk & Lt & a & Ho) H1 H2 H3.
  destruct (r_call w0 n m c name xs g gi HS w t s i h F V H1 H2 H3) as (x & w' & E & F' & G & -> & T).
  exists x, w. split; [exact E|]. split; [exact F'|]. split; [exact G|]. split; [reflexivity|]. split; [exact T|].
  exists t, "T"%string, a. split; [|auto].
  assert (E' : calc_call t s w = (Ok (mkCalc (Some t) s RTensor), w)).
  { destruct V as (k & o & b & Hk' & Nk & Ho' & Mo & Ei & Ro & Sd & (Cb & Rb & Vb)). unfold calc_call. rewrite Ho in Ho'. injection Ho' as <-.
    eapply calc_init_plain; [exact Hk|discriminate|exact Ho| | |rewrite Rb; exact (eq_sym Ro)|apply distinctb_spec, H1].
    - rewrite (get_default w t _ c Ho eq_refl). eapply stored_default_get; eauto; [discriminate|apply (form_system w0 n m c name xs g gi HS w F)|apply valid_cfgb_spec, H3].
    - apply valid_cfgb_spec, H3. }
  rewrite E in E'. injection E' as ->. reflexivity.
Qed.

(** x @ y for two vectors with the same symbol: the second one is lowered. *)
Lemma r_square w x y y0 F1 F2 : form w -> tens w x [y0] [1]%Z F1 -> new_tens w y [y0] [1]%Z F2 ->
  runs w (matmul0 x y) (fun z w' => tens w' z [] []
    (fun f => nsum n (fun k => kmul (F1 (assign [y0] [k] f)) (nsum n (fun q => kmul (g k q) (F2 (assign [y0] [q] f))))))).
Proof.
  intros F T1 (T2 & t & sy & a & Ty & Kt & Lt & Ot).
  destruct (tens_get w0 n m c name xs g gi HS _ _ _ _ _ F T1) as (t1 & k1 & o1 & a1 & X1 & K1 & N1 & M1 & E1 & S1 & C1 & Ca1 & R1 & Rl1 & Y1 & G1 & V1).
  destruct (tens_get w0 n m c name xs g gi HS _ _ _ _ _ F T2) as (t2 & k2 & o2 & a2 & X2 & K2 & N2 & M2 & E2 & S2 & C2 & Ca2 & R2 & Rl2 & Y2 & G2 & V2).
  assert (X2' := X2). destruct X2' as (_ & Ty2 & O2 & Nd2 & Ln2 & _ & Vi2). rewrite Ty in Ty2. injection Ty2 as <-. rewrite Ot in O2. injection O2 as <-.
  assert (a = a2).
  { destruct S2 as (_ & d & H1 & H2). cbn in H1. rewrite Nat.eqb_refl in H1. injection H1 as <-. cbn [dget tobj o_indices] in H2. rewrite cfg_eqb_refl in H2. congruence. }
  subst a2. cbn [o_indices tobj] in *.
  assert (HS' := HS). destruct HS' as (_ & _ & _ & _ & _ & _ & _ & _ & _ & _ & _ & _ & _ & om & G & Hom & _ & _ & _ & _ & HG & VG).
  assert (Hom' : obj_of w m = Some om) by (rewrite (proj1 (form_old w0 m c w m F (s_lt_m w0 n m c name xs g gi HS))); exact Hom).
  destruct (raise_get n m c w t "TEMP" sy [1]%Z [-1]%Z a om G) as (b & Eb & Cb & Rb & Vb); try assumption.
  { apply (form_pos w0 n m c name xs g gi HS). }
  { apply (form_metric w0 n m c name xs g gi HS w F). }
  { apply (form_system w0 n m c name xs g gi HS w F). }
  { apply valid_cfgb_spec; reflexivity. }
  { reflexivity. }
  { discriminate. }
  destruct (matmul_run w x y t1 o1 t _ m c n [-1]%Z a1 w b (put_world w t (both "TEMP" sy [1]%Z [-1]%Z c m a b)) (proj1 F) X1 X2) as (r & E & Cr & Rr & Vr); try assumption; try reflexivity.
  { apply (form_pos w0 n m c name xs g gi HS). }
  { apply (form_system w0 n m c name xs g gi HS w F). }
  { rewrite <- R1, Rl1. cbn. lia. }
  { cbn. lia. }
  { rewrite Y1, Y2, E1. split; [reflexivity|]. intros j z i H1 H2. destruct j as [|j]; cbn in H1, H2; [|destruct j; discriminate].
    injection H1 as <-. injection H2 as <-. split.
    - intros p z1 Hp Hz. destruct p as [|p]; cbn in Hp, Hz; [injection Hz as <-; reflexivity|destruct p; discriminate].
    - intros N. exfalso. apply N. left. reflexivity. }
  rewrite Y1, Y2, E1 in *. cbn [o_indices tobj] in *.
  assert (Ec : common [y0] [y0] = [y0]) by (unfold common; cbn [filter existsb]; rewrite String.eqb_refl; reflexivity).
  assert (Ew : without [y0] [y0] = []) by (unfold without; cbn [filter existsb]; rewrite String.eqb_refl; reflexivity).
  assert (Ei : indices_without [y0] [1]%Z [y0] = []) by (unfold indices_without; cbn [filter existsb combine fst]; rewrite String.eqb_refl; reflexivity).
  rewrite ?Ec, ?Ew, ?Ei in *. cbn [app] in *.
  eexists _, _. split; [exact E|]. assert (F' := form_put w0 m c w t sy [1]%Z [-1]%Z a b F Lt Kt Ot).
  split; [eapply form_fresh; [exact HS|exact F']|]. split; [eapply grow_trans; [exact (grow_put w t "TEMP" sy [1]%Z [-1]%Z c m a b ltac:(discriminate) Kt Ot)|apply grow_fresh]|].
  apply (tens_new w0 n m c); try assumption; [constructor|reflexivity|constructor|]. intros f Hf. rewrite (Vr f Hf). cbn [length]. rewrite lsum_tuples_1.
  apply nsum_ext. intros k Hk.
  assert (Hy : forall q, q < n -> forall y', In y' [y0] -> assign [y0] [q] f y' < n).
  { intros q Hq y' [<-|[]]. unfold assign. cbn [index_of]. rewrite String.eqb_refl. exact Hq. }
  assert (Em : forall q, map (assign [y0] [q] f) [y0] = [q]) by (intros q; rewrite map_assign_first; [reflexivity|repeat constructor; intros []]).
  apply kmul_proper; [apply V1, Hy, Hk|]. rewrite Em, Vb by (split; [reflexivity|constructor; [exact Hk|constructor]]).
  rewrite act_first; [|discriminate|constructor|reflexivity|exact Hk]. apply nsum_ext. intros q Hq. cbn [Z.eqb].
  destruct (VG k q Hk Hq) as (v1 & _). apply kmul_proper; [exact v1|]. rewrite <- V2 by (apply Hy, Hq). rewrite Em. reflexivity.
Qed.

(** *** The end *)
Lemma r_curve_end (Rel : K -> K -> Prop) (f : K -> K) k w x s i F i' nm sy : k <> CCoordinates -> (forall e e', keq e e' -> Rel (f e) e') ->
  form w -> tens w x s i F -> sameb s i s i' = true -> nm <> "TEMP"%string ->
  reach w (let! r := run_calc x "Result" "" [] in let! t := publish_curve k m c r f nm i' sy in finish_calc r ;; mret t)
    (fun t w' => good w' /\ adds m c [t] w0 w' /\ In t (insts w') /\ named w' nm t /\ cls_of w' t = Some k /\
       exists h, tensor_value w' n m c t i' h /\ forall v, (forall y, In y s -> v y < n) -> Rel (h (map v s)) (F v)).
Proof.
  intros Hk HR Fw T Hi Hnm.
  destruct (result_run w0 n m c name xs g gi HS w x s i F [] i' Fw T (or_introl eq_refl) (sameb_spec _ _ _ _ Hi)) as (r & b & w1 & E1 & G1 & A1 & Lr & Ir & Ur & Kr & Or & Cb & Rb & Vi & Lo & Vb).
  assert (SW := session_adds w0 n m c name xs g gi HS _ _ G1 A1). assert (Hsys : coordinate_system w1 c n) by apply SW.
  assert (Eg : get_components r None None w1 = (Ok b, w1)).
  { rewrite (get_default w1 r _ c Or eq_refl). apply (stored_default_get w1 r CTensor (tobj "Result" "" i' c m b) c b); auto; [discriminate|apply tobj_stored|apply Hsys]. }
  destruct (amap_values n f b Cb) as (Cf & Rf & Vf).
  destruct (finish_run w0 n m c name xs g gi HS w1 k nm (amap f b) i' sy r G1 A1 Lr Ir Ur) as (t & w2 & E2 & G2 & A2 & Lt & It & Kt & Ot); try assumption; try congruence.
  { eexists. split; [exact Or|discriminate]. }
  exists t, w2. split.
  - rewrite (bind_ok _ _ _ _ _ E1). rewrite <- E2.
    assert (SW' := SW). destruct SW' as (_ & _ & _ & _ & _ & _ & _ & _ & _ & _ & _ & _ & _ & om & G & Hom & _ & _ & _ & _ & (Cm & _) & _).
    unfold publish_curve. rewrite History_P.bind_assoc. rewrite (bind_ok _ _ _ _ _ Eg). rewrite (bind_ok _ _ om w1 w1) by (apply getobj_ok, Hom). rewrite Cm. reflexivity.
  - split; [exact G2|]. split; [exact A2|]. split; [exact It|]. split; [eexists; split; [exact Ot|reflexivity]|]. split; [exact Kt|].
    exists (aget (amap f b)). split.
    + exists k, (tobj nm sy i' c m (amap f b)), (amap f b). split; [exact Kt|]. split; [exact Hk|]. split; [exact Ot|]. split; [reflexivity|]. split; [reflexivity|].
      split; [reflexivity|]. split; [apply tobj_stored|]. split; [exact Cf|]. split; [congruence|]. reflexivity.
    + intros v Hv. rewrite Vf; [apply HR, Vb, Hv|]. destruct Cb as [_ ->]. rewrite Rb, <- Lo. apply inb_assign, Hv.
Qed.
End Steps.
