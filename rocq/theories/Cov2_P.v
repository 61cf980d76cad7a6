(** The covariant derivative in a session with one metric: gradient and divergence. *)
From Verif Require Import Alg Alg_P Arr Arr_P Spec UtilsM Utils_P Arr2_P Act_P RL_P TensorM WorldM SpecWorld World_P Registry_P CalcM SpecCalc Keep_P Calc_P Calc2_P Calc3_P Calc4_P Trace_P Run_P CurvM SpecCurv SpecCov Form_P Form2_P CurvRun_P CurvRun2_P Cov_P.
Local Open Scope nat_scope.

Section Ends.
Context {A : AlgOps} {L : AlgLaws A} {D : DiffLaws A}.
Add Ring Kring : kring (setoid keq_equiv kring_ext).
Variables (w0 : world) (n : nat) (m c : oid) (name : string) (xs : list string) (g gi : nat -> nat -> K).
Hypothesis HS : metric_session w0 n m c name xs g gi.
Notation form := (form w0 m c).
Notation tens := (tens n m c).
Notation runs := (runs w0 m c).
Notation value w := (tensor_value w n m c).
Notation Gam := (Gam n xs g gi).
Variables (chr t : oid) (i : list Z) (h : list nat -> K) (syms : list string) (p d : string).
Hypothesis Ns : NoDup syms.
Hypothesis Ls : length syms = length i.
Hypothesis Vi : valid_cfg i.
Hypothesis Np : ~ In p syms.
Hypothesis Nd : ~ In d syms.
Hypothesis Npd : p <> d.
Hypothesis Vc : value w0 chr [1; -1; -1]%Z (at3 Gam).
Hypothesis Vt : value w0 t i h.
Hypothesis Nt : ~ named w0 "TEMP" t.

(** The derivative before the symbols are attached. *)
Lemma expand_run {Y} (k : calc -> M Y) Q :
  (forall x w, form w -> tens w x (p :: syms) (-1 :: i)%Z (fun f => covariant_of n (cx xs) Gam i h (f p) (map f syms)) -> reach w (k x) Q) ->
  reach w0 (let! dp := PartialD [p] in
    let! x := matmul0 dp (mkCalc (Some t) syms RTensor) in
    let! ups := connection_terms chr t syms i 1 p d in
    let! u := calc_sum ups in
    let! x := calc_add x u in
    let! downs := connection_terms chr t syms i (-1) p d in
    let! l := calc_sum downs in
    let! x := calc_sub x l in k x) Q.
Proof.
  intros H. assert (F := form_base w0 n m c name xs g gi HS). apply reach_pd.
  assert (Lp : length (p :: syms) = length (-1 :: i)%Z) by (cbn; congruence).
  assert (T0 := tens_value_of n m c w0 t syms i h Vt Ns Ls Vi).
  assert (Hn : forall z j s z', In (j, (s, z')) (filter (fun jsz : nat * (string * Z) => (snd (snd jsz) =? z)%Z) (combine (seq 0 (length syms)) (combine syms i))) ->
    nth_error syms j = Some s /\ nth_error i j = Some z).
  { intros z j s z' Hj. apply filter_In in Hj as [Hj Ez]. cbn [snd] in Ez. apply Z.eqb_eq in Ez. subst z'.
    apply In_nth_error in Hj as (q & Hq). apply combine_nth_error in Hq as [H1 H2]. apply combine_nth_error in H2 as [H2 H3].
    assert (q < length syms) by (apply nth_error_Some; congruence).
    rewrite (nth_error_nth' _ 0) in H1 by (rewrite seq_length; lia). rewrite seq_nth in H1 by lia. injection H1 as <-. auto. }
  eapply reach_bind; [apply (runs_gradient w0 n m c name xs g gi HS w0 p _ _ _ _ F T0 Np)|].
  intros x1 w1 F1 G1 T1.
  eapply reach_bind; [apply (terms_run w0 n m c name xs g gi HS chr t i h syms p d Ns Ls Vi Np Nd Npd w1 1%Z _ F1); [eapply value_grow; eauto|eapply value_grow; eauto|apply Hn]|].
  intros ups w2 F2 G2 H2.
  eapply reach_bind; [apply (sum_run w0 n m c name xs g gi HS _ (p :: syms) (-1 :: i)%Z _ _ _ Lp F2 H2)|].
  intros u w3 F3 G3 H3.
  assert (G13 := grow_trans _ _ _ G2 G3).
  eapply reach_bind; [apply (add_sum w0 n m c name xs g gi HS w3 x1 _ _ _ u _ F3 (tens_grow _ _ _ _ _ _ _ _ _ G13 T1) H3)|].
  intros x2 w4 F4 G4 T4. assert (G14 := grow_trans _ _ _ G1 (grow_trans _ _ _ G13 G4)).
  eapply reach_bind; [apply (terms_run w0 n m c name xs g gi HS chr t i h syms p d Ns Ls Vi Np Nd Npd w4 (-1)%Z _ F4); [eapply value_grow; eauto|eapply value_grow; eauto|apply Hn]|].
  intros downs w5 F5 G5 H5.
  eapply reach_bind; [apply (sum_run w0 n m c name xs g gi HS _ (p :: syms) (-1 :: i)%Z _ _ _ Lp F5 H5)|].
  intros l w6 F6 G6 H6.
  eapply reach_bind; [apply (sub_sum w0 n m c name xs g gi HS w6 x2 _ _ _ l _ F6 (tens_grow _ _ _ _ _ _ _ _ _ (grow_trans _ _ _ G5 G6) T4) H6); discriminate|].
  intros x3 w7 F7 G7 T7. apply H; [exact F7|]. eapply tens_ext; [|exact T7]. intros f Hf. cbv beta. unfold covariant_of.
  rewrite <- (sum_all n xs g gi i h syms p Ls Vi f); [|intros y Hy; apply Hf; right; exact Hy]. cbn [Z.eqb Pos.eqb]. ring.
Qed.

(** Calc, the temporary result and its deletion, and the new tensor. *)
Lemma close_run w y s i' F (rf : list Z -> list Z) : form w -> tens w y s i' F -> let ri := rf i in valid_cfg ri -> length ri = length i' ->
  exists z b w', (let! r := run_calc y "Result" "" s in
      let! a := get_components r None None in
      let! o := getobj t in
      delete r true ;;
      let! t' := make_tensor CTensor "TEMP" (amap simp a) (o_metric o) (o_coords o) (rf (o_indices o)) "T" in
      calc_init (Some t') s RTensor) w = (Ok z, w') /\ result_is w' z s m c ri b /\ cubic n b /\ rank b = length ri /\
    (forall f, (forall x, In x s -> f x < n) -> keq (aget b (map f s)) (F f)) /\
    good w' /\ addsn m c ["TEMP"%string] w0 w'.
Proof.
  intros Fw T ri Vr Lr.
  destruct (value_of_tens n m c w y s i' F T) as (ty & _ & Nsy & Lsy & Vi' & _).
  destruct (result_run w0 n m c name xs g gi HS w y s i' F s i' Fw T (or_intror (Permutation_refl s))) as (r & b & w1 & E1 & G1 & A1 & Lr1 & Ir & Ur & Kr & Or & Cb & Rb & _ & Lo & Vb).
  { assert (Eo : match s with [] => s | _ => s end = s) by (destruct s; reflexivity). rewrite Eo. split; [auto|]. split; [auto|]. reflexivity. }
  assert (Eo : match s with [] => s | _ => s end = s) by (destruct s; reflexivity). rewrite Eo in Vb, Lo. clear Eo.
  assert (SW := session_adds w0 n m c name xs g gi HS _ _ G1 A1). assert (Hsys : coordinate_system w1 c n) by apply SW.
  assert (Eg : get_components r None None w1 = (Ok b, w1)).
  { assert (H : get_components r (Some c) (Some i') w1 = (Ok b, w1)).
    { apply (stored_default_get w1 r CTensor (tobj "Result" "" i' c m b) c b); auto; [discriminate|apply tobj_stored|apply Hsys]. }
    rewrite (get_default w1 r _ c Or eq_refl). exact H. }
  assert (Nr : named w1 "Result" r) by (eexists; split; [exact Or|reflexivity]).
  assert (Vt1 := value_adds m c _ _ _ _ _ _ _ (adds_addsn m c _ _ _ _ A1 Nr) Nt Vt).
  destruct Vt1 as (k & o & a & Hk & Nk & Ho & Mo & Ei & Ro & (Co & _) & _).
  destruct (delete_unused w1 r true (proj1 (proj1 (proj2 G1))) Ir Ur) as (w2 & E2 & Rm).
  assert (G2 := good_removed _ _ _ G1 Rm Ur).
  assert (Hh := delete_heap w1 r true). rewrite E2 in Hh. cbn [snd] in Hh.
  assert (A2 := adds_removed m c _ _ _ _ _ Lr1 (proj1 (proj1 (proj1 (proj2 G1)))) Hh A1 Rm).
  cbn [filter] in A2. rewrite Nat.eqb_refl in A2. cbn [negb] in A2.
  assert (SW2 := session_adds w0 n m c name xs g gi HS _ _ G2 A2). assert (Hsys2 : coordinate_system w2 c n) by apply SW2.
  destruct (amap_values n simp b Cb) as (C1 & R1 & V1).
  assert (Lb : length ri = rank (amap simp b)) by congruence.
  set (w3 := fresh_world w2 CTensor (tobj "TEMP" "T" ri c m (amap simp b))).
  assert (G3 : good w3).
  { apply good_fresh; try apply SW2. exact G2. }
  assert (A3 := adds_trans m c _ _ _ _ _ (proj1 (proj1 (proj2 G3))) A2 (adds_fresh m c w2 CTensor (tobj "TEMP" "T" ri c m (amap simp b)) (proj1 (proj1 (proj2 G2))) (tobj_refers _ _ _ _ _ _))).
  cbn [app] in A3. fold w3 in A3.
  assert (O3 : obj_of w3 (length (heap w2)) = Some (tobj "TEMP" "T" ri c m (amap simp b))) by apply obj_fresh_new.
  assert (K3 : cls_of w3 (length (heap w2)) = Some CTensor) by apply cls_fresh_new.
  assert (Hsys3 : coordinate_system w3 c n) by (apply system_fresh, Hsys2).
  exists (mkCalc (Some (length (heap w2))) s RTensor), (amap simp b), w3. split; [|split; [|split; [|split; [|split; [|split]]]]].
  - rewrite (bind_ok _ _ _ _ _ E1), (bind_ok _ _ _ _ _ Eg). rewrite (bind_ok _ _ o w1 w1) by (apply getobj_ok, Ho).
    rewrite (bind_ok _ _ _ _ _ E2). rewrite Mo, Co, Ei. fold ri.
    rewrite (bind_ok _ _ _ _ _ (make_tensor_ok w2 CTensor "TEMP" (amap simp b) m c ri "T" n (proj1 (proj2 (proj2 (proj2 (proj2 (proj2 (proj2 (proj2 (proj2 SW2))))))))) Hsys2 C1 Vr Lb)).
    fold w3. eapply calc_init_plain; [exact K3|discriminate|exact O3| |exact Vr|exact Lb|exact Nsy].
    rewrite (get_default w3 _ _ c O3 eq_refl).
    apply (stored_default_get w3 _ CTensor (tobj "TEMP" "T" ri c m (amap simp b)) c); auto; [discriminate|apply tobj_stored|apply Hsys3].
  - split; [reflexivity|]. split; [reflexivity|]. eexists _, _. split; [reflexivity|]. split; [exact O3|]. split; [exact K3|].
    split; [cbn [w3 fresh_world insts]; apply in_app_iff; right; left; reflexivity|]. repeat split; reflexivity.
  - exact C1.
  - congruence.
  - intros f Hf. rewrite V1; [rewrite simp_ok; apply Vb, Hf|]. destruct Cb as [_ ->]. rewrite Rb, <- Lsy. apply inb_assign, Hf.
  - exact G3.
  - eapply adds_addsn; [exact A3|]. eexists. split; [exact O3|reflexivity].
Qed.
End Ends.
