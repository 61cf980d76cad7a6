(** Christoffel symbols, Riemann tensor and its contractions in a session with one metric. *)
From Verif Require Import Alg Alg_P Arr Arr_P Spec UtilsM Utils_P Arr2_P Act_P RL_P TensorM WorldM SpecWorld World_P Registry_P CalcM SpecCalc Keep_P Calc_P Calc2_P Calc3_P Calc4_P Trace_P Run_P CurvM SpecCurv Form_P Form2_P CurvRun_P.
Local Open Scope nat_scope.

Ltac lift G := match type of G with grow ?w ?w' =>
  repeat match goal with
  | H : tens _ _ _ w _ _ _ _ |- _ => apply (tens_grow _ _ _ _ _ _ _ _ _ G) in H
  | H : tensor_value w _ _ _ _ _ _ |- _ => apply (value_grow _ _ _ _ _ _ _ _ G) in H
  end; clear G end.
Ltac norm := match goal with |- ?l = _ => let v := eval vm_compute in l in exact (eq_refl v) end.
Ltac call HS V := eapply reach_bind; [eapply (r_call _ _ _ _ _ _ _ _ HS); [eassumption|exact V|reflexivity|reflexivity|reflexivity]|];
  let F := fresh "F" in let G := fresh "G" in let T := fresh "T" in let x := fresh "x" in
  intros x ? F G [-> T]; clear F G.
Ltac new := let F := fresh "F" in let G := fresh "G" in let T := fresh "T" in let x := fresh "x" in let w1 := fresh "w" in
  intros x w1 F G T; lift G; match goal with F' : form _ _ _ _, F'' : form _ _ _ _ |- _ => clear F' end; cbv beta in T.
Ltac deriv HS T := eapply reach_bind; [eapply (r_gradient _ _ _ _ _ _ _ _ HS); [eassumption|exact T|reflexivity]|]; new.
Ltac sum HS T1 T2 := eapply reach_bind; [first [eapply (r_add _ _ _ _ _ _ _ _ HS); [eassumption|exact T1|exact T2|reflexivity|reflexivity]|eapply (r_sub _ _ _ _ _ _ _ _ HS); [eassumption|exact T1|exact T2|reflexivity|reflexivity|discriminate]]|]; new.
Ltac scale HS T := eapply reach_bind; [eapply (runs_scale _ _ _ _ _ _ _ _ HS); [eassumption|exact T]|]; new.
Ltac mul1 HS T1 T2 := eapply reach_bind; [eapply (r_mul1 _ _ _ _ _ _ _ _ HS); [eassumption|exact T1|exact T2|reflexivity|reflexivity|norm|norm]|]; new.
Ltac mul0 HS T1 T2 := eapply reach_bind; [eapply (r_mul0 _ _ _ _ _ _ _ _ HS); [eassumption|exact T1|exact T2|reflexivity|reflexivity|norm|norm]|]; new.

Ltac ready := unfold assign; cbn [index_of String.eqb Ascii.eqb Bool.eqb nth map]; unfold at2, at3, at4; cbn [nth].
Ltac finish HS T := eapply (r_end _ _ _ _ _ _ _ _ HS); [eassumption|exact T|reflexivity|reflexivity|apply suffix_not_temp; cbn; lia|auto|].


Section Runs2.
Context {A : AlgOps} {L : AlgLaws A} {D : DiffLaws A}.
Add Ring Kring : kring (setoid keq_equiv kring_ext).
Variables (n : nat) (m c : oid) (name : string) (xs : list string) (g gi : nat -> nat -> K).
Notation session w := (metric_session w n m c name xs g gi).
Notation value w := (tensor_value w n m c).
Notation done w := (done n m c name xs g gi w).
Notation known_all := (known_all n m c name xs g gi).

Lemma metric_value w : session w -> value w m [-1; -1]%Z (at2 g).
Proof.
  intros (_ & _ & _ & _ & _ & _ & _ & _ & Hm & _ & _ & _ & _ & o & G & Ho & _ & Mo & Ei & Ro & (Hc & _ & d & Hd & HG) & V).
  destruct (HG (-1)%Z (-1)%Z) as (H1 & H2 & H3); [apply valid_cfgb_spec; reflexivity|].
  exists CMetric, o, (G (-1)%Z (-1)%Z). split; [exact Hm|]. split; [discriminate|]. split; [exact Ho|]. split; [exact Mo|]. split; [exact Ei|].
  split; [exact Ro|]. split; [split; [exact Hc|exists d; rewrite Ei; auto]|]. split; [exact H2|]. split; [exact H3|].
  intros idx [Hl Hr]. destruct idx as [|i [|j [|]]]; try discriminate. inversion Hr as [|? ? Hi Hr']; subst. inversion Hr' as [|? ? Hj _]; subst.
  apply (V i j Hi Hj).
Qed.

Lemma set_nth_end {X} (l : list X) x y : set_nth (length l) x (l ++ [y]) = l ++ [x].
Proof. induction l as [|z l IH]; cbn; [reflexivity|rewrite IH; reflexivity]. Qed.
(** The copy of the metric with upper indices. *)
Definition copy_world (w : world) (o : obj) : world := mkW (heap w ++ [(CMetric, Some o)]) (insts w).
Lemma copy_obj w o : obj_of (copy_world w o) (length (heap w)) = Some o.
Proof. apply (obj_fresh_new w CMetric o). Qed.
Lemma copy_put w o o' : put (length (heap w)) o' (copy_world w o) = (Ok tt, copy_world w o').
Proof.
  unfold put, copy_world. cbn [heap insts]. rewrite nth_error_app2, Nat.sub_diag by lia. cbn [nth_error].
  rewrite set_nth_end. reflexivity.
Qed.
Lemma copy_run w : session w -> exists oi, form w m c (copy_world w oi) /\ grow w (copy_world w oi) /\
  value (copy_world w oi) (length (heap w)) [1; 1]%Z (at2 gi) /\
  forall X (k : oid -> M X), (let! inv := copy_object m in change_default_indices inv [1; 1]%Z ;;
    (let! o := getobj inv in put inv (set_name "TEMP" o)) ;; k inv) w = k (length (heap w)) (copy_world w oi).
Proof.
  intros HS. assert (HS' := HS). destruct HS' as (Ht & _ & _ & _ & Hsys & _ & _ & _ & Hm & _ & _ & _ & _ & o & G & Ho & _ & Mo & Ei & Ro & (Hc & _ & d & Hd & HG) & V).
  exists (set_name "TEMP" (set_indices [1; 1]%Z o)). set (oi := set_name "TEMP" (set_indices [1; 1]%Z o)).
  assert (F : form w m c (copy_world w oi)).
  { split; [|split; [|split]].
    - intros i oo Hoo. change (obj_of (fresh_world w CMetric oi) i = Some oo) in Hoo.
      assert (T : typed (fresh_world w CMetric oi)).
      { apply typed_fresh; [exact Ht| |]; intros x Hx; cbn in Hx; [rewrite Mo in Hx|rewrite Hc in Hx]; injection Hx as <-; [exact Hm|apply Hsys]. }
      apply (T i oo Hoo).
    - cbn [copy_world heap]. rewrite app_length. lia.
    - intros j Hj. cbn [copy_world heap]. apply nth_error_app1, Hj.
    - exists []. rewrite app_nil_r. split; [reflexivity|]. split; [constructor|]. intros j []. }
  assert (Gr : grow w (copy_world w oi)) by exact (grow_fresh w CMetric oi).
  split; [exact F|]. split; [exact Gr|]. split.
  - destruct (HG 1%Z 1%Z) as (H1 & H2 & H3); [apply valid_cfgb_spec; reflexivity|].
    exists CMetric, oi, (G 1%Z 1%Z). split; [apply (cls_fresh_new w CMetric oi)|]. split; [discriminate|]. split; [apply copy_obj|].
    split; [exact Mo|]. split; [reflexivity|]. split; [exact Ro|]. split; [split; [exact Hc|exists d; auto]|]. split; [exact H2|]. split; [exact H3|].
    intros idx [Hl Hr]. destruct idx as [|i [|j [|]]]; try discriminate. inversion Hr as [|? ? Hi Hr']; subst. inversion Hr' as [|? ? Hj _]; subst.
    apply (V i j Hi Hj).
  - intros X k. rewrite (bind_ok _ _ (length (heap w)) w (copy_world w o)).
    2:{ unfold copy_object. rewrite (bind_ok _ _ o w w) by (apply getobj_ok, Ho). cbv beta. rewrite Hm. reflexivity. }
    rewrite (bind_ok _ _ tt (copy_world w o) (copy_world w (set_indices [1; 1]%Z o))).
    2:{ unfold change_default_indices. rewrite (bind_ok _ _ o (copy_world w o) (copy_world w o)) by (apply getobj_ok, copy_obj).
        rewrite (bind_ok _ _ tt (copy_world w o) (copy_world w o)).
        2:{ unfold mlift. rewrite validate_ok; [reflexivity|apply valid_cfgb_spec; reflexivity|discriminate|]. intros k0 E. injection E as <-. rewrite Ei. reflexivity. }
        rewrite Hc. rewrite (bind_ok _ _ c (copy_world w o) (copy_world w o)) by reflexivity.
        rewrite (bind_ok _ _ true (copy_world w o) (copy_world w o)).
        2:{ unfold check_representation. rewrite (cls_fresh_new w CMetric o : cls_of (copy_world w o) (length (heap w)) = Some CMetric).
            unfold metric_check. rewrite (bind_ok _ _ o (copy_world w o) (copy_world w o)) by (apply getobj_ok, copy_obj). unfold dmem. rewrite Hd. reflexivity. }
        rewrite (bind_ok _ _ o (copy_world w o) (copy_world w o)) by (apply getobj_ok, copy_obj). apply copy_put. }
    rewrite (bind_ok _ _ tt (copy_world w (set_indices [1; 1]%Z o)) (copy_world w oi)); [reflexivity|].
    rewrite (bind_ok _ _ (set_indices [1; 1]%Z o) (copy_world w (set_indices [1; 1]%Z o)) (copy_world w (set_indices [1; 1]%Z o))) by (apply getobj_ok, copy_obj).
    apply copy_put.
Qed.

Definition christoffel_body (name : string) : M oid :=
    let! inv := copy_object m in
    change_default_indices inv [1; 1]%Z ;;
    (let! oi := getobj inv in put inv (set_name "TEMP" oi)) ;;
    let! c1 := calc_call inv ["lambda"; "sigma"]%string in
    let! c1 := calc_mul c1 (OScalar (kinvn 2)) in
    let! d := PartialD ["mu"]%string in
    let! g := calc_call m ["nu"; "sigma"]%string in
    let! x1 := matmul0 d g in
    let! d := PartialD ["nu"]%string in
    let! g := calc_call m ["sigma"; "mu"]%string in
    let! x2 := matmul0 d g in
    let! x := calc_add x1 (OCalc x2) in
    let! d := PartialD ["sigma"]%string in
    let! g := calc_call m ["mu"; "nu"]%string in
    let! x3 := matmul0 d g in
    let! x := calc_sub x (OCalc x3) in
    let! f := matmul0 c1 x in
    let! r := run_calc f "Result" "" [] in
    let! a := get_components r None (Some [1; -1; -1]%Z) in
    let! o := getobj m in
    let! t := make_tensor CChristoffel name a (Some m) (o_coords o) [1; -1; -1]%Z "Gamma" in
    finish_calc r ;;
    mret t.
Lemma christoffel_cached : calc_christoffel m = cached m " Christoffel" christoffel_body.
Proof. reflexivity. Qed.

Lemma reach_pd {Y} w a (k : calc -> M Y) R : reach w (k (mkCalc None [a] RPartial)) R -> reach w (mbind (PartialD [a]) k) R.
Proof. exact (fun H => H). Qed.
Lemma christoffel_value w : session w -> outcome w n m c (christoffel_body (name ++ " Christoffel")) (name ++ " Christoffel") [1; -1; -1]%Z (at3 (Gam n xs g gi)).
Proof.
  intros HS. destruct (copy_run w HS) as (oi & Fo & Gr & Vi & E). unfold outcome, christoffel_body. rewrite E. clear E.
  assert (Vm := value_old w n m c _ _ _ _ Fo (s_lt_m w n m c name xs g gi HS) (metric_value w HS)).
  clear Gr. refine ((fun H : reach (copy_world w oi) _ _ => H) _).
  call HS Vi. scale HS T.
  apply reach_pd. call HS Vm. deriv HS T1.
  apply reach_pd. call HS Vm. deriv HS T3.
  sum HS T2 T4.
  apply reach_pd. call HS Vm. deriv HS T6.
  sum HS T5 T7. mul1 HS T0 T8.
  eapply (r_end_k _ _ _ _ _ _ _ _ HS); [discriminate|eassumption|exact T9|reflexivity|reflexivity|apply suffix_not_temp; cbn; lia|auto|].
  clear - HS L D. intros f Hf.
  assert (Hs : symmetric_fun n g) by apply HS.
  cbn [map]. unfold at2, at3, Gam, christoffel_of. cbn [nth]. apply nsum_ext. intros k Hk.
  unfold assign. cbn [index_of String.eqb Ascii.eqb Bool.eqb nth].
  rewrite (kdiff_proper (cx xs (f "mu"%string)) (g (f "nu"%string) k) (g k (f "nu"%string))) by (apply Hs; [apply Hf; cbn; auto|exact Hk]).
  rewrite (kdiff_proper (cx xs (f "nu"%string)) (g k (f "mu"%string)) (g (f "mu"%string) k)) by (apply Hs; [exact Hk|apply Hf; cbn; auto]).
  ring.
Qed.

Lemma christoffel_done w : session w -> known_all w -> done w [(name ++ " Christoffel")%string] " Christoffel" (calc_christoffel m) [1; -1; -1]%Z (at3 (Gam n xs g gi)).
Proof.
  intros HS Ka. rewrite christoffel_cached. apply cached_run; [exact HS|exact Ka|cbn; auto|].
  apply done_outcome; [exact Ka|cbn; auto|apply christoffel_value, HS].
Qed.

Lemma riemann_done w : session w -> known_all w ->
  done w [(name ++ " Christoffel"); (name ++ " Riemann")]%string " Riemann" (calc_riemann m) [1; -1; -1; -1]%Z (at4 (Rie n xs g gi)).
Proof.
  intros HS0 Ka0. apply cached_run; [exact HS0|exact Ka0|cbn; auto|].
  refine (done_step n m c name xs g gi w [_] [_] _ _ _ _ _ _ _ _ HS0 (christoffel_done w HS0 Ka0) _). intros chr w1 HS Ka _ _ _ V.
  apply done_outcome; [exact Ka|cbn; auto|]. assert (F := form_base w1 n m c name xs g gi HS). clear w HS0 Ka0.
  refine ((fun H : reach w1 _ _ => H) _).
  apply reach_pd. call HS V. deriv HS T.
  apply reach_pd. call HS V. deriv HS T1.
  sum HS T0 T2. call HS V. call HS V. mul1 HS T4 T5. sum HS T3 T6. call HS V. call HS V. mul1 HS T8 T9. sum HS T7 T10.
  finish HS T11. clear - HS L D. intros f Hf. ready. unfold Rie, riemann_of. reflexivity.
Qed.

Definition gval (z0 z1 : Z) (k l : nat) : K :=
  if (z0 =? z1)%Z then if (z0 =? 1)%Z then gi k l else g k l else kdelta k l.
Lemma r_trace w0 w t s i h x p q s' i' : session w0 -> form w0 m c w -> value w t i h -> (length s =? length i) && valid_cfgb i = true ->
  (count String.eqb x s =? 2) && forallb (fun y => String.eqb y x || (count String.eqb y s <=? 1)) s = true -> occurrences s x = [p; q] ->
  without s [x] = s' -> indices_without s i [x] = i' ->
  runs w0 m c w (calc_call t s) (fun z w' => tens n m c w' z s' i'
    (fun f => nsum n (fun k => nsum n (fun l => kmul (gval (- nth p i 0%Z) (- nth q i 0%Z) k l) (h (trace_index s [x] [k] [l] f)))))).
Proof.
  intros HS F V H1 H2 Ho <- <-. apply andb_prop in H1 as [H1 H3]. apply Nat.eqb_eq in H1. assert (Vi := valid_cfgb_spec _ H3). apply andb_prop in H2 as [H2 H4]. apply Nat.eqb_eq in H2.
  assert (HS' := HS). destruct HS' as (_ & _ & _ & _ & _ & _ & _ & _ & _ & _ & _ & _ & _ & om & G & Hom & _ & _ & _ & _ & HG & VG).
  destruct (runs_trace w0 n m c name xs g gi HS w t s i h om G x p q F V H1 Vi Hom HG H2) as (z & w' & E & F' & G' & T); [|exact Ho|].
  { intros y N. destruct (in_dec string_dec y s) as [Hy|Hy].
    - rewrite forallb_forall in H4. specialize (H4 y Hy). apply orb_prop in H4 as [H4|H4]; [apply String.eqb_eq in H4; contradiction|apply Nat.leb_le, H4].
    - destruct (count String.eqb y s) eqn:E; [lia|]. exfalso. apply Hy, count_in. lia. }
  exists z, w'. split; [exact E|]. split; [exact F'|]. split; [exact G'|]. eapply tens_ext; [|exact T]. intros f Hf. cbv beta.
  apply nsum_ext. intros k Hk. apply nsum_ext. intros l Hl. apply kmul_proper; [|reflexivity].
  assert (Hp : forall r, In r [p; q] -> nth r i 0%Z = 1%Z \/ nth r i 0%Z = (-1)%Z).
  { intros r Hr. rewrite <- Ho in Hr. unfold occurrences in Hr. apply filter_In in Hr as [Hr _]. apply in_seq in Hr.
    apply (proj1 (Forall_forall _ _) Vi). apply nth_In. lia. }
  destruct (VG k l Hk Hl) as (v1 & v2 & v3 & v4). unfold gval.
  destruct (Hp p (or_introl eq_refl)) as [-> | ->], (Hp q (or_intror (or_introl eq_refl))) as [-> | ->]; cbn; assumption.
Qed.
Ltac trace HS V := eapply reach_bind; [eapply (r_trace _ _ _ _ _ _ _ _ _ _ _ HS); [eassumption|exact V|reflexivity|reflexivity|norm|norm|norm]|]; new.

Lemma ricci_done w : session w -> known_all w ->
  done w [(name ++ " Christoffel"); (name ++ " Riemann"); (name ++ " Ricci Tensor")]%string " Ricci Tensor" (calc_ricci m) [-1; -1]%Z (at2 (Ric n xs g gi)).
Proof.
  intros HS0 Ka0. apply cached_run; [exact HS0|exact Ka0|cbn; auto|].
  refine (done_step n m c name xs g gi w [_; _] [_] _ _ _ _ _ _ _ _ HS0 (riemann_done w HS0 Ka0) _). intros rie w1 HS Ka _ _ _ V.
  apply done_outcome; [exact Ka|cbn; auto|]. assert (F := form_base w1 n m c name xs g gi HS). clear w HS0 Ka0.
  refine ((fun H : reach w1 _ _ => H) _).
  eapply reach_bind; [eapply (r_trace _ _ _ _ _ _ "lambda"%string _ _ _ _ HS); [eassumption|exact V|reflexivity|reflexivity|norm|norm|norm]|]; new.
  finish HS T. clear - HS L D. intros f Hf. unfold trace_index. cbn [length seq nth firstn existsb String.eqb Ascii.eqb Bool.eqb orb].
  ready. cbn [Z.opp]. unfold gval. cbn [Z.eqb Pos.eqb]. unfold Ric, ricci_of. apply nsum_ext. intros k Hk. apply (nsum_delta_l n k (fun l => Rie n xs g gi k (f "mu"%string) l (f "nu"%string)) Hk).
Qed.

Lemma scalar_done w : session w -> known_all w ->
  done w [(name ++ " Christoffel"); (name ++ " Riemann"); (name ++ " Ricci Tensor"); (name ++ " Ricci Scalar")]%string " Ricci Scalar" (calc_ricci_scalar m) [] (fun _ => Sca n xs g gi).
Proof.
  intros HS0 Ka0. apply cached_run; [exact HS0|exact Ka0|cbn; auto|].
  refine (done_step n m c name xs g gi w [_; _; _] [_] _ _ _ _ _ _ _ _ HS0 (ricci_done w HS0 Ka0) _). intros ric w1 HS Ka _ _ _ V.
  apply done_outcome; [exact Ka|cbn; auto|]. assert (F := form_base w1 n m c name xs g gi HS). clear w HS0 Ka0.
  refine ((fun H : reach w1 _ _ => H) _).
  eapply reach_bind; [eapply (r_trace _ _ _ _ _ _ "lambda"%string _ _ _ _ HS); [eassumption|exact V|reflexivity|reflexivity|norm|norm|norm]|]; new.
  finish HS T. clear - HS L D. intros f Hf. unfold trace_index. cbn [length seq nth firstn existsb String.eqb Ascii.eqb Bool.eqb orb].
  ready. cbn [Z.opp]. unfold gval. cbn [Z.eqb Pos.eqb]. unfold Sca, trace_of. reflexivity.
Qed.

Lemma r_scalar w0 w x y s1 i1 F1 s2 i2 F2 : session w0 -> form w0 m c w -> tens n m c w x s1 i1 F1 -> tens n m c w y s2 i2 F2 -> (length i1 =? 0) || (length i2 =? 0) = true ->
  runs w0 m c w (matmul0 x y) (fun z w' => tens n m c w' z (s1 ++ s2) (i1 ++ i2) (fun f => kmul (F1 f) (F2 f))).
Proof.
  intros HS F T1 T2 H. apply (runs_mul_scalar w0 n m c name xs g gi HS w); try assumption. apply orb_prop in H as [H|H]; apply Nat.eqb_eq, length_zero_iff_nil in H; auto.
Qed.
Ltac muls HS T1 T2 := eapply reach_bind; [eapply (r_scalar _ _ _ _ _ _ _ _ _ _ HS); [eassumption|exact T1|exact T2|reflexivity]|]; new; cbn [app] in *.

Lemma metric_at w0 w : session w0 -> form w0 m c w -> value w m [-1; -1]%Z (at2 g).
Proof. intros HS F. apply (value_old w0 n m c w m _ _ F (s_lt_m w0 n m c name xs g gi HS)), metric_value, HS. Qed.

Lemma einstein_done w : session w -> known_all w ->
  done w [(name ++ " Christoffel"); (name ++ " Riemann"); (name ++ " Ricci Tensor"); (name ++ " Ricci Scalar"); (name ++ " Einstein")]%string " Einstein" (calc_einstein m) [-1; -1]%Z (at2 (Ein n xs g gi)).
Proof.
  intros HS0 Ka0. apply cached_run; [exact HS0|exact Ka0|cbn; auto 6|].
  eapply done_mono; cycle 1; [refine (done_step n m c name xs g gi w [_; _; _] ([_; _; _; _] ++ [_]) _ _ _ _ _ _ _ _ HS0 (ricci_done w HS0 Ka0) _)|cycle 1].
  intros ric w2 HS1 Ka1 _ _ Nr Vr.
  refine (done_step n m c name xs g gi w2 [_; _; _; _] [_] _ _ _ _ _ _ _ _ HS1 (scalar_done w2 HS1 Ka1) _). intros sc w1 HS Ka Ad _ _ V.
  apply (value_adds m c _ _ _ _ _ _ _ Ad (not_temp name w2 " Ricci Tensor" _ ltac:(cbn; lia) Nr)) in Vr.
  apply done_outcome; [exact Ka|cbn; auto 6|]. assert (F := form_base w1 n m c name xs g gi HS). clear w HS0 Ka0.
  refine ((fun H : reach w1 _ _ => H) _). assert (Vm := metric_at w1 w1 HS F).
  call HS Vr. call HS V. scale HS T0. call HS Vm. muls HS T1 T2. sum HS T T3. finish HS T4.
  clear - HS L D. intros f Hf. ready. unfold Ein, einstein_of. reflexivity.
  intros s Hs. cbn [app In] in *. tauto.
Qed.
End Runs2.
