(** Christoffel symbols, curvature, covariant derivatives, Lagrangians and geodesics keep the
    invariants of a session. *)
From Verif Require Import Alg Alg_P Arr Arr_P Spec UtilsM Arr2_P TensorM WorldM SpecWorld World_P Registry_P History_P CalcM SpecCalc Keep_P Calc_P Run_P Typed_P Self_P CurvM GeodM Session_P Session2_P Session3_P Session4_P.
Local Open Scope nat_scope.

Section Session5.
Context {A : AlgOps}.
Implicit Types (G : list fact) (P : option oid -> Prop).

(** One step with operands that have a metric in P. *)
Ltac step P := eapply s_gbind; [first [apply (gs_derivative _ _ _ P)|apply (gs_call _ _ _ P); inG|apply (gs_matmul0 _ _ _ P); inG
  |apply (gs_add _ _ _ P Any); inG|apply (gs_sub _ _ _ P Any); inG|apply (gs_scale _ _ _ P); inG]|]; intros ?; cbn [app out].

Lemma app_name (n s : string) : s <> ""%string -> String.length s <> 4 -> 4 < String.length s -> (n ++ s)%string <> "TEMP"%string.
Proof.
  intros _ _ L E. apply (f_equal String.length) in E. assert (String.length (n ++ s) = String.length n + String.length s) as X.
  { clear. induction n as [|a n IH]; cbn; [reflexivity|]. rewrite IH. reflexivity. }
  rewrite X in E. cbn in E. lia.
Qed.
Ltac tempname := apply app_name; [discriminate|discriminate|cbn; lia].

Lemma s_pre_held {X} G c (m : M X) R : In (Reg c) G -> safe (Held c :: G) m R -> safe G m R.
Proof. intros H Hm. eapply s_pre; [exact Hm|]. intros w Gw S. constructor; [|exact S]. eapply reg_held; eauto. Qed.

Definition christ (m t : oid) : list fact := [Held (Some t); Reg (Some t); Reg (Some m)].

Lemma bind_ext {X Y} (m : M X) (k k' : X -> M Y) : (forall x w, k x w = k' x w) -> forall w, mbind m k w = mbind m k' w.
Proof. intros H w. unfold mbind. destruct (m w) as [[x|e] w1]; [apply H|reflexivity]. Qed.
Lemma bind_assoc {X Y Z} (m : M X) (f : X -> M Y) (k : Y -> M Z) w : mbind (mbind m f) k w = mbind m (fun x => mbind (f x) k) w.
Proof. unfold mbind. destruct (m w) as [[x|e] w1]; reflexivity. Qed.

Lemma christoffel_eq m w : calc_christoffel m w =
  (let! b := isinstance m CMetric in
   if negb b then mraise ETypeError else
   let! o := getobj m in
   let! known := find_named (o_name o ++ " Christoffel")%string in
   match known with
   | Some i => mret i
   | None =>
     let! c1 := inverse_factor m in
     let! d := PartialD ["mu"]%string in
     let! g := calc_call m ["nu"; "sigma"]%string in
     let! x1 := matmul0 d g in
     let! d := PartialD ["nu"]%string in
     let! g := calc_call m ["sigma"; "mu"]%string in
     let! x2 := matmul0 d g in
     let! x := calc_add x1 (OCalc x2) in
     let! d := PartialD ["sigma"]%string in
     let! g := calc_call m ["mu"; "nu"]%string in
     let! x3 := matmul0 d g in
     let! x := calc_sub x (OCalc x3) in
     let! f := matmul0 c1 x in
     let! r := run_calc f "Result" "" [] in
     let! a := get_components r None (Some [1; -1; -1]%Z) in
     let! om := getobj m in
     let! t := make_tensor CChristoffel (o_name o ++ " Christoffel")%string a (Some m) (o_coords om) [1; -1; -1]%Z "Gamma" in
     finish_calc r ;;
     mret t
   end) w.
Proof.
  unfold calc_christoffel, inverse_factor. apply bind_ext. intros b w1. destruct b; [|reflexivity]. cbn [negb].
  apply bind_ext. intros o w2. cbv zeta. apply bind_ext. intros [i|] w3; [reflexivity|].
  etransitivity; [|symmetry; apply bind_assoc]. apply bind_ext. intros v w4. etransitivity; [|symmetry; apply bind_assoc]. apply bind_ext. intros u w5. etransitivity; [|symmetry; apply bind_assoc]. apply bind_ext. intros u1 w6.
  etransitivity; [|symmetry; apply bind_assoc]. reflexivity.
Qed.

Lemma s_ext {X} G (m m' : M X) R : (forall w, m w = m' w) -> safe G m' R -> safe G m R.
Proof. intros E H w Gw S. rewrite E. exact (H w Gw S). Qed.

Lemma s_christoffel G m : In (Held (Some m)) G -> safe G (calc_christoffel m) (christ m).
Proof.
  intros H. eapply s_ext; [apply christoffel_eq|].
  eapply s_gbind; [apply gs_isinstance|]. intros b. cbn [app]. destruct (negb b); [apply s_raise|].
  eapply s_gbind; [apply (gs_getobj _ _ Any); right; exact H|]. intros o. cbn [app].
  eapply s_gbind; [apply gs_find|]. intros known. cbn [app].
  destruct known as [i|].
  { apply s_ret. intros w _ S. unfold christ. facts; (eapply sat_in; [|exact S]); inG. }
  eapply s_gbind; [apply (gs_inverse _ _ Any); do 7 right; exact H|]. intros c1. cbn [app out].
  eapply (s_pre _ (Held (Some m) :: [Held (c_tensor c1)])).
  2:{ intros w _ S. facts; eapply sat_in; try exact S; [do 9 right; exact H|inG]. }
  do 12 step Any.
  eapply s_bind; [apply (s_run _ _ _ _ _ Any); inG|]. intros r. cbn [app res_of filter durable Held].
  eapply s_gbind; [apply gs_get|]. intros a. cbn [app].
  eapply s_gbind; [apply (gs_getobj _ _ Any); inG|]. intros om. cbn [app].
  eapply s_pre_held; [|eapply s_weak; [apply s_made_finish; [discriminate|discriminate|inG|inG|inG|tempname]|]]; [inG|].
  intros t w _ S. unfold christ, made in *. facts; (eapply sat_in; [|exact S]); inG.
Qed.

(** *** Curvature *)
Definition long (s : string) : Prop := 4 < String.length s.
Lemma long_name n s : long s -> (n ++ s)%string <> "TEMP"%string.
Proof. intros H. apply app_name; [intros ->; inversion H|intros E; unfold long in H; lia|exact H]. Qed.

Lemma s_cached G m suffix compute : In (Held (Some m)) G -> long suffix ->
  (forall name, name <> "TEMP"%string -> safe [Held (Some m)] (compute name) registered) -> safe G (cached m suffix compute) registered.
Proof.
  intros H L Hc. unfold cached. eapply s_gbind; [apply gs_isinstance|]. intros b. cbn [app]. destruct (negb b); [apply s_raise|].
  eapply s_gbind; [apply gs_getobj0|]. intros o. cbn [app]. cbv zeta.
  eapply s_gbind; [apply gs_find|]. intros known. cbn [app]. destruct known as [i|].
  { apply s_ret. intros w _ S. unfold registered. facts; (eapply sat_in; [|exact S]); inG. }
  eapply s_pre; [apply Hc, long_name, L|]. intros w _ S. facts. eapply sat_in; [|exact S]. do 3 right. exact H.
Qed.

Lemma s_publish G m r get name ind sy q : In (Held (Some m)) G -> In (Held (Some q)) G -> name <> "TEMP"%string ->
  safe G (let! t := publish m r get name ind sy in finish_calc q ;; mret t) registered.
Proof.
  intros Hm Hq N. unfold publish. apply s_assoc. eapply s_gbind; [apply gs_get|]. intros a. cbn [app]. apply s_assoc.
  eapply s_gbind; [apply (gs_getobj _ _ Any), Hm|]. intros o. cbn [app].
  eapply s_pre_held; [|eapply s_weak; [apply s_made_finish; [discriminate|discriminate|inG|inG|do 5 right; exact Hq|exact N]|]]; [inG|].
  intros t w _ S. unfold registered, made in *. facts; (eapply sat_in; [|exact S]); inG.
Qed.

Ltac func L := eapply s_bind; [apply L; inG|]; intros ?; cbn [app filter durable Held christ registered].
Ltac runc := eapply s_bind; [apply (s_run _ _ _ _ _ Any); inG|]; intros ?; cbn [app res_of filter durable Held].

Lemma s_riemann G m : In (Held (Some m)) G -> safe G (calc_riemann m) registered.
Proof.
  intros H. unfold calc_riemann. apply s_cached; [exact H|unfold long; cbn; lia|]. intros name N.
  func s_christoffel. do 15 step Any. runc. apply s_publish; [inG|inG|exact N].
Qed.
Lemma s_ricci G m : In (Held (Some m)) G -> safe G (calc_ricci m) registered.
Proof.
  intros H. unfold calc_ricci. apply s_cached; [exact H|unfold long; cbn; lia|]. intros name N.
  func s_riemann. step Any. runc. apply s_publish; [inG|inG|exact N].
Qed.
Lemma s_ricci_scalar G m : In (Held (Some m)) G -> safe G (calc_ricci_scalar m) registered.
Proof.
  intros H. unfold calc_ricci_scalar. apply s_cached; [exact H|unfold long; cbn; lia|]. intros name N.
  func s_ricci. step Any. runc. apply s_publish; [inG|inG|exact N].
Qed.
Lemma s_einstein G m : In (Held (Some m)) G -> safe G (calc_einstein m) registered.
Proof.
  intros H. unfold calc_einstein. apply s_cached; [exact H|unfold long; cbn; lia|]. intros name N.
  func s_ricci. func s_ricci_scalar. do 6 step Any. runc. apply s_publish; [inG|inG|exact N].
Qed.
Lemma gs_inverse_int G z : gsafe G (inverse_int z) (fun _ => []).
Proof. unfold inverse_int. destruct (_ =? _)%Z; [apply gs_raise|]. destruct (_ <? _)%Z; apply gs_ret; intros; constructor. Qed.
Lemma s_weyl G m : In (Held (Some m)) G -> safe G (calc_weyl m) registered.
Proof.
  intros H. unfold calc_weyl. apply s_cached; [exact H|unfold long; cbn; lia|]. intros name N. cbv zeta.
  eapply s_gbind; [apply gs_getobj0|]. intros o. cbn [app]. eapply s_gbind; [apply gs_same, same_mopt|]. intros c. cbn [app].
  eapply s_gbind; [apply gs_same, coord_components_same|]. intros x. cbn [app].
  func s_riemann. func s_ricci. func s_ricci_scalar. step Any.
  assert (Pair : forall G' t s1 s2, In (Held (Some t)) G' -> In (Held (Some m)) G' ->
    gsafe G' (let! a := calc_call t s1 in let! b := calc_call m s2 in matmul0 a b) (fun c => out Any (c_tensor c))).
  { intros G' t s1 s2 I1 I2. eapply gs_bind; [apply (gs_call _ _ _ Any), I1|]. intros a. cbn [app out].
    eapply gs_bind; [apply (gs_call _ _ _ Any); do 2 right; exact I2|]. intros b. cbn [app out]. apply (gs_matmul0 _ _ _ Any); inG. }
  eapply s_gbind; [apply gs_inverse_int|]. intros f. cbn [app].
  assert (St : forall {X Y} G' (k : M X) (k' : X -> M Y) F R, gsafe G' k F -> (forall x, safe (F x ++ G') (k' x) R) -> safe G' (mbind k k') R) by (intros; eapply s_gbind; eauto).
  eapply s_gbind; [apply Pair; inG|]. intros y0. cbn [app out]. eapply s_gbind; [apply Pair; inG|]. intros y1. cbn [app out]. step Any.
  eapply s_gbind; [apply Pair; inG|]. intros y2. cbn [app out]. step Any.
  eapply s_gbind; [apply Pair; inG|]. intros y3. cbn [app out]. do 3 step Any.
  eapply s_gbind; [apply gs_inverse_int|]. intros f'. cbn [app]. do 11 step Any. runc. apply s_publish; [inG|inG|exact N].
Qed.
Lemma s_norm G t : In (Held (Some t)) G -> safe G (calc_norm_squared t) registered.
Proof.
  intros H. unfold calc_norm_squared.
  assert (Q : safe G (let! o := getobj t in
     let! known := find_named (o_name o ++ " Norm Squared")%string in
     match known with
     | Some i => mret i
     | None =>
       let! x := calc_call t (numbered (length (o_indices o))) in
       let! y := calc_call t (numbered (length (o_indices o))) in
       let! z := matmul0 x y in
       let! r := run_calc z "Result" "" [] in
       let! a := get_components r None None in
       let! o' := getobj t in
       let! q := make_tensor CTensor (o_name o ++ " Norm Squared")%string a (o_metric o') (o_coords o') [] "" in
       finish_calc r ;;
       mret q
     end) registered).
  { eapply s_gbind; [apply gs_getobj0|]. intros o. cbn [app]. eapply s_gbind; [apply gs_find|]. intros known. cbn [app]. destruct known as [i|].
    { apply s_ret. intros w _ S. unfold registered. facts; (eapply sat_in; [|exact S]); inG. }
    eapply (s_pre _ [Held (Some t)]).
    2:{ intros w _ S. facts. eapply sat_in; [|exact S]. do 2 right. exact H. }
    do 3 step Any. runc. eapply s_gbind; [apply gs_get|]. intros a. cbn [app]. eapply s_gbind; [apply (gs_getobj _ _ Any); inG|]. intros o'. cbn [app].
    eapply s_pre_held; [|eapply s_weak; [apply s_made_finish; [discriminate|discriminate|inG|inG|inG|tempname]|]]; [inG|].
    intros q w _ S. unfold registered, made in *. facts; (eapply sat_in; [|exact S]); inG. }
  intros w Gw S. specialize (Q w Gw S). destruct (cls_of w t) as [[]|]; try exact Q; (split; [exact Gw|apply eff_refl]).
Qed.

(** *** Covariant derivatives *)
Lemma gs_sum G l : (forall c, In c l -> In (Held (c_tensor c)) G) ->
  gsafe G (calc_sum l) (fun u => match u with OCalc c => out Any (c_tensor c) | OZero => [] | _ => [Pure False] end).
Proof.
  intros H. destruct l as [|c l]; cbn [calc_sum]; [apply gs_ret; intros; constructor|].
  assert (Hf : forall l c, (forall x, In x l -> In (Held (c_tensor x)) G) -> gsafe ([Held (c_tensor c)] ++ G) (mfold (fun x y => calc_add x (OCalc y)) l c) (fun c => [Held (c_tensor c)])).
  { clear. induction l as [|y l IH]; intros c H; cbn [mfold].
    - apply gs_ret. intros w _ S. facts. eapply sat_in; [|exact S]. inG.
    - eapply gs_bind; [apply (gs_add _ _ _ Any Any); [left; reflexivity|right; apply H; left; reflexivity]|]. intros x. cbn [app out].
      eapply gs_pre; [apply (IH x); intros z Hz; apply H; right; exact Hz|]. intros w _ S. cbn [app]. inversion S as [|? ? S1 S2]; subst. inversion S2 as [|? ? S3 S4]; subst. inversion S4; subst.
      constructor; assumption. }
  eapply gs_bind.
  { eapply gs_pre; [apply (Hf l c); intros x Hx; apply H; right; exact Hx|]. intros w _ S. constructor; [|exact S]. eapply sat_in; [|exact S]. apply H. left; reflexivity. }
  intros r. apply gs_ret. intros w _ S. unfold out. facts; (eapply sat_in; [|exact S]); inG.
Qed.

Lemma gs_terms G chr t sy i z p d : In (Held (Some chr)) G -> In (Held (Some t)) G ->
  gsafe G (connection_terms chr t sy i z p d) (fun l => flat_map (fun c => out Any (c_tensor c)) l).
Proof.
  intros H1 H2. apply gs_mmap. intros (j & s & zz).
  eapply gs_bind; [apply (gs_call _ _ _ Any), H1|]. intros g. cbn [app out].
  eapply gs_bind; [apply (gs_call _ _ _ Any); do 2 right; exact H2|]. intros x. cbn [app out]. apply (gs_matmul0 _ _ _ Any); inG.
Qed.
Lemma terms_held (l : list calc) G c : In c l -> In (Held (c_tensor c)) (flat_map (fun c => out Any (c_tensor c)) l ++ G).
Proof. intros H. apply in_app_iff. left. apply in_flat_map. exists c. split; [exact H|left; reflexivity]. Qed.

(** Adding and subtracting a sum that may be the number 0. *)
Lemma gs_add_sum G x u : In (Held (c_tensor x)) G ->
  gsafe ((match u with OCalc c => out Any (c_tensor c) | OZero => [] | _ => [Pure False] end) ++ G) (calc_add x u) (fun c => out Any (c_tensor c)).
Proof.
  intros H. destruct u as [|c| |]; cbn [app out]; [|apply (gs_add _ _ _ Any Any); [do 2 right; exact H|inG]| |]; cbn [calc_add]; try apply gs_raise.
  apply gs_ret. intros w _ S. unfold out. facts; (eapply sat_in; [|exact S]); exact H.
Qed.
Lemma gs_sub_sum G x u : In (Held (c_tensor x)) G ->
  gsafe ((match u with OCalc c => out Any (c_tensor c) | OZero => [] | _ => [Pure False] end) ++ G) (calc_sub x u) (fun c => out Any (c_tensor c)).
Proof.
  intros H. destruct u as [|c| |]; cbn [app out]; [|apply (gs_sub _ _ _ Any Any); [do 2 right; exact H|inG]| |]; cbn [calc_sub]; try apply gs_raise.
  apply gs_ret. intros w _ S. unfold out. facts; (eapply sat_in; [|exact S]); exact H.
Qed.

Lemma gs_getobj_cls G t : In (Held (Some t)) G ->
  gsafe G (getobj t) (fun o => [Reg (o_metric o); Reg (o_coords o); OfCls (o_metric o) CMetric]).
Proof.
  intros H w Gw S. pose proof (gs_getobj G t Any H w Gw S) as Q. unfold getobj in *. destruct (obj_of w t) as [o|] eqn:E; [|exact Q].
  destruct Q as (Q1 & Q2 & Q3). split; [exact Q1|]. split; [exact Q2|]. facts; try (eapply sat_in; [|exact Q3]; inG).
  intros m Em. apply (good_typed _ Gw t o E), Em.
Qed.

Lemma s_covariant G t c s1 s2 free ps : In (Held (Some t)) G -> In (Held (c_tensor c)) G -> (forall w, snd (ps w) = w) ->
  safe G (covariant_product t c s1 s2 free ps) (fun c => out Any (c_tensor c)).
Proof.
  intros H1 H2 Hp. unfold covariant_product. eapply (s_pre _ [Held (Some t); Held (c_tensor c)]).
  2:{ intros w _ S. facts; (eapply sat_in; [|exact S]); assumption. }
  eapply s_gbind; [apply (gs_getobj _ _ Any); inG|]. intros o. cbn [app].
  eapply s_gbind; [apply gs_opt|]. intros m. cbn [app].
  eapply (s_pre _ (Held (Some m) :: [Held (Some t); Held (c_tensor c)])).
  2:{ intros w Gw S. assert (Em : sem (Pure (o_metric o = Some m)) w) by (eapply sat_in; [|exact S]; inG). cbn in Em.
      facts; try (eapply sat_in; [|exact S]; inG). rewrite <- Em. eapply reg_held; [|exact Gw|exact S]. inG. }
  func s_christoffel. rename x into chr. eapply s_gbind; [apply gs_same, Hp|]. intros (d & p). cbn [app].
  eapply s_gbind; [apply gs_getobj0|]. intros o2. cbn [app]. do 2 step Any.
  eapply (s_pre _ [Held (c_tensor x0); Held (Some chr); Held (Some t); Held (c_tensor c)]).
  2:{ intros w _ S. facts; (eapply sat_in; [|exact S]); inG. }
  eapply s_gbind; [apply gs_terms; inG|]. intros ups.
  eapply s_gbind; [apply gs_sum; intros y Hy; apply terms_held, Hy|]. intros u.
  eapply s_gbind; [apply gs_add_sum; apply in_app_iff; right; left; reflexivity|]. intros x1.
  eapply (s_pre _ [Held (c_tensor x1); Held (Some chr); Held (Some t); Held (c_tensor c)]).
  2:{ intros w _ S. apply sat_app in S as [S1 S]. apply sat_app in S as [_ S]. apply sat_app in S as [_ S].
      facts; first [solve [eapply sat_in; [|exact S]; inG]|solve [eapply sat_in; [|exact S1]; unfold out; inG]]. }
  eapply s_gbind; [apply gs_terms; inG|]. intros downs.
  eapply s_gbind; [apply gs_sum; intros y Hy; apply terms_held, Hy|]. intros l.
  eapply s_gbind; [apply gs_sub_sum; apply in_app_iff; right; left; reflexivity|]. intros x2.
  eapply (s_pre _ [Held (c_tensor x2); Held (Some t); Held (c_tensor c)]).
  2:{ intros w _ S. apply sat_app in S as [S1 S]. apply sat_app in S as [_ S]. apply sat_app in S as [_ S].
      facts; first [solve [eapply sat_in; [|exact S]; inG]|solve [eapply sat_in; [|exact S1]; unfold out; inG]]. }
  eapply s_gbind; [apply (gs_tensor_of _ _ Any); inG|]. intros tx. cbn [app]. step Any. runc.
  eapply s_gbind; [apply gs_get|]. intros a. cbn [app]. eapply s_gbind; [apply gs_getobj_cls; inG|]. intros o3. cbn [app]. cbv zeta.
  eapply s_pre_held with (c := o_coords o3); [inG|].
  eapply s_bind; [apply (s_delete_keep _ _ (o_metric o3) CMetric); [inG|inG|discriminate|inG]|]. intros u'. cbn [app filter durable Held].
  eapply s_gbind; [apply gs_make; [discriminate|discriminate|inG|inG]|]. intros t'. cbn [app newt].
  eapply s_weak; [apply gsafe_safe, (gs_init _ _ Any); inG|]. intros y w _ S. exact S.
Qed.

Lemma same_nth {X} (l : list X) i w : snd (mnth l i w) = w.
Proof. apply same_mopt. Qed.

Lemma same_unused letters l w : snd (unused letters l w) = w.
Proof. unfold unused. revert w. apply same_bind; [reflexivity|]. reflexivity. Qed.
Lemma s_matmul letters G self other : In (Held (c_tensor self)) G -> In (Held (c_tensor other)) G -> safe G (matmul_with letters self other) (fun c => out Any (c_tensor c)).
Proof.
  intros H1 H2. assert (Q : safe G (matmul0 self other) (fun c => out Any (c_tensor c))) by (apply gsafe_safe, gs_matmul0; assumption).
  unfold matmul_with. cbv zeta. destruct (c_role self), (c_role other); try exact Q.
  - eapply s_gbind; [apply (gs_tensor_of _ _ Any), H1|]. intros t. cbn [app]. apply s_covariant; [inG|do 2 right; exact H1|].
    apply same_bind; [apply same_unused|]. intros ds. apply same_bind; [apply same_nth|]. intros d. apply same_bind; [apply same_nth|]. intros x. apply same_bind; [|reflexivity]. intros w. destruct (smem _ _); [apply same_nth|reflexivity].
  - eapply s_gbind; [apply (gs_tensor_of _ _ Any), H2|]. intros t. cbn [app]. apply s_covariant; [inG|do 2 right; exact H2|].
    apply same_bind; [apply same_unused|]. intros ds. apply same_bind; [apply same_nth|]. intros d. apply same_bind; [|reflexivity]. intros w. destruct (c_syms other); [apply same_nth|].
    revert w. apply same_bind; [apply same_nth|]. intros x w. destruct (smem _ _); [apply same_nth|reflexivity].
Qed.
End Session5.
