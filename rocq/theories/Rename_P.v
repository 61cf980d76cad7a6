(** Names and symbols do not matter: every function respects the relation between sessions that
    differ in names and symbols only. *)
From Verif Require Import Alg Arr Spec UtilsM TensorM WorldM SpecWorld CalcM CurvM GeodM LineM InfoM CurveM ListM ShowM Base LexM ParseM InterpM ExportM SpecSession SpecRename.
Local Open Scope nat_scope.

Section Rename.
Context {A : AlgOps}.
Variable R : string -> string -> Prop.
Hypothesis RR : renaming R.

Notation alike := (alike R).
Notation obj_alike := (obj_alike R).

Definition res_rel {X Y} (Q : X -> Y -> Prop) (r : res X) (r' : res Y) : Prop :=
  match r, r' with Ok x, Ok y => Q x y | Err e, Err e' => e = e' | _, _ => False end.
Definition sim {X Y} (Q : X -> Y -> Prop) (m : M X) (m' : M Y) : Prop :=
  forall w w', alike w w' -> res_rel Q (fst (m w)) (fst (m' w')) /\ alike (snd (m w)) (snd (m' w')).

Lemma sim_ret {X Y} (Q : X -> Y -> Prop) x y : Q x y -> sim Q (mret x) (mret y).
Proof. intros H w w' Hw; split; [exact H|exact Hw]. Qed.
Lemma sim_raise {X Y} (Q : X -> Y -> Prop) e : sim Q (mraise e) (mraise e).
Proof. intros w w' Hw; split; [reflexivity|exact Hw]. Qed.
Lemma sim_bind {X Y X' Y'} (Q : X -> Y -> Prop) (Q' : X' -> Y' -> Prop) m m' f f' :
  sim Q m m' -> (forall x y, Q x y -> sim Q' (f x) (f' y)) -> sim Q' (mbind m f) (mbind m' f').
Proof.
  intros Hm Hf w w' Hw. destruct (Hm w w' Hw) as [H1 H2]. unfold mbind.
  destruct (m w) as [[x|e] v], (m' w') as [[y|e'] v']; cbn in H1, H2; try contradiction.
  - exact (Hf x y H1 v v' H2).
  - split; [exact H1|exact H2].
Qed.
Lemma sim_bind_eq {X X' Y'} (Q' : X' -> Y' -> Prop) (m m' : M X) f f' :
  sim eq m m' -> (forall x, sim Q' (f x) (f' x)) -> sim Q' (mbind m f) (mbind m' f').
Proof. intros H Hf. apply (sim_bind eq _ _ _ _ _ H). intros x y <-. apply Hf. Qed.
Lemma sim_lift {X} (r : res X) : sim eq (mlift r) (mlift r).
Proof. intros w w' Hw; split; [destruct r; reflexivity|exact Hw]. Qed.
Lemma sim_opt {X} e (x : option X) : sim eq (mopt e x) (mopt e x).
Proof. destruct x; [apply sim_ret; reflexivity|apply sim_raise]. Qed.

Lemma alike_nth w w' i : alike w w' ->
  match nth_error (heap w) i, nth_error (heap w') i with
  | Some (c, x), Some (c', x') => c = c' /\ match x, x' with Some o, Some o' => obj_alike o o' | None, None => True | _, _ => False end
  | None, None => True
  | _, _ => False
  end.
Proof.
  intros [_ H]. revert i. induction H as [|[c x] [c' x'] l l' H _ IH]; intros [|i]; cbn; auto.
  apply IH.
Qed.
Lemma alike_cls w w' i : alike w w' -> cls_of w i = cls_of w' i.
Proof.
  intros H. generalize (alike_nth w w' i H). unfold cls_of.
  destruct (nth_error (heap w) i) as [[c x]|], (nth_error (heap w') i) as [[c' x']|]; cbn; try tauto.
  intros [-> _]; reflexivity.
Qed.
Lemma alike_obj w w' i : alike w w' ->
  match obj_of w i, obj_of w' i with Some o, Some o' => obj_alike o o' | None, None => True | _, _ => False end.
Proof.
  intros H. generalize (alike_nth w w' i H). unfold obj_of.
  destruct (nth_error (heap w) i) as [[c x]|], (nth_error (heap w') i) as [[c' x']|]; cbn; tauto.
Qed.
Lemma alike_length w w' : alike w w' -> length (heap w) = length (heap w').
Proof. intros [_ H]. clear - H. induction H; cbn; congruence. Qed.

Lemma sim_getobj i : sim obj_alike (getobj i) (getobj i).
Proof.
  intros w w' Hw. generalize (alike_obj w w' i Hw). unfold getobj.
  destruct (obj_of w i), (obj_of w' i); cbn; tauto.
Qed.
Lemma heap_set l l' i c x x' :
  Forall2 (fun x y : cls * option obj => fst x = fst y /\
    match snd x, snd y with Some o, Some o' => obj_alike o o' | None, None => True | _, _ => False end) l l' ->
  match x, x' with Some o, Some o' => obj_alike o o' | None, None => True | _, _ => False end ->
  Forall2 (fun x y : cls * option obj => fst x = fst y /\
    match snd x, snd y with Some o, Some o' => obj_alike o o' | None, None => True | _, _ => False end)
    (set_nth i (c, x) l) (set_nth i (c, x') l').
Proof.
  intros H Hx. revert i. induction H as [|a a' l l' H H' IH]; intros [|i]; cbn; constructor; auto.
Qed.
Lemma sim_put i o o' : obj_alike o o' -> sim eq (put i o) (put i o').
Proof.
  intros Ho w w' Hw. generalize (alike_nth w w' i Hw). unfold put.
  destruct (nth_error (heap w) i) as [[c x]|], (nth_error (heap w') i) as [[c' x']|]; cbn; try tauto.
  intros [-> _]. split; [reflexivity|]. destruct Hw as [H1 H2]. split; [exact H1|]. cbn.
  apply heap_set; assumption.
Qed.
Lemma sim_isinstance i k : sim eq (isinstance i k) (isinstance i k).
Proof. intros w w' Hw. unfold isinstance. rewrite (alike_cls w w' i Hw). split; [reflexivity|exact Hw]. Qed.
Lemma sim_alloc k o o' : obj_alike o o' -> sim eq (alloc k o) (alloc k o').
Proof.
  intros Ho w w' Hw. unfold alloc. cbn. rewrite (alike_length w w' Hw). split; [reflexivity|].
  destruct Hw as [H1 H2]. split; cbn; [congruence|]. apply Forall2_app; [exact H2|]. constructor; [split; [reflexivity|exact Ho]|constructor].
Qed.
Lemma sim_mmap {X Y} (f f' : X -> M Y) l : (forall x, sim eq (f x) (f' x)) -> sim eq (CalcM.mmap f l) (CalcM.mmap f' l).
Proof.
  intros H. induction l as [|x l IH]; cbn; [apply sim_ret; reflexivity|].
  apply sim_bind_eq; [apply H|intros y]. apply sim_bind_eq; [exact IH|intros ys; apply sim_ret; reflexivity].
Qed.
Lemma sim_mfold {X Y} (f f' : X -> Y -> M X) l x : (forall x y, sim eq (f x y) (f' x y)) -> sim eq (mfold f l x) (mfold f' l x).
Proof.
  intros H. revert x. induction l as [|y l IH]; intros x; cbn; [apply sim_ret; reflexivity|].
  apply sim_bind_eq; [apply H|exact IH].
Qed.

(** Dispatch on the class of an object. *)
Lemma sim_cls {X Y} (Q : X -> Y -> Prop) i (f : option cls -> M X) (f' : option cls -> M Y) :
  (forall k, sim Q (f k) (f' k)) -> sim Q (fun w => f (cls_of w i) w) (fun w => f' (cls_of w i) w).
Proof. intros H w w' Hw. rewrite (alike_cls w w' i Hw). apply H, Hw. Qed.

Create HintDb sim discriminated.

Lemma alike_set_indices i o o' : obj_alike o o' -> obj_alike (set_indices i o) (set_indices i o').
Proof. unfold SpecRename.obj_alike; cbn; intuition. Qed.
Lemma alike_set_coords i o o' : obj_alike o o' -> obj_alike (set_coords i o) (set_coords i o').
Proof. unfold SpecRename.obj_alike; cbn; intuition. Qed.
Lemma alike_set_metric i o o' : obj_alike o o' -> obj_alike (set_metric i o) (set_metric i o').
Proof. unfold SpecRename.obj_alike; cbn; intuition. Qed.
Lemma alike_set_comps i o o' : obj_alike o o' -> obj_alike (set_comps i o) (set_comps i o').
Proof. unfold SpecRename.obj_alike; cbn; intuition. Qed.
Lemma alike_set_trans i o o' : obj_alike o o' -> obj_alike (set_trans i o) (set_trans i o').
Proof. unfold SpecRename.obj_alike; cbn; intuition. Qed.
Lemma alike_set_jacs i o o' : obj_alike o o' -> obj_alike (set_jacs i o) (set_jacs i o').
Proof. unfold SpecRename.obj_alike; cbn; intuition. Qed.
Lemma alike_set_symbol s s' o o' : obj_alike o o' -> obj_alike (set_symbol s o) (set_symbol s' o').
Proof. unfold SpecRename.obj_alike; cbn; intuition. Qed.
Lemma alike_set_name s s' o o' : R s s' -> obj_alike o o' -> obj_alike (set_name s o) (set_name s' o').
Proof. unfold SpecRename.obj_alike; cbn; intuition. Qed.

Lemma a_indices o o' : obj_alike o o' -> o_indices o' = o_indices o.
Proof. unfold SpecRename.obj_alike; intuition. Qed.
Lemma a_rank o o' : obj_alike o o' -> o_rank o' = o_rank o.
Proof. unfold SpecRename.obj_alike; intuition. Qed.
Lemma a_coords o o' : obj_alike o o' -> o_coords o' = o_coords o.
Proof. unfold SpecRename.obj_alike; intuition. Qed.
Lemma a_metric o o' : obj_alike o o' -> o_metric o' = o_metric o.
Proof. unfold SpecRename.obj_alike; intuition. Qed.
Lemma a_comps o o' : obj_alike o o' -> o_comps o' = o_comps o.
Proof. unfold SpecRename.obj_alike; intuition. Qed.
Lemma a_syms o o' : obj_alike o o' -> o_syms o' = o_syms o.
Proof. unfold SpecRename.obj_alike; intuition. Qed.
Lemma a_trans o o' : obj_alike o o' -> o_trans o' = o_trans o.
Proof. unfold SpecRename.obj_alike; intuition. Qed.
Lemma a_jacs o o' : obj_alike o o' -> o_jacs o' = o_jacs o.
Proof. unfold SpecRename.obj_alike; intuition. Qed.
Lemma a_expr o o' c : obj_alike o o' -> is_expr o' c = is_expr o c.
Proof. intros H. unfold is_expr. rewrite (a_rank _ _ H), (a_comps _ _ H). reflexivity. Qed.
Lemma a_uses t o o' : obj_alike o o' -> uses t o' = uses t o.
Proof. intros H. unfold uses. rewrite (a_comps _ _ H), (a_metric _ _ H), (a_coords _ _ H), (a_trans _ _ H). reflexivity. Qed.
Lemma a_name o o' s s' : obj_alike o o' -> R s s' -> String.eqb (o_name o) s = String.eqb (o_name o') s'.
Proof.
  intros [H _] Hs. generalize (ren_one R RR _ _ _ _ H Hs). intros E.
  destruct (String.eqb_spec (o_name o) s), (String.eqb_spec (o_name o') s'); tauto.
Qed.

(** Rewrite the attributes of the second of two alike objects. *)
Ltac attrs H :=
  rewrite ?(a_indices _ _ H), ?(a_rank _ _ H), ?(a_coords _ _ H), ?(a_metric _ _ H), ?(a_comps _ _ H),
    ?(a_syms _ _ H), ?(a_trans _ _ H), ?(a_jacs _ _ H), ?(fun c => a_expr _ _ c H).

Ltac alike_tac :=
  repeat first
    [ assumption
    | apply alike_set_indices | apply alike_set_coords | apply alike_set_metric | apply alike_set_comps
    | apply alike_set_trans | apply alike_set_jacs | apply alike_set_symbol ].

Ltac sim1 :=
  match goal with
  | |- sim _ (mret _) (mret _) => apply sim_ret; first [reflexivity|assumption]
  | |- sim _ (mraise _) (mraise _) => apply sim_raise
  | |- sim _ (mlift _) (mlift _) => apply sim_lift
  | |- sim _ (mopt _ _) (mopt _ _) => apply sim_opt
  | |- sim _ (mbind (getobj _) _) (mbind (getobj _) _) =>
      apply (sim_bind _ _ _ _ _ _ (sim_getobj _));
      let o := fresh "o" in let o' := fresh "o'" in let H := fresh "Ho" in intros o o' H; attrs H
  | |- sim _ (mbind _ _) (mbind _ _) => apply sim_bind_eq; [|intros ?; cbv beta]
  | |- sim _ (getobj _) (getobj _) => apply sim_getobj
  | |- sim _ (put _ _) (put _ _) => apply sim_put; alike_tac
  | |- sim _ (isinstance _ _) (isinstance _ _) => apply sim_isinstance
  | |- sim _ (CalcM.mmap _ _) (CalcM.mmap _ _) => apply sim_mmap; intros ?
  | |- sim _ (mfold _ _ _) (mfold _ _ _) => apply sim_mfold; intros ? ?
  | |- sim _ (if ?b then _ else _) (if ?b then _ else _) => destruct b
  | |- sim _ (match ?x with _ => _ end) (match ?x with _ => _ end) => destruct x
  | |- sim _ (let x := _ in _) _ => cbv zeta
  | |- _ => solve [auto with sim nocore]
  end.
Ltac sims := repeat sim1.

Lemma sim_coord_components c : sim eq (coord_components c) (coord_components c).
Proof. unfold coord_components. sims. Qed.
Hint Resolve sim_coord_components : sim.

Lemma name_arg_vo n n' c s s' i : name_arg R n n' -> symbol_arg s s' ->
  validate_object n c s i = validate_object n' c s' i.
Proof.
  intros Hn Hs. unfold validate_object.
  destruct n, n'; cbn in Hn; try contradiction; try discriminate; try reflexivity;
  destruct s, s'; cbn in Hs; try contradiction; try discriminate; reflexivity.
Qed.

Lemma validate_ok_name n c s i : validate_object n c s i = Ok tt -> exists x, n = VStr x.
Proof. unfold validate_object. destruct n; try discriminate. eauto. Qed.

Definition mk n n' s s' o : R n n' -> obj_alike (set_symbol s (set_name n o)) (set_symbol s' (set_name n' o)).
Proof. intros H. unfold SpecRename.obj_alike; cbn; intuition. Qed.

Lemma name_arg_of n n' x : name_arg R n n' -> n = VStr x -> R (name_of n) (name_of n').
Proof. intros H ->. destruct n'; cbn in H; try contradiction. exact H. Qed.

Lemma sim_new_coordinates n n' c i s s' tr : name_arg R n n' -> symbol_arg s s' ->
  sim eq (new_coordinates n c i s tr) (new_coordinates n' c i s' tr).
Proof.
  intros Hn Hs. unfold new_coordinates.
  assert (E : validate_coordinates n c i s tr = validate_coordinates n' c i s' tr)
    by (unfold validate_coordinates; rewrite (name_arg_vo n n' c s s' i Hn Hs); reflexivity).
  rewrite <- E.
  destruct (validate_coordinates n c i s tr) as [[]|e] eqn:V.
  2: { intros w w' Hw. split; [reflexivity|exact Hw]. }
  assert (exists x, n = VStr x) as [x Hx].
  { unfold validate_coordinates in V. destruct (validate_object n c s i) as [[]|] eqn:V'; [|discriminate].
    exact (validate_ok_name _ _ _ _ V'). }
  sim1; [sims|]. sim1; [sims|]. intros w w' Hw. rewrite (alike_length w w' Hw).
  apply sim_alloc; [|exact Hw]. generalize (name_arg_of n n' x Hn Hx). unfold SpecRename.obj_alike; cbn; intuition.
Qed.

Lemma sim_base_ctor k n n' c x i s s' m : name_arg R n n' -> symbol_arg s s' ->
  sim eq (base_ctor k n c x i s m) (base_ctor k n' c x i s' m).
Proof.
  intros Hn Hs. unfold base_ctor. destruct x; try apply sim_raise. sim1; [sims|]. sim1; [sims|]. cbv zeta. sim1; [sims|].
  match goal with |- sim _ (mbind (mlift (validate_base _ ?c _ _ ?l)) _) _ => set (cc := c); set (ll := l) end.
  assert (E : validate_base n cc s i ll = validate_base n' cc s' i ll)
    by (unfold validate_base; rewrite (name_arg_vo n n' cc s s' i Hn Hs); reflexivity).
  rewrite <- E.
  destruct (validate_base n cc s i ll) as [[]|e] eqn:V.
  2: { intros w w' Hw. split; [reflexivity|exact Hw]. }
  assert (exists x, n = VStr x) as [y Hy].
  { unfold validate_base in V. destruct (validate_object n cc s i) as [[]|] eqn:V'; [|discriminate].
    exact (validate_ok_name _ _ _ _ V'). }
  sim1; [sims|]. sim1; [sims|]. apply sim_alloc.
  generalize (name_arg_of n n' y Hn Hy). unfold SpecRename.obj_alike; cbn; intuition.
Qed.
Lemma sim_new_tensor_as k n n' c m x i s s' : name_arg R n n' -> symbol_arg s s' ->
  sim eq (new_tensor_as k n c m x i s) (new_tensor_as k n' c m x i s').
Proof. intros Hn Hs. unfold new_tensor_as. sims. apply sim_base_ctor; assumption. Qed.
Lemma sim_new_metric n n' c x i s s' : name_arg R n n' -> symbol_arg s s' ->
  sim eq (new_metric n c x i s) (new_metric n' c x i s').
Proof.
  intros Hn Hs. unfold new_metric.
  assert (E : validate_metric n c s i = validate_metric n' c s' i)
    by (unfold validate_metric; rewrite (name_arg_vo n n' _ s s' i Hn Hs); reflexivity).
  rewrite <- E.
  sim1; [sims|]. sim1; [apply sim_base_ctor; assumption|].
  sim1. cbn [o_coords o_comps o_indices set_metric]. attrs Ho. sims.
Qed.

Lemma sim_w_calculate_jacobian a b : sim eq (w_calculate_jacobian a b) (w_calculate_jacobian a b).
Proof. unfold w_calculate_jacobian. sims. Qed.
Hint Resolve sim_w_calculate_jacobian : sim.
Lemma sim_fail i e : sim (X := unit) (Y := unit) eq (getobj i ;; mraise e) (getobj i ;; mraise e).
Proof. sims. Qed.
Hint Resolve sim_fail : sim.
Lemma sim_w_check_jacobians a b : sim eq (w_check_jacobians a b) (w_check_jacobians a b).
Proof. unfold w_check_jacobians. sims. Qed.
Hint Resolve sim_w_check_jacobians : sim.
Lemma sim_add_coord_transformation a c r : sim eq (add_coord_transformation a c r) (add_coord_transformation a c r).
Proof. unfold add_coord_transformation. sims. Qed.
Lemma sim_store t c i a : sim eq (store t c i a) (store t c i a).
Proof. unfold store. sims. Qed.
Lemma sim_lookup t c i : sim eq (lookup t c i) (lookup t c i).
Proof. unfold lookup. sims. Qed.
Hint Resolve sim_store sim_lookup sim_add_coord_transformation : sim.
Lemma sim_need_array o o' c : obj_alike o o' -> sim eq (need_array o c) (need_array o' c).
Proof. intros H. unfold need_array. attrs H. sims. Qed.
Lemma sim_need_components o o' : obj_alike o o' -> sim eq (need_components o) (need_components o').
Proof. intros H. unfold need_components. attrs H. destruct (o_coords o); attrs H; sims. Qed.
Hint Resolve sim_need_array sim_need_components : sim.
Lemma sim_base_transform t c i : sim eq (base_transform t c i) (base_transform t c i).
Proof. unfold base_transform. sims. Qed.
Hint Resolve sim_base_transform : sim.
Lemma sim_metric_transform t c i : sim eq (metric_transform t c i) (metric_transform t c i).
Proof. unfold metric_transform. sims. Qed.
Lemma sim_christoffel_transform t c i : sim eq (w_christoffel_transform t c i) (w_christoffel_transform t c i).
Proof. unfold w_christoffel_transform. sims. Qed.
Lemma sim_curve_transform f t c i : sim eq (w_curve_transform f t c i) (w_curve_transform f t c i).
Proof. unfold w_curve_transform. sims. Qed.
Lemma sim_metric_check t c : sim eq (metric_check t c) (metric_check t c).
Proof. unfold metric_check. sims. Qed.
Hint Resolve sim_metric_transform sim_christoffel_transform sim_curve_transform sim_metric_check : sim.
Lemma sim_raise_lower t c i : sim eq (w_raise_lower t c i) (w_raise_lower t c i).
Proof. unfold w_raise_lower. sims. Qed.
Hint Resolve sim_raise_lower : sim.
Lemma sim_tensor_check t c i : sim eq (tensor_check t c i) (tensor_check t c i).
Proof. unfold tensor_check. sims. Qed.
Hint Resolve sim_tensor_check : sim.
Lemma sim_tensor_transform t c i : sim eq (tensor_transform t c i) (tensor_transform t c i).
Proof. unfold tensor_transform. sims. Qed.
Hint Resolve sim_tensor_transform : sim.
Lemma sim_check_representation t c i : sim eq (check_representation t c i) (check_representation t c i).
Proof.
  intros w w' Hw. unfold check_representation. rewrite <- (alike_cls w w' t Hw).
  destruct (cls_of w t) as [[]|]; revert w w' Hw; fold (sim (X := bool) (Y := bool) eq); intros w w' Hw;
  first [apply sim_metric_check, Hw | apply sim_tensor_check, Hw | apply sim_raise, Hw].
Qed.
Lemma sim_transform_coordinates t c i : sim eq (transform_coordinates t c i) (transform_coordinates t c i).
Proof.
  intros w w' Hw. unfold transform_coordinates. rewrite <- (alike_cls w w' t Hw).
  destruct (cls_of w t) as [[]|];
  first [apply sim_metric_transform, Hw | apply sim_tensor_transform, Hw | apply sim_christoffel_transform, Hw
        | apply sim_curve_transform, Hw | apply sim_raise, Hw].
Qed.
Hint Resolve sim_check_representation sim_transform_coordinates : sim.
Lemma sim_get_representation t c i : sim eq (get_representation t c i) (get_representation t c i).
Proof. unfold get_representation. sims. Qed.
Hint Resolve sim_get_representation : sim.
Lemma sim_get_components t c i : sim eq (get_components t c i) (get_components t c i).
Proof. unfold get_components. sims. Qed.
Hint Resolve sim_get_components : sim.
Lemma sim_change_default_indices t i : sim eq (change_default_indices t i) (change_default_indices t i).
Proof. unfold change_default_indices. sims. Qed.
Lemma sim_change_default_coords t c : sim eq (change_default_coords t c) (change_default_coords t c).
Proof. unfold change_default_coords. sims. Qed.
Lemma sim_simplify_tensor t : sim eq (simplify_tensor t) (simplify_tensor t).
Proof. unfold simplify_tensor. sims. Qed.
Hint Resolve sim_change_default_indices sim_change_default_coords sim_simplify_tensor : sim.
Lemma sim_change_name t n n' : name_arg R n n' -> sim eq (change_name t n) (change_name t n').
Proof.
  intros H. unfold change_name. destruct n, n'; cbn in H; try contradiction; sims.
  apply alike_set_name; assumption.
Qed.
Lemma sim_change_symbol t s s' : symbol_arg s s' -> sim eq (change_symbol t s) (change_symbol t s').
Proof. intros H. unfold change_symbol. destruct s, s'; cbn in H; try discriminate; sims. Qed.

Lemma find_ext {X} (f g : X -> bool) l : (forall x, f x = g x) -> find f l = find g l.
Proof. intros E. induction l as [|x l IH]; cbn; [reflexivity|]. rewrite E, IH. reflexivity. Qed.

Lemma sim_delete t b : sim eq (delete t b) (delete t b).
Proof.
  intros w w' Hw. unfold delete.
  assert (Hi : insts w' = insts w) by (destruct Hw as [H _]; symmetry; exact H). rewrite Hi.
  rewrite (find_ext (fun i => negb (i =? t) && match obj_of w' i with Some o => uses t o | None => true end)
                    (fun i => negb (i =? t) && match obj_of w i with Some o => uses t o | None => true end)).
  2: { intros i. f_equal. generalize (alike_obj w w' i Hw). destruct (obj_of w i), (obj_of w' i); try tauto. intros H; apply a_uses, H. }
  destruct (find _ _) as [i|].
  - generalize (alike_obj w w' i Hw), (alike_obj w w' t Hw).
    destruct (obj_of w i), (obj_of w' i); try tauto; destruct (obj_of w t), (obj_of w' t); try tauto; intros; split; try reflexivity; exact Hw.
  - generalize (alike_obj w w' t Hw), (alike_nth w w' t Hw).
    destruct (obj_of w t), (obj_of w' t); try tauto; intros Ho Hn.
    + destruct (nth_error (heap w) t) as [[c x]|], (nth_error (heap w') t) as [[c' x']|]; try tauto;
      destruct (index_of Nat.eqb t (insts w)); cbn; (split; [reflexivity|]); destruct Hw as [H1 H2]; split; cbn; try congruence.
      all: destruct Hn as [-> _]; apply heap_set; [exact H2|exact I].
    + destruct b; [|split; [reflexivity|exact Hw]].
      destruct (index_of Nat.eqb t (insts w)); cbn; (split; [reflexivity|]); [|exact Hw].
      destruct Hw as [H1 H2]; split; cbn; congruence || exact H2.
Qed.
Hint Resolve sim_delete : sim.
Lemma sim_try_delete t b : sim eq (try_delete t b) (try_delete t b).
Proof.
  intros w w' Hw. unfold try_delete. destruct (sim_delete t b w w' Hw) as [H1 H2].
  destruct (delete t b w) as [[x|e] v], (delete t b w') as [[x'|e'] v']; cbn in *; try contradiction.
  - split; assumption.
  - subst e'. destruct e; split; cbn; try reflexivity; exact H2.
Qed.
Hint Resolve sim_try_delete : sim.
Lemma sim_for_instances n p body body' : (forall i, sim eq (body i) (body' i)) ->
  sim eq (for_instances n p body) (for_instances n p body').
Proof.
  intros H. revert p. induction n as [|n IH]; intros p w w' Hw; cbn [for_instances];
  destruct Hw as [Hi Hh]; rewrite <- Hi; (destruct (nth_error (insts w) p) as [i|]; [|split; [reflexivity|split; assumption]]).
  - split; [reflexivity|split; assumption].
  - apply (sim_bind_eq eq (body i) (body' i) _ _ (H i) (fun _ => IH (S p))). split; assumption.
Qed.
Lemma sim_pass body body' : (forall i, sim eq (body i) (body' i)) -> sim eq (pass body) (pass body').
Proof.
  intros H w w' Hw. unfold pass. assert (Hi : insts w' = insts w) by (destruct Hw as [E _]; symmetry; exact E).
  rewrite Hi. apply sim_for_instances; assumption.
Qed.
Lemma sim_times n m m' : sim eq m m' -> sim eq (times n m) (times n m').
Proof. intros H. induction n; cbn; sims; auto. Qed.
Lemma sim_if_named s s' body body' i : R s s' -> sim eq (body i) (body' i) -> sim eq (if_named s body i) (if_named s' body' i).
Proof. intros Hs H. unfold if_named. sims. rewrite <- (a_name _ _ _ _ Ho Hs). sims; exact H. Qed.
Lemma sim_delete_results b : sim eq (delete_results b) (delete_results b).
Proof. apply sim_times, sim_pass. intros i. apply sim_if_named; [apply (ren_result R RR)|apply sim_try_delete]. Qed.
Hint Resolve sim_delete_results : sim.
Lemma sim_clear_instances : sim eq clear_instances clear_instances.
Proof.
  unfold clear_instances. sims.
  - apply sim_times, sim_pass. intros i. apply sim_try_delete.
  - intros w w' [_ H]. split; [reflexivity|]. split; [reflexivity|exact H].
Qed.
Lemma sim_temp_pass : sim eq (pass (if_named "TEMP" (fun i => delete i true))) (pass (if_named "TEMP" (fun i => delete i true))).
Proof. apply sim_pass. intros i. apply sim_if_named; [apply (ren_temp R RR)|apply sim_delete]. Qed.
Hint Resolve sim_temp_pass sim_clear_instances : sim.
Lemma sim_clean_temporaries : sim eq clean_temporaries clean_temporaries.
Proof. apply sim_times, sim_temp_pass. Qed.
Hint Resolve sim_clean_temporaries : sim.

(** *** Formulas *)
Lemma sim_mnth {X} (l : list X) i : sim eq (mnth l i) (mnth l i).
Proof. unfold mnth. sims. Qed.
Hint Resolve sim_mnth : sim.
Lemma sim_tensor_of c : sim eq (tensor_of c) (tensor_of c).
Proof. unfold tensor_of. sims. Qed.
Hint Resolve sim_tensor_of : sim.
Lemma sim_default_components t : sim eq (default_components t) (default_components t).
Proof. unfold default_components. sims. Qed.
Hint Resolve sim_default_components : sim.
Lemma sim_make_tensor k n n' a m c i s s' : R n n' -> sim eq (make_tensor k n a m c i s) (make_tensor k n' a m c i s').
Proof. intros H. unfold make_tensor. apply sim_new_tensor_as; [exact H|exact I]. Qed.
Lemma sim_make_temp k a m c i s s' : sim eq (make_tensor k "TEMP" a m c i s) (make_tensor k "TEMP" a m c i s').
Proof. apply sim_make_tensor, (ren_temp R RR). Qed.
Hint Resolve sim_make_temp sim_make_tensor : sim.
Lemma sim_trace_step ts s : sim eq (trace_step ts s) (trace_step ts s).
Proof. unfold trace_step. sims. Qed.
Hint Resolve sim_trace_step : sim.
Lemma sim_calc_init t s r : sim eq (calc_init t s r) (calc_init t s r).
Proof.
  unfold calc_init. sims.
  intros w w' Hw. rewrite <- (alike_cls w w' o Hw). destruct (cls_of w o) as [[]|]; split; try reflexivity; exact Hw.
Qed.
Hint Resolve sim_calc_init : sim.
Lemma sim_calc_call t s : sim eq (calc_call t s) (calc_call t s).
Proof. unfold calc_call. sims. Qed.
Hint Resolve sim_calc_call : sim.
Lemma sim_derivative r s : sim eq (derivative r s) (derivative r s).
Proof. unfold derivative. sims. Qed.
Hint Resolve sim_derivative : sim.
Lemma sim_PartialD s : sim eq (PartialD s) (PartialD s).
Proof. apply sim_derivative. Qed.
Lemma sim_CovariantD s : sim eq (CovariantD s) (CovariantD s).
Proof. apply sim_derivative. Qed.
Hint Resolve sim_PartialD sim_CovariantD : sim.
Lemma sim_metric_attr t : sim eq (metric_attr t) (metric_attr t).
Proof.
  intros w w' Hw. unfold metric_attr. split; [|exact Hw]. cbn. destruct t as [t|]; [|reflexivity].
  generalize (alike_obj w w' t Hw). destruct (obj_of w t), (obj_of w' t); try tauto. intros H. attrs H. reflexivity.
Qed.
Hint Resolve sim_metric_attr : sim.
Lemma sim_calc_add x y : sim eq (calc_add x y) (calc_add x y).
Proof. unfold calc_add. sims. Qed.
Hint Resolve sim_calc_add : sim.
Lemma sim_calc_neg x : sim eq (calc_neg x) (calc_neg x).
Proof. unfold calc_neg. sims. Qed.
Hint Resolve sim_calc_neg : sim.
Lemma sim_calc_sub x y : sim eq (calc_sub x y) (calc_sub x y).
Proof. unfold calc_sub. sims. Qed.
Hint Resolve sim_calc_sub : sim.
Lemma sim_scalar_of a : sim eq (scalar_of a) (scalar_of a).
Proof. unfold scalar_of. sims. Qed.
Hint Resolve sim_scalar_of : sim.
Definition r_alike (x y : arr * obj * list string) : Prop :=
  fst (fst x) = fst (fst y) /\ obj_alike (snd (fst x)) (snd (fst y)) /\ snd x = snd y.
Lemma sim_calc_mul x y : sim eq (calc_mul x y) (calc_mul x y).
Proof.
  unfold calc_mul. cbv zeta. destruct (negb (is_tensor_role (c_role x))); [apply sim_raise|]. destruct y; try (sims; fail).
  sim1; [sims|]. sim1. sim1; [sims|]. sim1. destruct ((0 <? o_rank o) && (0 <? o_rank o0)); [apply sim_raise|].
  apply (sim_bind r_alike).
  - destruct (o_rank o0 =? 0); [do 3 (sim1; [sims|]); sim1; attrs Ho1|]; apply sim_ret; (split; [reflexivity|split; [assumption|reflexivity]]).
  - intros r r' Hr. apply (sim_bind r_alike).
    + destruct (o_rank o =? 0); [do 3 (sim1; [sims|]); sim1; attrs Ho1|]; apply sim_ret; try assumption; (split; [reflexivity|split; [assumption|reflexivity]]).
    + intros [[a1 b1] c1] [[a2 b2] c2] (E1 & E2 & E3). cbn in E1, E2, E3. subst. attrs E2. sims.
Qed.
Hint Resolve sim_calc_mul : sim.
Lemma sim_calc_div x k : sim eq (calc_div x k) (calc_div x k).
Proof. unfold calc_div. sims. Qed.
Lemma sim_coord_symbols c : sim eq (coord_symbols c) (coord_symbols c).
Proof. unfold coord_symbols. sims. Qed.
Lemma sim_mset l i z : sim eq (mset l i z) (mset l i z).
Proof. unfold mset. sims. Qed.
Hint Resolve sim_calc_div sim_coord_symbols sim_mset : sim.
Lemma sim_partial_product s1 s2 t ts pos : sim eq (partial_product s1 s2 t ts pos) (partial_product s1 s2 t ts pos).
Proof. unfold partial_product. cbv zeta. sims. Qed.
Hint Resolve sim_partial_product : sim.
Lemma sim_tensor_product x y t1 t2 o1 o1' o2 o2' : obj_alike o1 o1' -> obj_alike o2 o2' ->
  sim eq (tensor_product x y t1 t2 o1 o2) (tensor_product x y t1 t2 o1' o2').
Proof. intros H1 H2. unfold tensor_product. cbv zeta. attrs H1. attrs H2. sims. Qed.
Hint Resolve sim_tensor_product : sim.
Lemma sim_matmul0 x y : sim eq (matmul0 x y) (matmul0 x y).
Proof. unfold matmul0. sims. Qed.
Hint Resolve sim_matmul0 : sim.
Lemma sim_run_calc x n n' s s' i : R n n' -> sim eq (run_calc x n s i) (run_calc x n' s' i).
Proof. intros H. unfold run_calc. cbv zeta. sims. Qed.
Lemma sim_run_result x s s' i : sim eq (run_calc x "Result" s i) (run_calc x "Result" s' i).
Proof. apply sim_run_calc, (ren_result R RR). Qed.
Hint Resolve sim_run_calc sim_run_result : sim.
Lemma sim_first_named s s' l : R s s' -> sim eq (CalcM.first_named s l) (CalcM.first_named s' l).
Proof.
  intros H. induction l as [|i l IH]; cbn; sims. rewrite <- (a_name _ _ _ _ Ho H). sims; exact IH.
Qed.
Lemma sim_find_named s s' : R s s' -> sim eq (CalcM.find_named s) (CalcM.find_named s').
Proof.
  intros H w w' Hw. unfold CalcM.find_named. assert (Hi : insts w' = insts w) by (destruct Hw as [E _]; symmetry; exact E).
  rewrite Hi. apply sim_first_named; assumption.
Qed.
Hint Resolve sim_find_named : sim.
Lemma sim_copy_object t : sim eq (copy_object t) (copy_object t).
Proof.
  unfold copy_object. sims. intros w w' Hw. rewrite <- (alike_cls w w' t Hw), (alike_length w w' Hw).
  destruct (cls_of w t) as [k|]; [|split; [reflexivity|exact Hw]]. split; [reflexivity|].
  destruct Hw as [H1 H2]. split; cbn; [exact H1|]. apply Forall2_app; [exact H2|]. constructor; [split; [reflexivity|exact Ho]|constructor].
Qed.
Lemma sim_finish_calc r : sim eq (finish_calc r) (finish_calc r).
Proof. unfold finish_calc. sims. Qed.
Hint Resolve sim_copy_object sim_finish_calc : sim.

Lemma computed o o' x : In x result_names -> obj_alike o o' -> R (o_name o ++ x)%string (o_name o' ++ x)%string.
Proof. intros Hx [H _]. exact (ren_computed R RR _ _ x Hx H). Qed.
Ltac member := cbn; repeat (first [left; reflexivity|right]).

Lemma sim_rename_temp i : sim eq (let! o := getobj i in put i (set_name "TEMP" o)) (let! o := getobj i in put i (set_name "TEMP" o)).
Proof. sims. apply alike_set_name; [apply (ren_temp R RR)|assumption]. Qed.
Hint Resolve sim_rename_temp : sim.
Lemma sim_calc_christoffel m : sim eq (calc_christoffel m) (calc_christoffel m).
Proof.
  unfold calc_christoffel. cbv zeta. sim1; [sims|]. sim1; [sims|].
  sim1. assert (Hc := computed _ _ " Christoffel"%string ltac:(member) Ho).
  sim1; [auto with sim|]. sims.
  all: apply alike_set_name; [apply (ren_temp R RR)|assumption].
Qed.
Hint Resolve sim_calc_christoffel : sim.
Lemma sim_cached m x f f' : In x result_names -> (forall n n', R n n' -> sim eq (f n) (f' n')) -> sim eq (cached m x f) (cached m x f').
Proof.
  intros Hx H. unfold cached. cbv zeta. sim1; [sims|]. sim1; [sims|]. sim1. assert (Hc := computed _ _ x Hx Ho).
  sim1; [auto with sim|]. sims; apply H, Hc.
Qed.
Lemma sim_publish m r g n n' i s : R n n' -> sim eq (publish m r g n i s) (publish m r g n' i s).
Proof. intros H. unfold publish. sims. Qed.
Hint Resolve sim_publish : sim.
Lemma sim_calc_riemann m : sim eq (calc_riemann m) (calc_riemann m).
Proof. apply sim_cached; [member|intros n n' Hn]. sims. Qed.
Hint Resolve sim_calc_riemann : sim.
Lemma sim_calc_ricci m : sim eq (calc_ricci m) (calc_ricci m).
Proof. apply sim_cached; [member|intros n n' Hn]. sims. Qed.
Hint Resolve sim_calc_ricci : sim.
Lemma sim_calc_ricci_scalar m : sim eq (calc_ricci_scalar m) (calc_ricci_scalar m).
Proof. apply sim_cached; [member|intros n n' Hn]. sims. Qed.
Hint Resolve sim_calc_ricci_scalar : sim.
Lemma sim_calc_einstein m : sim eq (calc_einstein m) (calc_einstein m).
Proof. apply sim_cached; [member|intros n n' Hn]. sims. Qed.
Lemma sim_inverse_int z : sim eq (inverse_int z) (inverse_int z).
Proof. unfold inverse_int. sims. Qed.
Hint Resolve sim_calc_einstein sim_inverse_int : sim.
Lemma sim_calc_weyl m : sim eq (calc_weyl m) (calc_weyl m).
Proof. apply sim_cached; [member|intros n n' Hn]. cbv zeta. sims. Qed.
Hint Resolve sim_calc_weyl : sim.
Lemma sim_calc_norm_squared t : sim eq (calc_norm_squared t) (calc_norm_squared t).
Proof.
  intros w w' Hw. unfold calc_norm_squared. rewrite <- (alike_cls w w' t Hw).
  match goal with |- context [mbind (getobj t) ?f] => set (g := f) end.
  assert (H : sim eq (mbind (getobj t) g) (mbind (getobj t) g)).
  { subst g. cbv zeta. sim1. assert (Hc := computed _ _ " Norm Squared"%string ltac:(member) Ho).
    sim1; [auto with sim|]. sims. }
  destruct (cls_of w t) as [[]|]; try (split; [reflexivity|exact Hw]); exact (H w w' Hw).
Qed.
Hint Resolve sim_calc_norm_squared : sim.

(** *** Covariant derivatives *)
Lemma sim_unused l s : sim eq (unused l s) (unused l s).
Proof. unfold unused. sims. Qed.
Lemma sim_calc_sum l : sim eq (calc_sum l) (calc_sum l).
Proof. unfold calc_sum. sims. Qed.
Hint Resolve sim_unused sim_calc_sum : sim.
Lemma sim_connection_terms c t s i z p d : sim eq (connection_terms c t s i z p d) (connection_terms c t s i z p d).
Proof. unfold connection_terms. sims. Qed.
Hint Resolve sim_connection_terms : sim.
Lemma sim_covariant_product t c s1 s2 f ps : sim eq ps ps -> sim eq (covariant_product t c s1 s2 f ps) (covariant_product t c s1 s2 f ps).
Proof. intros H. unfold covariant_product. cbv zeta. sims; exact H. Qed.
Lemma sim_matmul_with l x y : sim eq (matmul_with l x y) (matmul_with l x y).
Proof. unfold matmul_with. cbv zeta. sims; apply sim_covariant_product; sims. Qed.
Hint Resolve sim_matmul_with : sim.

(** *** Curves *)
Lemma sim_first_instance k s s' l : R s s' -> sim eq (first_instance k s l) (first_instance k s' l).
Proof.
  intros H. induction l as [|i l IH]; cbn; sims; try exact IH. rewrite <- (a_name _ _ _ _ Ho H). sims; exact IH.
Qed.
Lemma sim_find_instance k s s' : R s s' -> sim eq (find_instance k s) (find_instance k s').
Proof.
  intros H w w' Hw. unfold find_instance. assert (Hi : insts w' = insts w) by (destruct Hw as [E _]; symmetry; exact E).
  rewrite Hi. apply sim_first_instance; assumption.
Qed.
Hint Resolve sim_find_instance : sim.
Lemma sim_cached_curve k m c x f f' : In x result_names -> (forall c n n', R n n' -> sim eq (f c n) (f' c n')) ->
  sim eq (cached_curve k m c x f) (cached_curve k m c x f').
Proof.
  intros Hx H. unfold cached_curve. cbv zeta. do 4 (sim1; [sims|]). sim1. assert (Hc := computed _ _ x Hx Ho).
  sim1; [sims|]. sim1; [auto with sim|]. sims; apply H, Hc.
Qed.
Lemma sim_temp_vector m c f : sim eq (temp_vector m c f) (temp_vector m c f).
Proof. unfold temp_vector. cbv zeta. sims. Qed.
Lemma sim_publish_curve k m c r f n n' i s : R n n' -> sim eq (publish_curve k m c r f n i s) (publish_curve k m c r f n' i s).
Proof. intros H. unfold publish_curve. sims. Qed.
Hint Resolve sim_temp_vector sim_publish_curve : sim.
Lemma sim_calc_lagrangian m c : sim eq (calc_lagrangian m c) (calc_lagrangian m c).
Proof. apply sim_cached_curve; [member|intros c' n n' Hn]. sims. Qed.
Hint Resolve sim_calc_lagrangian : sim.
Lemma sim_geodesic_lagrangian p m c : sim eq (calc_geodesic_lagrangian_with p m c) (calc_geodesic_lagrangian_with p m c).
Proof. apply sim_cached_curve; [member|intros c' n n' Hn]. cbv zeta. sims. Qed.
Lemma sim_geodesic_christoffel m c : sim eq (calc_geodesic_christoffel m c) (calc_geodesic_christoffel m c).
Proof. apply sim_cached_curve; [member|intros c' n n' Hn]. sims. Qed.
Lemma sim_geodesic_time m c : sim eq (calc_geodesic_time m c) (calc_geodesic_time m c).
Proof. apply sim_cached_curve; [member|intros c' n n' Hn]. sims. Qed.
Hint Resolve sim_geodesic_lagrangian sim_geodesic_christoffel sim_geodesic_time : sim.

(** *** Displays *)
Lemma sim_display_components m c : sim eq (display_components m c) (display_components m c).
Proof. unfold display_components. sims. Qed.
Hint Resolve sim_display_components : sim.
Lemma sim_line_element m c : sim eq (line_element m c) (line_element m c).
Proof. unfold line_element. cbv zeta. sims. Qed.
Lemma sim_volume_element m c : sim eq (volume_element m c) (volume_element m c).
Proof. unfold volume_element. sims. Qed.
Lemma sim_as_column a : sim eq (as_column a) (as_column a).
Proof. unfold as_column. sims. Qed.
Hint Resolve sim_line_element sim_volume_element sim_as_column : sim.
Lemma sim_shown_form r a : sim eq (shown_form r a) (shown_form r a).
Proof. unfold shown_form. sims. Qed.
Lemma sim_apply_function f o o' c a : obj_alike o o' -> sim eq (apply_function f o c a) (apply_function f o' c a).
Proof. intros H. unfold apply_function. attrs H. sims. Qed.
Lemma sim_asked c o o' : obj_alike o o' -> sim eq (asked c o) (asked c o').
Proof. intros H. unfold asked. attrs H. sims. Qed.
Hint Resolve sim_shown_form sim_apply_function sim_asked : sim.
Lemma sim_get_components_all f r t c i : sim eq (get_components_all f r t c i) (get_components_all f r t c i).
Proof. unfold get_components_all. sims. Qed.
Lemma sim_show_components f r t c i : sim eq (show_components f r t c i) (show_components f r t c i).
Proof. unfold show_components. sims. Qed.
Lemma sim_list_components f r t c i : sim eq (list_components f r t c i) (list_components f r t c i).
Proof. unfold list_components. sims. Qed.
Context {N : NumSubs A}.
Lemma sim_parameter b p xs : sim eq (parameter b p xs) (parameter b p xs).
Proof. unfold parameter. sims. Qed.
Hint Resolve sim_parameter sim_get_components_all sim_show_components sim_list_components : sim.
Lemma sim_get_curve_all b p f r t c i : sim eq (get_curve_all b p f r t c i) (get_curve_all b p f r t c i).
Proof. unfold get_curve_all. sims. Qed.
Lemma sim_show_curve b p f r t c i : sim eq (show_curve b p f r t c i) (show_curve b p f r t c i).
Proof. unfold show_curve. sims. Qed.
Lemma sim_list_curve b p f r t c i : sim eq (list_curve b p f r t c i) (list_curve b p f r t c i).
Proof. unfold list_curve. sims. Qed.
Hint Resolve sim_get_curve_all sim_show_curve sim_list_curve : sim.

(** *** Information: only its form is the same *)
Definition any {X Y} (x : X) (y : Y) : Prop := True.
Lemma sim_names_of l : sim any (names_of l) (names_of l).
Proof.
  induction l as [|i l IH]; cbn; [apply sim_ret; exact I|]. sim1. apply (sim_bind any _ _ _ _ _ IH).
  intros x y _. apply sim_ret. exact I.
Qed.
Lemma sim_users f t : (forall o o', obj_alike o o' -> f o = f o') -> sim eq (users f t) (users f t).
Proof.
  intros H w w' Hw. unfold users. split; [|exact Hw]. cbn.
  assert (Hi : insts w' = insts w) by (destruct Hw as [E _]; symmetry; exact E). rewrite Hi.
  apply filter_ext. intros i. generalize (alike_obj w w' i Hw). destruct (obj_of w i), (obj_of w' i); try tauto.
  intros Ho. rewrite (H _ _ Ho). reflexivity.
Qed.
Lemma sim_users_entry k f t : (forall o o', obj_alike o o' -> f o = f o') -> sim any (users_entry k f t) (users_entry k f t).
Proof.
  intros H w w' Hw. unfold users_entry. assert (Hi : insts w' = insts w) by (destruct Hw as [E _]; symmetry; exact E). rewrite Hi.
  destruct (insts w); [split; [exact I|exact Hw]|].
  apply (sim_bind eq any); [apply sim_users, H| |exact Hw]. intros x y <-.
  apply (sim_bind any any); [apply sim_names_of|]. intros; apply sim_ret; exact I.
Qed.
Lemma sim_name_entry k x : sim any (name_entry k x) (name_entry k x).
Proof. unfold name_entry. sims; apply sim_ret; exact I. Qed.
Lemma sim_get_info t : sim any (get_info t) (get_info t).
Proof.
  intros w w' Hw. unfold get_info. rewrite <- (alike_cls w w' t Hw). revert w' Hw. generalize (cls_of w t) as k.
  intros k w'. apply (sim_bind obj_alike any); [apply sim_getobj|]. intros o o' Ho. attrs Ho.
  assert (EC : forall o o', obj_alike o o' -> o_coords o = o_coords o') by (intros ? ? E; symmetry; apply a_coords, E).
  assert (EM : forall o o', obj_alike o o' -> o_metric o = o_metric o') by (intros ? ? E; symmetry; apply a_metric, E).
  destruct k as [[]|];
  repeat first
    [ apply sim_ret; exact I
    | apply (sim_bind any any); [first [apply sim_name_entry | apply sim_users_entry; assumption
         | destruct (o_trans o); [apply sim_ret; exact I|apply (sim_bind any any); [apply sim_names_of|intros; apply sim_ret; exact I]]]|intros ? ? _] ].
Qed.
Lemma sim_info t : sim any (info t) (info t).
Proof. apply (sim_bind any any _ _ _ _ (sim_get_info t)). intros; apply sim_ret; exact I. Qed.

(** *** Calls and programs *)
Lemma sim_run_op o o' : op_alike R o o' -> sim eq (run_op o) (run_op o').
Proof.
  intros [n n' c i s s' tr Hn Hs|n n' c x i s s' Hn Hs|n n' c m x i s s' Hn Hs|n n' c m x i s s' Hn Hs|n n' c m x i s s' Hn Hs
         |n n' c m x i s s' Hn Hs|t n n' Hn|t s s' Hs|p Hp]; cbn [run_op].
  - sim1; [apply sim_new_coordinates; assumption|sims].
  - sim1; [apply sim_new_metric; assumption|sims].
  - sim1; [apply sim_new_tensor_as; assumption|sims].
  - sim1; [apply sim_new_tensor_as; assumption|sims].
  - sim1; [apply sim_new_tensor_as; assumption|sims].
  - sim1; [apply sim_new_tensor_as; assumption|sims].
  - apply sim_change_name, Hn.
  - apply sim_change_symbol, Hs.
  - destruct p; try contradiction; cbn [run_op]; sims.
Qed.

Context {O : PyOps} {C : CodeOps}.
Lemma sim_nothing {X} (Q : X -> X -> Prop) (m m' : M X) : sim Q m m' -> sim eq (nothing m) (nothing m').
Proof. intros H. apply (sim_bind Q eq _ _ _ _ H). intros; apply sim_ret; reflexivity. Qed.
Lemma sim_object (m m' : M oid) : sim eq m m' -> sim eq (object m) (object m').
Proof. intros H. unfold object. sims; exact H. Qed.
Lemma sim_formula_of (m m' : M calc) : sim eq m m' -> sim eq (formula_of m) (formula_of m').
Proof. intros H. unfold formula_of. sims; exact H. Qed.
Lemma sim_run_call c c' : call_alike R c c' -> sim eq (run_call c) (run_call c').
Proof.
  intros [o o' H|x n n' s s' i H|k Hk].
  - apply (sim_nothing eq), sim_run_op, H.
  - apply sim_object, sim_run_calc, H.
  - destruct k; try contradiction; cbn [run_call];
    try (apply sim_object; solve [auto with sim nocore]);
    try (apply sim_formula_of; solve [auto with sim nocore]);
    try (apply (sim_nothing eq); solve [auto with sim nocore]).
    all: try (destruct a as [[[fn rp] cc] ii]; apply (sim_nothing eq); unfold with_args; solve [auto with sim nocore]).
    all: try (apply (sim_nothing any), sim_info).
    all: try (apply sim_formula_of; unfold calc_radd, calc_rsub; solve [auto with sim nocore]).
Qed.

Lemma run_calls_alike l l' w w' : Forall2 (call_alike R) l l' -> alike w w' ->
  fst (run_calls l w) = fst (run_calls l' w') /\ alike (snd (run_calls l w)) (snd (run_calls l' w')).
Proof.
  intros H. revert w w'. induction H as [|c c' l l' Hc _ IH]; intros w w' Hw; cbn [run_calls]; [split; [reflexivity|exact Hw]|].
  destruct (sim_run_call c c' Hc w w' Hw) as [H1 H2].
  destruct (run_call c w) as [r v], (run_call c' w') as [r' v']. cbn in H1, H2.
  destruct (IH v v' H2) as [H3 H4]. destruct (run_calls l v) as [rs u], (run_calls l' v') as [rs' u']. cbn in *.
  split; [|exact H4]. rewrite H3. f_equal.
  destruct r, r'; cbn in H1; try contradiction; congruence.
Qed.

Lemma sim_same {X} (m m' : M X) w w' : sim eq m m' -> alike w w' -> fst (m w) = fst (m' w').
Proof.
  intros H Hw. destruct (H w w' Hw) as [H1 _]. destruct (fst (m w)), (fst (m' w')); cbn in H1; try contradiction; congruence.
Qed.

End Rename.

Lemma names_do_not_matter (A : AlgOps) (O : PyOps) (C : CodeOps) (N : NumSubs A) R (calls calls' : list call) :
  renaming R -> Forall2 (call_alike R) calls calls' ->
  fst (run_calls calls empty_world) = fst (run_calls calls' empty_world) /\
  alike R (snd (run_calls calls empty_world)) (snd (run_calls calls' empty_world)).
Proof. intros HR H. apply run_calls_alike; [exact HR|exact H|]. split; [reflexivity|constructor]. Qed.
Lemma symbols_do_not_matter (A : AlgOps) (O : PyOps) (C : CodeOps) (N : NumSubs A) (calls calls' : list call) :
  Forall2 (call_alike eq) calls calls' ->
  fst (run_calls calls empty_world) = fst (run_calls calls' empty_world) /\
  alike eq (snd (run_calls calls empty_world)) (snd (run_calls calls' empty_world)).
Proof.
  intros H. apply names_do_not_matter; [|exact H].
  split; try reflexivity; [intros s s' t t' <- <-; tauto|intros s s' x _ <-; reflexivity].
Qed.
Lemma displays_do_not_depend_on_names (A : AlgOps) (N : NumSubs A) R (w w' : world) :
  renaming R -> alike R w w' ->
  (forall f r t c i, fst (get_components_all f r t c i w) = fst (get_components_all f r t c i w')) /\
  (forall f r t c i, fst (show_components f r t c i w) = fst (show_components f r t c i w')) /\
  (forall f r t c i, fst (list_components f r t c i w) = fst (list_components f r t c i w')) /\
  (forall b p f r t c i, fst (get_curve_all b p f r t c i w) = fst (get_curve_all b p f r t c i w')) /\
  (forall b p f r t c i, fst (show_curve b p f r t c i w) = fst (show_curve b p f r t c i w')) /\
  (forall b p f r t c i, fst (list_curve b p f r t c i w) = fst (list_curve b p f r t c i w')) /\
  (forall m c, fst (line_element m c w) = fst (line_element m c w')) /\
  (forall m c, fst (volume_element m c w) = fst (volume_element m c w')).
Proof.
  intros HR Hw. repeat split; intros; apply (sim_same R); try exact Hw;
  first [apply sim_get_components_all | apply sim_show_components | apply sim_list_components | apply sim_get_curve_all
        | apply sim_show_curve | apply sim_list_curve | apply sim_line_element | apply sim_volume_element]; exact HR.
Qed.
