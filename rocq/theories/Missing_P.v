(** Requests that fail with TransformationError. *)
From Verif Require Import Alg Alg_P Arr Arr_P Spec UtilsM Arr2_P TensorM WorldM SpecWorld World_P Registry_P History_P CalcM SpecCalc Keep_P Calc_P SpecMissing.
Local Open Scope nat_scope.

Definition fine {X} (r : res X) : Prop := r <> Err ETransformation.
Lemma fine_ok {X} (x : X) : fine (Ok x).
Proof. discriminate. Qed.
Lemma fine_bind {X Y} (r : res X) (k : X -> res Y) : fine r -> (forall x, fine (k x)) -> fine (rbind r k).
Proof. intros H1 H2. destruct r as [x|e]; cbn [rbind]; [apply H2|]. intros E. apply H1. congruence. Qed.
Lemma fine_fold {X Y} (f : X -> Y -> res X) l a : (forall a y, fine (f a y)) -> fine (rfold f l a).
Proof. intros H. revert a. induction l as [|y l IH]; intros a; cbn [rfold]; [apply fine_ok|]. apply fine_bind; [apply H|exact IH]. Qed.
Ltac fine_if := match goal with |- fine (if ?b then _ else _) => destruct b; try discriminate end.

Section Fine.
Context {A : AlgOps}.
Lemma zero_fine d r : fine (zero_tensor d r).
Proof. unfold zero_tensor. repeat fine_if. Qed.
Lemma aset_fine a i x : fine (aset a i x).
Proof. unfold aset. fine_if. Qed.
Lemma aadd_fine a b : fine (aadd a b).
Proof. unfold aadd. fine_if. Qed.
Lemma slice_fine a s : fine (aslice a s).
Proof. unfold aslice. fine_if. Qed.
Lemma perm_fine a s : fine (permutedims a s).
Proof. unfold permutedims. fine_if. Qed.
Lemma tcontract_fine a s : fine (tcontract a s).
Proof. unfold tcontract. fine_if. Qed.
Lemma ainv_fine a : fine (ainv a).
Proof. unfold ainv. destruct (shape a) as [|n [|m [|]]]; try discriminate. fine_if. destruct (minv n (data a)); discriminate. Qed.
Lemma diff_fine o j e : fine (diff_at o j e).
Proof. unfold diff_at. destruct (nth_error o j); discriminate. Qed.
Lemma contract_fine a b l : fine (contract a b l).
Proof.
  unfold contract. destruct l as [|p l]; [apply fine_ok|]. repeat fine_if. apply fine_bind; [apply zero_fine|intros r].
  apply fine_bind; [|intros; apply fine_ok]. apply fine_fold. intros a0 y. apply fine_bind; [apply slice_fine|intros x]. apply fine_bind; [apply slice_fine|intros z; apply aadd_fine].
Qed.
Lemma raise_lower_fine g gi s t a : fine (raise_lower g gi s t a).
Proof.
  unfold raise_lower. apply fine_bind; [|intros; apply fine_ok]. apply fine_fold. intros acc im. unfold rl_step. fine_if.
  apply fine_bind; [apply contract_fine|intros; apply perm_fine].
Qed.
Lemma jac_contract_fine J Ji r i a : fine (jac_contract J Ji r i a).
Proof. unfold jac_contract. apply tcontract_fine. Qed.
Lemma transform_fine J Ji R r i a : fine (transform J Ji R r i a).
Proof. unfold transform. apply fine_bind; [apply jac_contract_fine|intros; apply fine_ok]. Qed.
Lemma jacobian_fine s o R : fine (calculate_jacobian s o R).
Proof.
  unfold calculate_jacobian, jacobian_of, chr_jacobian_of. apply fine_bind; [|intros j; apply fine_bind; [|intros c; apply fine_bind; [apply ainv_fine|intros; apply fine_ok]]].
  - apply fine_bind; [apply zero_fine|intros z]. apply fine_fold. intros a io. apply fine_fold. intros a' k. destruct (snd io); [|apply aset_fine].
    apply fine_bind; [apply diff_fine|intros; apply aset_fine].
  - apply fine_bind; [apply zero_fine|intros z]. apply fine_fold. intros a io. apply fine_fold. intros a' k. apply fine_fold. intros a2 k2. destruct (snd io); [|apply fine_ok].
    apply fine_bind; [apply diff_fine|intros]. apply fine_bind; [apply diff_fine|intros; apply aset_fine].
Qed.
Lemma chr_subs_fine ors cs a : fine (chr_subs ors cs a).
Proof. revert cs a. induction ors as [|[r|] ors IH]; intros [|c cs] a; cbn [chr_subs]; try apply IH; discriminate. Qed.
Lemma chr_transform_fine cs J Ji C R r i a : fine (christoffel_transform cs J Ji C R r i a).
Proof.
  unfold christoffel_transform. apply fine_bind; [apply jac_contract_fine|intros t]. apply fine_bind; [apply tcontract_fine|intros e].
  apply fine_bind; [apply aadd_fine|intros u]. apply fine_bind; [apply chr_subs_fine|intros; apply fine_ok].
Qed.
Lemma lag_transform_fine p ys J Ji R r i a : fine (lagrangian_transform p ys J Ji R r i a).
Proof. apply transform_fine. Qed.
Lemma geo_transform_fine p ys J Ji R r i a : fine (geodesic_transform p ys J Ji R r i a).
Proof.
  unfold geodesic_transform. apply fine_bind; [apply jac_contract_fine|intros t]. cbv zeta. destruct (rank _) as [|[|k]]; [discriminate| |apply fine_ok].
  apply fine_fold. intros acc ie. apply aset_fine.
Qed.
Lemma fill_fine s i d : fine (snd (metric_fill s i d)).
Proof.
  unfold metric_fill. destruct (dget cfg_eqb s d); [|discriminate]. destruct (ainv a) as [gi|e] eqn:Ea; [|cbn; intros E; apply (ainv_fine a); congruence].
  cbv zeta. destruct (dget cfg_eqb _ _); [|discriminate]. destruct (dget cfg_eqb _ _); [|discriminate]. destruct (tcontract _ _) as [m1|e] eqn:E1; [|cbn; intros E; eapply tcontract_fine; rewrite E1; congruence].
  destruct (dget cfg_eqb _ _); [|discriminate]. destruct (dget cfg_eqb _ _); [|discriminate]. destruct (tcontract _ [(0, 2)]) as [m2|e] eqn:E2; [discriminate|cbn; intros E; eapply tcontract_fine; rewrite E2; congruence].
Qed.
Lemma validate_fine v n s : fine (validate_indices v n s).
Proof. unfold validate_indices. destruct v; try discriminate; repeat fine_if; try (destruct n; repeat fine_if); try (destruct s; repeat fine_if). Qed.

Section W0.
Variable w0 : world.
Hypothesis Hty : typed w0.
Notation P := (kept w0).
Notation keeps m := (hoare P m (fun _ => P) P).
Definition blame {X} (B : Prop) (m : M X) : Prop := forall w, P w -> fst (m w) = Err ETransformation -> B.

Lemma bl_bind {X Y} B (m : M X) (k : X -> M Y) : blame B m -> keeps m -> (forall x, blame B (k x)) -> blame B (mbind m k).
Proof.
  intros H1 H2 H3 w Hw. specialize (H1 w Hw). specialize (H2 w Hw). unfold mbind. destruct (m w) as [[x|e] w']; [apply H3, H2|].
  cbn [fst] in *. intros E. apply H1. congruence.
Qed.
Lemma bl_get {Y} B x (k : obj -> M Y) : (forall o o0, obj_of w0 x = Some o0 -> same_attrs o0 o -> blame B (k o)) -> blame B (mbind (getobj x) k).
Proof.
  intros H w Hw. unfold mbind, getobj. destruct (obj_of w x) as [o|] eqn:Ho; [|discriminate].
  destruct (kept_obj_inv _ _ _ _ Hw Ho) as (o0 & Ho0 & Hs & _). apply (H o o0 Ho0 Hs w Hw).
Qed.
Lemma bl_opt {X Y} B e (x : option X) (k : X -> M Y) : e <> ETransformation -> (forall y, x = Some y -> blame B (k y)) -> blame B (mbind (mopt e x) k).
Proof. intros He H w Hw. unfold mbind. destruct x as [y|]; cbn [mopt mret mraise]; [apply (H y eq_refl w Hw)|]. unfold mraise. cbn [fst]. congruence. Qed.
Lemma bl_lift {X Y} B (x : res X) (k : X -> M Y) : fine x -> (forall y, blame B (k y)) -> blame B (mbind (mlift x) k).
Proof. intros He H w Hw. unfold mbind, mlift. destruct x as [y|e]; [apply (H y w Hw)|]. cbn [fst]. intros E. destruct He. congruence. Qed.
Lemma bl_lift1 {X} B (x : res X) : fine x -> blame B (mlift x).
Proof. intros He w Hw. unfold mlift. cbn [fst]. intros E. destruct (He E). Qed.
Lemma bl_ret {X} B (x : X) : blame B (mret x).
Proof. intros w Hw. discriminate. Qed.
Lemma bl_opt1 {X} B e (x : option X) : e <> ETransformation -> blame B (mopt e x).
Proof. intros He w Hw. destruct x; cbn [mopt]; [discriminate|]. unfold mraise. cbn [fst]. congruence. Qed.
Lemma bl_put B x o : blame B (put x o).
Proof. intros w Hw. unfold put. destruct (nth_error (heap w) x) as [[c ?]|]; discriminate. Qed.
Lemma bl_weak {X} (B B' : Prop) (m : M X) : (B -> B') -> blame B m -> blame B' m.
Proof. intros H Hm w Hw E. exact (H (Hm w Hw E)). Qed.
Lemma bl_raise {X} B e : e <> ETransformation -> blame B (@mraise A X e).
Proof. intros He w Hw. unfold mraise. cbn [fst]. congruence. Qed.

Lemma check_jac_blame a b : blame (~ has_rules w0 a b) (w_check_jacobians a b).
Proof.
  unfold w_check_jacobians. apply bl_get. intros so so0 H0 Hs. destruct (dmem Nat.eqb b (o_jacs so)); [apply bl_ret|].
  destruct (dmem Nat.eqb b (o_trans so)) eqn:Eb.
  - unfold w_calculate_jacobian. apply bl_get. intros so' so0' _ _. apply bl_get. intros co co0 _ _. apply bl_opt; [discriminate|]. intros R _.
    apply bl_lift; [apply jacobian_fine|]. intros j. apply bl_put.
  - intros w Hw _ (o & Ho & Hd). rewrite H0 in Ho. injection Ho as <-. destruct Hs as (_ & _ & _ & _ & _ & _ & _ & Ht).
    rewrite Ht in Eb. unfold dmem in Eb. destruct (dget Nat.eqb b (o_trans so0)); [discriminate|congruence].
Qed.
Lemma lookup_blame t c i B : blame B (lookup t c i).
Proof. unfold lookup. apply bl_get. intros o o0 _ _. apply bl_opt; [discriminate|]. intros d _. apply bl_opt1. discriminate. Qed.
Lemma store_blame t c i a B : blame B (store t c i a).
Proof. unfold store. apply bl_get. intros o o0 _ _. apply bl_put. Qed.
Lemma need_blame o c B : blame B (need_array o c).
Proof. unfold need_array. destruct (is_expr o c); [apply bl_raise; discriminate|apply bl_ret]. Qed.

Lemma base_blame t c i : blame (missing_own w0 t c) (base_transform t c i).
Proof.
  unfold base_transform. apply bl_get. intros o o0 H0 Hs. apply bl_opt; [discriminate|]. intros c0 Hc.
  apply bl_bind; [|apply check_jac_keep; exact Hty|intro_].
  { apply (bl_weak (~ has_rules w0 c0 c)); [|apply check_jac_blame]. intros N. exists c0. split; [|exact N]. exists o0. split; [exact H0|]. destruct Hs as (_ & _ & _ & _ & E & _). congruence. }
  apply bl_bind; [apply lookup_blame|apply lookup_keep; exact Hty|intros a]. apply bl_get. intros co co0 _ _. apply bl_opt; [discriminate|]. intros [[J Ji] C] _. apply bl_opt; [discriminate|]. intros R _.
  apply bl_bind; [apply need_blame|apply need_array_keep|intro_]. apply bl_lift; [apply transform_fine|intros x]. apply store_blame.
Qed.
Lemma chr_blame t c i : blame (missing_own w0 t c) (w_christoffel_transform t c i).
Proof.
  unfold w_christoffel_transform. apply bl_get. intros o o0 H0 Hs. apply bl_opt; [discriminate|]. intros c0 Hc.
  apply bl_bind; [|apply check_jac_keep; exact Hty|intro_].
  { apply (bl_weak (~ has_rules w0 c0 c)); [|apply check_jac_blame]. intros N. exists c0. split; [|exact N]. exists o0. split; [exact H0|]. destruct Hs as (_ & _ & _ & _ & E & _). congruence. }
  apply bl_bind; [apply lookup_blame|apply lookup_keep; exact Hty|intros a]. apply bl_get. intros co co0 _ _. apply bl_opt; [discriminate|]. intros [[J Ji] C] _. apply bl_opt; [discriminate|]. intros R _.
  apply bl_bind; [apply need_blame|apply need_array_keep|intro_]. apply bl_lift; [apply chr_transform_fine|intros x]. apply store_blame.
Qed.
Lemma curve_blame f t c i : (forall p ys J Ji R r i a, fine (f p ys J Ji R r i a)) -> blame (missing_own w0 t c) (w_curve_transform f t c i).
Proof.
  intros Hf. unfold w_curve_transform. apply bl_get. intros o o0 H0 Hs. apply bl_opt; [discriminate|]. intros c0 Hc.
  apply bl_bind; [|apply check_jac_keep; exact Hty|intro_].
  { apply (bl_weak (~ has_rules w0 c0 c)); [|apply check_jac_blame]. intros N. exists c0. split; [|exact N]. exists o0. split; [exact H0|]. destruct Hs as (_ & _ & _ & _ & E & _). congruence. }
  apply bl_bind; [apply lookup_blame|apply lookup_keep; exact Hty|intros a]. apply bl_get. intros co co0 _ _. apply bl_opt; [discriminate|]. intros [[J Ji] C] _. apply bl_opt; [discriminate|]. intros R _.
  apply bl_bind; [apply need_blame|apply need_array_keep|intro_]. apply bl_get. intros no no0 _ _. apply bl_lift; [apply Hf|intros x]. apply store_blame.
Qed.
Lemma metric_blame t c i : notco w0 t -> blame (missing_own w0 t c) (metric_transform t c i).
Proof.
  intros N. unfold metric_transform. apply bl_bind; [apply base_blame|apply base_transform_keep; [exact Hty|exact N]|intro_].
  apply bl_get. intros o o0 _ _. apply bl_opt; [discriminate|]. intros d _. assert (F := fill_fine (o_indices o) i d). destruct (metric_fill _ _ _) as [d' r]. cbn [snd] in F.
  intros w Hw. unfold mbind, put. destruct (nth_error (heap w) t) as [[k ?]|]; [|discriminate]. unfold mlift. cbn [fst]. intros E. destruct (F E).
Qed.
Lemma raise_blame t c i : notco w0 t -> blame (missing_metric w0 t c) (w_raise_lower t c i).
Proof.
  intros N. unfold w_raise_lower. apply bl_get. intros o o0 H0 Hs. apply bl_opt; [discriminate|]. intros m Hm.
  assert (Em : o_metric o0 = Some m) by (destruct Hs as (_ & _ & _ & _ & _ & E & _); congruence).
  assert (Nm : notco w0 m). { destruct (Hty t o0 H0) as [H1 _]. unfold notco. rewrite (H1 m Em). discriminate. }
  apply bl_bind; [unfold metric_check; apply bl_get; intros; apply bl_ret|apply metric_check_keep; exact Hty|intros b].
  apply bl_bind.
  { destruct b; [apply bl_ret|]. apply (bl_weak (missing_own w0 m c)); [|apply metric_blame, Nm]. intros (c0 & L & R). exists m, c0. split; [exists o0; auto|auto]. }
  { destruct b; [apply h_ret; auto|apply metric_transform_keep; [exact Hty|exact Nm]]. }
  intro_. apply bl_get. intros o' o0' _ _. apply bl_opt; [discriminate|]. intros d _. apply bl_opt; [discriminate|]. intros [src a] _.
  apply bl_bind; [apply lookup_blame|apply lookup_keep; exact Hty|intros g]. apply bl_bind; [apply lookup_blame|apply lookup_keep; exact Hty|intros gi].
  apply bl_lift; [apply raise_lower_fine|intros x]. apply store_blame.
Qed.
Lemma tensor_check_blame t c i : notco w0 t -> blame (missing_metric w0 t c) (tensor_check t c i).
Proof.
  intros N. unfold tensor_check. apply bl_get. intros o o0 _ _. destruct (dget _ _ _) as [d|]; [|apply bl_ret]. destruct (dmem _ _ _); [apply bl_ret|].
  apply bl_bind; [apply raise_blame, N|apply raise_lower_keep; [exact Hty|exact N]|intro_; apply bl_ret].
Qed.
Lemma check_blame t c i : blame (missing_metric w0 t c) (check_representation t c i).
Proof.
  intros w Hw. unfold check_representation. destruct (cls_of w t) as [k|] eqn:Ek; [|discriminate].
  assert (N : k <> CCoordinates -> notco w0 t). { intros Hk H. destruct Hw as (_ & _ & Hc & _). rewrite Hc in Ek. congruence. }
  destruct k; [discriminate| |apply tensor_check_blame; [apply N; discriminate|exact Hw]..].
  unfold metric_check, mbind, getobj. destruct (obj_of w t); discriminate.
Qed.
Lemma transform_blame t c i : blame (missing_own w0 t c \/ exists c0, lives_in w0 t c0 /\ missing_metric w0 t c0) (transform_coordinates t c i).
Proof.
  intros w Hw. unfold transform_coordinates. destruct (cls_of w t) as [k|] eqn:Ek; [|discriminate].
  assert (N : k <> CCoordinates -> notco w0 t). { intros Hk H. destruct Hw as (_ & _ & Hc & _). rewrite Hc in Ek. congruence. }
  assert (L : forall B : Prop, B -> B \/ exists c0, lives_in w0 t c0 /\ missing_metric w0 t c0) by (intros B HB; left; exact HB).
  destruct k; [discriminate| | | | |].
  - intros E. apply L. exact (metric_blame t c i (N ltac:(discriminate)) w Hw E).
  - specialize (N ltac:(discriminate)). revert w Hw Ek. enough (H : blame (missing_own w0 t c \/ exists c0, lives_in w0 t c0 /\ missing_metric w0 t c0) (tensor_transform t c i)) by (intros w Hw _; apply H, Hw).
    unfold tensor_transform. apply bl_get. intros o o0 H0 Hs. apply bl_opt; [discriminate|]. intros c0 Hc.
    assert (Lc : lives_in w0 t c0) by (exists o0; destruct Hs as (_ & _ & _ & _ & E & _); split; congruence).
    apply bl_bind; [|apply tensor_check_keep; [exact Hty|exact N]|intros b].
    { apply (bl_weak (missing_metric w0 t c0)); [intros M; right; eauto|apply tensor_check_blame, N]. }
    apply bl_bind; [|destruct b; [apply h_ret; auto|apply raise_lower_keep; [exact Hty|exact N]]|intro_].
    { destruct b; [apply bl_ret|]. apply (bl_weak (missing_metric w0 t c0)); [intros M; right; eauto|apply raise_blame, N]. }
    apply (bl_weak (missing_own w0 t c)); [apply L|apply base_blame].
  - intros E. apply L. exact (chr_blame t c i w Hw E).
  - intros E. apply L. exact (curve_blame lagrangian_transform t c i lag_transform_fine w Hw E).
  - intros E. apply L. exact (curve_blame geodesic_transform t c i geo_transform_fine w Hw E).
Qed.
Lemma rep_blame t c i : blame (missing w0 t c) (get_representation t c i).
Proof.
  unfold get_representation. apply bl_bind; [|apply h_isinstance; auto|intros b].
  { intros w Hw. unfold isinstance. destruct (cls_of w c); discriminate. }
  destruct (negb b); [apply bl_raise; discriminate|]. apply bl_get. intros o o0 _ _. apply bl_lift; [apply validate_fine|intro_].
  apply bl_bind; [|apply check_rep_keep; exact Hty|intros b'].
  { apply (bl_weak (missing_metric w0 t c)); [intros M; right; left; exact M|apply check_blame]. }
  apply bl_bind; [|destruct b'; [apply h_ret; auto|apply transform_coords_keep; exact Hty]|intro_; apply lookup_blame].
  destruct b'; [apply bl_ret|]. eapply bl_weak; [|apply transform_blame]. intros [M|M]; [left; exact M|right; right; exact M].
Qed.

(** Success needs the rules. *)
Definition needs {X} (B : Prop) (m : M X) : Prop := forall w, P w -> forall x w', m w = (Ok x, w') -> B.
Lemma nd_here {X Y} B (m : M X) (k : X -> M Y) : needs B m -> needs B (mbind m k).
Proof. intros H w Hw y w'. unfold mbind. destruct (m w) as [[x|e] w1] eqn:E; [intros _; exact (H w Hw x w1 E)|discriminate]. Qed.
Lemma nd_later {X Y} B (m : M X) (k : X -> M Y) : keeps m -> (forall x, needs B (k x)) -> needs B (mbind m k).
Proof.
  intros H1 H2 w Hw y w'. specialize (H1 w Hw). unfold mbind. destruct (m w) as [[x|e] w1]; [|discriminate]. intros E. exact (H2 x w1 H1 y w' E).
Qed.
Lemma nd_get {Y} B x (k : obj -> M Y) : (forall o o0, obj_of w0 x = Some o0 -> same_attrs o0 o -> needs B (k o)) -> needs B (mbind (getobj x) k).
Proof.
  intros H w Hw. unfold mbind, getobj. destruct (obj_of w x) as [o|] eqn:Ho; [|discriminate].
  destruct (kept_obj_inv _ _ _ _ Hw Ho) as (o0 & Ho0 & Hs & _). apply (H o o0 Ho0 Hs w Hw).
Qed.
Lemma nd_opt {X Y} B e (x : option X) (k : X -> M Y) : (forall y, x = Some y -> needs B (k y)) -> needs B (mbind (mopt e x) k).
Proof. intros H w Hw y w'. unfold mbind. destruct x as [z|]; cbn [mopt mret mraise]; [apply (H z eq_refl w Hw)|discriminate]. Qed.
Definition with_rules (t c : oid) : Prop := exists c0, lives_in w0 t c0 /\ has_rules w0 c0 c.
Lemma found t c o0 o co0 co c0 (R : list rule) : obj_of w0 t = Some o0 -> same_attrs o0 o -> o_coords o = Some c0 -> obj_of w0 c0 = Some co0 -> same_attrs co0 co ->
  dget Nat.eqb c (o_trans co) = Some R -> with_rules t c.
Proof.
  intros H0 (_ & _ & _ & _ & Ec & _) Hc Hco (_ & _ & _ & _ & _ & _ & _ & Et) HR. exists c0. split; [exists o0; split; congruence|]. exists co0. split; [exact Hco|]. rewrite Et in HR. congruence.
Qed.
Lemma base_needs t c i : needs (with_rules t c) (base_transform t c i).
Proof.
  unfold base_transform. apply nd_get. intros o o0 H0 Hs. apply nd_opt. intros c0 Hc. apply nd_later; [apply check_jac_keep, Hty|intro_]. apply nd_later; [apply lookup_keep, Hty|intros a].
  apply nd_get. intros co co0 Hco Hsc. apply nd_opt. intros [[J Ji] C] _. apply nd_opt. intros R HR w Hw x w' _. exact (found t c o0 o co0 co c0 R H0 Hs Hc Hco Hsc HR).
Qed.
Lemma chr_needs t c i : needs (with_rules t c) (w_christoffel_transform t c i).
Proof.
  unfold w_christoffel_transform. apply nd_get. intros o o0 H0 Hs. apply nd_opt. intros c0 Hc. apply nd_later; [apply check_jac_keep, Hty|intro_]. apply nd_later; [apply lookup_keep, Hty|intros a].
  apply nd_get. intros co co0 Hco Hsc. apply nd_opt. intros [[J Ji] C] _. apply nd_opt. intros R HR w Hw x w' _. exact (found t c o0 o co0 co c0 R H0 Hs Hc Hco Hsc HR).
Qed.
Lemma curve_needs f t c i : needs (with_rules t c) (w_curve_transform f t c i).
Proof.
  unfold w_curve_transform. apply nd_get. intros o o0 H0 Hs. apply nd_opt. intros c0 Hc. apply nd_later; [apply check_jac_keep, Hty|intro_]. apply nd_later; [apply lookup_keep, Hty|intros a].
  apply nd_get. intros co co0 Hco Hsc. apply nd_opt. intros [[J Ji] C] _. apply nd_opt. intros R HR w Hw x w' _. exact (found t c o0 o co0 co c0 R H0 Hs Hc Hco Hsc HR).
Qed.
Lemma transform_needs t c i : needs (with_rules t c) (transform_coordinates t c i).
Proof.
  intros w Hw. unfold transform_coordinates. destruct (cls_of w t) as [k|] eqn:Ek; [|discriminate].
  assert (N : k <> CCoordinates -> notco w0 t). { intros Hk H. destruct Hw as (_ & _ & Hc & _). rewrite Hc in Ek. congruence. }
  destruct k; [discriminate| | | | |].
  - exact (nd_here _ _ _ (base_needs t c i) w Hw).
  - specialize (N ltac:(discriminate)). revert w Hw Ek. enough (H : needs (with_rules t c) (tensor_transform t c i)) by (intros w Hw _; apply H, Hw).
    unfold tensor_transform. apply nd_get. intros o o0 H0 Hs. apply nd_opt. intros c0 Hc. apply nd_later; [apply tensor_check_keep; [exact Hty|exact N]|intros b].
    apply nd_later; [destruct b; [apply h_ret; auto|apply raise_lower_keep; [exact Hty|exact N]]|intro_]. apply base_needs.
  - exact (chr_needs t c i w Hw).
  - exact (curve_needs lagrangian_transform t c i w Hw).
  - exact (curve_needs geodesic_transform t c i w Hw).
Qed.
End W0.

Theorem request_missing w t c i w' : typed w -> get_components t (Some c) i w = (Err ETransformation, w') -> missing w t c.
Proof.
  intros Hty E. enough (H : blame w (missing w t c) (get_components t (Some c) i)) by (apply (H w (kept_refl w)); rewrite E; reflexivity).
  unfold get_components. apply bl_get. intros o o0 _ _. intros w1 Hw. exact (rep_blame w Hty t c _ w1 Hw).
Qed.
Theorem indices_missing w t i w' : typed w -> change_default_indices t i w = (Err ETransformation, w') -> exists c, lives_in w t c /\ missing_metric w t c.
Proof.
  intros Hty E. enough (H : blame w (exists c, lives_in w t c /\ missing_metric w t c) (change_default_indices t i)) by (apply (H w (kept_refl w)); rewrite E; reflexivity).
  unfold change_default_indices. apply bl_get. intros o o0 H0 Hs. apply bl_lift; [apply validate_fine|intro_]. apply bl_opt; [discriminate|]. intros c Hc.
  apply bl_bind; [|apply check_rep_keep; exact Hty|intros b].
  { apply (bl_weak w (missing_metric w t c)); [|apply check_blame, Hty]. intros M. exists c. split; [|exact M]. exists o0. destruct Hs as (_ & _ & _ & _ & Ec & _). split; congruence. }
  destruct b; [|apply bl_ret]. apply bl_get. intros o1 o2 _ _. apply bl_put.
Qed.
Theorem coords_missing w t c w' : typed w -> change_default_coords t c w = (Err ETransformation, w') -> missing w t c.
Proof.
  intros Hty E. enough (H : blame w (missing w t c) (change_default_coords t c)) by (apply (H w (kept_refl w)); rewrite E; reflexivity).
  unfold change_default_coords. apply bl_bind; [|apply h_isinstance; auto|intros b].
  { intros w1 Hw. unfold isinstance. destruct (cls_of w1 c); discriminate. }
  destruct (negb b); [apply bl_raise; discriminate|]. apply bl_get. intros o o0 H0 Hs. apply bl_opt; [discriminate|]. intros c0 Hc.
  destruct (c0 =? c); [apply bl_ret|]. apply bl_get. intros co co0 Hco Hsc. destruct (dmem Nat.eqb c (o_trans co)) eqn:Et; cbn [negb].
  - apply bl_bind; [|apply check_rep_keep; exact Hty|intros b'].
    { apply (bl_weak w (missing_metric w t c)); [intros M; right; left; exact M|apply check_blame, Hty]. }
    apply bl_bind; [|destruct b'; [apply h_ret; auto|apply transform_coords_keep; exact Hty]|intro_].
    { destruct b'; [apply bl_ret|]. eapply bl_weak; [|apply transform_blame, Hty]. intros [M|M]; [left; exact M|right; right; exact M]. }
    apply bl_get. intros o1 o2 _ _. apply bl_put.
  - intros w1 _ _. left. exists c0. split; [exists o0; destruct Hs as (_ & _ & _ & _ & Ec & _); split; congruence|]. intros (x & Hx & Hd). rewrite Hco in Hx. injection Hx as <-.
    destruct Hsc as (_ & _ & _ & _ & _ & _ & _ & Ht). rewrite Ht in Et. unfold dmem in Et. destruct (dget Nat.eqb c (o_trans co0)); [discriminate|congruence].
Qed.
(** A metric needs its own rules only. *)
Theorem metric_request_missing w t c i w' : typed w -> cls_of w t = Some CMetric -> get_components t (Some c) i w = (Err ETransformation, w') -> missing_own w t c.
Proof.
  intros Hty Hk E. enough (H : blame w (missing_own w t c) (get_components t (Some c) i)) by (apply (H w (kept_refl w)); rewrite E; reflexivity).
  unfold get_components. apply bl_get. intros o o0 _ _.
  change (blame w (missing_own w t c) (get_representation t c (match i with Some i => i | None => o_indices o end))).
  unfold get_representation. apply bl_bind; [|apply h_isinstance; auto|intros b].
  { intros w1 Hw. unfold isinstance. destruct (cls_of w1 c); discriminate. }
  destruct (negb b); [apply bl_raise; discriminate|]. apply bl_get. intros o' o0' _ _. apply bl_lift; [apply validate_fine|intro_].
  assert (K : forall w1, kept w w1 -> cls_of w1 t = Some CMetric) by (intros w1 (_ & _ & Hc & _); rewrite Hc; exact Hk).
  apply bl_bind; [|apply check_rep_keep; exact Hty|intros b'].
  { intros w1 Hw. unfold check_representation. rewrite (K w1 Hw). unfold metric_check, mbind, getobj. destruct (obj_of w1 t); discriminate. }
  apply bl_bind; [|destruct b'; [apply h_ret; auto|apply transform_coords_keep; exact Hty]|intro_; apply lookup_blame].
  destruct b'; [apply bl_ret|]. intros w1 Hw. unfold transform_coordinates. rewrite (K w1 Hw). apply (metric_blame w Hty t c); [unfold notco; rewrite Hk; discriminate|exact Hw].
Qed.

(** The check of the class comes first: it finds components or none. *)
Lemma check_stored w t c i w' : check_representation t c i w = (Ok true, w') -> stored_in w t c.
Proof.
  unfold check_representation. destruct (cls_of w t) as [k|]; [|discriminate]. destruct k; [discriminate| |..].
  - unfold metric_check, mbind, getobj, mret. destruct (obj_of w t) as [o|] eqn:Ho; [|discriminate]. intros E. injection E as E _. exists o. split; [exact Ho|].
    unfold dmem in E. destruct (dget Nat.eqb c (o_comps o)); [discriminate|discriminate].
  - intros H. unfold tensor_check, mbind at 1, getobj in H. destruct (obj_of w t) as [o|] eqn:Ho; [|discriminate]. exists o. split; [exact Ho|]. destruct (dget Nat.eqb c (o_comps o)); [discriminate|]. unfold mret in H. congruence.
  - intros H. unfold tensor_check, mbind at 1, getobj in H. destruct (obj_of w t) as [o|] eqn:Ho; [|discriminate]. exists o. split; [exact Ho|]. destruct (dget Nat.eqb c (o_comps o)); [discriminate|]. unfold mret in H. congruence.
  - intros H. unfold tensor_check, mbind at 1, getobj in H. destruct (obj_of w t) as [o|] eqn:Ho; [|discriminate]. exists o. split; [exact Ho|]. destruct (dget Nat.eqb c (o_comps o)); [discriminate|]. unfold mret in H. congruence.
  - intros H. unfold tensor_check, mbind at 1, getobj in H. destruct (obj_of w t) as [o|] eqn:Ho; [|discriminate]. exists o. split; [exact Ho|]. destruct (dget Nat.eqb c (o_comps o)); [discriminate|]. unfold mret in H. congruence.
Qed.
Theorem request_found w t c i a w' : typed w -> get_components t (Some c) i w = (Ok a, w') ->
  stored_in w t c \/ exists c0, lives_in w t c0 /\ has_rules w c0 c.
Proof.
  intros Hty E. unfold get_components in E. apply bind_inv in E as (o & w1 & E1 & E). assert (w1 = w) by (unfold getobj in E1; destruct (obj_of w t); congruence). subst w1. clear E1.
  apply bind_inv in E as (k & w2 & E2 & E). unfold mret in E2. assert (k = c /\ w2 = w) as [-> ->] by (split; congruence). clear E2.
  unfold get_representation in E. apply bind_inv in E as (b & w3 & E3 & E). assert (w3 = w). { unfold isinstance in E3. destruct (cls_of w c); unfold mret, mraise in E3; congruence. } subst w3.
  destruct b; cbn [negb] in E; [|discriminate]. apply bind_inv in E as (o1 & w4 & E4 & E). assert (w4 = w) by (unfold getobj in E4; destruct (obj_of w t); congruence). subst w4. clear E4.
  apply bind_inv in E as (u & w5 & E5 & E). assert (w5 = w) by (unfold mlift in E5; congruence). subst w5.
  apply bind_inv in E as (b & w6 & E6 & E). destruct b; [left; exact (check_stored _ _ _ _ _ E6)|right].
  apply bind_inv in E as (v & w7 & E7 & E). apply (transform_needs w Hty t c _ w6) with (2 := E7).
  assert (H := check_rep_keep w Hty t c (match i with Some i => i | None => o_indices o end) w (kept_refl w)). rewrite E6 in H. exact H.
Qed.
End Fine.
