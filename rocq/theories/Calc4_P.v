(** Products with scalars; the theorems about derivatives in the vocabulary of SpecCalc. *)
From Verif Require Import Alg Alg_P Arr Arr_P Spec UtilsM Utils_P Arr2_P TensorM WorldM SpecWorld World_P Registry_P History_P CalcM SpecCalc Keep_P Calc_P Calc2_P Calc3_P RL_P.
Local Open Scope nat_scope.

Section Calc4.
Context {A : AlgOps} {L : AlgLaws A} {D : DiffLaws A}.
Add Ring Kring : kring (setoid keq_equiv kring_ext).

(** *** One of the operands is a scalar *)
Lemma scalar_read w t k o c n a : cls_of w t = Some k -> k <> CCoordinates -> obj_of w t = Some o -> stored_default o c a -> coordinate_system w c n ->
  valid_cfg (o_indices o) -> o_rank o = length (o_indices o) -> o_rank o = 0 -> cubic n a -> rank a = o_rank o ->
  (let! s := get_components t (Some c) None in scalar_of s) w = (Ok (aget a []), w).
Proof.
  intros Hk Nk Ho Hs Hc V Hr H0 [Wa Sa] Ra.
  rewrite (bind_ok _ _ a w w).
  2:{ rewrite (get_default_indices w t o (Some c) Ho). apply (stored_default_get w t k o c a); try assumption; [apply Hc|congruence]. }
  rewrite Ra, H0 in Sa. cbn in Sa. unfold awf in Wa. rewrite Sa in Wa. cbn in Wa. unfold scalar_of, aget. rewrite Sa.
  destruct (data a) as [|x [|y l]]; cbn in Wa; try lia. reflexivity.
Qed.

Lemma matmul_scalar_run w x y t1 o1 t2 o2 k1 k2 m c n a1 a2 :
  typed w -> labelled w x t1 o1 -> labelled w y t2 o2 ->
  cls_of w t1 = Some k1 -> k1 <> CCoordinates -> cls_of w t2 = Some k2 -> k2 <> CCoordinates ->
  o_metric o1 = Some m -> o_metric o2 = Some m -> coordinate_system w c n ->
  stored_default o1 c a1 -> stored_default o2 c a2 ->
  cubic n a1 -> rank a1 = o_rank o1 -> cubic n a2 -> rank a2 = o_rank o2 ->
  o_rank o1 = 0 \/ o_rank o2 = 0 ->
  exists a, matmul0 x y w = (Ok (new_calc w (c_syms x ++ c_syms y)), fresh_world w CTensor (tobj "TEMP" "T" (o_indices o1 ++ o_indices o2) c m a)) /\
    cubic n a /\ rank a = length (o_indices o1 ++ o_indices o2) /\
    forall f, (forall s, In s (c_syms x ++ c_syms y) -> f s < n) ->
      keq (aget a (map f (c_syms x ++ c_syms y))) (kmul (aget a1 (map f (c_syms x))) (aget a2 (map f (c_syms y)))).
Proof.
  intros Hty (Rx & Tx & Ox & Nx & Lx & Kx & Vx) (Ry & Ty & Oy & Ny & Ly & Ky & Vy) C1 N1 C2 N2 M1 M2 Hc S1 S2 Ha1 Hr1 Ha2 Hr2 H0.
  assert (Em : cls_of w m = Some CMetric) by (destruct (Hty t1 o1 Ox) as [H _]; apply H, M1).
  assert (Emul : matmul0 x y w = calc_mul x (OCalc y) w).
  { unfold matmul0. rewrite Rx, Ry. unfold metric_attr. rewrite Tx, Ty.
    rewrite (bind_ok _ _ (Some m) w w) by (rewrite Ox, M1; reflexivity). rewrite (bind_ok _ _ (Some m) w w) by (rewrite Oy, M2; reflexivity).
    cbn [opt_oid_eqb]. rewrite Nat.eqb_refl. cbn [negb].
    rewrite (bind_ok _ _ t1 w w) by (unfold tensor_of; rewrite Tx; reflexivity). rewrite (bind_ok _ _ o1 w w) by (apply getobj_ok, Ox).
    destruct (Nat.eqb_spec (o_rank o1) 0); [reflexivity|].
    rewrite (bind_ok _ _ t2 w w) by (unfold tensor_of; rewrite Ty; reflexivity). rewrite (bind_ok _ _ o2 w w) by (apply getobj_ok, Oy).
    destruct (Nat.eqb_spec (o_rank o2) 0); [reflexivity|]. destruct H0; contradiction. }
  rewrite Emul. clear Emul. unfold calc_mul. rewrite Rx. cbn [is_tensor_role negb].
  rewrite (bind_ok _ _ t2 w w) by (unfold tensor_of; rewrite Ty; reflexivity). rewrite (bind_ok _ _ o2 w w) by (apply getobj_ok, Oy).
  rewrite (bind_ok _ _ t1 w w) by (unfold tensor_of; rewrite Tx; reflexivity). rewrite (bind_ok _ _ o1 w w) by (apply getobj_ok, Ox).
  assert (Eb : (0 <? o_rank o2) && (0 <? o_rank o1) = false).
  { destruct H0 as [-> | ->]; [rewrite andb_false_r|]; reflexivity. }
  rewrite Eb. clear Eb.
  rewrite (proj1 S1), (proj1 S2).
  assert (Hsc1 : o_rank o1 = 0 -> (let! s := get_components t1 (Some c) None in scalar_of s) w = (Ok (aget a1 []), w)) by (intros; eapply scalar_read; eauto).
  assert (Hsc2 : o_rank o2 = 0 -> (let! s := get_components t2 (Some c) None in scalar_of s) w = (Ok (aget a2 []), w)) by (intros; eapply scalar_read; eauto).
  assert (Nil : forall (o : obj) (s : list string), o_rank o = length (o_indices o) -> length s = length (o_indices o) -> o_rank o = 0 -> o_indices o = [] /\ s = []).
  { intros o s E1 E2 E3. split; apply length_zero_iff_nil; congruence. }
  destruct (Nat.eqb_spec (o_rank o2) 0) as [Z2|Z2].
  - (* the right operand is a scalar; this branch comes last and wins *)
    destruct (Nil o2 (c_syms y) Ky Ly Z2) as [I2 Y2].
    assert (Efst : exists r, (if o_rank o1 =? 0
       then let! s := get_components t1 (Some c) None in let! k := scalar_of s in let! a := default_components t2 in let! o := getobj t2 in mret (amap (kmul k) a, o, c_syms y)
       else mret (mkArr [] [], o1, c_syms x)) w = (Ok r, w)).
    { destruct (Nat.eqb_spec (o_rank o1) 0) as [Z1|]; [|eexists; reflexivity].
      specialize (Hsc1 Z1). apply bind_inv in Hsc1 as (s & w1 & E1 & E2). eexists.
      rewrite (bind_ok _ _ _ _ _ E1). rewrite (bind_ok _ _ _ _ _ E2).
      rewrite (bind_ok _ _ a2 w w) by (eapply stored_default_run; eauto). rewrite (bind_ok _ _ o2 w w) by (apply getobj_ok, Oy). reflexivity. }
    destruct Efst as [r0 Efst]. rewrite (bind_ok _ _ _ _ _ Efst).
    specialize (Hsc2 Z2). apply bind_inv in Hsc2 as (s & w1 & E1 & E2).
    rewrite (bind_ok _ _ (amap (kmul (aget a2 [])) a1, o1, c_syms x) w w).
    2:{ rewrite (bind_ok _ _ _ _ _ E1). rewrite (bind_ok _ _ _ _ _ E2).
        rewrite (bind_ok _ _ a1 w w) by (eapply stored_default_run; eauto). rewrite (bind_ok _ _ o1 w w) by (apply getobj_ok, Ox). reflexivity. }
    destruct (amap_values n (kmul (aget a2 [])) a1 Ha1) as (P1 & P2 & P3).
    exists (amap (kmul (aget a2 [])) a1). rewrite I2, Y2, !app_nil_r, M1, (proj1 S1).
    split; [apply (make_calc w "TEMP" _ m c _ "T" n); try assumption; congruence|].
    split; [exact P1|]. split; [congruence|]. intros f Hf. rewrite P3; [cbn [map]; ring|].
    destruct Ha1 as [_ Sa]. rewrite Sa, Hr1, Kx, <- Lx. apply inb_rng. split; [apply map_length|].
    apply Forall_forall. intros q Hq. apply in_map_iff in Hq as (u & <- & Hu). apply Hf, Hu.
  - destruct H0 as [Z1|]; [|contradiction]. destruct (Nil o1 (c_syms x) Kx Lx Z1) as [I1 X1].
    rewrite Z1. cbn [Nat.eqb].
    specialize (Hsc1 Z1). apply bind_inv in Hsc1 as (s & w1 & E1 & E2).
    rewrite (bind_ok _ _ (amap (kmul (aget a1 [])) a2, o2, c_syms y) w w).
    2:{ rewrite (bind_ok _ _ _ _ _ E1). rewrite (bind_ok _ _ _ _ _ E2).
        rewrite (bind_ok _ _ a2 w w) by (eapply stored_default_run; eauto). rewrite (bind_ok _ _ o2 w w) by (apply getobj_ok, Oy). reflexivity. }
    rewrite (bind_ok _ _ (amap (kmul (aget a1 [])) a2, o2, c_syms y) w w) by reflexivity.
    destruct (amap_values n (kmul (aget a1 [])) a2 Ha2) as (P1 & P2 & P3).
    exists (amap (kmul (aget a1 [])) a2). rewrite I1, X1, M2, (proj1 S2). cbn [app].
    split; [apply (make_calc w "TEMP" _ m c _ "T" n); try assumption; congruence|].
    split; [exact P1|]. split; [congruence|]. intros f Hf. rewrite P3; [cbn [map]; ring|].
    destruct Ha2 as [_ Sa]. rewrite Sa, Hr2, Ky, <- Ly. apply inb_rng. split; [apply map_length|].
    apply Forall_forall. intros q Hq. apply in_map_iff in Hq as (u & <- & Hu). apply Hf, Hu.
Qed.

Theorem matmul_scalar_values w x y t1 o1 t2 o2 k1 k2 m c n a1 a2 :
  typed w -> labelled w x t1 o1 -> labelled w y t2 o2 ->
  cls_of w t1 = Some k1 -> k1 <> CCoordinates -> cls_of w t2 = Some k2 -> k2 <> CCoordinates ->
  o_metric o1 = Some m -> o_metric o2 = Some m -> coordinate_system w c n ->
  stored_default o1 c a1 -> stored_default o2 c a2 ->
  cubic n a1 -> rank a1 = o_rank o1 -> cubic n a2 -> rank a2 = o_rank o2 ->
  o_rank o1 = 0 \/ o_rank o2 = 0 ->
  exists z w' a, matmul x y w = (Ok z, w') /\
    result_is w' z (c_syms x ++ c_syms y) m c (o_indices o1 ++ o_indices o2) a /\ cubic n a /\
    forall f, (forall s, In s (c_syms x ++ c_syms y) -> f s < n) ->
      keq (aget a (map f (c_syms x ++ c_syms y))) (kmul (aget a1 (map f (c_syms x))) (aget a2 (map f (c_syms y)))).
Proof.
  intros Hty Hx Hy C1 N1 C2 N2 M1 M2 Hc S1 S2 Ha1 Hr1 Ha2 Hr2 H0.
  destruct (matmul_scalar_run w x y t1 o1 t2 o2 k1 k2 m c n a1 a2) as (a & E & P1 & _ & P2); try assumption.
  eexists _, _, a. split; [|split; [apply result_new|split; [exact P1|exact P2]]].
  unfold matmul, matmul_with. destruct Hx as (Rx & _), Hy as (Ry & _). rewrite Rx, Ry. exact E.
Qed.

(** *** Derivatives *)
Theorem gradient_values w a y t o m c n oc b w1 :
  typed w -> labelled w y t o -> 1 <= n -> ~ In a (c_syms y) ->
  o_metric o = Some m -> o_coords o = Some c -> coordinate_system w c n -> obj_of w c = Some oc -> length (o_syms oc) = n ->
  get_components t (Some c) (Some (o_indices o)) w = (Ok b, w1) -> cubic n b -> rank b = o_rank o ->
  exists d z w' r, PartialD [a] w = (Ok d, w) /\ matmul d y w = (Ok z, w') /\
    result_is w' z (a :: c_syms y) m c (-1 :: o_indices o)%Z r /\ cubic n r /\
    forall f, (forall s, In s (a :: c_syms y) -> f s < n) ->
      keq (aget r (map f (a :: c_syms y))) (kdiff (nth (f a) (o_syms oc) ""%string) (aget b (map f (c_syms y)))).
Proof.
  intros. destruct (gradient_run w a y t o m c n oc b w1) as (r & E & P1 & _ & P2); try assumption.
  exists (mkCalc None [a] RPartial). eexists _, _, r. split; [reflexivity|]. split; [exact E|]. split; [apply result_new|]. auto.
Qed.

Theorem divergence_values w a y t o m c n oc p b w1 :
  typed w -> labelled w y t o -> 1 <= n -> nth_error (c_syms y) p = Some a -> p <= 1 ->
  o_metric o = Some m -> o_coords o = Some c -> coordinate_system w c n -> obj_of w c = Some oc -> length (o_syms oc) = n ->
  get_components t (Some c) (Some (set_nth p 1%Z (o_indices o))) w = (Ok b, w1) -> cubic n b -> rank b = o_rank o ->
  exists d z w' r, PartialD [a] w = (Ok d, w) /\ matmul d y w = (Ok z, w') /\
    result_is w' z (without (c_syms y) [a]) m c (indices_without (c_syms y) (o_indices o) [a]) r /\ cubic n r /\
    forall f, (forall s, In s (without (c_syms y) [a]) -> f s < n) ->
      keq (aget r (map f (without (c_syms y) [a])))
          (nsum n (fun k => kdiff (nth k (o_syms oc) ""%string) (aget b (map (assign [a] [k] f) (c_syms y))))).
Proof.
  intros. destruct (divergence_run w a y t o m c n oc p b w1) as (r & E & P1 & _ & P2); try assumption.
  exists (mkCalc None [a] RPartial). eexists _, _, r. split; [reflexivity|]. split; [exact E|]. split; [apply result_new|]. auto.
Qed.
End Calc4.
