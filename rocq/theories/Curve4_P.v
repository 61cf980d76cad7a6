(** Components with replacements, as arrays and as equations. *)
From Coq Require Import String Permutation.
From Verif Require Import Alg Alg_P Arr Arr_P Arr2_P UtilsM Utils_P Spec Act_P TensorM RL_P Jac_P Tensor_P Jacobian_P Chr_P Subs_P Geod4_P CurveM SpecCurve Curve_P Curve2_P Curve3_P.
Import List.
Local Open Scope K_scope.

Section Arrays.
Context {A : AlgOps} {L : AlgLaws A} {DL : DiffLaws A} {SL : SubsLaws A} {YL : SymLaws A} {VL : SelfLaws A}.
Add Ring Kring : kring (setoid keq_equiv kring_ext).

Lemma amap_pointwise f h a : awf a -> (forall e, f e == h e) -> pointwise h a (amap f a).
Proof. intros W E. split; [apply awf_amap, W|]. split; [reflexivity|]. intros idx Hi. rewrite aget_amap by assumption. apply E. Qed.

(** *** Tensors *)
Lemma plain_simultaneous r e : plain_replacement r -> replace_symbols r e == subs_seq r e /\
  forall fresh, fresh_for r fresh e -> replace_symbols r e == subs_sim r fresh e.
Proof.
  intros [ND F].
  assert (E : replace_symbols r e == subs_seq r e).
  { set (N0 := {| ksubn := fun _ _ e => e |} : NumSubs A).
    assert (NL0 : NumSubsLaws A N0) by (constructor; intros; reflexivity).
    exact (replace_symbols_seq r e ND F). }
  split; [exact E|]. intros fresh Hf. rewrite E. apply subs_seq_simultaneous; [|exact ND|exact Hf].
  assert (G : forall l, incl l r -> no_later l).
  { induction l as [|[k v] l IH]; intros I; cbn; [exact Logic.I|]. split; [|apply IH; intros z Hz; apply I; right; exact Hz].
    apply Forall_forall. intros [k' v'] H' q. cbn [fst snd]. apply (F k v k'); [apply I; left; reflexivity|]. apply (in_map fst _ (k', v')). apply I. right. exact H'. }
  apply G. intros z Hz. exact Hz.
Qed.
Theorem replaced_components w t coords idx a w1 r : get_components t coords idx w = (Ok a, w1) -> awf a -> plain_replacement r ->
  exists b, get_components_replaced r t coords idx w = (Ok b, w1) /\ pointwise (subs_seq r) a b /\
    forall fresh, (forall i, inb (shape a) i = true -> fresh_for r fresh (aget a i)) -> pointwise (subs_sim r fresh) a b.
Proof.
  intros Hg W P. exists (amap (replace_symbols r) a). split; [unfold get_components_replaced, mbind; rewrite Hg; reflexivity|].
  split; [apply amap_pointwise; [exact W|]; intros e; apply (plain_simultaneous r e P)|].
  intros fresh Hf. split; [apply awf_amap, W|]. split; [reflexivity|]. intros i Hi. rewrite aget_amap by assumption. apply (plain_simultaneous r _ P), Hf, Hi.
Qed.

Context {N : NumSubs A} {NL : NumSubsLaws A N}.

(** *** Curves *)
Lemma curve_run w t o coords c idx (a : arr) w1 oc (time : bool) param p (r : option (list (string * K))) :
  obj_of w t = Some o -> asked_coords o coords c -> get_components t coords idx w = (Ok a, w1) -> obj_of w1 c = Some oc ->
  (if time then hd_error (o_syms oc) = Some p else param = p) ->
  get_curve_components time param r t coords idx w =
    (Ok (amap (value_function p (o_syms oc))
      match r with None => a | Some r => let a := amap (replace_curve p (o_syms oc) r) a in
        if time then amap (fun e => ksub1 (dot p) k1 (ksub1 (ddot p) k0 e)) a else a end), w1).
Proof.
  intros Ho Hc Hg Hoc Hp. unfold get_curve_components, getobj, mbind.
  destruct (obj_of w t) as [o'|]; [|discriminate Ho]. injection Ho as ->. cbn.
  assert (Ec : match coords with Some c => mret c | None => mopt EAttributeError (o_coords o) end w = (Ok c, w)).
  { destruct Hc as [->|[-> ->]]; reflexivity. }
  rewrite Ec, Hg. destruct (obj_of w1 c) as [oc'|]; [|discriminate Hoc]. injection Hoc as ->. cbn.
  destruct time; [rewrite Hp; reflexivity|]. rewrite Hp. reflexivity.
Qed.

Theorem curve_functions w t o coords c idx a w1 oc (time : bool) param p :
  obj_of w t = Some o -> asked_coords o coords c -> get_components t coords idx w = (Ok a, w1) -> obj_of w1 c = Some oc -> awf a ->
  (if time then hd_error (o_syms oc) = Some p else param = p) -> clear_names p (o_syms oc) ->
  exists b, get_curve_components time param None t coords idx w = (Ok b, w1) /\ pointwise (as_functions p (o_syms oc)) a b.
Proof.
  intros Ho Hc Hg Hoc W Hp C. rewrite (curve_run w t o coords c idx a w1 oc time param p None Ho Hc Hg Hoc Hp). cbv zeta.
  eexists. split; [reflexivity|]. apply amap_pointwise; [exact W|]. intros e. apply function_as_functions, C.
Qed.

Theorem curve_replaced w t o coords c idx a w1 oc param r :
  obj_of w t = Some o -> asked_coords o coords c -> get_components t coords idx w = (Ok a, w1) -> obj_of w1 c = Some oc -> awf a ->
  clear_names param (o_syms oc) -> good_replacement param (o_syms oc) r ->
  exists b, get_curve_components false param (Some r) t coords idx w = (Ok b, w1) /\
    pointwise (fun e => as_functions param (o_syms oc) (replaced param (o_syms oc) r e)) a b.
Proof.
  intros Ho Hc Hg Hoc W C G. rewrite (curve_run w t o coords c idx a w1 oc false param param (Some r) Ho Hc Hg Hoc eq_refl). cbv zeta.
  eexists. split; [reflexivity|]. split; [repeat apply awf_amap; exact W|]. split; [reflexivity|]. intros i Hi.
  rewrite !aget_amap; try assumption; [|apply awf_amap, W].
  rewrite (function_as_functions param _ C). apply (hom_proper _ (hom_subs_seq _)). apply replace_curve_replaced; assumption.
Qed.
Theorem time_curve_replaced w t o coords c idx a w1 oc p param r :
  obj_of w t = Some o -> asked_coords o coords c -> get_components t coords idx w = (Ok a, w1) -> obj_of w1 c = Some oc -> awf a ->
  hd_error (o_syms oc) = Some p -> clear_names p (o_syms oc) -> good_replacement p (o_syms oc) r ->
  exists b, get_curve_components true param (Some r) t coords idx w = (Ok b, w1) /\
    pointwise (fun e => as_functions p (o_syms oc) (at_parameter p (replaced p (o_syms oc) r e))) a b.
Proof.
  intros Ho Hc Hg Hoc W Hp C G. rewrite (curve_run w t o coords c idx a w1 oc true param p (Some r) Ho Hc Hg Hoc Hp). cbv zeta.
  eexists. split; [reflexivity|]. split; [repeat apply awf_amap; exact W|]. split; [reflexivity|]. intros i Hi.
  rewrite !aget_amap; try assumption; try (repeat apply awf_amap; exact W).
  rewrite (function_as_functions p _ C). apply (hom_proper _ (hom_subs_seq _)). unfold at_parameter.
  apply ksub1_proper; [reflexivity|]. apply ksub1_proper; [reflexivity|]. apply replace_curve_replaced; assumption.
Qed.

Theorem functions_inverse p xs e : clear_names p xs -> no_functions p xs e -> from_functions p xs (as_functions p xs e) == e.
Proof.
  intros C F. apply (functions_back p xs C). intros s Hs. apply F. apply in_functions. exists s, 0%nat. split; [exact Hs|]. split; [lia|reflexivity].
Qed.

(** *** The equations on a restricted curve *)
Lemma subs_seq_at R s v : NoDup (map fst R) -> separate R -> In (s, v) R -> subs_seq R (ksym s) == v.
Proof.
  intros ND Sp H. destruct (in_split _ _ H) as (X1 & X2 & E). rewrite E. rewrite E, map_app in ND. cbn [map fst] in ND.
  rewrite subs_seq_sym_at.
  - apply subs_seq_free. intros x Hx. apply (Sp (s, v) x H). rewrite E, map_app. apply in_or_app. right. right. exact Hx.
  - intros Z. apply NoDup_remove_2 in ND. apply ND, in_or_app. left. exact Z.
Qed.

Section Equations.
Variables (p : string) (xs : list string) (r : list (string * K)).
Hypotheses (C : clear_names p xs) (G : good_replacement p xs r) (P : ~ In p xs).

Lemma movers_all : movers p xs = xs.
Proof.
  unfold movers. clear -P. induction xs as [|x l IH]; [reflexivity|]. cbn. destruct (String.eqb_spec x p) as [->|NE]; [destruct P; left; reflexivity|].
  cbn. f_equal. apply IH. intros Z. apply P. right. exact Z.
Qed.
Lemma value_of_in x v : value_of r x = Some v -> In (x, v) r.
Proof.
  unfold value_of. intros E. destruct (find _ r) as [[k u]|] eqn:F; [|discriminate E]. cbn in E. injection E as ->. apply find_some in F as [H E].
  cbn in E. apply String.eqb_eq in E. subst k. exact H.
Qed.
Lemma value_of_none x : value_of r x = None -> ~ In x (map fst r).
Proof.
  unfold value_of. intros E Z. destruct (find _ r) as [[k u]|] eqn:F; [discriminate E|]. apply in_map_iff in Z as ([k u] & <- & H).
  assert (X := find_none _ _ F _ H). cbn in X. rewrite String.eqb_refl in X. discriminate X.
Qed.

Lemma replaced_velocity x : In x xs -> replaced p xs r (velocity x) == new_velocity p xs r x.
Proof.
  intros Hx. assert (M : In x (movers p xs)) by (rewrite movers_all; exact Hx). rewrite <- (goal_replaced p xs C r G). unfold new_velocity, velocity. destruct (value_of r x) as [v|] eqn:E.
  - apply value_of_in in E. apply subs_seq_at; [apply goal_nodup; assumption|apply goal_separate; assumption|].
    unfold goal_rules. apply in_or_app. right. apply in_or_app. left. apply in_flat_map. exists (x, v). split; [exact E|]. unfold part1. cbn [fst snd].
    apply mov_spec in M. rewrite M. left. reflexivity.
  - apply value_of_none in E. apply subs_seq_sym_other. intros Z. destruct (goal_keys p xs r _ Z) as (k & Hk & [<-|[Mk [Ek|Ek]]]).
    + destruct (key_not_dot p xs C r G _ x Hk M) as [NE _]. apply NE. reflexivity.
    + apply E. apply (dot_inj x k) in Ek. subst k. exact Hk.
    + exact (dot_ddot p xs C x k M Mk Ek).
Qed.
Lemma replaced_acceleration x : In x xs -> replaced p xs r (acceleration x) == new_acceleration p xs r x.
Proof.
  intros Hx. assert (M : In x (movers p xs)) by (rewrite movers_all; exact Hx). rewrite <- (goal_replaced p xs C r G). unfold new_acceleration, acceleration. destruct (value_of r x) as [v|] eqn:E.
  - apply value_of_in in E. apply subs_seq_at; [apply goal_nodup; assumption|apply goal_separate; assumption|].
    unfold goal_rules. apply in_or_app. right. apply in_or_app. right. apply in_flat_map. exists (x, v). split; [exact E|]. unfold part2. cbn [fst snd].
    apply mov_spec in M. rewrite M. left. reflexivity.
  - apply value_of_none in E. apply subs_seq_sym_other. intros Z. destruct (goal_keys p xs r _ Z) as (k & Hk & [<-|[Mk [Ek|Ek]]]).
    + destruct (key_not_dot p xs C r G _ x Hk M) as [_ NE]. apply NE. reflexivity.
    + exact (dot_ddot p xs C k x Mk M (eq_sym Ek)).
    + apply E. apply (ddot_inj x k) in Ek. subst k. exact Hk.
Qed.

Let s := replaced p xs r.
Lemma hom_replaced : hom s. Proof. apply hom_subs_seq. Qed.

Theorem replaced_lagrangian n g : length xs = n ->
  replaced p xs r (lagrangian_of n g (fun k => velocity (nth k xs ""%string))) ==
  lagrangian_of n (fun i j => replaced p xs r (g i j)) (fun k => new_velocity p xs r (nth k xs ""%string)).
Proof.
  intros Hn. unfold lagrangian_of. fold s. rewrite (hom_nsum s _ _ hom_replaced). apply nsum_ext. intros i Hi.
  rewrite (hom_nsum s _ _ hom_replaced). apply nsum_ext. intros j Hj. rewrite !(hom_mul _ hom_replaced). unfold s.
  rewrite !replaced_velocity by (apply nth_In; lia). reflexivity.
Qed.
Theorem replaced_geodesic n Gm k : length xs = n -> k < n ->
  replaced p xs r (geodesic_of n Gm (fun k => velocity (nth k xs ""%string)) (fun k => acceleration (nth k xs ""%string)) k) ==
  geodesic_of n (fun k i j => replaced p xs r (Gm k i j)) (fun k => new_velocity p xs r (nth k xs ""%string)) (fun k => new_acceleration p xs r (nth k xs ""%string)) k.
Proof.
  intros Hn Hk. unfold geodesic_of. fold s. rewrite (hom_add _ hom_replaced). rewrite (hom_nsum s _ _ hom_replaced). unfold s at 1. rewrite replaced_acceleration by (apply nth_In; lia).
  apply kadd_proper; [reflexivity|]. apply nsum_ext. intros i Hi.
  rewrite (hom_nsum s _ _ hom_replaced). apply nsum_ext. intros j Hj. rewrite !(hom_mul _ hom_replaced). unfold s.
  rewrite !replaced_velocity by (apply nth_In; lia). reflexivity.
Qed.
End Equations.

(** *** Velocities and accelerations given in a replacement *)
Section Ignored.
Variables (p : string) (xs : list string) (r : list (string * K)).
Hypotheses (C : clear_names p xs)
  (keys : forall k, In k (map fst r) -> exists x, In x (along_curve p xs) /\ (k = (x ++ "dot")%string \/ k = (x ++ "ddot")%string)).

Lemma ignored_key k : In k (map fst r) -> In k (curve_symbols p xs) /\ existsb (String.eqb k) (movers p xs) = false /\ key_function p xs k = KFun k 0.
Proof.
  intros H. destruct (keys k H) as (x & Hx & E).
  assert (S : In k (curve_symbols p xs)) by (destruct E as [->| ->]; [apply ss_dot|apply ss_ddot]; exact Hx).
  split; [exact S|]. split.
  - apply Bool.not_true_iff_false. intros Z. apply existsb_exists in Z as (y & Hy & Ey). apply String.eqb_eq in Ey. subst y.
    destruct E as [E|E]; [exact (ms_dot p xs C k x Hy Hx E)|exact (ms_ddot p xs C k x Hy Hx E)].
  - unfold key_function. assert (Z : existsb (String.eqb k) (moving_symbols p xs) = true); [|rewrite Z; reflexivity].
    apply existsb_exists. exists k. split; [apply (in_moving p xs C), S|apply String.eqb_refl].
Qed.

Theorem velocities_ignored e : no_functions p xs e -> replace_curve p xs r e == e.
Proof.
  intros F. unfold replace_curve.
  assert (K : forall k v, In (k, v) (sort_keys (replacements p xs r)) -> exists s n, k = KFun s n /\ In s (curve_symbols p xs) /\ n < 3).
  { intros k v H. apply (Permutation_in _ (sort_keys_perm _)) in H. unfold replacements in H. apply dict_in in H.
    apply in_app_or in H as [H|H]; [|apply in_app_or in H as [H|H]]; apply in_map_iff in H as ([k0 u] & E & H); cbn [fst snd] in E; injection E as <- _;
      destruct (ignored_key k0 (in_map fst _ _ H)) as (S & M & ->); cbn [key_diff key_inverse]; rewrite M;
      [exists k0, 0%nat|exists k0, 1%nat|exists k0, 2%nat]; (split; [reflexivity|]); (split; [exact S|lia]). }
  revert K. generalize (sort_keys (replacements p xs r)) as D. induction D as [|[k v] D IH]; intros K; [reflexivity|]. cbn [fold_left].
  destruct (K k v (or_introl eq_refl)) as (s & n & -> & Hs & Hn). unfold subst_key at 2. cbn [fst snd].
  assert (E : ksub1 (fvar p s n) v e == e) by (apply F, in_functions; exists s, n; split; [exact Hs|]; split; [exact Hn|reflexivity]).
  rewrite <- IH at 2 by (intros k' v' H'; apply (K k' v'); right; exact H').
  assert (Pr : forall D, (forall k v, In (k, v) D -> exists s n, k = KFun s n /\ In s (curve_symbols p xs) /\ n < 3) ->
    forall a b, a == b -> fold_left (subst_key p) D a == fold_left (subst_key p) D b).
  { clear -L SL. induction D as [|[k v] D IH]; intros K a b E; [exact E|]. cbn [fold_left]. apply IH; [intros k' v' H'; apply (K k' v'); right; exact H'|].
    destruct (K k v (or_introl eq_refl)) as (s & n & -> & _). unfold subst_key. cbn [fst snd]. apply ksub1_proper; [reflexivity|exact E]. }
  apply Pr; [intros k' v' H'; apply (K k' v'); right; exact H'|exact E].
Qed.
End Ignored.

Theorem velocities_ignored_components w t o coords c idx a w1 oc param r :
  obj_of w t = Some o -> asked_coords o coords c -> get_components t coords idx w = (Ok a, w1) -> obj_of w1 c = Some oc -> awf a ->
  clear_names param (o_syms oc) ->
  (forall k, In k (map fst r) -> exists x, In x (along_curve param (o_syms oc)) /\ (k = (x ++ "dot")%string \/ k = (x ++ "ddot")%string)) ->
  (forall i, inb (shape a) i = true -> no_functions param (o_syms oc) (aget a i)) ->
  exists b b', get_curve_components false param (Some r) t coords idx w = (Ok b, w1) /\
    get_curve_components false param None t coords idx w = (Ok b', w1) /\ shape b = shape b' /\
    forall i, inb (shape a) i = true -> aget b i == aget b' i.
Proof.
  intros Ho Hc Hg Hoc W C Hk F. rewrite !(curve_run w t o coords c idx a w1 oc false param param _ Ho Hc Hg Hoc eq_refl). cbv zeta.
  eexists. eexists. split; [reflexivity|]. split; [reflexivity|]. split; [reflexivity|]. intros i Hi.
  rewrite !aget_amap; try assumption; try (repeat apply awf_amap; exact W).
  apply (hom_proper _ (hom_subs_seq _)). apply velocities_ignored; [exact C|exact Hk|apply F, Hi].
Qed.
End Arrays.
