(** Line elements and volume elements. *)
From Verif Require Import Alg Alg_P Arr Arr_P Spec UtilsM Arr2_P Act_P TensorM RL_P Jac_P Tensor_P Jacobian_P WorldM SpecWorld World_P Registry_P Geo_P History_P Calc_P LineM SpecLine Det_P.
Local Open Scope nat_scope.

Section Line.
Context {A : AlgOps} {L : AlgLaws A} {DL : DiffLaws A} {SL : SubsLaws A} {IL : InvLaws A}.
Add Ring KringLine : kring (setoid keq_equiv kring_ext).
Variable g : geometry.
Hypothesis HC : consistent g.
Variable m : oid.
Notation n := (g_n g).

Definition paired {X Y} (x : X) (r : res Y) : res (X * Y) := match r with Ok y => Ok (x, y) | Err e => Err e end.
Lemma down_cfg : valid_cfg [-1; -1]%Z.
Proof. constructor; [right; reflexivity|]. constructor; [right; reflexivity|constructor]. Qed.
Lemma display_get w c : metric_represents g m w ->
  display_components m (Some c) w = (paired c (fst (get_components m (Some c) (Some [-1; -1]%Z) w)), snd (get_components m (Some c) (Some [-1; -1]%Z) w)).
Proof.
  intros (_ & Cm & (o & Ho & Om) & _). unfold display_components, get_components, get_representation.
  assert (V : validate_indices (VTuple [-1; -1]%Z) None (Some (length (o_indices o))) = Ok tt).
  { destruct (validate_indices_spec (VTuple [-1; -1]%Z) None (Some (length (o_indices o)))) as (_ & H & _). apply (H _ eq_refl).
    split; [apply down_cfg|]. split; [discriminate|]. intros k E. injection E as <-. destruct Om as (_ & [-> | ->] & _); reflexivity. }
  unfold mbind, isinstance, mlift, getobj, mret, mraise. rewrite Ho.
  destruct (match cls_of w c with Some c0 => cls_eqb CCoordinates c0 | None => false end) eqn:Ec; cbn [negb]; [|reflexivity].
  rewrite Ho, V. unfold check_representation. rewrite Cm. unfold metric_check, mbind, getobj. rewrite Ho. unfold mret.
  destruct (dmem Nat.eqb c (o_comps o)).
  - destruct (lookup m c [-1; -1]%Z w) as [[a|e] w']; reflexivity.
  - unfold transform_coordinates. rewrite Cm. destruct (metric_transform m c [-1; -1]%Z w) as [[u|e] w']; [|reflexivity].
    destruct (lookup m c [-1; -1]%Z w') as [[a|e] w'']; reflexivity.
Qed.
Lemma display_default w c : metric_represents g m w -> option_map o_coords (obj_of w m) = Some (Some c) ->
  display_components m None w = display_components m (Some c) w.
Proof.
  intros (Ty & _ & (o & Ho & _) & _) E. rewrite Ho in E. cbn in E. injection E as E. destruct (Ty m o Ho) as [_ T].
  unfold display_components, mbind, isinstance, mret, getobj. rewrite (T c E). cbv beta iota delta [negb cls_eqb]. rewrite Ho, E. reflexivity.
Qed.

Lemma used_some w oc : metric_represents g m w -> exists c, shown_in w m oc c.
Proof. intros (_ & _ & (o & Ho & (_ & _ & (c & Hc & _) & _)) & _). destruct oc as [c'|]; [exists c'; left; reflexivity|]. exists c. right. eauto. Qed.
Lemma display_used w oc c : metric_represents g m w -> shown_in w m oc c -> display_components m oc w = display_components m (Some c) w.
Proof. intros R [-> | [-> (o & Ho & Hc)]]; [reflexivity|]. apply display_default; [assumption|]. rewrite Ho. cbn. rewrite Hc. reflexivity. Qed.

Lemma after_snoc ops o (w : world) : after (ops ++ [o]) w = snd (run_op o (after ops w)).
Proof. unfold after. rewrite fold_left_app. reflexivity. Qed.
Lemma display_value ops w c : metric_represents g m w -> Forall (history_op m) ops ->
  forall r w', display_components m (Some c) (after ops w) = (r, w') ->
  metric_represents g m w' /\
  forall c' a, r = Ok (c', a) -> c' = c /\ g_sys g c /\ square n a /\ meq n (mfun a) (g_G g c).
Proof.
  intros R Hops r w' E. destruct (metric_history_sound g m w ops HC R Hops) as (R1 & V).
  rewrite (display_get _ c R1) in E. injection E as Er Ew.
  destruct (metric_history_sound g m w (ops ++ [OpGet m (Some c) (Some [-1; -1]%Z)]) HC R) as (R2 & V2).
  { apply Forall_app. split; [exact Hops|]. constructor; [exact I|constructor]. }
  rewrite after_snoc in R2, V2. assert (W : snd (run_op (OpGet m (Some c) (Some [-1; -1]%Z)) (after ops w)) = w').
  { rewrite <- Ew. cbn [run_op]. unfold mbind. destruct (get_components m (Some c) (Some [-1; -1]%Z) (after ops w)) as [[x|e] w1]; reflexivity. }
  rewrite W in R2. split; [exact R2|]. intros c' a Ea. subst r. destruct (get_components m (Some c) (Some [-1; -1]%Z) (after ops w)) as [[x|e] w1] eqn:G; [|discriminate].
  cbn [fst paired] in Ea. injection Ea as <- <-. split; [reflexivity|].
  apply V in G as [S G]. split; [exact S|]. apply (metric_holds g HC c [-1; -1]%Z x S down_cfg eq_refl) in G. exact G.
Qed.

Lemma fold_sum {X} (f : X -> K) : forall l a, keq (fold_left (fun acc x => kadd acc (f x)) l a) (kadd a (lsum l f)).
Proof. induction l as [|x l IH]; intros a; cbn [fold_left lsum]; [ring|]. rewrite IH. ring. Qed.
Lemma sum_pairs {X Y} (l : list X) (l' : list Y) (f : X * Y -> K) : keq (lsum (list_prod l l') f) (lsum l (fun x => lsum l' (fun y => f (x, y)))).
Proof. induction l as [|x l IH]; cbn [list_prod lsum]; [reflexivity|]. rewrite lsum_app, lsum_map, IH. reflexivity. Qed.

Theorem line_value ops w oc : metric_represents g m w -> Forall (history_op m) ops ->
  exists c, shown_in (after ops w) m oc c /\
  (forall e w', line_element m oc (after ops w) = (Ok e, w') ->
     keq (fst e) (kmul (ksym "ds") (ksym "ds")) /\
     keq (snd e) (quadratic n (g_G g c) (fun i => differential (nth i (g_syms g c) ""%string)))) /\
  (forall r w', line_element m oc (after ops w) = (r, w') -> metric_represents g m w') /\
  (forall a w', get_components m (Some c) (Some [-1; -1]%Z) (after ops w) = (Ok a, w') -> exists e, line_element m oc (after ops w) = (Ok e, w')).
Proof.
  intros R Hops. destruct (metric_history_sound g m w ops HC R Hops) as (R1 & _). destruct (used_some _ oc R1) as (c & U). exists c. split; [exact U|].
  destruct (display_components m (Some c) (after ops w)) as [r w1] eqn:D. destruct (display_value ops w c R Hops r w1 D) as (R2 & V).
  assert (E0 : forall {Y} (k : oid * arr -> M Y), mbind (display_components m oc) k (after ops w) = match r with Ok x => k x w1 | Err e => (Err e, w1) end).
  { intros Y k. unfold mbind. rewrite (display_used _ oc c R1 U), D. destruct r; reflexivity. }
  unfold line_element. setoid_rewrite E0. rewrite (display_get _ c R1) in D. injection D as Dr Dw.
  destruct r as [[c' a]|e].
  2:{ split; [discriminate|]. split; [intros r w' E; injection E as <- <-; exact R2|]. intros a w' E. rewrite E in Dr. discriminate. }
  destruct (V c' a eq_refl) as (-> & S & Sq & Ma). pose proof R2 as (_ & _ & _ & HS). destruct (HS c S) as (_ & co & Hco & (Sy & _)).
  assert (Ls : length (g_syms g c) = n) by (apply HC, S). destruct Sq as [Wa Sa].
  unfold mbind, getobj. rewrite Hco, Sa. cbn [nth]. rewrite map_length, Sy, Ls, Nat.ltb_irrefl. cbn [orb]. unfold mret.
  split; [|split].
  - intros e w' E. injection E as <- <-. cbn [fst snd]. split; [reflexivity|]. rewrite fold_sum, sum_pairs. unfold quadratic, nsum.
    assert (Z : forall x : K, keq (kadd k0 x) x) by (intros; ring). rewrite Z.
    apply lsum_ext. intros i Hi. apply lsum_ext. intros j Hj. apply in_seq in Hi, Hj. cbn [fst snd]. rewrite (Ma i j ltac:(lia) ltac:(lia) : keq (aget a [i; j]) _).
    assert (N : forall k, k < n -> nth k (map (fun s => ksym ("d" ++ s)%string) (g_syms g c)) k0 = differential (nth k (g_syms g c) ""%string)).
    { intros k Hk. rewrite (nth_indep _ k0 (ksym ("d" ++ "")%string)) by (rewrite map_length; lia). apply (map_nth (fun s => ksym ("d" ++ s)%string)). }
    rewrite !N by lia. ring.
  - intros r w' E. injection E as <- <-. exact R2.
  - intros x w' E. rewrite E in Dr, Dw. cbn [fst snd paired] in Dr, Dw. rewrite <- Dw. eexists. reflexivity.
Qed.

Theorem volume_value ops w oc : metric_represents g m w -> Forall (history_op m) ops ->
  exists c, shown_in (after ops w) m oc c /\
  (forall v w', volume_element m oc (after ops w) = (Ok v, w') -> keq v (determinant n (g_G g c))) /\
  (forall r w', volume_element m oc (after ops w) = (r, w') -> metric_represents g m w') /\
  (forall a w', get_components m (Some c) (Some [-1; -1]%Z) (after ops w) = (Ok a, w') -> exists v, volume_element m oc (after ops w) = (Ok v, w')).
Proof.
  intros R Hops. destruct (metric_history_sound g m w ops HC R Hops) as (R1 & _). destruct (used_some _ oc R1) as (c & U). exists c. split; [exact U|].
  destruct (display_components m (Some c) (after ops w)) as [r w1] eqn:D. destruct (display_value ops w c R Hops r w1 D) as (R2 & V).
  assert (E0 : forall {Y} (k : oid * arr -> M Y), mbind (display_components m oc) k (after ops w) = match r with Ok x => k x w1 | Err e => (Err e, w1) end).
  { intros Y k. unfold mbind. rewrite (display_used _ oc c R1 U), D. destruct r; reflexivity. }
  unfold volume_element. setoid_rewrite E0. rewrite (display_get _ c R1) in D. injection D as Dr Dw.
  destruct r as [[c' a]|e].
  2:{ split; [discriminate|]. split; [intros r w' E; injection E as <- <-; exact R2|]. intros a w' E. rewrite E in Dr. discriminate. }
  destruct (V c' a eq_refl) as (-> & S & [Wa Sa] & Ma). rewrite Sa. cbn [nth]. unfold mret.
  split; [|split].
  - intros v w' E. injection E as <- <-. rewrite simp_ok, laplace_determinant. apply determinant_ext. exact Ma.
  - intros r w' E. injection E as <- <-. exact R2.
  - intros x w' E. rewrite E in Dr, Dw. cbn [fst snd paired] in Dr, Dw. rewrite <- Dw. eexists. reflexivity.
Qed.

(** the rules of a transformation from c to c' *)
Section Change.
Variables (c c' : oid) (R : list rule).
Hypothesis Hc : g_sys g c.
Hypothesis HR : dget Nat.eqb c' (g_rules g c) = Some R.
Notation sigma := (subs_seq R).
Notation J := (fun i a => sigma (jacobian_fun (g_syms g c) (g_syms g c') R i a)).
Notation Gs := (fun i j => sigma (g_G g c i j)).
Lemma metric_change a b : a < n -> b < n ->
  keq (g_G g c' a b) (nsum n (fun i => kmul (J i a) (nsum n (fun j => kmul (J j b) (Gs i j))))).
Proof.
  intros Ha Hb. destruct HC as (_ & _ & H). destruct (H c c' R Hc HR) as (_ & _ & _ & Law).
  specialize (Law [a; b]). cbn [mat_comps] in Law. rewrite Law by (split; [reflexivity|repeat (constructor; [assumption|]); constructor]).
  pose proof (hom_subs_seq R) as Hh. cbn [repeat]. rewrite (hom_proper _ Hh _ _ (act2 n _ _ _ a b)). rewrite (hom_nsum _ n _ Hh).
  apply nsum_ext. intros i Hi. rewrite (hom_nsum _ n _ Hh), <- nsum_scale. apply nsum_ext. intros j Hj. rewrite !(hom_mul _ Hh). cbn [mat_comps]. ring.
Qed.

Theorem line_invariant (v : nat -> K) :
  keq (quadratic n (g_G g c') v) (quadratic n Gs (fun i => nsum n (fun a => kmul (J i a) (v a)))).
Proof.
  unfold quadratic.
  transitivity (nsum n (fun a => nsum n (fun b => nsum n (fun i => nsum n (fun j => kmul (Gs i j) (kmul (kmul (J i a) (v a)) (kmul (J j b) (v b)))))))).
  - apply nsum_ext. intros a Ha. apply nsum_ext. intros b Hb. rewrite (metric_change a b Ha Hb). rewrite <- nsum_scale_r. apply nsum_ext. intros i Hi.
    transitivity (kmul (kmul (J i a) (kmul (v a) (v b))) (nsum n (fun j => kmul (J j b) (Gs i j)))); [ring|]. rewrite <- nsum_scale. apply nsum_ext. intros j Hj. ring.
  - transitivity (nsum n (fun a => nsum n (fun i => nsum n (fun b => nsum n (fun j => kmul (Gs i j) (kmul (kmul (J i a) (v a)) (kmul (J j b) (v b)))))))).
    { apply nsum_ext. intros a Ha. apply nsum_swap. }
    rewrite nsum_swap. apply nsum_ext. intros i Hi.
    transitivity (nsum n (fun a => nsum n (fun j => nsum n (fun b => kmul (Gs i j) (kmul (kmul (J i a) (v a)) (kmul (J j b) (v b))))))).
    { apply nsum_ext. intros a Ha. apply nsum_swap. }
    rewrite nsum_swap. apply nsum_ext. intros j Hj. rewrite <- nsum_scale_r, <- nsum_scale. apply nsum_ext. intros a Ha.
    rewrite nsum_scale. apply kmul_proper; [reflexivity|]. rewrite nsum_scale. reflexivity.
Qed.

Lemma hom_prod s l : hom s -> keq (s (kprod l)) (kprod (map s l)).
Proof. intros Hh. induction l as [|x l IH]; cbn [kprod map]; [apply (hom_1 _ Hh)|]. rewrite (hom_mul _ Hh), IH. reflexivity. Qed.
Lemma hom_order s a b : hom s -> keq (s (order_sign a b)) (order_sign a b).
Proof.
  intros Hh. unfold order_sign. destruct (Nat.compare a b); [apply (hom_0 _ Hh)|apply (hom_1 _ Hh)|].
  assert (E : keq (kadd (s k1) (s (kopp k1))) k0) by (rewrite <- (hom_add _ Hh), <- (hom_0 _ Hh); apply (hom_proper _ Hh); ring).
  rewrite (hom_1 _ Hh) in E. transitivity (kadd (kopp k1) (kadd k1 (s (kopp k1)))); [ring|]. rewrite E. ring.
Qed.
Lemma hom_sign s l : hom s -> keq (s (arrangement_sign l)) (arrangement_sign l).
Proof.
  intros Hh. induction l as [|x l IH]; cbn [arrangement_sign]; [apply (hom_1 _ Hh)|]. rewrite (hom_mul _ Hh), IH, (hom_prod _ _ Hh), map_map.
  apply kmul_proper; [|reflexivity]. apply kprod_ext. intros y _. apply hom_order, Hh.
Qed.
Lemma hom_determinant s f : hom s -> keq (s (determinant n f)) (determinant n (fun i j => s (f i j))).
Proof.
  intros Hh. unfold determinant. rewrite (hom_lsum s _ _ Hh). apply lsum_ext. intros p _. rewrite (hom_mul _ Hh), (hom_sign _ _ Hh), (hom_prod _ _ Hh), map_map. reflexivity.
Qed.
Theorem volume_change :
  keq (determinant n (g_G g c')) (kmul (kmul (determinant n J) (determinant n J)) (sigma (determinant n (g_G g c)))).
Proof.
  rewrite (hom_determinant _ _ (hom_subs_seq R)).
  assert (E : forall a b, a < n -> b < n -> keq (g_G g c' a b) (mat_mul n (fun a i => J i a) (mat_mul n Gs J) a b)).
  { intros a b Ha Hb. rewrite (metric_change a b Ha Hb). unfold mat_mul. apply nsum_ext. intros i Hi. apply kmul_proper; [reflexivity|]. apply nsum_ext. intros j Hj. ring. }
  rewrite (determinant_ext n _ _ E), !determinant_mul, determinant_transpose. ring.
Qed.
End Change.
Theorem inverse_volume c : g_sys g c -> keq (kmul (determinant n (g_G g c)) (determinant n (g_Gi g c))) k1.
Proof.
  intros Hc. destruct HC as (_ & H & _). destruct (H c Hc) as (_ & [I _] & _). rewrite <- determinant_mul, <- (determinant_one n). apply determinant_ext. exact I.
Qed.
End Line.
