(** Sessions with shared dictionaries behave as sessions with copies if no dictionary is given
    twice. *)
From Coq Require Import Lia.
From Verif Require Import Alg Arr WorldM SpecWorld World_P AliasM SpecAlias.
Local Open Scope nat_scope.

Section Frame.
Context {A : AlgOps}.
Variable D : oid -> Prop.
Variable T : oid -> list (oid * list rule).

(** The objects in D exist or have existed, and their transformations are T. *)
Definition TI (w : world) : Prop :=
  forall i, D i -> i < length (heap w) /\ forall o, obj_of w i = Some o -> o_trans o = T i.
Definition tr {X} (m : M X) : Prop := forall w, TI w -> TI (snd (m w)).

Lemma t_ret {X} (x : X) : tr (mret x).
Proof. intros w H. exact H. Qed.
Lemma t_raise {X} e : tr (@mraise _ X e).
Proof. intros w H. exact H. Qed.
Lemma t_lift {X} (r : res X) : tr (mlift r).
Proof. intros w H. exact H. Qed.
Lemma t_opt {X} e (x : option X) : tr (mopt e x).
Proof. destruct x; [apply t_ret|apply t_raise]. Qed.
Lemma t_isinstance i c : tr (isinstance i c).
Proof. intros w H. exact H. Qed.
Lemma t_bind {X Y} (m : M X) (k : X -> M Y) : tr m -> (forall x, tr (k x)) -> tr (mbind m k).
Proof.
  intros H1 H2 w H. specialize (H1 w H). unfold mbind. destruct (m w) as [[x|e] w']; [apply H2|]; exact H1.
Qed.
Lemma t_get {Y} i (k : obj -> M Y) :
  (forall o, (D i -> o_trans o = T i) -> tr (k o)) -> tr (mbind (getobj i) k).
Proof.
  intros H w Hw. unfold mbind, getobj. destruct (obj_of w i) as [o|] eqn:Ho; [|exact Hw].
  apply H; [|exact Hw]. intros Di. apply (Hw i Di), Ho.
Qed.
Lemma t_put i o' : (D i -> o_trans o' = T i) -> tr (put i o').
Proof.
  intros H w Hw. unfold put. destruct (nth_error (heap w) i) as [[c x]|] eqn:E; [|exact Hw].
  intros j Dj. destruct (Hw j Dj) as [Hl Ho]. cbn [snd]. unfold obj_of. cbn [heap]. rewrite set_nth_length.
  split; [exact Hl|]. intros o. rewrite nth_set_nth. destruct (Nat.eqb_spec i j) as [<-|N].
  - assert (El : (i <? length (heap w)) = true) by (apply Nat.ltb_lt; exact Hl). rewrite El. cbn.
    intros X; injection X as <-. apply H, Dj.
  - cbn [andb]. apply Ho.
Qed.
Lemma t_alloc k o : tr (alloc k o).
Proof.
  intros w Hw. rewrite alloc_fresh. cbn [snd]. intros j Dj. destruct (Hw j Dj) as [Hl Ho].
  split; [cbn [fresh_world heap]; rewrite app_length; cbn; lia|]. intros o'. rewrite obj_of_fresh.
  destruct (Nat.eqb_spec j (length (heap w))); [lia|]. apply Ho.
Qed.
Lemma t_fun {X} (f : world -> M X) : (forall w, tr (f w)) -> tr (fun w => f w w).
Proof. intros H w Hw. apply H, Hw. Qed.

Create HintDb trdb.
Ltac go :=
  repeat first
    [ assumption
    | solve [auto 2 with trdb nocore]
    | apply t_ret | apply t_raise | apply t_lift | apply t_opt | apply t_isinstance | apply t_alloc
    | apply t_get; intros ? ?
    | apply t_put; solve [cbn; auto]
    | apply t_bind; [|intro]
    | match goal with |- tr (match ?x with _ => _ end) => destruct x end ].

Lemma t_calc_jac self coords : tr (w_calculate_jacobian self coords).
Proof. unfold w_calculate_jacobian. go. Qed.
#[local] Hint Resolve t_calc_jac : trdb.
Lemma t_check_jac self coords : tr (w_check_jacobians self coords).
Proof. unfold w_check_jacobians. go. Qed.
#[local] Hint Resolve t_check_jac : trdb.
Lemma t_store t c i a : tr (store t c i a).
Proof. unfold store. go. Qed.
#[local] Hint Resolve t_store : trdb.
Lemma t_lookup t c i : tr (lookup t c i).
Proof. unfold lookup. go. Qed.
#[local] Hint Resolve t_lookup : trdb.
Lemma t_need o c : tr (need_array o c).
Proof. unfold need_array. go. Qed.
#[local] Hint Resolve t_need : trdb.
Lemma t_base t c i : tr (base_transform t c i).
Proof. unfold base_transform. go. Qed.
#[local] Hint Resolve t_base : trdb.
Lemma t_metric_transform t c i : tr (metric_transform t c i).
Proof. unfold metric_transform. go. Qed.
#[local] Hint Resolve t_metric_transform : trdb.
Lemma t_chr t c i : tr (w_christoffel_transform t c i).
Proof. unfold w_christoffel_transform. go. Qed.
#[local] Hint Resolve t_chr : trdb.
Lemma t_curve f t c i : tr (w_curve_transform f t c i).
Proof. unfold w_curve_transform. go. Qed.
#[local] Hint Resolve t_curve : trdb.
Lemma t_metric_check t c : tr (metric_check t c).
Proof. unfold metric_check. go. Qed.
#[local] Hint Resolve t_metric_check : trdb.
Lemma t_raise_lower t c i : tr (w_raise_lower t c i).
Proof. unfold w_raise_lower. go. Qed.
#[local] Hint Resolve t_raise_lower : trdb.
Lemma t_tensor_check t c i : tr (tensor_check t c i).
Proof. unfold tensor_check. go. Qed.
#[local] Hint Resolve t_tensor_check : trdb.
Lemma t_tensor_transform t c i : tr (tensor_transform t c i).
Proof. unfold tensor_transform. go. Qed.
#[local] Hint Resolve t_tensor_transform : trdb.
Lemma t_check_rep t c i : tr (check_representation t c i).
Proof.
  intros w. unfold check_representation. destruct (cls_of w t) as [[]|]; try apply t_raise;
    try apply t_metric_check; apply t_tensor_check.
Qed.
#[local] Hint Resolve t_check_rep : trdb.
Lemma t_transform t c i : tr (transform_coordinates t c i).
Proof.
  intros w. unfold transform_coordinates. destruct (cls_of w t) as [[]|]; try apply t_raise;
    try apply t_metric_transform; try apply t_tensor_transform; try apply t_chr; apply t_curve.
Qed.
#[local] Hint Resolve t_transform : trdb.
Lemma t_get_rep t c i : tr (get_representation t c i).
Proof. unfold get_representation. go. Qed.
#[local] Hint Resolve t_get_rep : trdb.
Lemma t_get_components t c i : tr (get_components t c i).
Proof. unfold get_components. go. Qed.
#[local] Hint Resolve t_get_components : trdb.
Lemma t_indices t i : tr (change_default_indices t i).
Proof. unfold change_default_indices. go. Qed.
#[local] Hint Resolve t_indices : trdb.
Lemma t_coords t c : tr (change_default_coords t c).
Proof. unfold change_default_coords. go. Qed.
#[local] Hint Resolve t_coords : trdb.
Lemma t_coord_components c : tr (coord_components c).
Proof. unfold coord_components. go. Qed.
#[local] Hint Resolve t_coord_components : trdb.
Lemma t_simplify t : tr (simplify_tensor t).
Proof. unfold simplify_tensor. go. Qed.
#[local] Hint Resolve t_simplify : trdb.
Lemma t_name t n : tr (change_name t n).
Proof. unfold change_name. go. Qed.
#[local] Hint Resolve t_name : trdb.
Lemma t_symbol t n : tr (change_symbol t n).
Proof. unfold change_symbol. go. Qed.
#[local] Hint Resolve t_symbol : trdb.
Lemma t_base_ctor k n x c i s m : tr (base_ctor k n x c i s m).
Proof. unfold base_ctor. go. Qed.
#[local] Hint Resolve t_base_ctor : trdb.
Lemma t_tensor k n x m c i s : tr (new_tensor_as k n x m c i s).
Proof. unfold new_tensor_as. go. Qed.
#[local] Hint Resolve t_tensor : trdb.
Lemma t_metric n x c i s : tr (new_metric n x c i s).
Proof. unfold new_metric. go. Qed.
#[local] Hint Resolve t_metric : trdb.
Lemma t_delete t s : tr (delete t s).
Proof.
  intros w Hw. unfold delete. destruct (find _ _) as [i|].
  { destruct (obj_of w i); [|exact Hw]. destruct (obj_of w t); exact Hw. }
  destruct (obj_of w t).
  2:{ destruct s; [|exact Hw]. destruct (index_of _ _ _); exact Hw. }
  assert (H : forall L, TI (mkW (match nth_error (heap w) t with Some (c, _) => set_nth t (c, None) (heap w) | None => heap w end) L)).
  { intros L. destruct (nth_error (heap w) t) as [[c x]|] eqn:E; [|exact Hw].
    intros j Dj. destruct (Hw j Dj) as [Hl Ho]. unfold obj_of. cbn [heap]. rewrite set_nth_length.
    split; [exact Hl|]. intros o'. rewrite nth_set_nth. destruct (Nat.eqb_spec t j) as [<-|N]; [|apply Ho].
    apply Nat.ltb_lt in Hl. rewrite Hl. cbn. discriminate. }
  destruct (index_of _ _ _); apply H.
Qed.
#[local] Hint Resolve t_delete : trdb.

Lemma t_op o : other_op o -> tr (run_op o).
Proof.
  intros Ho. destruct o; cbn [other_op] in Ho; try contradiction; cbn [run_op].
  - apply t_bind; [apply t_metric|intro; apply t_ret].
  - apply t_bind; [apply t_tensor|intro; apply t_ret].
  - apply t_bind; [apply t_tensor|intro; apply t_ret].
  - apply t_bind; [apply t_tensor|intro; apply t_ret].
  - apply t_bind; [apply t_tensor|intro; apply t_ret].
  - apply t_bind; [apply t_get_components|intro; apply t_ret].
  - apply t_indices.
  - apply t_coords.
  - apply t_name.
  - apply t_symbol.
  - apply t_simplify.
  - apply t_delete.
Qed.

End Frame.

Section Alias.
Context {A : AlgOps}.

Lemma view_nth (s : dworld) i : nth_error (heap (d_view s)) i =
  option_map (fun e => (fst e, option_map (see s i) (snd e))) (nth_error (heap (d_w s)) i).
Proof.
  unfold d_view. cbn [heap].
  generalize (see s). intros f. generalize (heap (d_w s)). intros l.
  enough (H : forall k, nth_error (map (fun e => (fst (snd e), option_map (f (fst e)) (snd (snd e)))) (combine (seq k (length l)) l)) i =
    option_map (fun e => (fst e, option_map (f (k + i)) (snd e))) (nth_error l i)) by apply (H 0).
  revert i. induction l as [|x l IH]; intros i k; [destruct i; reflexivity|]. destruct i as [|i]; cbn [length seq combine map nth_error option_map].
  - rewrite Nat.add_0_r. reflexivity.
  - rewrite IH. replace (S k + i) with (k + S i) by lia. reflexivity.
Qed.

Lemma view_obj (s : dworld) i : obj_of (d_view s) i = option_map (see s i) (obj_of (d_w s) i).
Proof.
  unfold obj_of. rewrite view_nth. destruct (nth_error (heap (d_w s)) i) as [[c o]|]; reflexivity.
Qed.

Lemma set_trans_same o : set_trans (o_trans o) o = o.
Proof. destruct o; reflexivity. Qed.

Lemma nth_error_same {X} (l l' : list X) : (forall i, nth_error l i = nth_error l' i) -> l = l'.
Proof.
  revert l'. induction l as [|x l IH]; intros [|y l'] H; auto.
  - specialize (H 0); discriminate.
  - specialize (H 0); discriminate.
  - f_equal; [specialize (H 0); cbn in H; congruence|]. apply IH. intros i. exact (H (S i)).
Qed.

(** The references are up to date in the objects. *)
Definition current (s : dworld) : Prop :=
  forall i d o, dget Nat.eqb i (d_ref s) = Some d -> obj_of (d_w s) i = Some o ->
    o_trans o = dict_rules (dict_of s d).

Lemma view_current s : current s -> d_view s = d_w s.
Proof.
  intros H. destruct (d_w s) as [h l] eqn:Ew. unfold d_view at 1. rewrite Ew. cbn [heap insts]. f_equal.
  apply nth_error_same. intros i.
  pose proof (view_nth s i) as V. unfold d_view in V. rewrite Ew in V. cbn [heap] in V. rewrite V.
  destruct (nth_error h i) as [[c [o|]]|] eqn:E; [|reflexivity|reflexivity]. cbn. repeat f_equal.
  unfold see. destruct (dget Nat.eqb i (d_ref s)) as [d|] eqn:Er; [|reflexivity].
  rewrite <- (H i d o Er); [apply set_trans_same|]. rewrite Ew. unfold obj_of. cbn [heap]. rewrite E. reflexivity.
Qed.

Record related (s : dworld) (w : world) (ds : list dict) (given : list nat) : Prop := {
  rel_w : d_w s = w;
  rel_current : current s;
  rel_len : length (d_dicts s) = length ds;
  rel_dicts : forall d, ~ In d given -> dict_of s d = nth d ds [];
  rel_given : forall i d, In (i, d) (d_ref s) -> In d given /\ d < length ds;
  rel_keys : forall i d, In (i, d) (d_ref s) -> i < length (heap w);
  rel_nodup : NoDup (map snd (d_ref s)) }.

Lemma ref_unique s i i' d : NoDup (map snd (d_ref s)) -> In (i, d) (d_ref s) -> In (i', d) (d_ref s) -> i = i'.
Proof.
  induction (d_ref s) as [|[j e] l IH]; intros N H H'; [destruct H|]. cbn in N. apply NoDup_cons_iff in N as [N1 N2].
  destruct H as [E|H], H' as [E'|H'].
  - congruence.
  - injection E as -> ->. destruct N1. apply in_map_iff. exists (i', d). auto.
  - injection E' as -> ->. destruct N1. apply in_map_iff. exists (i, d). auto.
  - apply IH; assumption.
Qed.

(** A statement that keeps the transformations. *)
Lemma related_run {X} (m : M X) s w ds g :
  related s w ds g ->
  (forall D T, tr D T m) ->
  fst (d_run m s) = fst (m w) /\ related (snd (d_run m s)) (snd (m w)) ds g.
Proof.
  intros [R1 R2 R3 R4 R5 R6 R7] Ht. unfold d_run. rewrite (view_current s R2), R1.
  pose proof (Ht (fun i => exists d, In (i, d) (d_ref s) /\ dget Nat.eqb i (d_ref s) = Some d)
    (fun i => match dget Nat.eqb i (d_ref s) with Some d => dict_rules (dict_of s d) | None => [] end) w) as H.
  destruct (m w) as [r w'] eqn:E. cbn [fst snd] in *. split; [reflexivity|].
  assert (H' : TI (fun i => exists d, In (i, d) (d_ref s) /\ dget Nat.eqb i (d_ref s) = Some d)
    (fun i => match dget Nat.eqb i (d_ref s) with Some d => dict_rules (dict_of s d) | None => [] end) w').
  { apply H. intros i (d & Hi & Hg). split; [eapply R6, Hi|]. intros o Ho. rewrite Hg. rewrite <- R1 in Ho. exact (R2 i d o Hg Ho). }
  assert (Key : forall i d, In (i, d) (d_ref s) -> exists d', dget Nat.eqb i (d_ref s) = Some d').
  { intros i d Hi. destruct (dget Nat.eqb i (d_ref s)) as [d'|] eqn:Eg; [eauto|].
    assert (M : dmem Nat.eqb i (d_ref s) = true) by (apply dmem_key, in_map_iff; exists (i, d); auto).
    unfold dmem in M. rewrite Eg in M. discriminate. }
  split; cbn [d_w d_dicts d_ref]; auto.
  - intros i d o Hr Ho. cbn [d_ref d_w] in *. unfold dict_of; cbn [d_dicts].
    destruct (H' i) as [_ H2]; [exists d; split; [apply dget_In, Hr|exact Hr]|].
    specialize (H2 o Ho). rewrite Hr in H2. exact H2.
  - intros i d Hi. destruct (Key i d Hi) as [d' Hd']. destruct (H' i) as [H1 _]; [exists d'; split; [apply dget_In, Hd'|exact Hd']|].
    exact H1.
Qed.

Lemma rules_dset c l d : dict_rules (dset Nat.eqb c l d) = dset Nat.eqb c (stored_rules l) (dict_rules d).
Proof.
  induction d as [|[c' l'] d IH]; [reflexivity|]. cbn. destruct (c =? c'); cbn; [reflexivity|]. f_equal. exact IH.
Qed.
Lemma rules_ddel c d : dict_rules (ddel Nat.eqb c d) = ddel Nat.eqb c (dict_rules d).
Proof.
  induction d as [|[c' l'] d IH]; [reflexivity|]. cbn. destruct (c =? c'); cbn; [reflexivity|]. f_equal. exact IH.
Qed.

(** What add_coord_transformation does. *)
Lemma add_cases (self : oid) coords rules w :
  (exists e, add_coord_transformation self coords rules w = (Err e, w)) \/
  exists c o t, coords = VObj c /\ obj_of w self = Some o /\ self <> c /\
    t = match rules with None => ddel Nat.eqb c (o_trans o) | Some l => dset Nat.eqb c (stored_rules l) (o_trans o) end /\
    match rules with None => dmem Nat.eqb c (o_trans o) = true | Some l => forallb rule_ok l = true end /\
    add_coord_transformation self coords rules w = put self (set_trans t o) w.
Proof.
  unfold add_coord_transformation. destruct coords; try (left; eexists; reflexivity).
  unfold mbind, isinstance. destruct (cls_of w i) as [k|]; [|left; eexists; reflexivity].
  destruct (cls_eqb CCoordinates k); cbn [negb]; [|left; eexists; reflexivity].
  destruct (Nat.eqb_spec self i) as [->|N]; [left; eexists; reflexivity|].
  unfold getobj. destruct (obj_of w self) as [o|] eqn:Ho; [|left; eexists; reflexivity].
  destruct rules as [l|].
  - destruct (forallb rule_ok l) eqn:F; [|left; eexists; reflexivity].
    right. exists i, o, (dset Nat.eqb i (stored_rules l) (o_trans o)). repeat split; auto.
  - destruct (dmem Nat.eqb i (o_trans o)) eqn:F; [|left; eexists; reflexivity].
    right. exists i, o, (ddel Nat.eqb i (o_trans o)). repeat split; auto.
Qed.

Lemma nth_set_nth_default {X} i j (x y : X) l :
  nth j (set_nth i x l) y = if (i =? j) && (i <? length l) then x else nth j l y.
Proof.
  revert i j; induction l as [|z l IH]; intros [|i] [|j]; cbn; auto.
  - rewrite andb_false_r. reflexivity.
  - rewrite IH. reflexivity.
Qed.

Lemma related_add self coords rules s w ds g :
  related s w ds g ->
  fst (d_add self coords rules s) = fst (add_coord_transformation self coords rules w) /\
  related (snd (d_add self coords rules s)) (snd (add_coord_transformation self coords rules w)) ds g.
Proof.
  intros R. pose proof R as [R1 R2 R3 R4 R5 R6 R7]. unfold d_add, d_run. rewrite (view_current s R2), R1.
  destruct (add_cases self coords rules w) as [[e E]|(c & o & t & -> & Ho & N & Et & _ & E)]; rewrite E.
  { cbn [fst snd]. split; [reflexivity|]. destruct s; cbn in *; subst. exact R. }
  destruct (put_spec w self o (set_trans t o) Ho) as (w' & E1 & Hi & Hl & Hc & Hj). rewrite E1.
  destruct (dget Nat.eqb self (d_ref s)) as [d|] eqn:Er; cbn [fst snd].
  - split; [reflexivity|]. pose proof (dget_In _ _ _ Er) as Hin. destruct (R5 _ _ Hin) as [Hg Hd].
    assert (Hd' : (d <? length (d_dicts s)) = true) by (apply Nat.ltb_lt; rewrite R3; exact Hd).
    split; cbn [d_w d_dicts d_ref]; auto.
    + intros i d' o' Hr Ho'. cbn [d_ref d_w] in *. unfold dict_of. cbn [d_dicts]. rewrite nth_set_nth_default, Hd', andb_true_r.
      rewrite Hj in Ho'. destruct (Nat.eqb_spec self i) as [<-|Ni].
      * injection Ho' as <-. assert (d' = d) by congruence. subst d'. rewrite Nat.eqb_refl. cbn [set_trans o_trans].
        rewrite Et. rewrite <- R1 in Ho. rewrite (R2 self d o Er Ho). destruct rules as [l|]; cbn [dict_change]; symmetry; [apply rules_dset|apply rules_ddel].
      * destruct (Nat.eqb_spec d d') as [<-|Nd].
        { destruct Ni. exact (ref_unique s self i d R7 Hin (dget_In _ _ _ Hr)). }
        rewrite <- R1 in Ho'. exact (R2 i d' o' Hr Ho').
    + rewrite set_nth_length. exact R3.
    + intros d' Nd. unfold dict_of. cbn [d_dicts]. rewrite nth_set_nth_default.
      destruct (Nat.eqb_spec d d') as [<-|Ne]; [contradiction|]. cbn [andb]. apply R4, Nd.
    + intros i d' Hin'. rewrite Hl. eapply R6, Hin'.
  - split; [reflexivity|]. split; cbn [d_w d_dicts d_ref]; auto.
    + intros i d' o' Hr Ho'. cbn [d_ref d_w] in *. unfold dict_of. cbn [d_dicts]. rewrite Hj in Ho'.
      destruct (Nat.eqb_spec self i) as [<-|Ni]; [congruence|]. rewrite <- R1 in Ho'. exact (R2 i d' o' Hr Ho').
    + intros i d' Hin'. rewrite Hl. eapply R6, Hin'.
Qed.

Lemma nth_in_range {X} d (l : list (list X)) x y : nth d l [] = x :: y -> d < length l.
Proof. intros H. destruct (Nat.ltb_spec d (length l)); [assumption|]. rewrite nth_overflow in H by assumption. discriminate. Qed.

Lemma related_coordinates n x i y (d : option nat) s w ds g :
  related s w ds g -> (forall k, d = Some k -> ~ In k g) ->
  let tr := match d with Some d => nth d ds [] | None => [] end in
  fst (d_coordinates n x i y d s) = fst (new_coordinates n x i y tr w) /\
  related (snd (d_coordinates n x i y d s)) (snd (new_coordinates n x i y tr w)) ds
    (match d with Some d => match nth d ds [] with [] => g | _ => d :: g end | None => g end).
Proof.
  intros R Hd tr. pose proof R as [R1 R2 R3 R4 R5 R6 R7].
  unfold d_coordinates, d_run. rewrite (view_current s R2), R1.
  assert (Ex : match d with Some d => dict_of s d | None => [] end = tr).
  { unfold tr. destruct d as [k|]; [apply R4, Hd; reflexivity|reflexivity]. }
  rewrite Ex.
  assert (Rw : forall g', incl g g' -> related s w ds g').
  { intros g' Hg. split; [exact R1|exact R2|exact R3| | |exact R6|exact R7].
    - intros k Nk. apply R4. intros C. apply Nk, Hg, C.
    - intros j k Hj. destruct (R5 j k Hj). auto. }
  set (g' := match d with Some d => match nth d ds [] with [] => g | _ => d :: g end | None => g end).
  assert (Hg : incl g g').
  { unfold g'. destruct d as [k|]; [|apply incl_refl]. destruct (nth k ds []); [apply incl_refl|]. apply incl_tl, incl_refl. }
  destruct (new_coordinates_spec n x i y tr w) as [[e E]|(a & Ea & Era & E)]; rewrite E.
  { cbn [fst snd]. split; [reflexivity|]. specialize (Rw g' Hg). destruct s; cbn in *; subst. exact Rw. }
  set (o := mkObj _ _ _ _ _ _ _ _ _ _).
  assert (Base : forall rf gg, (rf = d_ref s /\ gg = g \/
       exists k e l, d = Some k /\ tr = e :: l /\ rf = (length (heap w), k) :: d_ref s /\ gg = k :: g) ->
     related (mkD (fresh_world w CCoordinates o) (d_dicts s) rf) (fresh_world w CCoordinates o) ds gg).
  { intros rf gg Hrf. split; cbn [d_w d_dicts d_ref].
    - reflexivity.
    - intros j k oj Hr Hoj. cbn [d_ref d_w] in *. unfold dict_of. cbn [d_dicts]. rewrite obj_of_fresh in Hoj.
      assert (Old : dget Nat.eqb j (d_ref s) = Some k -> o_trans oj = dict_rules (nth k (d_dicts s) [])).
      { intros Hr'. pose proof (R6 _ _ (dget_In _ _ _ Hr')) as Lt. destruct (Nat.eqb_spec j (length (heap w))); [lia|].
        rewrite <- R1 in Hoj. exact (R2 j k oj Hr' Hoj). }
      destruct Hrf as [[-> _]|(k0 & e & l & -> & Etr & -> & _)]; [apply Old, Hr|].
      cbn [dget] in Hr. destruct (Nat.eqb_spec j (length (heap w))) as [->|Nj]; [|apply Old, Hr].
      injection Hr as <-. injection Hoj as <-. cbn [o o_trans]. unfold tr.
      assert (D0 : nth k0 (d_dicts s) [] = nth k0 ds []) by (apply R4, Hd; reflexivity). rewrite D0. reflexivity.
    - exact R3.
    - intros k Nk. apply R4. destruct Hrf as [[_ ->]|(k0 & e & l & _ & _ & _ & ->)]; [exact Nk|]. intros C. apply Nk. right. exact C.
    - intros j k Hj. destruct Hrf as [[-> ->]|(k0 & e & l & -> & Etr & -> & ->)]; [exact (R5 j k Hj)|].
      destruct Hj as [Hj|Hj].
      + injection Hj as <- <-. split; [left; reflexivity|]. exact (nth_in_range _ _ _ _ Etr).
      + destruct (R5 j k Hj). split; [right|]; assumption.
    - intros j k Hj. cbn [fresh_world heap]. rewrite app_length. cbn [length].
      destruct Hrf as [[-> ->]|(k0 & e & l & -> & Etr & -> & ->)]; [pose proof (R6 j k Hj); lia|].
      destruct Hj as [Hj|Hj]; [injection Hj as <- <-; lia|pose proof (R6 j k Hj); lia].
    - destruct Hrf as [[-> ->]|(k0 & e & l & -> & Etr & -> & ->)]; [exact R7|].
      cbn [map snd]. constructor; [|exact R7]. intros C. apply in_map_iff in C as [[j k] [Ek Hj]]. cbn in Ek. subst k.
      apply (Hd k0 eq_refl). exact (proj1 (R5 j k0 Hj)). }
  destruct d as [k|].
  - destruct tr as [|e l] eqn:Etr; cbn [fst snd].
    + split; [reflexivity|]. unfold g'. unfold tr in Etr. rewrite Etr. apply Base. left. auto.
    + split; [reflexivity|]. unfold g'. unfold tr in Etr. rewrite Etr. apply Base. right. exists k, e, l. auto.
  - cbn [fst snd]. split; [reflexivity|]. unfold g'. apply Base. left. auto.
Qed.

Lemma related_change d x s w ds g : related s w ds g -> ~ In d g ->
  related (mkD (d_w s) (set_nth d x (d_dicts s)) (d_ref s)) w (set_nth d x ds) g.
Proof.
  intros [R1 R2 R3 R4 R5 R6 R7] N. split; cbn [d_w d_dicts d_ref]; auto.
  - intros i k o Hr Ho. cbn [d_ref d_w] in *. unfold dict_of. cbn [d_dicts]. rewrite nth_set_nth_default.
    destruct (Nat.eqb_spec d k) as [<-|Ne]; [destruct N; exact (proj1 (R5 _ _ (dget_In _ _ _ Hr)))|]. exact (R2 i k o Hr Ho).
  - rewrite !set_nth_length. exact R3.
  - intros k Nk. unfold dict_of. cbn [d_dicts]. rewrite !nth_set_nth_default, R3.
    destruct ((d =? k) && (d <? length ds)); [reflexivity|]. apply R4, Nk.
  - intros i k Hi. rewrite set_nth_length. exact (R5 i k Hi).
Qed.

Lemma related_dict x s w ds g : related s w ds g ->
  related (mkD (d_w s) (d_dicts s ++ [x]) (d_ref s)) w (ds ++ [x]) g.
Proof.
  intros [R1 R2 R3 R4 R5 R6 R7]. split; cbn [d_w d_dicts d_ref]; auto.
  - intros i k o Hr Ho. cbn [d_ref d_w] in *. unfold dict_of. cbn [d_dicts].
    rewrite app_nth1 by (rewrite R3; exact (proj2 (R5 _ _ (dget_In _ _ _ Hr)))). exact (R2 i k o Hr Ho).
  - rewrite !app_length, R3. reflexivity.
  - intros k Nk. unfold dict_of. cbn [d_dicts]. destruct (Nat.ltb_spec k (length ds)).
    + rewrite !app_nth1 by (rewrite ?R3; assumption). apply R4, Nk.
    + rewrite !app_nth2 by (rewrite ?R3; lia). rewrite R3. reflexivity.
  - intros i k Hi. rewrite app_length. destruct (R5 i k Hi). split; [assumption|lia].
Qed.

Lemma out_ok {X} (r : res X) : match r with Ok _ => None | Err e => Some e end =
  match (match r with Ok _ => Ok tt | Err e => Err e end) with Ok _ => None | Err e => Some e end.
Proof. destruct r; reflexivity. Qed.

Lemma shared_copied_from l : forall s w ds g, related s w ds g -> given_once ds g l ->
  fst (run_steps shared_step l s) = fst (run_steps copied_step l (w, ds)) /\
  d_view (snd (run_steps shared_step l s)) = fst (snd (run_steps copied_step l (w, ds))).
Proof.
  induction l as [|p l IH]; intros s w ds g R G.
  { cbn. split; [reflexivity|]. rewrite (view_current s (rel_current _ _ _ _ R)). apply R. }
  assert (Next : forall e s' w' ds' g', shared_step p s = (e, s') -> copied_step p (w, ds) = (e, (w', ds')) ->
    related s' w' ds' g' -> given_once ds' g' l ->
    fst (run_steps shared_step (p :: l) s) = fst (run_steps copied_step (p :: l) (w, ds)) /\
    d_view (snd (run_steps shared_step (p :: l) s)) = fst (snd (run_steps copied_step (p :: l) (w, ds)))).
  { intros e s' w' ds' g' E1 E2 R' G'. destruct (IH s' w' ds' g' R' G') as [H1 H2].
    cbn [run_steps]. rewrite E1, E2. destruct (run_steps shared_step l s') as [es s'']. destruct (run_steps copied_step l (w', ds')) as [es' ss].
    cbn [fst snd] in *. split; [congruence|exact H2]. }
  destruct p as [d|n c i x d|t c r|o|d x].
  - eapply Next; [reflexivity|reflexivity|apply related_dict, R|exact G].
  - assert (Hd : forall k, d = Some k -> ~ In k g) by (intros k ->; exact (proj1 G)).
    destruct (related_coordinates n c i x d s w ds g R Hd) as [H1 H2].
    set (tr := match d with Some d => nth d ds [] | None => [] end) in *.
    destruct (d_coordinates n c i x d s) as [r1 s'] eqn:E1. destruct (new_coordinates n c i x tr w) as [r2 w'] eqn:E2.
    cbn [fst snd] in H1, H2. subst r2.
    eapply Next with (e := match r1 with Ok _ => None | Err e => Some e end) (w' := w') (ds' := ds) (s' := s').
    + cbn [shared_step]. rewrite E1. reflexivity.
    + change (copied_step (SCoordinates n c i x d) (w, ds)) with (let r := (new_coordinates n c i x tr ;; mret tt) w in (match fst r with Ok _ => None | Err e => Some e end, (snd r, ds))). unfold mbind. rewrite E2. destruct r1; reflexivity.
    + exact H2.
    + destruct d as [k|]; [exact (proj2 G)|exact G].
  - destruct (related_add t c r s w ds g R) as [H1 H2].
    destruct (d_add t c r s) as [r1 s'] eqn:E1. destruct (add_coord_transformation t c r w) as [r2 w'] eqn:E2.
    cbn [fst snd] in H1, H2. subst r2.
    eapply Next with (e := match r1 with Ok _ => None | Err e => Some e end) (w' := w') (ds' := ds) (s' := s').
    + cbn [shared_step]. rewrite E1. reflexivity.
    + cbn [copied_step run_op]. rewrite E2. reflexivity.
    + exact H2.
    + exact G.
  - destruct G as [Go G]. destruct (related_run (run_op o) s w ds g R (fun D T => t_op D T o Go)) as [H1 H2].
    destruct (d_run (run_op o) s) as [r1 s'] eqn:E1. destruct (run_op o w) as [r2 w'] eqn:E2.
    cbn [fst snd] in H1, H2. subst r2.
    eapply Next with (e := match r1 with Ok _ => None | Err e => Some e end) (w' := w') (ds' := ds) (s' := s').
    + cbn [shared_step]. rewrite E1. reflexivity.
    + cbn [copied_step]. rewrite E2. reflexivity.
    + exact H2.
    + exact G.
  - destruct G as [Nd G]. eapply Next; [reflexivity|reflexivity|rewrite <- (rel_w _ _ _ _ R); apply related_change; [|exact Nd]|exact G].
    rewrite (rel_w _ _ _ _ R). exact R.
Qed.

Lemma related_start : related shared_start empty_world [] [].
Proof. split; cbn; auto; try (intros; contradiction). intros i d o H; discriminate. constructor. Qed.

Theorem shared_copied (l : list step) : given_once [] [] l ->
  fst (run_steps shared_step l shared_start) = fst (run_steps copied_step l copied_start) /\
  d_view (snd (run_steps shared_step l shared_start)) = fst (snd (run_steps copied_step l copied_start)).
Proof. apply shared_copied_from, related_start. Qed.

(** *** The rules of coordinate systems *)

Definition fit (d : dict) : Prop := Forall (fun e => forallb rule_ok (snd e) = true) d.
Definition fits (s : dworld) : Prop := forall i d, dget Nat.eqb i (d_ref s) = Some d -> fit (dict_of s d).

Lemma fit_get d c l : fit d -> dget Nat.eqb c d = Some l -> forallb rule_ok l = true.
Proof. intros F G. unfold fit in F. rewrite Forall_forall in F. exact (F _ (dget_In _ _ _ G)). Qed.
Lemma fit_dset c l d : fit d -> forallb rule_ok l = true -> fit (dset Nat.eqb c l d).
Proof.
  intros F H. induction d as [|[c' l'] d IH]; cbn; [repeat constructor; exact H|].
  apply Forall_inv in F as F1. apply Forall_inv_tail in F as F2. destruct (c =? c'); constructor; auto. apply IH, F2.
Qed.
Lemma fit_ddel c d : fit d -> fit (ddel Nat.eqb c d).
Proof.
  intros F. induction d as [|[c' l'] d IH]; cbn; [constructor|].
  apply Forall_inv in F as F1. apply Forall_inv_tail in F as F2. destruct (c =? c'); [exact F2|]. constructor; [exact F1|apply IH, F2].
Qed.

Lemma validated_fit n x i y d : i <> VNone -> validate_coordinates n x i y d = Ok tt -> fit d.
Proof.
  intros Ni E. unfold validate_coordinates in E. destruct (validate_object _ _ _ _) as [u|]; cbn in E; [|discriminate].
  destruct (match i with VTuple l => _ | _ => _ end); [discriminate|].
  destruct (forallb (fun cr => forallb rule_ok (snd cr)) d) eqn:F.
  - apply Forall_forall. rewrite forallb_forall in F. exact F.
  - destruct i; try contradiction; cbn in E; discriminate.
Qed.

Record inv (s : dworld) : Prop := {
  inv_fit : fits s;
  inv_range : forall i d, dget Nat.eqb i (d_ref s) = Some d -> d < length (d_dicts s) }.

Lemma inv_step p s : plain_step p -> inv s -> inv (snd (shared_step p s)).
Proof.
  intros Hp [F Rg]. destruct p as [d|n c i x d|t c r|o|d x]; cbn [shared_step plain_step snd] in *.
  - split; cbn [d_ref d_dicts].
    + intros i k Hr. unfold dict_of. cbn [d_dicts d_ref] in *. rewrite app_nth1 by (eapply Rg, Hr). exact (F i k Hr).
    + intros i k Hr. rewrite app_length. specialize (Rg i k Hr). lia.
  - unfold d_coordinates, d_run. set (tr := match d with Some d => dict_of s d | None => [] end).
    destruct (new_coordinates n c i x tr (d_view s)) as [[j|e] w'] eqn:E; cbn [snd]; [|split; assumption].
    assert (Ft : fit tr).
    { unfold new_coordinates, mbind, mlift in E. destruct (validate_coordinates n c i x tr) as [[]|] eqn:V; [|discriminate].
      exact (validated_fit _ _ _ _ _ Hp V). }
    destruct d as [k|]; [|split; assumption]. destruct tr as [|e0 l0] eqn:Etr; [split; assumption|]. cbn [snd].
    assert (Dk : dict_of s k = e0 :: l0) by exact Etr.
    split; cbn [d_ref d_dicts d_w]; intros i' k' Hr; cbn [d_ref dget] in Hr; destruct (i' =? j) eqn:Ej.
    + injection Hr as <-. unfold dict_of. cbn [d_dicts]. unfold dict_of in Dk. rewrite Dk. exact Ft.
    + exact (F i' k' Hr).
    + injection Hr as <-. exact (nth_in_range _ _ _ _ Dk).
    + exact (Rg i' k' Hr).
  - unfold d_add, d_run.
    destruct (add_cases t c r (d_view s)) as [[e E]|(k & o & tt' & -> & Ho & N & Et & Hv & E)].
    { rewrite E. cbn. split; assumption. }
    rewrite E. destruct (put_spec _ t o (set_trans tt' o) Ho) as (w' & E1 & _). rewrite E1.
    destruct (dget Nat.eqb t (d_ref s)) as [d|] eqn:Er; cbn [fst snd]; [|split; assumption].
    assert (Hd : (d <? length (d_dicts s)) = true) by (apply Nat.ltb_lt; exact (Rg _ _ Er)).
    split; cbn [d_ref d_dicts d_w].
    + intros i' k' Hr. cbn [d_ref] in Hr. unfold dict_of. cbn [d_dicts]. rewrite nth_set_nth_default, Hd, andb_true_r.
      destruct (Nat.eqb_spec d k') as [<-|]; [|exact (F i' k' Hr)].
      specialize (F t d Er). destruct r as [l|]; cbn [dict_change]; [apply fit_dset; assumption|apply fit_ddel, F].
    + intros i' k' Hr. rewrite set_nth_length. exact (Rg i' k' Hr).
  - unfold d_run. destruct (run_op o (d_view s)). cbn. split; assumption.
  - contradiction.
Qed.

Lemma inv_steps l : forall s, Forall plain_step l -> inv s -> inv (snd (run_steps shared_step l s)).
Proof.
  induction l as [|p l IH]; intros s Hl Hs; [exact Hs|]. cbn [run_steps].
  pose proof (inv_step p s (Forall_inv Hl) Hs) as H. destruct (shared_step p s) as [e s']. cbn [snd] in H.
  specialize (IH s' (Forall_inv_tail Hl) H). destruct (run_steps shared_step l s'). exact IH.
Qed.

Theorem rules_fit (l : list step) i c rules :
  Forall plain_step l -> entry_rules (snd (run_steps shared_step l shared_start)) i c rules ->
  Forall (fun r => r <> RBad) rules.
Proof.
  intros Hl. assert (H : inv (snd (run_steps shared_step l shared_start))).
  { apply inv_steps; [exact Hl|]. split; intros j d Hd; discriminate. }
  destruct H as [F _]. unfold entry_rules. destruct (dget Nat.eqb i (d_ref _)) as [d|] eqn:Er.
  - intros G. pose proof (fit_get _ _ _ (F i d Er) G) as K. rewrite forallb_forall in K. apply Forall_forall.
    intros r Hr ->. specialize (K _ Hr). discriminate.
  - intros (o & x & _ & _ & ->). apply Forall_forall. intros r Hr. apply in_map_iff in Hr as [y [<- _]]. discriminate.
Qed.

(** *** Who sees a change *)

Lemma view_trans s i : transformations s i =
  match obj_of (d_w s) i with
  | None => None
  | Some o => Some (match dget Nat.eqb i (d_ref s) with Some d => dict_rules (dict_of s d) | None => o_trans o end)
  end.
Proof.
  unfold transformations. rewrite view_obj. destruct (obj_of (d_w s) i) as [o|]; [|reflexivity]. cbn. unfold see.
  destruct (dget Nat.eqb i (d_ref s)); reflexivity.
Qed.

Lemma sharing_same s i j : sharing s i j -> transformations s i <> None -> transformations s j <> None ->
  transformations s i = transformations s j.
Proof.
  intros (d & Hi & Hj). rewrite !view_trans, Hi, Hj. destruct (obj_of (d_w s) i), (obj_of (d_w s) j); congruence.
Qed.

Lemma add_ref self coords rules s : d_ref (snd (d_add self coords rules s)) = d_ref s.
Proof.
  unfold d_add, d_run. destruct (add_coord_transformation self coords rules (d_view s)) as [[u|e] w']; [|reflexivity].
  destruct (dget Nat.eqb self (d_ref s)); [|reflexivity]. destruct coords; reflexivity.
Qed.

Lemma add_others self coords rules s j : j <> self -> ~ sharing s self j ->
  transformations (snd (shared_step (SAdd self coords rules) s)) j = transformations s j.
Proof.
  intros Nj Ns. cbn [shared_step snd]. rewrite !view_trans, add_ref.
  unfold d_add, d_run.
  destruct (add_cases self coords rules (d_view s)) as [[e E]|(c & o & t & -> & Ho & N & Et & _ & E)]; rewrite E.
  - cbn [fst snd]. cbn [d_w]. rewrite view_obj. destruct (obj_of (d_w s) j) as [oj|]; [|reflexivity]. cbn [option_map].
    unfold see, dict_of. cbn [d_dicts]. destruct (dget Nat.eqb j (d_ref s)); reflexivity.
  - destruct (put_spec _ self o (set_trans t o) Ho) as (w' & E1 & _ & _ & _ & Hj). rewrite E1. cbn [fst snd].
    assert (Hoj : obj_of w' j = option_map (see s j) (obj_of (d_w s) j)).
    { rewrite Hj. destruct (Nat.eqb_spec self j) as [->|]; [contradiction|]. apply view_obj. }
    destruct (dget Nat.eqb self (d_ref s)) as [d|] eqn:Er; cbn [d_w snd]; rewrite Hoj; destruct (obj_of (d_w s) j) as [oj|]; try reflexivity; cbn [option_map]; unfold see, dict_of; cbn [d_dicts]; f_equal.
    + destruct (dget Nat.eqb j (d_ref s)) as [d'|] eqn:Ej; [|reflexivity]. f_equal. rewrite nth_set_nth_default.
      destruct (Nat.eqb_spec d d') as [<-|]; [|reflexivity]. destruct Ns. exists d. auto.
    + destruct (dget Nat.eqb j (d_ref s)) as [d'|]; reflexivity.
Qed.

End Alias.
