(** What add_coord_transformation does. *)
From Verif Require Import Alg Alg_P Arr Arr_P Spec UtilsM TensorM WorldM SpecWorld World_P SpecTrans.
Local Open Scope nat_scope.

Section Dict.
Context {V : Type}.
Implicit Type d : list (oid * V).
Lemma dget_set k v d j : dget Nat.eqb j (dset Nat.eqb k v d) = if j =? k then Some v else dget Nat.eqb j d.
Proof.
  destruct (Nat.eqb_spec j k) as [->|N]; [apply dget_dset_same|]. induction d as [|[k' v'] d IH]; cbn [dset dget].
  - destruct (Nat.eqb_spec j k); congruence.
  - destruct (Nat.eqb_spec k k') as [<-|M]; cbn [dget]; [destruct (Nat.eqb_spec j k); congruence|]. destruct (j =? k'); [reflexivity|exact IH].
Qed.
Lemma dget_out d j : ~ In j (map fst d) -> dget Nat.eqb j d = None.
Proof. intros H. destruct (dget Nat.eqb j d) eqn:E; [|reflexivity]. destruct (H (dget_key _ _ _ E)). Qed.
Lemma dget_del k d j : NoDup (map fst d) -> dget Nat.eqb j (ddel Nat.eqb k d) = if j =? k then None else dget Nat.eqb j d.
Proof.
  induction d as [|[k' v'] d IH]; intros H; cbn [ddel dget]; [destruct (j =? k); reflexivity|]. cbn [map fst] in H. apply NoDup_cons_iff in H as [H1 H2].
  destruct (Nat.eqb_spec k k') as [<-|M].
  - destruct (Nat.eqb_spec j k) as [E|N]; [rewrite E; apply dget_out, H1|reflexivity].
  - cbn [dget]. destruct (Nat.eqb_spec j k') as [E|N]; [destruct (Nat.eqb_spec j k); congruence|apply IH, H2].
Qed.
Lemma set_nodup k v d : NoDup (map fst d) -> NoDup (map fst (dset Nat.eqb k v d)).
Proof.
  induction d as [|[k' v'] d IH]; intros H; cbn [dset map fst]; [repeat constructor; intros []|]. cbn [map fst] in H. apply NoDup_cons_iff in H as [H1 H2].
  destruct (Nat.eqb_spec k k') as [<-|M]; cbn [map fst]; apply NoDup_cons_iff; split; auto. intros X. apply H1.
  clear -X M. induction d as [|[a b] d IH]; cbn [dset map fst] in *; [destruct X as [X|[]]; congruence|].
  destruct (Nat.eqb_spec k a) as [<-|N]; cbn [map fst] in X; [exact X|]. destruct X as [X|X]; [left; exact X|right; exact (IH X)].
Qed.
Lemma del_nodup k d : NoDup (map fst d) -> NoDup (map fst (ddel Nat.eqb k d)).
Proof.
  induction d as [|[k' v'] d IH]; intros H; cbn [ddel map fst]; [exact H|]. cbn [map fst] in H. apply NoDup_cons_iff in H as [H1 H2].
  destruct (Nat.eqb_spec k k') as [<-|M]; cbn [map fst]; [exact H2|]. apply NoDup_cons_iff; split; [|auto]. intros X. apply H1, (ddel_keys _ _ _ X).
Qed.
Lemma dmem_get k d : dmem Nat.eqb k d = match dget Nat.eqb k d with Some _ => true | None => false end.
Proof. unfold dmem. reflexivity. Qed.
End Dict.

Section AddTrans.
Context {A : AlgOps}.
Lemma rules_split l : forallb rule_ok l = true <-> ~ In RBad l.
Proof.
  rewrite forallb_forall. split.
  - intros H X. specialize (H _ X). discriminate H.
  - intros H x Hx. destruct x; [reflexivity|reflexivity|contradiction].
Qed.
Lemma stored_equations l : stored_rules l = equations l.
Proof. unfold stored_rules. induction l as [|[|r|] l IH]; cbn [flat_map equations app]; rewrite ?IH; reflexivity. Qed.
Lemma isin w c : cls_of w c = Some CCoordinates -> isinstance c CCoordinates w = (Ok true, w).
Proof. intros H. unfold isinstance. rewrite H. reflexivity. Qed.

Theorem transformation_added w s c so l : obj_of w s = Some so -> cls_of w c = Some CCoordinates -> s <> c -> ~ In RBad l ->
  exists w', add_coord_transformation s (VObj c) (Some l) w = (Ok tt, w') /\
    changes_transformations w w' s (fun k old => if k =? c then Some (equations l) else old).
Proof.
  intros Ho Hc N Hl. unfold add_coord_transformation, mbind. rewrite (isin w c Hc). cbn [negb]. rewrite (proj2 (Nat.eqb_neq s c) N).
  unfold getobj. rewrite Ho. rewrite (proj2 (rules_split l) Hl).
  destruct (put_spec w s so (set_trans (dset Nat.eqb c (stored_rules l) (o_trans so)) so) Ho) as (w' & E & I & _ & C & O). exists w'. split; [exact E|].
  exists so, (set_trans (dset Nat.eqb c (stored_rules l) (o_trans so)) so). split; [exact Ho|]. split; [rewrite O, Nat.eqb_refl; reflexivity|].
  split; [intros k; rewrite <- stored_equations; apply dget_set|]. split; [apply set_nodup|]. split; [repeat split|]. split; [intros j Hj; rewrite O; destruct (Nat.eqb_spec s j); congruence|]. split; assumption.
Qed.
Theorem transformation_removed w s c so : obj_of w s = Some so -> cls_of w c = Some CCoordinates -> s <> c -> NoDup (map fst (o_trans so)) ->
  (dget Nat.eqb c (o_trans so) <> None ->
   exists w', add_coord_transformation s (VObj c) None w = (Ok tt, w') /\ changes_transformations w w' s (fun k old => if k =? c then None else old)) /\
  (dget Nat.eqb c (o_trans so) = None -> add_coord_transformation s (VObj c) None w = (Err EKeyError, w)).
Proof.
  intros Ho Hc N ND. unfold add_coord_transformation, mbind. rewrite (isin w c Hc). cbn [negb]. rewrite (proj2 (Nat.eqb_neq s c) N).
  unfold getobj. rewrite Ho. rewrite dmem_get. split; intros H; [|rewrite H; reflexivity].
  destruct (dget Nat.eqb c (o_trans so)) as [R|]; [|congruence].
  destruct (put_spec w s so (set_trans (ddel Nat.eqb c (o_trans so)) so) Ho) as (w' & E & I & _ & C & O). exists w'. split; [exact E|].
  exists so, (set_trans (ddel Nat.eqb c (o_trans so)) so). split; [exact Ho|]. split; [rewrite O, Nat.eqb_refl; reflexivity|].
  split; [intros k; apply dget_del, ND|]. split; [apply del_nodup|]. split; [repeat split|]. split; [intros j Hj; rewrite O; destruct (Nat.eqb_spec s j); congruence|]. split; assumption.
Qed.
Theorem transformation_refused w s so : obj_of w s = Some so ->
  (forall v rules, (forall c, v = VObj c -> cls_of w c <> Some CCoordinates \/ c = s) -> add_coord_transformation s v rules w = (Err ETransformation, w)) /\
  (forall c l, cls_of w c = Some CCoordinates -> s <> c -> In RBad l -> add_coord_transformation s (VObj c) (Some l) w = (Err ETypeError, w)).
Proof.
  intros Ho. split.
  - intros v rules H. unfold add_coord_transformation. destruct v as [| | | | | | |c|]; try reflexivity. unfold mbind, isinstance.
    destruct (cls_of w c) as [k|] eqn:E; [|reflexivity]. destruct k; try reflexivity. cbn [cls_eqb negb]. destruct (H c eq_refl) as [X|X]; [congruence|]. rewrite X, Nat.eqb_refl. reflexivity.
  - intros c l Hc N Hl. unfold add_coord_transformation, mbind. rewrite (isin w c Hc). cbn [negb]. rewrite (proj2 (Nat.eqb_neq s c) N). unfold getobj. rewrite Ho.
    destruct (forallb rule_ok l) eqn:E; [|reflexivity]. apply rules_split in E. contradiction.
Qed.
End AddTrans.
