(** Proofs about the information on objects. *)
From Coq Require Import Permutation.
From Verif Require Import Alg Arr TensorM WorldM SpecWorld World_P Registry_P Typed_P Self_P InfoM SpecInfo.

Section Info.
Context {A : AlgOps}.

Lemma names_of_ok w l : (forall i, In i l -> obj_of w i <> None) -> names_of l w = (Ok (map (name_in w) l), w).
Proof.
  induction l as [|i l IH]; intros H; [reflexivity|]. cbn [names_of]. unfold mbind at 1, getobj.
  destruct (obj_of w i) as [o|] eqn:E; [|destruct (H i (or_introl eq_refl) E)].
  assert (En : name_in w i = o_name o) by (unfold name_in; rewrite E; reflexivity).
  unfold mbind. rewrite IH by (intros j Hj; apply H; right; exact Hj). cbn [mret map]. rewrite En. reflexivity.
Qed.

Lemma users_in_spec w attr t i : In i (users_in w attr t) <-> In i (insts w) /\ exists o, obj_of w i = Some o /\ attr o = Some t.
Proof.
  unfold users_in. rewrite filter_In. split; intros [H1 H2]; (split; [exact H1|]).
  - destruct (obj_of w i) as [o|]; [|discriminate H2]. exists o. split; [reflexivity|]. destruct (attr o) as [j|]; [|discriminate H2].
    apply Nat.eqb_eq in H2. congruence.
  - destruct H2 as (o & -> & ->). apply Nat.eqb_refl.
Qed.

Lemma users_entry_ok w key attr t : In t (insts w) -> registry_ok w ->
  users_entry key attr t w = (Ok [(key, INames (map (name_in w) (users_in w attr t)))], w).
Proof.
  intros Ht R. unfold users_entry. destruct (insts w) as [|j l] eqn:E; [destruct Ht|].
  unfold mbind at 1, users. rewrite E. change (filter _ (j :: l)) with (filter (fun i => match obj_of w i with
                   | Some o => match attr o with Some j => j =? t | None => false end
                   | None => false end) (j :: l)). rewrite <- E. fold (users_in w attr t).
  unfold mbind. rewrite names_of_ok; [reflexivity|]. intros i Hi. apply R. apply users_in_spec in Hi. apply Hi.
Qed.

Lemma name_entry_ok w key i o : obj_of w i = Some o -> name_entry key (Some i) w = (Ok [(key, IText (o_name o))], w).
Proof. intros H. unfold name_entry, mbind, mopt, mret, getobj. rewrite H. reflexivity. Qed.

(** What each class shows. *)
Theorem info_ok w t o : healthy w -> In t (insts w) -> obj_of w t = Some o ->
  exists d, get_info t w = (Ok d, w) /\
  info_get "Name" d = Some (IText (o_name o)) /\ info_get "Symbol" d = Some (IText (o_symbol o)) /\
  info_get "Type" d = Some (IClass (cls_of w t)) /\ info_get "Rank" d = Some (INumber (o_rank o)) /\
  info_get "Default Indices" d = Some (IConfig (o_indices o)) /\
  (cls_of w t = Some CCoordinates ->
     info_get "Default Coordinates For" d = Some (INames (map (name_in w) (users_in w o_coords t))) /\
     info_get "Coordinate Transformations" d = match o_trans o with [] => None | l => Some (INames (map (fun x => name_in w (fst x)) l)) end /\
     info_get "Default Coordinates" d = None /\ info_get "Metric" d = None /\ info_get "Tensors Using This Metric" d = None) /\
  (cls_of w t <> Some CCoordinates -> exists c, o_coords o = Some c /\
     info_get "Default Coordinates" d = Some (IText (name_in w c)) /\
     info_get "Default Coordinates For" d = None /\ info_get "Coordinate Transformations" d = None) /\
  (cls_of w t = Some CMetric -> info_get "Metric" d = None /\
     info_get "Tensors Using This Metric" d = Some (INames (map (name_in w) (users_in w o_metric t)))) /\
  (cls_of w t <> Some CCoordinates -> cls_of w t <> Some CMetric -> info_get "Tensors Using This Metric" d = None /\
     exists m, o_metric o = Some m /\ info_get "Metric" d = Some (IText (name_in w m))) /\
  NoDup (map fst d) /\ incl (map fst d) info_order.
Proof.
  intros Rw Ht Ho. pose proof (proj1 Rw) as [R I]. pose proof (proj1 (proj2 Rw)) as [Ty Co].
  assert (Lv : forall j, refers o j -> exists oj, obj_of w j = Some oj).
  { intros j Hj. pose proof (I t o j Ht Ho Hj) as Hin. destruct R as [_ R]. specialize (R j Hin). destruct (obj_of w j) as [oj|]; [exists oj; reflexivity|congruence]. }
  assert (ND : forall l : list string, (fix dis l := match l with [] => true | x :: l' => negb (existsb (String.eqb x) l') && dis l' end) l = true -> NoDup l).
  { induction l as [|x l IH]; intros H; [constructor|]. apply andb_prop in H. destruct H as [H1 H2]. constructor; [|apply IH, H2].
    intros Hx. apply negb_true_iff in H1. assert (Z : existsb (String.eqb x) l = true) by (apply existsb_exists; exists x; split; [exact Hx|apply String.eqb_refl]). congruence. }
  assert (IN : forall l : list string, forallb (fun x => existsb (String.eqb x) info_order) l = true -> incl l info_order).
  { intros l H x Hx. rewrite forallb_forall in H. specialize (H x Hx). apply existsb_exists in H. destruct H as (y & Hy & E).
    apply String.eqb_eq in E. subst y. exact Hy. }
  unfold get_info. unfold mbind at 1, getobj. rewrite Ho.
  destruct (cls_of w t) as [k|] eqn:Ek.
  2:{ destruct (obj_of_cls _ _ _ Ho) as [c Hc]. unfold cls_of in Ek. rewrite Hc in Ek. discriminate Ek. }
  destruct k.
  - (* Coordinates *)
    set (tr := match o_trans o with [] => [] | l => [("Coordinate Transformations"%string, INames (map (fun x => name_in w (fst x)) l))] end).
    exists (base_info (Some CCoordinates) o ++ tr ++ [("Default Coordinates For"%string, INames (map (name_in w) (users_in w o_coords t)))]).
    assert (Et : (match o_trans o with [] => mret [] | l => let! ns := names_of (map fst l) in mret [("Coordinate Transformations"%string, INames ns)] end) w = (Ok tr, w)).
    { unfold tr. destruct (o_trans o) as [|x l] eqn:E; [reflexivity|]. unfold mbind. rewrite names_of_ok.
      - rewrite map_map. reflexivity.
      - intros j Hj. destruct (Lv j) as [oj ->]; [right; right; right; rewrite E; exact Hj|discriminate]. }
    unfold mbind at 1. rewrite Et. unfold mbind at 1. rewrite users_entry_ok by assumption.
    split; [reflexivity|]. repeat (split; [reflexivity|]).
    unfold tr. destruct (o_trans o) as [|x l]; cbn [app];
    (split; [intros _; repeat split|]; split; [congruence|]; split; [discriminate|]; split; [congruence|];
     split; [apply ND; reflexivity|apply IN; reflexivity]).
  - (* Metric *)
    destruct (Co t o Ho) as [Hm Hc]; [congruence|]. destruct (o_coords o) as [c|] eqn:Ec; [|congruence].
    destruct (Lv c) as [oc Hoc]; [right; right; left; exact Ec|].
    exists (base_info (Some CMetric) o ++ [("Default Coordinates"%string, IText (o_name oc))] ++
            [("Tensors Using This Metric"%string, INames (map (name_in w) (users_in w o_metric t)))]).
    unfold mbind at 1. rewrite (name_entry_ok _ _ _ _ Hoc). unfold mbind at 1. rewrite users_entry_ok by assumption.
    split; [reflexivity|]. repeat (split; [reflexivity|]). split; [discriminate|].
    split. { intros _. exists c. split; [reflexivity|]. split; [unfold name_in; rewrite Hoc; reflexivity|]. split; reflexivity. }
    split; [intros _; split; reflexivity|]. split; [congruence|]. split; [apply ND; reflexivity|apply IN; reflexivity].
  - shelve. - shelve. - shelve. - shelve.
  Unshelve.
  all: match goal with |- context [base_info (Some ?k) _] =>
    destruct (Co t o Ho) as [Hm Hc]; [congruence|]; destruct (o_coords o) as [c|] eqn:Ec; [|congruence];
    destruct (o_metric o) as [m|] eqn:Em; [|congruence];
    destruct (Lv c) as [oc Hoc]; [right; right; left; exact Ec|];
    destruct (Lv m) as [om Hom]; [right; left; exact Em|];
    exists (base_info (Some k) o ++ [("Default Coordinates"%string, IText (o_name oc))] ++ [("Metric"%string, IText (o_name om))]);
    unfold mbind at 1; rewrite (name_entry_ok _ _ _ _ Hoc); unfold mbind at 1; rewrite (name_entry_ok _ _ _ _ Hom);
    (split; [reflexivity|]); repeat (split; [reflexivity|]); (split; [discriminate|]);
    (split; [intros _; exists c; split; [reflexivity|]; split; [unfold name_in; rewrite Hoc; reflexivity|]; split; reflexivity|]);
    (split; [discriminate|]);
    (split; [intros _ _; split; [reflexivity|]; exists m; split; [reflexivity|]; unfold name_in; rewrite Hom; reflexivity|]);
    split; [apply ND; reflexivity|apply IN; reflexivity] end.
Qed.

(** The lines that are printed: every entry once, in the fixed order. *)
Lemma info_get_in d key v : info_get key d = Some v -> In key (map fst d).
Proof.
  induction d as [|[k x] d IH]; [discriminate|]. cbn. destruct (String.eqb_spec k key) as [->|N]; [left; reflexivity|].
  intros H. right. exact (IH H).
Qed.
Lemma info_get_entry d key v : NoDup (map fst d) -> (In (key, v) d <-> info_get key d = Some v).
Proof.
  induction d as [|[k x] d IH]; intros ND; [split; [intros []|discriminate]|]. cbn in ND. inversion ND as [|? ? H1 H2]; subst. cbn.
  destruct (String.eqb_spec k key) as [->|N].
  - split; [intros [H|H]; [congruence|]|intros H; left; congruence]. destruct H1. apply in_map_iff. exists (key, v). split; [reflexivity|exact H].
  - rewrite <- IH by exact H2. split; [intros [H|H]; [congruence|exact H]|intros H; right; exact H].
Qed.

Lemma lines_keys d order : map fst (flat_map (fun key => match info_get key d with Some v => [(key, v)] | None => [] end) order)
  = filter (fun key => match info_get key d with Some _ => true | None => false end) order.
Proof.
  induction order as [|k order IH]; [reflexivity|]. cbn [flat_map filter]. rewrite map_app, IH.
  destruct (info_get k d); reflexivity.
Qed.

Lemma subseq_filter {X} (p : X -> bool) l : subseq (filter p l) l.
Proof. induction l as [|x l IH]; [constructor|]. cbn. destruct (p x); [apply subseq_keep|apply subseq_drop]; exact IH. Qed.

Lemma order_nodup : NoDup info_order.
Proof. repeat constructor; cbn; intuition discriminate. Qed.

Lemma lines_permutation d : NoDup (map fst d) -> incl (map fst d) info_order ->
  Permutation (info_lines d) d /\ subseq (map fst (info_lines d)) info_order.
Proof.
  intros ND I. unfold info_lines. split.
  - apply NoDup_Permutation.
    + apply (NoDup_map_inv fst). rewrite lines_keys. apply NoDup_filter, order_nodup.
    + exact (NoDup_map_inv _ _ ND).
    + intros [k v]. rewrite (info_get_entry d k v ND). rewrite in_flat_map. split.
      * intros (k' & _ & H). destruct (info_get k' d) as [v'|] eqn:E; [|destruct H]. destruct H as [H|[]]. injection H as -> ->. exact E.
      * intros H. exists k. split; [apply I; exact (info_get_in _ _ _ H)|]. rewrite H. left. reflexivity.
  - rewrite lines_keys. apply subseq_filter.
Qed.

Theorem info_shown w t : healthy w -> In t (insts w) ->
  exists d ls, get_info t w = (Ok d, w) /\ info t w = (Ok ls, w) /\ Permutation ls d /\ subseq (map fst ls) info_order.
Proof.
  intros Rw Ht. pose proof (proj1 Rw) as [[_ R] _]. specialize (R t Ht).
  destruct (obj_of w t) as [o|] eqn:Ho; [|congruence].
  destruct (info_ok w t o Rw Ht Ho) as (d & E & _ & _ & _ & _ & _ & _ & _ & _ & _ & ND & I).
  exists d, (info_lines d). split; [exact E|]. split; [unfold info, mbind; rewrite E; reflexivity|].
  apply lines_permutation; assumption.
Qed.

(** The same in the words of the statements. *)
Lemma entry_of d key v : NoDup (map fst d) -> info_get key d = Some v -> entry d key v.
Proof. intros ND H. split; [exact ND|]. apply info_get_entry; assumption. Qed.
Lemma no_entry_of d key : info_get key d = None -> no_entry d key.
Proof.
  unfold no_entry. induction d as [|[k x] d IH]; [intros _ []|]. cbn. destruct (String.eqb_spec k key) as [->|N]; [discriminate|].
  intros H [E|E]; [congruence|exact (IH H E)].
Qed.

Theorem info_entries w t o : healthy w -> In t (insts w) -> obj_of w t = Some o ->
  exists d, get_info t w = (Ok d, w) /\
  entry d "Name" (IText (o_name o)) /\ entry d "Symbol" (IText (o_symbol o)) /\
  entry d "Type" (IClass (cls_of w t)) /\ entry d "Rank" (INumber (o_rank o)) /\ entry d "Default Indices" (IConfig (o_indices o)) /\
  (cls_of w t = Some CCoordinates ->
     entry d "Default Coordinates For" (INames (map (name_in w) (users_in w o_coords t))) /\
     (o_trans o = [] -> no_entry d "Coordinate Transformations") /\
     (o_trans o <> [] -> entry d "Coordinate Transformations" (INames (map (fun x => name_in w (fst x)) (o_trans o)))) /\
     no_entry d "Default Coordinates" /\ no_entry d "Metric" /\ no_entry d "Tensors Using This Metric") /\
  (cls_of w t <> Some CCoordinates -> exists c, o_coords o = Some c /\
     entry d "Default Coordinates" (IText (name_in w c)) /\
     no_entry d "Default Coordinates For" /\ no_entry d "Coordinate Transformations") /\
  (cls_of w t = Some CMetric -> no_entry d "Metric" /\
     entry d "Tensors Using This Metric" (INames (map (name_in w) (users_in w o_metric t)))) /\
  (cls_of w t <> Some CCoordinates -> cls_of w t <> Some CMetric -> no_entry d "Tensors Using This Metric" /\
     exists m, o_metric o = Some m /\ entry d "Metric" (IText (name_in w m))) /\
  incl (map fst d) shown_order.
Proof.
  intros Rw Ht Ho. destruct (info_ok w t o Rw Ht Ho) as (d & E & H1 & H2 & H3 & H4 & H5 & H6 & H7 & H8 & H9 & ND & I).
  exists d. split; [exact E|]. do 5 (split; [apply entry_of; assumption|]).
  split. { intros K. destruct (H6 K) as (G1 & G2 & G3 & G4 & G5). split; [apply entry_of; assumption|].
    split; [intros Z; rewrite Z in G2; apply no_entry_of, G2|].
    split; [intros Z; apply entry_of; [exact ND|]; rewrite G2; destruct (o_trans o); [congruence|reflexivity]|].
    repeat split; apply no_entry_of; assumption. }
  split. { intros K. destruct (H7 K) as (c & G1 & G2 & G3 & G4). exists c. split; [exact G1|]. split; [apply entry_of; assumption|].
    split; apply no_entry_of; assumption. }
  split. { intros K. destruct (H8 K) as (G1 & G2). split; [apply no_entry_of, G1|apply entry_of; assumption]. }
  split; [|exact I]. intros K1 K2. destruct (H9 K1 K2) as (G1 & m & G2 & G3). split; [apply no_entry_of, G1|].
  exists m. split; [exact G2|apply entry_of; assumption].
Qed.

Theorem info_printed w t : healthy w -> In t (insts w) ->
  exists d ls, get_info t w = (Ok d, w) /\ info t w = (Ok ls, w) /\ Permutation ls d /\ subseq (map fst ls) shown_order.
Proof. exact (info_shown w t). Qed.

(** Which objects are listed. *)
Theorem users_exactly w attr t : (forall i, In i (users_in w attr t) <-> In i (insts w) /\ exists o, obj_of w i = Some o /\ attr o = Some t) /\
  subseq (users_in w attr t) (insts w).
Proof. split; [intros i; apply users_in_spec|apply subseq_filter]. Qed.

(** A metric is its own metric. *)
Theorem metric_lists_itself w t : healthy w -> In t (insts w) -> cls_of w t = Some CMetric -> In t (users_in w o_metric t).
Proof.
  intros Rw Ht K. pose proof (proj1 Rw) as [[_ R] _]. specialize (R t Ht).
  destruct (obj_of w t) as [o|] eqn:Ho; [|congruence]. apply users_in_spec. split; [exact Ht|]. exists o. split; [exact Ho|].
  exact (proj2 (proj2 Rw) t o Ht Ho K).
Qed.

(** Deletion *)
Theorem listed_not_deleted w t i silent : healthy w -> In t (insts w) -> i <> t ->
  In i (users_in w o_coords t) \/ In i (users_in w o_metric t) -> delete t silent w = (Err EPermissionError, w).
Proof.
  intros Rw Ht N H. pose proof (proj1 Rw) as [R _]. apply delete_used; [exact R|exact Ht|].
  destruct H as [H|H]; apply users_in_spec in H; destruct H as (Hi & o & Ho & E); exists i, o; split; [exact Hi| |exact Hi|]; split; try exact N; split; try exact Ho.
  - right. right. left. exact E.
  - right. left. exact E.
Qed.
End Info.
