(** Proofs about tensor formulas: sums, products, traces. *)
From Verif Require Import Alg Alg_P Arr Arr_P Spec UtilsM Utils_P Arr2_P TensorM WorldM SpecWorld World_P Registry_P History_P CalcM SpecCalc Keep_P.
Local Open Scope nat_scope.

Section CalcP.
Context {A : AlgOps}.

(** *** The monad *)
Lemma bind_ok {X Y} (m : M X) (k : X -> M Y) x w w' : m w = (Ok x, w') -> mbind m k w = k x w'.
Proof. intros H. unfold mbind. rewrite H. reflexivity. Qed.
Lemma bind_err {X Y} (m : M X) (k : X -> M Y) e w w' : m w = (Err e, w') -> mbind m k w = (Err e, w').
Proof. intros H. unfold mbind. rewrite H. reflexivity. Qed.
Lemma bind_inv {X Y} (m : M X) (k : X -> M Y) y w w' : mbind m k w = (Ok y, w') -> exists x w1, m w = (Ok x, w1) /\ k x w1 = (Ok y, w').
Proof. unfold mbind. destruct (m w) as [[x|] w1]; [eauto|discriminate]. Qed.
Lemma getobj_ok w i o : obj_of w i = Some o -> getobj i w = (Ok o, w).
Proof. intros H. unfold getobj. rewrite H. reflexivity. Qed.
Lemma mopt_ok {X} e (x : option X) y w : x = Some y -> mopt e x w = (Ok y, w).
Proof. intros ->. reflexivity. Qed.
Lemma mlift_ok {X} (r : res X) y w : r = Ok y -> mlift r w = (Ok y, w).
Proof. intros ->. reflexivity. Qed.

Lemma mmap_opt {X Y} e (f : X -> option Y) l l' w : Forall2 (fun x y => f x = Some y) l l' ->
  mmap (fun x => mopt e (f x)) l w = (Ok l', w).
Proof.
  induction 1 as [|x y l l' H _ IH]; [reflexivity|]. cbn [mmap].
  rewrite (bind_ok _ _ y w w) by (apply mopt_ok, H). rewrite (bind_ok _ _ l' w w) by exact IH. reflexivity.
Qed.

(** *** Lists of symbols *)
Lemma spos_some s l j : spos s l = Some j <-> (nth_error l j = Some s /\ ~ In s (firstn j l)).
Proof.
  unfold spos. revert j. induction l as [|x l IH]; intros j; cbn [index_of].
  - split; [discriminate|]. intros [H _]. destruct j; discriminate.
  - destruct (String.eqb_spec s x) as [->|N].
    + split; [intros H; injection H as <-; split; [reflexivity|intros []]|].
      intros [H1 H2]. destruct j; [reflexivity|]. exfalso. apply H2. left; reflexivity.
    + destruct (index_of String.eqb s l) as [k|] eqn:E; cbn [option_map].
      * split.
        -- intros H; injection H as <-. destruct (proj1 (IH k) eq_refl) as [H1 H2]. split; [exact H1|].
           intros [H|H]; [congruence|exact (H2 H)].
        -- intros [H1 H2]. destruct j; [cbn in H1; congruence|]. cbn in H1, H2.
           assert (Ej : Some k = Some j) by (apply IH; split; [exact H1|tauto]). congruence.
      * split; [discriminate|]. intros [H1 H2]. destruct j; [cbn in H1; congruence|]. cbn in H1, H2.
        assert (Ej : None = Some j) by (apply IH; split; [exact H1|tauto]). discriminate.
Qed.
Lemma spos_in s l : In s l -> exists j, spos s l = Some j /\ j < length l.
Proof.
  unfold spos. induction l as [|x l IH]; [intros []|]. cbn [index_of length].
  destruct (String.eqb_spec s x) as [->|N]; [exists 0; split; [reflexivity|lia]|].
  intros [H|H]; [congruence|]. destruct (IH H) as (j & -> & Hj). exists (S j). cbn. split; [reflexivity|lia].
Qed.
Lemma spos_none s l : spos s l = None <-> ~ In s l.
Proof.
  split.
  - intros H Hi. destruct (spos_in s l Hi) as (j & Hj & _). congruence.
  - intros H. destruct (spos s l) as [j|] eqn:E; [|reflexivity]. apply spos_some in E as [E _].
    apply nth_error_In in E. contradiction.
Qed.
Lemma spos_nth l j s : NoDup l -> nth_error l j = Some s -> spos s l = Some j.
Proof.
  intros Hn Hj. apply spos_some. split; [exact Hj|]. intros Hi.
  destruct (nth_error_split _ _ Hj) as (l1 & l2 & -> & <-).
  rewrite firstn_app, firstn_all, Nat.sub_diag, firstn_O, app_nil_r in Hi.
  apply NoDup_remove_2 in Hn. apply Hn, in_app_iff. left; exact Hi.
Qed.
Lemma smem_in s l : smem s l = true <-> In s l.
Proof.
  unfold smem. rewrite existsb_exists. split.
  - intros (x & Hx & E). apply String.eqb_eq in E. subst. exact Hx.
  - intros H. exists s. split; [exact H|apply String.eqb_refl].
Qed.
Lemma smem_out s l : smem s l = false <-> ~ In s l.
Proof. rewrite <- smem_in. destruct (smem s l); intuition congruence. Qed.

Lemma count_nodup s l : NoDup l -> count String.eqb s l <= 1.
Proof.
  induction 1 as [|x l Hx Hn IH]; [cbn; lia|]. cbn [count filter length]. unfold count in *. cbn [filter].
  destruct (String.eqb_spec s x) as [->|N]; [|exact IH]. cbn [length].
  enough (length (filter (String.eqb x) l) = 0) by lia.
  clear - Hx. induction l as [|y l IH]; [reflexivity|]. cbn. destruct (String.eqb_spec x y) as [->|N].
  - exfalso; apply Hx; left; reflexivity.
  - apply IH. intros H; apply Hx; right; exact H.
Qed.

Lemma count_occ_count s l : count String.eqb s l = count_occ string_dec l s.
Proof.
  induction l as [|x l IH]; [reflexivity|]. unfold count in *. cbn [filter count_occ].
  destruct (String.eqb_spec s x) as [->|N].
  - destruct (string_dec x x); [cbn; rewrite IH; reflexivity|congruence].
  - destruct (string_dec x s); [congruence|exact IH].
Qed.

Lemma is_permutation_spec l l' : is_permutation l l' = true <-> Permutation l l'.
Proof.
  unfold is_permutation. rewrite andb_true_iff, Nat.eqb_eq, forallb_forall. split.
  - intros [_ H]. apply (Permutation_count_occ string_dec). intros s. rewrite <- !count_occ_count.
    destruct (in_dec string_dec s (l ++ l')) as [Hi|Hi]; [apply Nat.eqb_eq, H, Hi|].
    rewrite !count_occ_count. rewrite in_app_iff in Hi.
    rewrite !(proj1 (count_occ_not_In string_dec _ _)) by tauto. reflexivity.
  - intros H. split; [apply Permutation_length, H|]. intros s _. apply Nat.eqb_eq. rewrite !count_occ_count.
    apply (Permutation_count_occ string_dec), H.
Qed.

(** *** New tensors *)
Lemma validate_ok l n src : valid_cfg l -> (forall k, n = Some k -> k = length l) -> (forall k, src = Some k -> k = length l) ->
  validate_indices (VTuple l) n src = Ok tt.
Proof.
  intros V H1 H2. destruct (validate_indices_spec (VTuple l) n src) as (_ & H & _). apply (H l eq_refl). split; [exact V|].
  split; intros k Hk; [apply eq_sym, H1|apply eq_sym, H2]; exact Hk.
Qed.
Lemma validate_inv l n src u : validate_indices (VTuple l) n src = Ok u -> valid_cfg l /\ (forall k, n = Some k -> k = length l) /\ (forall k, src = Some k -> k = length l).
Proof.
  intros E. destruct u. destruct (validate_indices_spec (VTuple l) n src) as (_ & H & _). apply (H l eq_refl) in E.
  destruct E as (V & H1 & H2). split; [exact V|]. split; intros k Hk; symmetry; auto.
Qed.

Definition tobj (name sy : string) (i : list Z) (c m : oid) (a : arr) : obj :=
  mkObj name sy i (length i) (Some c) (Some m) [(c, [(i, a)])] [] [] [].

Lemma make_tensor_ok w k name a m c i sy n :
  cls_of w m = Some CMetric -> coordinate_system w c n -> cubic n a -> valid_cfg i -> length i = rank a ->
  make_tensor k name a (Some m) (Some c) i sy w = (Ok (length (heap w)), fresh_world w k (tobj name sy i c m a)).
Proof.
  intros Hm [Hc (o & d & x & H1 & H2 & H3 & Hn)] [Hwf Hsh] V Hi. unfold make_tensor, new_tensor_as.
  rewrite (bind_ok _ _ true w w) by (unfold isinstance; rewrite Hm; reflexivity). cbn [negb].
  unfold base_ctor. rewrite (bind_ok _ _ true w w) by (unfold isinstance; rewrite Hc; reflexivity). cbn [negb].
  rewrite (bind_ok _ _ x w w) by (apply coord_components_spec; exists o, d; auto).
  rewrite (bind_ok _ _ tt w w).
  2:{ apply mlift_ok. unfold validate_base, validate_object. cbn [mat_to_array as_array].
      assert (E : forall q, forallb (fun z => z =? q) (shape a) = true <-> Forall (fun z => z = q) (shape a)).
      { intros q. rewrite forallb_forall, Forall_forall. split; intros H z Hz; apply Nat.eqb_eq, H, Hz. }
      assert (Hall : Forall (fun z => z = n) (shape a)).
      { rewrite Hsh. apply Forall_forall. intros z Hz. apply repeat_spec in Hz. exact Hz. }
      assert (E1 : forallb (fun z => z =? hd 0 (shape a)) (shape a) = true).
      { apply E. destruct (shape a) as [|z l]; [constructor|]. cbn [hd]. inversion Hall; subst. exact Hall. }
      rewrite E1. cbn [negb]. rewrite (validate_ok i (Some (rank a)) None V); [|intros q Hq; injection Hq as <-; auto|discriminate].
      cbn [rbind]. rewrite Hn. rewrite (proj2 (E n) Hall). reflexivity. }
  cbn [mat_to_array as_array]. rewrite (bind_ok _ _ a w w) by reflexivity. rewrite alloc_fresh.
  unfold tobj, default_indices. rewrite Hi. reflexivity.
Qed.

Lemma cls_fresh_new w k o : cls_of (fresh_world w k o) (length (heap w)) = Some k.
Proof. unfold cls_of, fresh_world. cbn [heap]. rewrite nth_error_app2 by lia. rewrite Nat.sub_diag. reflexivity. Qed.
Lemma obj_fresh_new w k o : obj_of (fresh_world w k o) (length (heap w)) = Some o.
Proof. rewrite obj_of_fresh, Nat.eqb_refl. reflexivity. Qed.
Lemma cls_of_lt w i k : cls_of w i = Some k -> i < length (heap w).
Proof. unfold cls_of. destruct (nth_error (heap w) i) eqn:E; [|discriminate]. intros _. apply nth_error_Some. congruence. Qed.
Lemma cls_fresh_old w k o i c : cls_of w i = Some c -> cls_of (fresh_world w k o) i = Some c.
Proof. intros H. rewrite cls_of_fresh; [exact H|]. apply cls_of_lt in H. lia. Qed.
Lemma obj_fresh_old w k o i oi : obj_of w i = Some oi -> obj_of (fresh_world w k o) i = Some oi.
Proof.
  intros H. rewrite obj_of_fresh. destruct (Nat.eqb_spec i (length (heap w))) as [->|N]; [|exact H].
  apply obj_of_lt in H. lia.
Qed.
Lemma typed_fresh w k o : typed w -> (forall m, o_metric o = Some m -> cls_of w m = Some CMetric) ->
  (forall c, o_coords o = Some c -> cls_of w c = Some CCoordinates) -> typed (fresh_world w k o).
Proof.
  intros H H1 H2 i oi. rewrite obj_of_fresh. destruct (Nat.eqb_spec i (length (heap w))) as [->|N].
  - intros E; injection E as <-. split; intros x Hx; apply cls_fresh_old; auto.
  - intros Ho. destruct (H i oi Ho) as [H3 H4]. split; intros x Hx; apply cls_fresh_old; auto.
Qed.
Lemma system_fresh w k o c n : coordinate_system w c n -> coordinate_system (fresh_world w k o) c n.
Proof.
  intros [Hc (oc & d & x & H1 & H2)]. split; [apply cls_fresh_old, Hc|]. exists oc, d, x.
  split; [apply obj_fresh_old, H1|exact H2].
Qed.

(** A tensor whose default components are stored. *)
Lemma get_stored w t k o c i d a : cls_of w t = Some k -> k <> CCoordinates -> obj_of w t = Some o ->
  cls_of w c = Some CCoordinates -> dget Nat.eqb c (o_comps o) = Some d -> dget cfg_eqb i d = Some a ->
  valid_cfg i -> length i = length (o_indices o) ->
  get_components t (Some c) (Some i) w = (Ok a, w).
Proof.
  intros Hk Nk Ho Hc Hd Ha V Hl. unfold get_components. rewrite (bind_ok _ _ o w w) by (apply getobj_ok, Ho).
  rewrite (bind_ok _ _ c w w) by reflexivity. unfold get_representation.
  rewrite (bind_ok _ _ true w w) by (unfold isinstance; rewrite Hc; reflexivity). cbn [negb].
  rewrite (bind_ok _ _ o w w) by (apply getobj_ok, Ho).
  rewrite (bind_ok _ _ tt w w).
  2:{ apply mlift_ok, validate_ok; [exact V|discriminate|intros q Hq; injection Hq as <-; auto]. }
  rewrite (bind_ok _ _ true w w).
  2:{ unfold check_representation. rewrite Hk. destruct k; [congruence|..].
      - unfold metric_check. rewrite (bind_ok _ _ o w w) by (apply getobj_ok, Ho). unfold dmem. rewrite Hd. reflexivity.
      - unfold tensor_check. rewrite (bind_ok _ _ o w w) by (apply getobj_ok, Ho). rewrite Hd. unfold dmem. rewrite Ha. reflexivity.
      - unfold tensor_check. rewrite (bind_ok _ _ o w w) by (apply getobj_ok, Ho). rewrite Hd. unfold dmem. rewrite Ha. reflexivity.
      - unfold tensor_check. rewrite (bind_ok _ _ o w w) by (apply getobj_ok, Ho). rewrite Hd. unfold dmem. rewrite Ha. reflexivity.
      - unfold tensor_check. rewrite (bind_ok _ _ o w w) by (apply getobj_ok, Ho). rewrite Hd. unfold dmem. rewrite Ha. reflexivity. }
  rewrite (bind_ok _ _ tt w w) by reflexivity. unfold lookup. rewrite (bind_ok _ _ o w w) by (apply getobj_ok, Ho).
  rewrite (bind_ok _ _ d w w) by (apply mopt_ok, Hd). apply mopt_ok, Ha.
Qed.

(** None stands for the defaults. *)
Lemma get_default w t o c : obj_of w t = Some o -> o_coords o = Some c ->
  get_components t None None w = get_components t (Some c) (Some (o_indices o)) w.
Proof.
  intros Ho Hc. unfold get_components. rewrite !(bind_ok _ _ o w w) by (apply getobj_ok, Ho). rewrite Hc. reflexivity.
Qed.
Lemma get_default_coords w t o c i : obj_of w t = Some o -> o_coords o = Some c ->
  get_components t None (Some i) w = get_components t (Some c) (Some i) w.
Proof.
  intros Ho Hc. unfold get_components. rewrite !(bind_ok _ _ o w w) by (apply getobj_ok, Ho). rewrite Hc. reflexivity.
Qed.
Lemma get_default_indices w t o c : obj_of w t = Some o ->
  get_components t c None w = get_components t c (Some (o_indices o)) w.
Proof.
  intros Ho. unfold get_components. rewrite !(bind_ok _ _ o w w) by (apply getobj_ok, Ho). reflexivity.
Qed.

Lemma get_valid w t c i a w' : get_components t c (Some i) w = (Ok a, w') -> valid_cfg i.
Proof.
  intros H. apply bind_inv in H as (o & w1 & _ & H). apply bind_inv in H as (c' & w2 & _ & H).
  unfold get_representation in H. apply bind_inv in H as (b & w3 & _ & H). destruct (negb b); [discriminate|].
  apply bind_inv in H as (o' & w4 & _ & H). apply bind_inv in H as (u & w5 & Ev & _).
  unfold mlift in Ev. destruct (validate_indices _ _ _) as [u'|] eqn:E; [|discriminate]. apply validate_inv in E. apply E.
Qed.

(** *** Labelling *)
Lemma traces_none l t syms w : (forall s, In s l -> count String.eqb s syms <= 1) ->
  mfold trace_step l (t, syms) w = (Ok (t, syms), w).
Proof.
  induction l as [|s l IH]; intros H; [reflexivity|]. cbn [mfold].
  assert (Hs : count String.eqb s syms <= 1) by (apply H; left; reflexivity).
  rewrite (bind_ok _ _ (t, syms) w w); [apply IH; intros x Hx; apply H; right; exact Hx|].
  unfold trace_step. destruct (Nat.ltb_spec 2 (count String.eqb s syms)); [lia|].
  destruct (Nat.eqb_spec (count String.eqb s syms) 2); [lia|reflexivity].
Qed.

Lemma calc_init_plain w t k o a w1 syms r : cls_of w t = Some k -> k <> CCoordinates -> obj_of w t = Some o ->
  get_components t None None w = (Ok a, w1) -> valid_cfg (o_indices o) -> length (o_indices o) = rank a -> NoDup syms ->
  calc_init (Some t) syms r w = (Ok (mkCalc (Some t) syms r), w1).
Proof.
  intros Hk Nk Ho Hg V Hl Hn. unfold calc_init.
  rewrite (bind_ok _ _ tt w w) by (rewrite Hk; destruct k; congruence).
  rewrite (bind_ok _ _ tt w w1).
  2:{ rewrite (bind_ok _ _ o w w) by (apply getobj_ok, Ho). rewrite (bind_ok _ _ a w w1) by exact Hg.
      apply mlift_ok, validate_ok; [exact V|intros q Hq; injection Hq as <-; auto|discriminate]. }
  rewrite (bind_ok _ _ (Some t, syms) w1 w1); [reflexivity|]. apply traces_none. intros s _. apply count_nodup, Hn.
Qed.

(** A new tensor with its labels. *)
Definition new_calc (w : world) (s : list string) : calc := mkCalc (Some (length (heap w))) s RTensor.

Lemma make_calc w name a m c i sy n s :
  cls_of w m = Some CMetric -> coordinate_system w c n -> cubic n a -> valid_cfg i -> length i = rank a -> NoDup s ->
  (let! t := make_tensor CTensor name a (Some m) (Some c) i sy in calc_init (Some t) s RTensor) w =
  (Ok (new_calc w s), fresh_world w CTensor (tobj name sy i c m a)).
Proof.
  intros Hm Hc Ha V Hi Hs. rewrite (bind_ok _ _ _ _ _ (make_tensor_ok w CTensor name a m c i sy n Hm Hc Ha V Hi)).
  eapply calc_init_plain; [apply cls_fresh_new|discriminate|apply obj_fresh_new| |exact V|exact Hi|exact Hs].
  rewrite (get_default _ _ (tobj name sy i c m a) c (obj_fresh_new _ _ _) eq_refl).
  eapply get_stored; [apply cls_fresh_new|discriminate|apply obj_fresh_new|apply cls_fresh_old, Hc|..].
  - cbn. rewrite Nat.eqb_refl. reflexivity.
  - cbn [dget]. rewrite cfg_eqb_refl. reflexivity.
  - exact V.
  - reflexivity.
Qed.

Lemma result_new w s m c i a sy : result_is (fresh_world w CTensor (tobj "TEMP" sy i c m a)) (new_calc w s) s m c i a.
Proof.
  split; [reflexivity|]. split; [reflexivity|]. exists (length (heap w)), (tobj "TEMP" sy i c m a).
  split; [reflexivity|]. split; [apply obj_fresh_new|]. split; [apply cls_fresh_new|].
  split; [cbn; apply in_app_iff; right; left; reflexivity|]. repeat split.
Qed.

(** *** Permutations given by symbols *)
Lemma F2_length {X Y} (R : X -> Y -> Prop) l l' : Forall2 R l l' -> length l = length l'.
Proof. induction 1; cbn; congruence. Qed.
Definition pos_rel (s2 : list string) (x : string) (j : nat) : Prop := spos x s2 = Some j.

Lemma pos_ex s1 s2 : (forall x, In x s1 -> In x s2) -> exists p, Forall2 (pos_rel s2) s1 p.
Proof.
  induction s1 as [|x s1 IH]; intros H; [exists []; constructor|].
  destruct IH as [p Hp]; [intros y Hy; apply H; right; exact Hy|].
  destruct (spos_in x s2 (H x (or_introl eq_refl))) as (j & Hj & _). exists (j :: p). constructor; assumption.
Qed.
Lemma Forall2_nth_error {X Y} (R : X -> Y -> Prop) l l' k x y : Forall2 R l l' -> nth_error l k = Some x -> nth_error l' k = Some y -> R x y.
Proof.
  intros H. revert k. induction H as [|a b l l' Hab _ IH]; intros k; [destruct k; discriminate|].
  destruct k; cbn; [congruence|apply IH].
Qed.
Lemma pos_lt s1 s2 p : Forall2 (pos_rel s2) s1 p -> Forall (fun j => j < length s2) p.
Proof.
  induction 1 as [|x j s1 p H _ IH]; constructor; [|exact IH]. apply spos_some in H as [H _].
  apply nth_error_Some. congruence.
Qed.
Lemma pos_nodup s1 s2 p : NoDup s1 -> Forall2 (pos_rel s2) s1 p -> NoDup p.
Proof.
  intros Hn H. induction H as [|x j s1 p H Hs IH]; [constructor|]. inversion Hn as [|? ? Hx Hn']; subst.
  constructor; [|apply IH, Hn']. intros Hj. apply Hx. clear - H Hs Hj.
  induction Hs as [|y k s1 p Hy _ IH]; [destruct Hj|]. destruct Hj as [->|Hj]; [left|right; apply IH, Hj].
  unfold pos_rel in *. apply spos_some in H as [H _]. apply spos_some in Hy as [Hy _]. congruence.
Qed.
Lemma pos_perm s1 s2 p : NoDup s1 -> Permutation s1 s2 -> Forall2 (pos_rel s2) s1 p -> Permutation p (seq 0 (length s2)).
Proof.
  intros Hn Hp H. apply NoDup_Permutation_bis.
  - exact (pos_nodup _ _ _ Hn H).
  - rewrite seq_length, <- (Permutation_length Hp), (F2_length _ _ _ H). lia.
  - intros j Hj. apply in_seq. assert (Hf := pos_lt _ _ _ H). rewrite Forall_forall in Hf. specialize (Hf j Hj). lia.
Qed.

(** Permuting the axes to the order of other symbols does not change the labelled values. *)
Lemma permuted_value n a s1 s2 p : cubic n a -> rank a = length s2 -> NoDup s1 -> Permutation s1 s2 -> Forall2 (pos_rel s2) s1 p ->
  exists b, permutedims a p = Ok b /\ cubic n b /\ rank b = length s1 /\
    forall f, (forall s, In s s1 -> f s < n) -> aget b (map f s1) = aget a (map f s2).
Proof.
  intros Ha Hr Hn Hp H. assert (Hpp := pos_perm _ _ _ Hn Hp H). rewrite <- Hr in Hpp.
  destruct (permutedims_cubic n a p Ha Hpp) as (b & E & Hb & Hsh & Hv).
  assert (Hlen : length s1 = rank a) by (rewrite Hr; apply Permutation_length, Hp).
  assert (Hrb : rank b = rank a) by (unfold rank; rewrite Hsh; reflexivity).
  exists b. split; [exact E|]. split.
  { split; [exact Hb|]. rewrite Hsh, Hrb. apply Ha. }
  split; [congruence|]. intros f Hf. rewrite Hv.
  2:{ destruct Ha as [_ ->]. apply inb_nth. rewrite map_length, repeat_length. split; [exact Hlen|].
      rewrite <- Hlen. intros k Hk. rewrite nth_repeat_lt by lia. rewrite (nth_map_lt _ _ _ _ ""%string) by lia. apply Hf, nth_In; lia. }
  f_equal. apply (unperm_unique p _ (rank a)); [exact Hpp|rewrite map_length; lia|rewrite map_length; lia|].
  intros k Hk. assert (Hpl : length p = rank a) by (rewrite <- (F2_length _ _ _ H); exact Hlen).
  destruct (nth_error s1 k) as [x|] eqn:Ex; [|apply nth_error_None in Ex; lia].
  destruct (nth_error p k) as [j|] eqn:Ej; [|apply nth_error_None in Ej; lia].
  assert (Hxj := Forall2_nth_error _ _ _ _ _ _ H Ex Ej). unfold pos_rel in Hxj. apply spos_some in Hxj as [Hxj _].
  rewrite (nth_error_nth p k 0 Ej). assert (Hj : j < length s2) by (apply nth_error_Some; congruence).
  rewrite (nth_map_lt _ _ _ _ ""%string) by lia. rewrite (nth_map_lt _ _ _ _ ""%string) by lia.
  rewrite (nth_error_nth s2 j ""%string Hxj), (nth_error_nth s1 k ""%string Ex). reflexivity.
Qed.

(** The configuration of the second operand. *)
Lemma combine_nth_error {X Y} (l : list X) (l' : list Y) k x y :
  nth_error (combine l l') k = Some (x, y) <-> nth_error l k = Some x /\ nth_error l' k = Some y.
Proof.
  revert l' k. induction l as [|a l IH]; intros [|b l'] k; cbn.
  - destruct k; cbn; intuition discriminate.
  - destruct k; cbn; intuition discriminate.
  - destruct k; cbn; intuition discriminate.
  - destruct k; cbn; [intuition congruence|apply IH].
Qed.
Lemma same_indices_rel s1 i1 s2 i2 : NoDup s1 -> same_indices s1 i1 s2 i2 ->
  Forall2 (fun x z => exists j, spos x s1 = Some j /\ nth_error i1 j = Some z) s2 i2.
Proof.
  intros Hn (H1 & H2 & H). assert (G : forall x z, In (x, z) (combine s2 i2) -> exists j, spos x s1 = Some j /\ nth_error i1 j = Some z).
  { intros x z Hx. apply H in Hx. apply In_nth_error in Hx as [k Hk]. apply combine_nth_error in Hk as [Hx Hz].
    exists k. split; [apply spos_nth; assumption|exact Hz]. }
  clear - H2 G. revert i2 H2 G. induction s2 as [|x s2 IH]; intros [|z i2] H2 G; try discriminate; [constructor|].
  constructor; [apply G; left; reflexivity|]. apply IH; [cbn in H2; lia|]. intros y z' Hy. apply G. right; exact Hy.
Qed.
Lemma same_indices_fetch s1 i1 s2 i2 w : NoDup s1 -> same_indices s1 i1 s2 i2 ->
  exists q, mmap (fun s => mopt EKeyError (spos s s1)) s2 w = (Ok q, w) /\ mmap (mnth i1) q w = (Ok i2, w).
Proof.
  intros Hn H. apply same_indices_rel in H; [|exact Hn].
  assert (G : exists q, Forall2 (pos_rel s1) s2 q /\ Forall2 (fun j z => nth_error i1 j = Some z) q i2).
  { induction H as [|x z s2 i2 (j & Hj & Hz) _ (q & Hq & Hq')]; [exists []; split; constructor|].
    exists (j :: q). split; constructor; assumption. }
  destruct G as (q & H1 & H2). exists q. split; [apply mmap_opt, H1|]. unfold mnth. apply (mmap_opt _ (nth_error i1)), H2.
Qed.

Lemma smem_app s l l' : smem s (l ++ l') = smem s l || smem s l'.
Proof. unfold smem. apply existsb_app. Qed.

Lemma inb_assign n (s : list string) (f : string -> nat) : (forall x, In x s -> f x < n) -> inb (repeat n (length s)) (map f s) = true.
Proof.
  intros H. apply inb_nth. rewrite map_length, repeat_length. split; [reflexivity|].
  intros k Hk. rewrite nth_repeat_lt by lia. rewrite (nth_map_lt _ _ _ _ ""%string) by lia. apply H, nth_In; lia.
Qed.

Lemma opt_oid_eqb_refl a : opt_oid_eqb a a = true.
Proof. destruct a; [apply Nat.eqb_refl|reflexivity]. Qed.
Lemma opt_oid_eqb_spec a b : opt_oid_eqb a b = true <-> a = b.
Proof.
  destruct a, b; cbn; try (split; congruence). rewrite Nat.eqb_eq. split; congruence.
Qed.

Context {L : AlgLaws A}.

Lemma aadd_values n a b : cubic n a -> cubic n b -> rank a = rank b ->
  exists x, aadd a b = Ok x /\ cubic n x /\ rank x = rank a /\ forall idx, inb (shape a) idx = true -> aget x idx = kadd (aget a idx) (aget b idx).
Proof.
  intros [Wa Sa] [Wb Sb] Hr. assert (E : shape a = shape b) by congruence.
  destruct (aadd_ok a b) as (x & Hx & Wx & Sx & Vx); try assumption.
  exists x. split; [exact Hx|]. unfold cubic, rank. rewrite Sx. split; [split; [exact Wx|exact Sa]|]. split; [reflexivity|exact Vx].
Qed.
Lemma amap_values n g a : cubic n a -> cubic n (amap g a) /\ rank (amap g a) = rank a /\
  forall idx, inb (shape a) idx = true -> aget (amap g a) idx = g (aget a idx).
Proof.
  intros [Wa Sa]. unfold cubic, rank. rewrite shape_amap. split; [split; [apply awf_amap, Wa|exact Sa]|].
  split; [reflexivity|]. intros idx Hi. apply aget_amap; assumption.
Qed.

(** *** Sums *)
Lemma add_run w x y t1 o1 t2 o2 m c n i2 a1 w1 a2 w2 :
  typed w -> labelled w x t1 o1 -> labelled w y t2 o2 ->
  o_metric o1 = Some m -> o_metric o2 = Some m -> o_coords o1 = Some c -> coordinate_system w c n ->
  Permutation (c_syms x) (c_syms y) -> same_indices (c_syms x) (o_indices o1) (c_syms y) i2 ->
  get_components t1 (Some c) (Some (o_indices o1)) w = (Ok a1, w1) ->
  get_components t2 (Some c) (Some i2) w1 = (Ok a2, w2) ->
  cubic n a1 -> rank a1 = o_rank o1 -> cubic n a2 -> rank a2 = o_rank o2 ->
  exists a, calc_add x (OCalc y) w = (Ok (new_calc w2 (c_syms x)), fresh_world w2 CTensor (tobj "TEMP" "T" (o_indices o1) c m a)) /\
    cubic n a /\ rank a = length (o_indices o1) /\
    forall f, (forall s, In s (c_syms x) -> f s < n) ->
      keq (aget a (map f (c_syms x))) (kadd (aget a1 (map f (c_syms x))) (aget a2 (map f (c_syms y)))).
Proof.
  intros Hty (Rx & Tx & Ox & Nx & Lx & Kx & Vx) (Ry & Ty & Oy & Ny & Ly & Ky & Vy) M1 M2 C1 Hc Hp Hi G1 G2 Ha1 Hr1 Ha2 Hr2.
  assert (Hw1 : kept w w1) by (eapply get_components_kept; [exact Hty|exact G1]).
  assert (Hw2 : kept w1 w2) by (eapply get_components_kept; [exact (kept_typed _ _ Hw1 Hty)|exact G2]).
  assert (Hw : kept w w2) by (eapply kept_trans; eauto).
  assert (Hlen := Permutation_length Hp).
  assert (Hm : cls_of w2 m = Some CMetric).
  { destruct Hw as (_ & _ & H & _). rewrite H. destruct (Hty t1 o1 Ox) as [H1 _]. apply H1, M1. }
  destruct (pos_ex (c_syms x) (c_syms y)) as [p Hpos]; [intros s; apply Permutation_in, Hp|].
  destruct (permuted_value n a2 (c_syms x) (c_syms y) p Ha2) as (b & Eb & Hb & Hrb & Vb); try assumption; [congruence|].
  assert (Hra : rank a1 = rank b) by congruence.
  destruct (aadd_values n a1 b Ha1 Hb Hra) as (s & Es & Hs & Hrs & Vs).
  destruct (same_indices_fetch _ _ _ _ w1 Nx Hi) as (q & Hq1 & Hq2).
  set (r := if o_rank o1 =? 0 then s else amap simp s).
  assert (Hr : cubic n r /\ rank r = rank a1 /\ forall idx, inb (shape a1) idx = true -> keq (aget r idx) (aget s idx)).
  { unfold r. destruct (o_rank o1 =? 0); [split; [exact Hs|split; [exact Hrs|reflexivity]]|].
    destruct (amap_values n simp s Hs) as (H1 & H2 & H3). split; [exact H1|]. split; [congruence|].
    intros idx Hidx. rewrite H3; [apply simp_ok|]. destruct Ha1 as [_ E1], Hs as [_ E2]. rewrite E2, Hrs, <- E1. exact Hidx. }
  destruct Hr as (Hr & Hrr & Vr).
  exists r. split; [|split; [exact Hr|split; [congruence|]]].
  - unfold calc_add. rewrite Rx, Ry. cbn [is_tensor_role negb orb]. unfold metric_attr. rewrite Tx, Ty.
    rewrite (bind_ok _ _ (Some m) w w) by (rewrite Ox, M1; reflexivity).
    rewrite (bind_ok _ _ (Some m) w w) by (rewrite Oy, M2; reflexivity).
    rewrite opt_oid_eqb_refl. cbn [negb].
    rewrite (bind_ok _ _ t1 w w) by (unfold tensor_of; rewrite Tx; reflexivity). rewrite (bind_ok _ _ o1 w w) by (apply getobj_ok, Ox).
    rewrite (bind_ok _ _ t2 w w) by (unfold tensor_of; rewrite Ty; reflexivity). rewrite (bind_ok _ _ o2 w w) by (apply getobj_ok, Oy).
    assert (Er : (o_rank o1 =? o_rank o2) = true) by (apply Nat.eqb_eq; congruence). rewrite Er. cbn [negb].
    rewrite (proj2 (is_permutation_spec _ _) Hp). cbn [negb]. rewrite andb_false_r.
    rewrite C1. rewrite (bind_ok _ _ a1 w w1) by exact G1.
    rewrite (bind_ok _ _ p w1 w1) by (apply mmap_opt, Hpos).
    rewrite (bind_ok _ _ q w1 w1) by exact Hq1. rewrite (bind_ok _ _ i2 w1 w1) by exact Hq2.
    rewrite (bind_ok _ _ a2 w1 w2) by exact G2. rewrite (bind_ok _ _ b w2 w2) by (apply mlift_ok, Eb).
    rewrite (bind_ok _ _ s w2 w2) by (apply mlift_ok, Es). cbv zeta. fold r. rewrite M1.
    apply (make_calc w2 "TEMP" r m c _ "T" n); try assumption; [apply (kept_system _ _ _ _ Hw Hc)|congruence].
  - intros f Hf. assert (Hin : inb (shape a1) (map f (c_syms x)) = true).
    { destruct Ha1 as [_ ->]. rewrite Hr1, Kx, <- Lx. apply inb_assign, Hf. }
    rewrite (Vr _ Hin), (Vs _ Hin), (Vb f Hf). reflexivity.
Qed.
Theorem add_values w x y t1 o1 t2 o2 m c n i2 a1 w1 a2 w2 :
  typed w -> labelled w x t1 o1 -> labelled w y t2 o2 ->
  o_metric o1 = Some m -> o_metric o2 = Some m -> o_coords o1 = Some c -> coordinate_system w c n ->
  Permutation (c_syms x) (c_syms y) -> same_indices (c_syms x) (o_indices o1) (c_syms y) i2 ->
  get_components t1 (Some c) (Some (o_indices o1)) w = (Ok a1, w1) ->
  get_components t2 (Some c) (Some i2) w1 = (Ok a2, w2) ->
  cubic n a1 -> rank a1 = o_rank o1 -> cubic n a2 -> rank a2 = o_rank o2 ->
  exists z w' a, calc_add x (OCalc y) w = (Ok z, w') /\
    result_is w' z (c_syms x) m c (o_indices o1) a /\ cubic n a /\
    forall f, (forall s, In s (c_syms x) -> f s < n) ->
      keq (aget a (map f (c_syms x))) (kadd (aget a1 (map f (c_syms x))) (aget a2 (map f (c_syms y)))).
Proof.
  intros. destruct (add_run w x y t1 o1 t2 o2 m c n i2 a1 w1 a2 w2) as (a & E & Ha & _ & V); try assumption.
  eexists _, _, a. split; [exact E|]. split; [apply result_new|]. split; [exact Ha|exact V].
Qed.
End CalcP.
