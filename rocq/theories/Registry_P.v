(** Proofs about the registry: validation, constructors, deletion, clean-up. *)
From Verif Require Import Alg Arr Arr_P Spec UtilsM TensorM WorldM SpecWorld World_P.

Section Registry.
Context {A : AlgOps}.
Implicit Types (w : world) (o : obj).

(** *** Validation *)

Lemma valid_cfg_forallb l : forallb (fun z => (z =? -1) || (z =? 1))%Z l = true <-> valid_cfg l.
Proof.
  unfold valid_cfg. rewrite forallb_forall, Forall_forall. split; intros H z Hz; specialize (H z Hz).
  - apply orb_prop in H as [H|H]; apply Z.eqb_eq in H; auto.
  - apply orb_true_iff. rewrite !Z.eqb_eq. tauto.
Qed.

Lemma validate_indices_spec v n src :
  (v = VNone -> validate_indices v n src = Ok tt) /\
  (forall l, v = VTuple l ->
     (validate_indices v n src = Ok tt <->
      valid_cfg l /\ (forall k, n = Some k -> length l = k) /\ (forall k, src = Some k -> length l = k)) /\
     (~ valid_cfg l -> validate_indices v n src = Err EIndicesValue) /\
     (valid_cfg l -> (exists k, (n = Some k \/ src = Some k) /\ length l <> k) ->
      validate_indices v n src = Err EIndicesDimension)) /\
  (v <> VNone -> (forall l, v <> VTuple l) -> validate_indices v n src = Err ETypeError).
Proof.
  split; [intros ->; reflexivity|]. split.
  - intros l ->. cbn [validate_indices].
    destruct (forallb _ l) eqn:Ef; cbn [negb].
    + apply valid_cfg_forallb in Ef. split; [|split; [tauto|]].
      * destruct n as [k|]; [destruct (Nat.eqb_spec k (length l)) as [En|En]; cbn [negb]|].
        -- destruct src as [k'|]; [destruct (Nat.eqb_spec k' (length l)) as [En'|En']; cbn [negb]|].
           ++ split; [intros _|reflexivity]. split; [exact Ef|]. split; intros j Hj; injection Hj as <-; auto.
           ++ split; [discriminate|]. intros (_ & _ & H). specialize (H k' eq_refl). congruence.
           ++ split; [intros _|reflexivity]. split; [exact Ef|]. split; intros j Hj; [injection Hj as <-; auto|discriminate].
        -- split; [discriminate|]. intros (_ & H & _). specialize (H k eq_refl). congruence.
        -- destruct src as [k'|]; [destruct (Nat.eqb_spec k' (length l)) as [En'|En']; cbn [negb]|].
           ++ split; [intros _|reflexivity]. split; [exact Ef|]. split; intros j Hj; [discriminate|injection Hj as <-; auto].
           ++ split; [discriminate|]. intros (_ & _ & H). specialize (H k' eq_refl). congruence.
           ++ split; [intros _|reflexivity]. split; [exact Ef|]. split; intros j Hj; discriminate.
      * intros _ (k & Hk & Hl). destruct n as [k1|]; [destruct (Nat.eqb_spec k1 (length l)); cbn [negb]; [|reflexivity]|].
        -- destruct Hk as [Hk|Hk]; [injection Hk as ->; congruence|]. subst src.
           destruct (Nat.eqb_spec k (length l)); [congruence|reflexivity].
        -- destruct Hk as [Hk|Hk]; [discriminate|]. subst src.
           destruct (Nat.eqb_spec k (length l)); [congruence|reflexivity].
    + assert (N : ~ valid_cfg l) by (intros C; apply valid_cfg_forallb in C; congruence).
      split; [split; [discriminate|tauto]|]. split; [reflexivity|tauto].
  - intros H1 H2. destruct v; try reflexivity; [congruence|]. exfalso. eapply H2. reflexivity.
Qed.

Lemma array_like_spec v a : as_array (mat_to_array v) = Some a <-> array_like v a.
Proof.
  unfold array_like. split.
  - destruct v; cbn; intros H; try discriminate; injection H as <-; eauto 6.
  - intros [->|[->|(sh & l & -> & ->)]]; reflexivity.
Qed.

Lemma mat_to_array_idem v : mat_to_array (mat_to_array v) = mat_to_array v.
Proof. destruct v; reflexivity. Qed.

Lemma coord_components_spec w c :
  (forall x, coord_components c w = (Ok x, w) <->
     exists o d, obj_of w c = Some o /\ dget Nat.eqb c (o_comps o) = Some d /\ dget cfg_eqb [1]%Z d = Some x).
Proof.
  intros x. unfold coord_components, mbind, getobj. split.
  - destruct (obj_of w c) as [o|]; [|discriminate].
    destruct (dget Nat.eqb c (o_comps o)) as [d|] eqn:Ed; cbn; [|discriminate].
    destruct (dget cfg_eqb [1%Z] d) as [y|] eqn:Ey; cbn; [|discriminate].
    intros H. injection H as <-. exists o, d. auto.
  - intros (o & d & -> & -> & H). cbn. rewrite H. reflexivity.
Qed.

(** Exactly the valid arguments are accepted. *)
Lemma new_tensor_valid w name comps metric coords indices symbol :
  (exists i w', new_tensor name comps metric coords indices symbol w = (Ok i, w')) <->
  exists m c n a,
    metric = VObj m /\ cls_of w m = Some CMetric /\
    coords = VObj c /\ coordinate_system w c n /\
    (exists s, name = VStr s) /\ (exists s, symbol = VStr s \/ symbol = VSymbol s) /\
    array_like comps a /\ Forall (fun d => d = n) (shape a) /\
    (indices = VNone \/ index_tuple (rank a) indices).
Proof.
  split.
  - intros (i & w' & H). destruct (new_tensor_spec CTensor name comps metric coords indices symbol w)
      as [[e E]|(m & c & a & x & Hm & Hmc & Hc & Hcc & Ha & Hx & Hv & E)].
    { unfold new_tensor in H. congruence. }
    exists m, c, (length (data x)), a. split; [exact Hm|]. split; [exact Hmc|]. split; [exact Hc|].
    apply coord_components_spec in Hx as (o & d & H1 & H2 & H3).
    split; [split; [exact Hcc|exists o, d, x; auto]|].
    unfold validate_base in Hv. rewrite Ha in Hv.
    destruct (validate_object _ _ _ _) as [[]|] eqn:Eo; cbn [rbind] in Hv; [|discriminate].
    destruct (forallb _ (shape a)) eqn:Es; [|discriminate].
    unfold validate_object in Eo. destruct name as [|s| | | | | | |]; try discriminate.
    rewrite Ha in Eo.
    assert (Hs : exists s, symbol = VStr s \/ symbol = VSymbol s).
    { destruct symbol; try discriminate Eo; eauto. }
    split; [eauto|]. split; [exact Hs|]. split; [apply array_like_spec; exact Ha|].
    split.
    { rewrite Forall_forall. rewrite forallb_forall in Es. intros k Hk. apply Nat.eqb_eq, Es, Hk. }
    assert (Ei : validate_indices indices (Some (rank a)) None = Ok tt).
    { destruct Hs as [s' [->| ->]]; destruct (negb _); (discriminate || exact Eo). }
    destruct (validate_indices_spec indices (Some (rank a)) None) as (_ & H5 & H6).
    destruct indices as [| | |l| | | | |]; try (exfalso; rewrite H6 in Ei; [discriminate|discriminate|discriminate]).
    + left; reflexivity.
    + right. exists l. split; [reflexivity|]. destruct (H5 l eq_refl) as [[H7 _] _]. specialize (H7 Ei). destruct H7 as (V & N & _).
      split; [exact V|]. apply N; reflexivity.
  - intros (m & c & n & a & -> & Hm & -> & [Hc (o & d & x & H1 & H2 & H3 & Hn)] & [s ->] & [s' Hs] & Ha & Hsh & Hi).
    apply array_like_spec in Ha.
    assert (Hv : validate_base (VStr s) (mat_to_array comps) symbol indices n = Ok tt).
    { unfold validate_base, validate_object. rewrite Ha.
      assert (E1 : forallb (fun d => d =? hd 0 (shape a)) (shape a) = true).
      { apply forallb_forall. intros k Hk. rewrite Forall_forall in Hsh. apply Nat.eqb_eq.
        destruct (shape a) as [|z l] eqn:Esh; [destruct Hk|]. cbn [hd]. rewrite (Hsh k Hk). symmetry. apply Hsh. left; reflexivity. }
      rewrite E1. cbn [negb].
      assert (E2 : forallb (fun d => d =? n) (shape a) = true).
      { apply forallb_forall. intros k Hk. rewrite Forall_forall in Hsh. apply Nat.eqb_eq, Hsh, Hk. }
      rewrite E2.
      assert (E3 : validate_indices indices (Some (rank a)) None = Ok tt).
      { destruct (validate_indices_spec indices (Some (rank a)) None) as (H4 & H5 & _).
        destruct Hi as [Hi|(l & Hi & V & Hl)]; [apply H4, Hi|]. destruct (H5 l Hi) as [[_ H7] _]. apply H7.
        split; [exact V|]. split; intros k Hk; [injection Hk as <-; exact Hl|discriminate]. }
      destruct Hs as [-> | ->]; rewrite E3; reflexivity. }
    assert (Hx : coord_components c w = (Ok x, w)) by (apply coord_components_spec; exists o, d; auto).
    unfold new_tensor, new_tensor_as, mbind at 1, isinstance at 1. rewrite Hm. cbn [cls_eqb negb].
    unfold base_ctor, mbind at 1, isinstance at 1. rewrite Hc. cbn [cls_eqb negb].
    unfold mbind at 1. rewrite Hx. unfold mbind at 1, mlift at 1. rewrite Hn, Hv.
    rewrite Ha. cbn [mopt]. unfold mbind, mret. rewrite alloc_fresh. eauto.
Qed.

(** ... and the attributes of the new object. *)
Lemma new_tensor_object w name comps metric coords indices symbol i w' :
  new_tensor name comps metric coords indices symbol w = (Ok i, w') ->
  exists m c a o, metric = VObj m /\ coords = VObj c /\ array_like comps a /\
    obj_of w' i = Some o /\ cls_of w' i = Some CTensor /\
    o_metric o = Some m /\ o_coords o = Some c /\ o_rank o = rank a /\
    o_indices o = match indices with VTuple l => l | _ => repeat (-1)%Z (rank a) end /\
    o_comps o = [(c, [(o_indices o, a)])] /\ (exists s, name = VStr s /\ o_name o = s).
Proof.
  intros H. destruct (new_tensor_spec CTensor name comps metric coords indices symbol w)
      as [[e E]|(m & c & a & x & Hm & Hmc & Hc & Hcc & Ha & Hx & Hv & E)].
  { unfold new_tensor in H. congruence. }
  unfold new_tensor in H. rewrite E in H. injection H as <- <-.
  eexists m, c, a, _. split; [exact Hm|]. split; [exact Hc|]. split; [apply array_like_spec, Ha|].
  split; [rewrite obj_of_fresh, Nat.eqb_refl; reflexivity|].
  split.
  { unfold cls_of, fresh_world. cbn [heap]. rewrite nth_error_app2 by lia. rewrite Nat.sub_diag. reflexivity. }
  cbn. repeat (split; [reflexivity|]).
  unfold validate_base in Hv. destruct (validate_object _ _ _ _) as [[]|] eqn:Eo; cbn [rbind] in Hv; [|discriminate].
  unfold validate_object in Eo. destruct name; try discriminate. eexists; split; reflexivity.
Qed.

(** *** Failed constructors *)

Lemma cls_of_fresh w k o i : i <> length (heap w) -> cls_of (fresh_world w k o) i = cls_of w i.
Proof.
  intros N. unfold cls_of, fresh_world. cbn [heap]. destruct (Nat.ltb_spec i (length (heap w))).
  - rewrite nth_error_app1 by lia. reflexivity.
  - rewrite nth_error_app2 by lia. destruct (i - length (heap w)) eqn:E; [lia|]. cbn. destruct n; cbn.
    all: destruct (nth_error (heap w) i) as [[]|] eqn:E2; [|reflexivity]; apply nth_error_None in H; congruence.
Qed.

Lemma obj_of_ge w i : length (heap w) <= i -> obj_of w i = None.
Proof. intros H. unfold obj_of. apply nth_error_None in H. rewrite H. reflexivity. Qed.

Lemma fresh_clean w k o : registry_ok w -> clean_outcome w (Ok (length (heap w)), fresh_world w k o).
Proof.
  intros R. cbn [clean_outcome]. split.
  { intros C. pose proof (registered_lt w _ R C). lia. }
  split; [apply obj_of_ge; lia|]. split; [reflexivity|].
  split; [rewrite obj_of_fresh, Nat.eqb_refl; discriminate|].
  intros j N. split; [rewrite obj_of_fresh|apply cls_of_fresh, N].
  destruct (Nat.eqb_spec j (length (heap w))); [congruence|reflexivity].
Qed.

Lemma new_tensor_clean k w name comps metric coords indices symbol :
  registry_ok w -> clean_outcome w (new_tensor_as k name comps metric coords indices symbol w).
Proof.
  intros R. destruct (new_tensor_spec k name comps metric coords indices symbol w)
      as [[e E]|(m & c & a & x & Hm & Hmc & Hc & Hcc & Ha & Hx & Hv & E)]; rewrite E; [reflexivity|].
  apply fresh_clean, R.
Qed.

Lemma new_coordinates_clean w name comps indices symbol tr :
  registry_ok w -> clean_outcome w (new_coordinates name comps indices symbol tr w).
Proof.
  intros R. destruct (new_coordinates_spec name comps indices symbol tr w) as [[e E]|(a & Ha & Hr & E)]; rewrite E; [reflexivity|].
  apply fresh_clean, R.
Qed.

Lemma new_metric_clean {DL : DetLaws A} w name comps coords l symbol :
  registry_ok w -> (forall a, array_like comps a -> awf a) ->
  clean_outcome w (new_metric name comps coords (VTuple l) symbol w).
Proof.
  intros R Hwf.
  destruct (validate_metric name comps symbol (VTuple l)) as [[]|e] eqn:Ev.
  2:{ unfold new_metric, mbind at 1, mlift at 1. rewrite Ev. reflexivity. }
  destruct (new_metric_cases name comps coords (VTuple l) symbol w) as [[e E]|(c & o & w' & r & Hc & Hk & E & Hw' & H1 & H2 & H3 & H4 & Hr & Hl)].
  { rewrite E. reflexivity. }
  rewrite E, Hw'. destruct (Hl l eq_refl) as [->|(a & e & Ha & He)]; [apply fresh_clean, R|].
  exfalso. unfold validate_metric in Ev. rewrite Ha in Ev.
  destruct (validate_object _ _ _ _) as [[]|] eqn:Eo; cbn [rbind] in Ev; [|discriminate].
  apply array_like_spec in Ha as Ha'. specialize (Hwf a Ha').
  unfold ainv in He.
  assert (Hrank : rank a = length l).
  { unfold validate_object in Eo. destruct name; try discriminate. rewrite Ha in Eo.
    assert (Ei : validate_indices (VTuple l) (Some (rank a)) None = Ok tt).
    { destruct symbol; try discriminate Eo; destruct (negb _); (discriminate || exact Eo). }
    destruct (validate_indices_spec (VTuple l) (Some (rank a)) None) as (_ & H5 & _).
    destruct (H5 l eq_refl) as [[H7 _] _]. specialize (H7 Ei). destruct H7 as (V & N & _).
    symmetry. apply N. reflexivity. }
  unfold rank in Hrank.
  destruct (shape a) as [|n1 [|n2 [|n3 sh]]] eqn:Es.
  - discriminate Ev.
  - destruct n1 as [|[|n1]]; cbn [rbind] in Ev; try discriminate Ev.
    destruct (_ || _) in Ev; [discriminate Ev|]. destruct (_ || _) in Ev; [discriminate Ev|].
    destruct (length l =? 2) eqn:E2; [apply Nat.eqb_eq in E2; cbn in Hrank; lia|discriminate Ev].
  - destruct (n1 =? n2) eqn:En; [|destruct n1 as [|[|n1]]; discriminate Ev]. apply Nat.eqb_eq in En. subst n1.
    assert (Ev' : (if mdet0 n2 (data a) then true else false) = false).
    { destruct n2 as [|[|n2]]; cbn [rbind] in Ev; destruct (mdet0 _ (data a)); reflexivity || discriminate Ev. }
    destruct (mdet0 n2 (data a)) eqn:Ed; [discriminate Ev'|].
    destruct (mdet0_minv n2 (data a)) as [rr Hrr]; [|exact Ed|].
    { unfold awf in Hwf. rewrite Es in Hwf. cbn in Hwf. lia. }
    rewrite Hrr in He. discriminate He.
  - destruct n1 as [|[|n1]]; discriminate Ev.
Qed.

(** *** delete *)

Lemma uses_refers t o : uses t o = true <-> refers o t.
Proof.
  unfold uses, refers. rewrite !orb_true_iff, !dmem_key.
  assert (H : forall x : option oid, match x with Some m => m =? t | None => false end = true <-> x = Some t).
  { intros [m|]; [|split; discriminate]. rewrite Nat.eqb_eq. split; [intros ->; reflexivity|congruence]. }
  rewrite !H. tauto.
Qed.

Lemma index_of_split (t : oid) l : In t l ->
  exists p l1 l2, index_of Nat.eqb t l = Some p /\ l = l1 ++ t :: l2 /\ del_nth p l = l1 ++ l2 /\ ~ In t l1.
Proof.
  induction l as [|x l IH]; [intros []|]. intros H. cbn. destruct (Nat.eqb_spec t x) as [->|N].
  - exists 0, [], l. auto.
  - destruct H as [H|H]; [congruence|]. destruct (IH H) as (p & l1 & l2 & H1 & H2 & H3 & H4).
    exists (S p), (x :: l1), l2. rewrite H1. split; [reflexivity|]. split; [cbn; congruence|].
    split; [cbn; congruence|]. intros [C|C]; [congruence|auto].
Qed.

(** [w'] is [w] without the object [t]. *)
Definition removed w t w' : Prop :=
  (exists l1 l2, insts w = l1 ++ t :: l2 /\ insts w' = l1 ++ l2) /\ obj_of w' t = None /\
  (forall j, j <> t -> obj_of w' j = obj_of w j) /\ (forall j, cls_of w' j = cls_of w j).

Lemma delete_used w t silent : registry_ok w -> In t (insts w) -> used w t -> delete t silent w = (Err EPermissionError, w).
Proof.
  intros [Hn Ha] Ht (i & o & Hi & Ni & Ho & Hr). unfold delete; cbv zeta.
  match goal with |- context [find ?g (insts w)] => destruct (find g (insts w)) as [k|] eqn:Ef end.
  - apply find_some in Ef as [Hk _]. specialize (Ha k Hk) as Hak. specialize (Ha t Ht) as Hat.
    destruct (obj_of w k); [|congruence]. destruct (obj_of w t); [reflexivity|congruence].
  - pose proof (find_none _ _ Ef i Hi) as C. cbn in C. rewrite Ho in C.
    apply uses_refers in Hr. rewrite Hr in C. destruct (Nat.eqb_spec i t); [congruence|discriminate].
Qed.

Lemma delete_unused w t silent : registry_ok w -> In t (insts w) -> ~ used w t ->
  exists w', delete t silent w = (Ok tt, w') /\ removed w t w'.
Proof.
  intros [Hn Ha] Ht Hu. unfold delete; cbv zeta.
  match goal with |- context [find ?g (insts w)] => destruct (find g (insts w)) as [k|] eqn:Ef end.
  { exfalso. apply find_some in Ef as [Hk Hc]. apply andb_prop in Hc as [Hc1 Hc2].
    specialize (Ha k Hk). destruct (obj_of w k) as [o|] eqn:Eo; [|congruence].
    apply Hu. exists k, o. split; [exact Hk|]. split; [destruct (Nat.eqb_spec k t); [discriminate|assumption]|].
    split; [exact Eo|]. apply uses_refers, Hc2. }
  specialize (Ha t Ht). destruct (obj_of w t) as [o|] eqn:Eo; [|congruence].
  destruct (index_of_split t (insts w) Ht) as (p & l1 & l2 & H1 & H2 & H3 & H4). rewrite H1.
  eexists; split; [reflexivity|]. split; [exists l1, l2; cbn [insts]; auto|].
  destruct (obj_of_cls _ _ _ Eo) as [c Hc]. rewrite Hc.
  assert (Hlt : (t <? length (heap w)) = true) by (apply Nat.ltb_lt; eapply obj_of_lt, Eo).
  split; [|split].
  - unfold obj_of. cbn [heap]. rewrite nth_set_nth, Nat.eqb_refl, Hlt. reflexivity.
  - intros j N. unfold obj_of. cbn [heap]. rewrite nth_set_nth. destruct (Nat.eqb_spec t j); [congruence|reflexivity].
  - intros j. unfold cls_of. cbn [heap]. rewrite nth_set_nth, Hlt, andb_true_r.
    destruct (Nat.eqb_spec t j) as [<-|N]; [rewrite Hc; reflexivity|reflexivity].
Qed.

Lemma used_dec w t : used w t \/ ~ used w t.
Proof.
  destruct (existsb (fun i => negb (i =? t) && match obj_of w i with Some o => uses t o | None => false end) (insts w)) eqn:E.
  - left. apply existsb_exists in E as (i & Hi & H). apply andb_prop in H as [H1 H2].
    destruct (obj_of w i) as [o|] eqn:Eo; [|discriminate]. exists i, o. split; [exact Hi|].
    split; [destruct (Nat.eqb_spec i t); [discriminate|assumption]|]. split; [exact Eo|]. apply uses_refers, H2.
  - right. intros (i & o & Hi & N & Ho & Hr). assert (C : existsb (fun i => negb (i =? t) && match obj_of w i with Some o => uses t o | None => false end) (insts w) = true).
    { apply existsb_exists. exists i. split; [exact Hi|]. rewrite Ho. apply uses_refers in Hr. rewrite Hr.
      destruct (Nat.eqb_spec i t); [congruence|reflexivity]. }
    congruence.
Qed.

Lemma removed_in w t w' j : NoDup (insts w) -> removed w t w' -> (In j (insts w') <-> In j (insts w) /\ j <> t).
Proof.
  intros Hn [(l1 & l2 & H1 & H2) _]. rewrite H1, H2 in *. apply NoDup_remove in Hn as [_ Hn].
  rewrite !in_app_iff in *. cbn. split.
  - intros [H|H]; (split; [auto|intros ->; apply Hn; auto]).
  - intros [[H|[H|H]] N]; auto. congruence.
Qed.

Lemma removed_ok w t w' : registry_ok w -> removed w t w' -> registry_ok w'.
Proof.
  intros [Hn Ha] H. pose proof (removed_in w t w') as Hin. destruct H as [(l1 & l2 & H1 & H2) (H3 & H4 & H5)].
  split.
  - rewrite H2. rewrite H1 in Hn. apply NoDup_remove in Hn as [Hn _]. exact Hn.
  - intros i Hi. apply Hin in Hi as [Hi N]; [|exact Hn|split; eauto]. rewrite H4 by exact N. apply Ha, Hi.
Qed.

(** The full effect of delete on a registered object. *)
Lemma delete_spec w t silent : registry_ok w -> In t (insts w) ->
  (used w t -> delete t silent w = (Err EPermissionError, w)) /\
  (~ used w t -> exists w', delete t silent w = (Ok tt, w') /\ insts w' = filter (fun i => negb (i =? t)) (insts w) /\
     obj_of w' t = None /\ (forall j, j <> t -> obj_of w' j = obj_of w j)).
Proof.
  intros R Ht. split; [apply delete_used; assumption|]. intros Hu.
  destruct (delete_unused w t silent R Ht Hu) as (w' & E & (l1 & l2 & H1 & H2) & H3 & H4 & _).
  exists w'. split; [exact E|]. split; [|auto]. destruct R as [Hn _]. rewrite H1 in *. rewrite H2.
  apply NoDup_remove in Hn as [_ Hn]. rewrite in_app_iff in Hn.
  rewrite filter_app. cbn. rewrite Nat.eqb_refl. cbn.
  assert (F : forall l, ~ In t l -> filter (fun i => negb (i =? t)) l = l).
  { induction l as [|x l IH]; cbn; [reflexivity|]. intros N. destruct (Nat.eqb_spec x t); [exfalso; auto|].
    cbn. rewrite IH by auto. reflexivity. }
  rewrite !F by tauto. reflexivity.
Qed.

(** *** Integrity of reachable sessions *)

Lemma delete_integrity w t silent : integrity w -> integrity (snd (delete t silent w)).
Proof.
  intros [R Hr]. destruct (in_dec Nat.eq_dec t (insts w)) as [Ht|Ht].
  - destruct (used_dec w t) as [Hu|Hu].
    + rewrite delete_used by assumption. split; assumption.
    + destruct (delete_unused w t silent R Ht Hu) as (w' & E & H). rewrite E. cbn [snd].
      split; [exact (removed_ok w t w' R H)|]. intros i o j Hi Ho Rj.
      pose proof (removed_in w t w') as Hin. destruct R as [Hn Ha].
      apply Hin in Hi as [Hi N]; [|exact Hn|exact H]. apply Hin; [exact Hn|exact H|].
      destruct H as (_ & _ & H4 & _). rewrite H4 in Ho by exact N. split; [exact (Hr i o j Hi Ho Rj)|].
      intros ->. apply Hu. exists i, o. auto.
  - (* not registered: the registry stays, the attributes of t may go *)
    unfold delete; cbv zeta. match goal with |- context [find ?g (insts w)] => destruct (find g (insts w)) as [k|] eqn:Ef end.
    { destruct (obj_of w k), (obj_of w t); split; assumption. }
    assert (Hi : index_of Nat.eqb t (insts w) = None).
    { destruct (index_of Nat.eqb t (insts w)) as [p|] eqn:E; [|reflexivity]. exfalso. apply Ht.
      clear -E. revert p E. induction (insts w) as [|x l IH]; cbn; [discriminate|]. intros p.
      destruct (Nat.eqb_spec t x); [auto|]. destruct (index_of Nat.eqb t l); [|discriminate]. eauto. }
    rewrite Hi. destruct (obj_of w t) as [o|] eqn:Eo; [|destruct silent; split; assumption].
    cbn [snd]. destruct (obj_of_cls _ _ _ Eo) as [c Hc]. rewrite Hc.
    assert (G : forall j, j <> t -> obj_of (mkW (set_nth t (c, None) (heap w)) (insts w)) j = obj_of w j).
    { intros j N. unfold obj_of. cbn [heap]. rewrite nth_set_nth. destruct (Nat.eqb_spec t j); [congruence|reflexivity]. }
    destruct R as [Hn Ha]. split; [split; [exact Hn|]|].
    + cbn [insts]. intros i Hii. rewrite G; [apply Ha, Hii|]. intros ->. contradiction.
    + cbn [insts]. intros i o' j Hii. rewrite G; [apply Hr, Hii|]. intros ->. contradiction.
Qed.

Lemma snd_hoare {X} L (m : M X) w : hoare (II L) m (fun _ => II L) (II L) -> II L w -> integrity (snd (m w)).
Proof. intros H I. specialize (H w I). destruct (m w) as [[x|e] w']; apply H. Qed.

Lemma hoare_unit {X} P (m : M X) : hoare P m (fun _ => P) P -> hoare P (m ;; mret tt) (fun _ => P) P.
Proof. intros H. eapply h_bind; [exact H|]. intros x. apply h_ret. auto. Qed.

Lemma run_op_integrity w (o : op) : integrity w -> live_args w o -> integrity (snd (run_op o w)).
Proof.
  intros I HL. assert (II0 : II (insts w) w) by (split; [exact I|reflexivity]).
  destruct o as [n c i s tr|n c x i s|n c m x i s|n c m x i s|n c m x i s|n c m x i s|self c r|t c i|t i|t c|t n|t n|t|t silent];
    cbn [run_op live_args] in *.
  - unfold mbind. destruct (new_coordinates_spec n c i s tr w) as [[e E]|(a & Ha & Hr & E)]; rewrite E; [exact I|].
    cbn [snd mret]. apply integrity_fresh; [exact I|]. intros j [Hj|[Hj|[Hj|Hj]]]; cbn in Hj.
    + destruct Hj as [<-|[]]. left; reflexivity.
    + discriminate.
    + discriminate.
    + right. rewrite map_map in Hj. cbn in Hj. apply in_map_iff in Hj as (cr & <- & Hj).
      rewrite Forall_forall in HL. apply HL, Hj.
  - unfold mbind. destruct (new_metric_cases n c x i s w) as [[e E]|(k & o & w' & r & Hc & Hk & E & Hw' & H1 & H2 & H3 & H4 & Hr & _)].
    { rewrite E. exact I. }
    rewrite E. subst x. cbn in HL.
    assert (G : integrity w').
    { rewrite Hw'. apply integrity_fresh; [exact I|]. intros j [Hj|[Hj|[Hj|Hj]]].
      - rewrite H3 in Hj. destruct Hj as [<-|[]]. right; exact HL.
      - rewrite H2 in Hj. injection Hj as <-. left; reflexivity.
      - rewrite H1 in Hj. injection Hj as <-. right; exact HL.
      - rewrite H4 in Hj. destruct Hj. }
    destruct r; exact G.
  - unfold mbind. destruct (new_tensor_spec CTensor n c m x i s w) as [[e E]|(mm & k & a & y & Hm & Hmc & Hc & Hcc & Ha & Hx & Hv & E)].
    { unfold new_tensor. rewrite E. exact I. }
    unfold new_tensor. rewrite E. subst m x. cbn in HL. cbn [snd mret]. apply integrity_fresh; [exact I|].
    intros j [Hj|[Hj|[Hj|Hj]]]; cbn in Hj.
    + destruct Hj as [<-|[]]. right; tauto.
    + injection Hj as <-. right; tauto.
    + injection Hj as <-. right; tauto.
    + destruct Hj.
  - unfold mbind. destruct (new_tensor_spec CChristoffel n c m x i s w) as [[e E]|(mm & k & a & y & Hm & Hmc & Hc & Hcc & Ha & Hx & Hv & E)].
    { unfold new_christoffel. rewrite E. exact I. }
    unfold new_christoffel. rewrite E. subst m x. cbn in HL. cbn [snd mret]. apply integrity_fresh; [exact I|].
    intros j [Hj|[Hj|[Hj|Hj]]]; cbn in Hj.
    + destruct Hj as [<-|[]]. right; tauto.
    + injection Hj as <-. right; tauto.
    + injection Hj as <-. right; tauto.
    + destruct Hj.
  - unfold mbind. destruct (new_tensor_spec CLagrangian n c m x i s w) as [[e E]|(mm & k & a & y & Hm & Hmc & Hc & Hcc & Ha & Hx & Hv & E)].
    { unfold new_lagrangian. rewrite E. exact I. }
    unfold new_lagrangian. rewrite E. subst m x. cbn in HL. cbn [snd mret]. apply integrity_fresh; [exact I|].
    intros j [Hj|[Hj|[Hj|Hj]]]; cbn in Hj.
    + destruct Hj as [<-|[]]. right; tauto.
    + injection Hj as <-. right; tauto.
    + injection Hj as <-. right; tauto.
    + destruct Hj.
  - unfold mbind. destruct (new_tensor_spec CGeodesic n c m x i s w) as [[e E]|(mm & k & a & y & Hm & Hmc & Hc & Hcc & Ha & Hx & Hv & E)].
    { unfold new_geodesic. rewrite E. exact I. }
    unfold new_geodesic. rewrite E. subst m x. cbn in HL. cbn [snd mret]. apply integrity_fresh; [exact I|].
    intros j [Hj|[Hj|[Hj|Hj]]]; cbn in Hj.
    + destruct Hj as [<-|[]]. right; tauto.
    + injection Hj as <-. right; tauto.
    + injection Hj as <-. right; tauto.
    + destruct Hj.
  - apply (snd_hoare (insts w)); [|exact II0]. apply add_transformation_II. intros k ->. exact HL.
  - apply (snd_hoare (insts w)); [|exact II0]. apply hoare_unit, get_components_II.
  - apply (snd_hoare (insts w)); [|exact II0]. apply change_indices_II.
  - apply (snd_hoare (insts w)); [|exact II0]. apply change_coords_II.
  - apply (snd_hoare (insts w)); [|exact II0]. apply change_name_II.
  - apply (snd_hoare (insts w)); [|exact II0]. apply change_symbol_II.
  - apply (snd_hoare (insts w)); [|exact II0]. apply simplify_II.
  - apply delete_integrity, I.
Qed.

Lemma reachable_integrity w : reachable w -> integrity w.
Proof.
  induction 1 as [|w o _ IH HL]; [|apply run_op_integrity; assumption].
  split; [split; [constructor|intros i []]|intros i o j []].
Qed.

(** *** Passes over the registry *)

(** Every removal of a pass keeps the registry in order. *)
Lemma subseq_refl {X} (l : list X) : subseq l l.
Proof. induction l; constructor; assumption. Qed.

Lemma subseq_app_drop {X} (l1 l2 : list X) x : subseq (l1 ++ l2) (l1 ++ x :: l2).
Proof. induction l1; cbn; [apply subseq_drop, subseq_refl|apply subseq_keep; assumption]. Qed.

Lemma subseq_trans {X} (a b c : list X) : subseq a b -> subseq b c -> subseq a c.
Proof.
  intros H1 H2. revert a H1. induction H2 as [|x l l' _ IH|x l l' _ IH]; intros a H1.
  - exact H1.
  - inversion H1; subst; [apply subseq_keep, IH; assumption|apply subseq_drop, IH; assumption].
  - apply subseq_drop, IH, H1.
Qed.

Lemma subseq_in {X} (a b : list X) x : subseq a b -> In x a -> In x b.
Proof. induction 1; cbn; intros Hx; [exact Hx| |right; auto]. destruct Hx as [->|Hx]; auto. Qed.

Lemma subseq_length {X} (a b : list X) : subseq a b -> length a <= length b.
Proof. induction 1; cbn; lia. Qed.

(** [w'] comes from [w] by deleting objects that satisfy [P]. *)
Definition deleted_only (P : oid -> Prop) w w' : Prop :=
  registry_ok w' /\ subseq (insts w') (insts w) /\
  (forall i, In i (insts w) -> ~ In i (insts w') -> P i) /\
  (forall i, In i (insts w') -> obj_of w' i = obj_of w i).

Lemma deleted_refl P w : registry_ok w -> deleted_only P w w.
Proof. intros R. split; [exact R|]. split; [apply subseq_refl|]. split; [intros i H1 H2; contradiction|reflexivity]. Qed.

Lemma deleted_trans P w1 w2 w3 : deleted_only P w1 w2 -> deleted_only P w2 w3 -> deleted_only P w1 w3.
Proof.
  intros (R1 & S1 & D1 & O1) (R2 & S2 & D2 & O2).
  split; [exact R2|]. split; [exact (subseq_trans _ _ _ S2 S1)|]. split.
  - intros i H1 H2. destruct (in_dec Nat.eq_dec i (insts w2)); auto.
  - intros i Hi. rewrite O2 by exact Hi. apply O1. exact (subseq_in _ _ _ S2 Hi).
Qed.

Lemma try_delete_spec w t silent : registry_ok w -> In t (insts w) ->
  exists w', try_delete t silent w = (Ok tt, w') /\ deleted_only (eq t) w w'.
Proof.
  intros R Ht. unfold try_delete. destruct (used_dec w t) as [Hu|Hu].
  - rewrite delete_used by assumption. exists w. split; [reflexivity|apply deleted_refl, R].
  - destruct (delete_unused w t silent R Ht Hu) as (w' & E & H). rewrite E. exists w'. split; [reflexivity|].
    pose proof (removed_in w t w') as Hin. pose proof (removed_ok w t w' R H) as R'. destruct R as [Hn Ha].
    split; [exact R'|]. split; [destruct H as [(l1 & l2 & H1 & H2) _]; rewrite H1, H2; apply subseq_app_drop|].
    split.
    + intros i Hi Ni. destruct (Nat.eq_dec t i) as [E'|N]; [exact E'|]. exfalso. apply Ni, Hin; auto.
    + intros i Hi. apply Hin in Hi as [Hi N]; [|exact Hn|exact H]. apply H, N.
Qed.

Lemma deleted_weaken (P Q : oid -> Prop) w w' : (forall i, P i -> Q i) -> deleted_only P w w' -> deleted_only Q w w'.
Proof. intros H (R & S & D & O). split; [exact R|]. split; [exact S|]. split; [intros i H1 H2; apply H, D; assumption|exact O]. Qed.

(** A body that removes at most the visited element, and only if it satisfies [P]. *)
Definition body_ok (P : world -> oid -> Prop) (body : oid -> M unit) : Prop :=
  forall w i, registry_ok w -> In i (insts w) ->
    exists w', body i w = (Ok tt, w') /\ deleted_only (fun j => j = i /\ P w j) w w'.

(** The test depends on the attributes of the object only. *)
Definition local_pred (P : world -> oid -> Prop) : Prop :=
  forall w w' i, obj_of w' i = obj_of w i -> P w' i -> P w i.

Lemma for_instances_spec P body : body_ok P body -> local_pred P ->
  forall f pos w, registry_ok w -> length (insts w) <= f + pos ->
  exists w', for_instances f pos body w = (Ok tt, w') /\ deleted_only (P w) w w'.
Proof.
  intros HB HP. induction f as [|f IH]; intros pos w R Hf; cbn [for_instances].
  - destruct (nth_error (insts w) pos) as [i|] eqn:E.
    + exfalso. assert (pos < length (insts w)) by (apply nth_error_Some; congruence). lia.
    + exists w. split; [reflexivity|apply deleted_refl, R].
  - destruct (nth_error (insts w) pos) as [i|] eqn:E.
    + destruct (HB w i R (nth_error_In _ _ E)) as (w1 & E1 & D1). unfold mbind. rewrite E1.
      destruct (IH (S pos) w1) as (w2 & E2 & D2).
      * apply D1.
      * pose proof (subseq_length _ _ (proj1 (proj2 D1))). lia.
      * exists w2. split; [exact E2|]. apply (deleted_trans (P w) w w1 w2).
        -- eapply deleted_weaken; [|exact D1]. intros j [-> H]; exact H.
        -- destruct D2 as (R2 & S2 & D2 & O2). split; [exact R2|]. split; [exact S2|]. split; [|exact O2].
           intros j Hj Nj. specialize (D2 j Hj Nj). apply (HP w w1); [|exact D2].
           destruct D1 as (_ & _ & _ & O1). apply O1, Hj.
    + exists w. split; [reflexivity|apply deleted_refl, R].
Qed.

Lemma times_pass_spec P body : body_ok P body -> local_pred P ->
  forall k w, registry_ok w -> exists w', times k (pass body) w = (Ok tt, w') /\ deleted_only (P w) w w'.
Proof.
  intros HB HP. induction k as [|k IH]; intros w R; cbn [times].
  - exists w. split; [reflexivity|apply deleted_refl, R].
  - unfold mbind, pass at 1. destruct (for_instances_spec P body HB HP (length (insts w)) 0 w R) as (w1 & E1 & D1); [lia|].
    rewrite E1. destruct (IH w1 (proj1 D1)) as (w2 & E2 & D2). exists w2. split; [exact E2|].
    apply (deleted_trans (P w) w w1 w2 D1).
    destruct D2 as (R2 & S2 & D2 & O2). split; [exact R2|]. split; [exact S2|]. split; [|exact O2].
    intros j Hj Nj. specialize (D2 j Hj Nj). apply (HP w w1); [|exact D2].
    destruct D1 as (_ & _ & _ & O1). apply O1, Hj.
Qed.

Lemma named_local s : local_pred (fun w i => named w s i).
Proof. intros w w' i H (o & Ho & Hn). exists o. rewrite <- H. auto. Qed.

Lemma if_named_try s silent : body_ok (fun w i => named w s i) (if_named s (fun i => try_delete i silent)).
Proof.
  intros w i R Hi. unfold if_named, mbind, getobj. destruct R as [Hn Ha]. specialize (Ha i Hi) as Hai.
  destruct (obj_of w i) as [o|] eqn:Eo; [|congruence].
  destruct (String.eqb_spec (o_name o) s) as [En|En].
  - destruct (try_delete_spec w i silent (conj Hn Ha) Hi) as (w' & E & D). exists w'. split; [exact E|].
    eapply deleted_weaken; [|exact D]. intros j <-. split; [reflexivity|]. exists o. auto.
  - exists w. split; [reflexivity|]. apply deleted_refl. split; assumption.
Qed.

Lemma delete_results_spec w silent : registry_ok w ->
  exists w', delete_results silent w = (Ok tt, w') /\ deleted_only (named w "Result") w w'.
Proof. intros R. exact (times_pass_spec _ _ (if_named_try "Result" silent) (named_local "Result") 4 w R). Qed.

Lemma try_all_ok silent : body_ok (fun _ _ => True) (fun i => try_delete i silent).
Proof.
  intros w i R Hi. destruct (try_delete_spec w i silent R Hi) as (w' & E & D). exists w'. split; [exact E|].
  eapply deleted_weaken; [|exact D]. intros j <-. auto.
Qed.

Lemma clear_instances_spec w : registry_ok w ->
  exists w', clear_instances w = (Ok tt, w') /\ insts w' = [].
Proof.
  intros R. unfold clear_instances, mbind. destruct (delete_results_spec w true R) as (w1 & E1 & D1). rewrite E1.
  destruct (times_pass_spec _ _ (try_all_ok true) (fun _ _ _ _ H => H) 4 w1 (proj1 D1)) as (w2 & E2 & D2). rewrite E2.
  eexists; split; reflexivity.
Qed.

(** *** The clean-up law *)

(** A body that deletes exactly the visited elements that satisfy [p], when those are not
    used by any registered object. *)
Definition deletes (p : oid -> bool) (body : oid -> M unit) : Prop :=
  forall w i, registry_ok w -> In i (insts w) -> (forall j, In j (insts w) -> p j = true -> ~ used w j) ->
    if p i then exists w', body i w = (Ok tt, w') /\ removed w i w' else body i w = (Ok tt, w).

(** Like [removed], for a whole pass. *)
Definition kept w w' : Prop :=
  registry_ok w' /\ (forall i, In i (insts w') -> In i (insts w) /\ obj_of w' i = obj_of w i).

Lemma kept_used w w' j : kept w w' -> used w' j -> used w j.
Proof.
  intros [_ K] (i & o & Hi & N & Ho & Hr). destruct (K i Hi) as [Hi' Eo]. exists i, o. rewrite <- Eo. auto.
Qed.

Lemma removed_kept w t w' : registry_ok w -> removed w t w' -> kept w w'.
Proof.
  intros R H. split; [exact (removed_ok w t w' R H)|]. intros i Hi.
  apply (removed_in w t w') in Hi as [Hi N]; [|apply R|exact H]. split; [exact Hi|]. apply H, N.
Qed.

Definition body_for (p : oid -> bool) (body : oid -> M unit) (W : world -> Prop) : Prop :=
  forall w i, W w -> registry_ok w -> In i (insts w) -> (forall j, In j (insts w) -> p j = true -> ~ used w j) ->
    if p i then exists w', body i w = (Ok tt, w') /\ removed w i w' else body i w = (Ok tt, w).

Lemma for_instances_skip p body W :
  body_for p body W -> (forall w w', W w -> kept w w' -> W w') ->
  forall f done rest w, W w -> registry_ok w -> insts w = done ++ rest -> length rest <= f ->
  (forall j, In j (insts w) -> p j = true -> ~ used w j) ->
  exists w', for_instances f (length done) body w = (Ok tt, w') /\
    insts w' = done ++ skip_remove p rest /\ kept w w'.
Proof.
  intros HB HW. induction f as [|f IH]; intros done rest w Ww R Hi Hf Hu; cbn [for_instances].
  - destruct rest; [|cbn in Hf; lia]. rewrite Hi, app_nil_r.
    rewrite (proj2 (nth_error_None done (length done))) by lia.
    exists w. split; [reflexivity|]. rewrite Hi. cbn. split; [reflexivity|]. split; [exact R|auto].
  - destruct rest as [|x rest].
    + rewrite Hi, app_nil_r, (proj2 (nth_error_None done (length done))) by lia.
      exists w. split; [reflexivity|]. rewrite Hi. cbn. split; [reflexivity|]. split; [exact R|auto].
    + rewrite Hi, nth_error_app2 by lia. rewrite Nat.sub_diag. cbn [nth_error].
      assert (Hx : In x (insts w)) by (rewrite Hi; apply in_app_iff; right; left; reflexivity).
      pose proof (HB w x Ww R Hx Hu) as Hb. cbn [skip_remove]. unfold mbind.
      destruct (p x).
      * destruct Hb as (w1 & E1 & Rm). rewrite E1.
        pose proof (removed_kept w x w1 R Rm) as K1.
        assert (Hi1 : insts w1 = done ++ rest).
        { destruct Rm as [(l1 & l2 & H1 & H2) _]. destruct R as [Hn _]. rewrite Hi in H1. rewrite H2.
          rewrite Hi in Hn. clear -H1 Hn. revert l1 H1. induction done as [|y done IHd]; intros l1 H1.
          - destruct l1 as [|z l1]; cbn in H1; injection H1.
            + intros ->; reflexivity.
            + intros -> ->. exfalso. cbn in Hn. inversion Hn as [|? ? C _]; subst. apply C, in_app_iff. right; left; reflexivity.
          - destruct l1 as [|z l1]; cbn in H1; injection H1.
            + intros <- ->. exfalso. inversion Hn as [|? ? C _]; subst. apply C, in_app_iff. right; left; reflexivity.
            + intros H2 ->. cbn. f_equal. apply IHd; [inversion Hn; assumption|exact H2]. }
        destruct rest as [|y rest].
        -- rewrite app_nil_r in Hi1. replace (S (length done)) with (length (done ++ [x])) by (rewrite app_length; cbn; lia).
           assert (E2 : for_instances f (length (done ++ [x])) body w1 = (Ok tt, w1)).
           { assert (N : nth_error (insts w1) (length (done ++ [x])) = None) by (rewrite Hi1; apply nth_error_None; rewrite app_length; cbn; lia).
             destruct f; cbn [for_instances]; rewrite N; reflexivity. }
           rewrite E2. exists w1. split; [reflexivity|]. split; [rewrite Hi1, app_nil_r; reflexivity|exact K1].
        -- destruct (IH (done ++ [y]) rest w1) as (w2 & E2 & I2 & K2).
           ++ apply (HW w w1 Ww K1).
           ++ apply K1.
           ++ rewrite Hi1, <- app_assoc. reflexivity.
           ++ cbn in Hf. lia.
           ++ intros j Hj Hp C. apply (kept_used w w1 j K1) in C. destruct K1 as [_ K1]. apply (Hu j); [apply K1, Hj|exact Hp|exact C].
           ++ rewrite app_length in E2. cbn in E2. rewrite Nat.add_1_r in E2. rewrite E2. exists w2. split; [reflexivity|].
              rewrite I2, <- app_assoc. split; [reflexivity|].
              destruct K1 as [_ K1], K2 as [R2 K2]. split; [exact R2|]. intros i Hii. destruct (K2 i Hii) as [H1 H2].
              destruct (K1 i H1) as [H3 H4]. split; [exact H3|congruence].
      * rewrite Hb. destruct (IH (done ++ [x]) rest w) as (w2 & E2 & I2 & K2); auto.
        -- rewrite Hi, <- app_assoc. reflexivity.
        -- cbn in Hf. lia.
        -- rewrite app_length in E2. cbn in E2. rewrite Nat.add_1_r in E2. rewrite E2. exists w2. split; [reflexivity|].
           rewrite I2, <- app_assoc. split; [reflexivity|exact K2].
Qed.

Fixpoint iter {X} (k : nat) (f : X -> X) (x : X) : X :=
  match k with O => x | S k' => iter k' f (f x) end.

Lemma times_skip p body W :
  body_for p body W -> (forall w w', W w -> kept w w' -> W w') ->
  forall k w, W w -> registry_ok w -> (forall j, In j (insts w) -> p j = true -> ~ used w j) ->
  exists w', times k (pass body) w = (Ok tt, w') /\ insts w' = iter k (skip_remove p) (insts w) /\ kept w w'.
Proof.
  intros HB HW. induction k as [|k IH]; intros w Ww R Hu; cbn [times iter].
  - exists w. split; [reflexivity|]. split; [reflexivity|]. split; [exact R|auto].
  - unfold mbind, pass at 1.
    destruct (for_instances_skip p body W HB HW (length (insts w)) [] (insts w) w Ww R eq_refl (le_n _) Hu) as (w1 & E1 & I1 & K1).
    cbn [length app] in *. rewrite E1. destruct (IH w1) as (w2 & E2 & I2 & K2).
    + apply (HW w w1 Ww K1).
    + apply K1.
    + intros j Hj Hp C. apply (kept_used w w1 j K1) in C. destruct K1 as [_ K1]. apply (Hu j); [apply K1, Hj|exact Hp|exact C].
    + exists w2. split; [exact E2|]. rewrite I2, I1. split; [reflexivity|].
      destruct K1 as [_ K1], K2 as [R2 K2]. split; [exact R2|]. intros i Hii. destruct (K2 i Hii) as [H1 H2].
      destruct (K1 i H1) as [H3 H4]. split; [exact H3|congruence].
Qed.

(** The elements named [s] among the registered ones, read off in [w0]. *)
Definition is_named w0 (s : string) (i : oid) : bool :=
  match obj_of w0 i with Some o => String.eqb (o_name o) s | None => false end.

Definition agrees w0 w : Prop := forall i, In i (insts w) -> obj_of w i = obj_of w0 i.

Lemma agrees_kept w0 w w' : agrees w0 w -> kept w w' -> agrees w0 w'.
Proof. intros H [_ K] i Hi. destruct (K i Hi) as [H1 H2]. rewrite H2. apply H, H1. Qed.

Lemma body_for_delete w0 s : body_for (is_named w0 s) (if_named s (fun i => delete i true)) (agrees w0).
Proof.
  intros w i G R Hi Hu. unfold if_named, mbind, getobj. unfold is_named. rewrite <- (G i Hi).
  destruct (obj_of w i) as [o|] eqn:Eo; [|destruct R as [_ Ha]; destruct (Ha i Hi Eo)].
  destruct (String.eqb (o_name o) s) eqn:En; [|reflexivity].
  apply delete_unused; [exact R|exact Hi|]. apply Hu; [exact Hi|]. unfold is_named. rewrite <- (G i Hi), Eo. exact En.
Qed.

Lemma body_for_try w0 s silent : body_for (is_named w0 s) (if_named s (fun i => try_delete i silent)) (agrees w0).
Proof.
  intros w i G R Hi Hu. unfold if_named, mbind, getobj. unfold is_named. rewrite <- (G i Hi).
  destruct (obj_of w i) as [o|] eqn:Eo; [|destruct R as [_ Ha]; destruct (Ha i Hi Eo)].
  destruct (String.eqb (o_name o) s) eqn:En; [|reflexivity].
  destruct (delete_unused w i silent R Hi) as (w' & E & Rm).
  { apply Hu; [exact Hi|]. unfold is_named. rewrite <- (G i Hi), Eo. exact En. }
  exists w'. unfold try_delete. rewrite E. auto.
Qed.

End Registry.

(** *** Removing every second element *)
Section Skip.
Context {X : Type} (p : X -> bool).

Lemma skip_remove_none l : Forall (fun x => p x = false) l -> skip_remove p l = l.
Proof. induction 1 as [|x l H _ IH]; cbn; [reflexivity|]. rewrite H, IH. reflexivity. Qed.

Lemma skip_remove_pre pre l : Forall (fun x => p x = false) pre -> skip_remove p (pre ++ l) = pre ++ skip_remove p l.
Proof. induction 1 as [|x pre H _ IH]; cbn; [reflexivity|]. rewrite H, IH. reflexivity. Qed.

(** Every second element. *)
Fixpoint evens (l : list X) : list X :=
  match l with _ :: y :: l' => y :: evens l' | _ => [] end.

Lemma two_step_ind (P : list X -> Prop) :
  P [] -> (forall x, P [x]) -> (forall x y l, P l -> P (x :: y :: l)) -> forall l, P l.
Proof.
  intros H0 H1 H2. fix F 1. intros [|x [|y l]]; [exact H0|apply H1|apply H2, F].
Qed.

Lemma evens_length l : length (evens l) = length l / 2.
Proof.
  induction l as [| |x y l IH] using two_step_ind; try reflexivity.
  cbn [evens length]. rewrite IH. replace (S (S (length l))) with (length l + 1 * 2) by lia.
  rewrite Nat.div_add by lia. lia.
Qed.

Lemma evens_Forall (Q : X -> Prop) l : Forall Q l -> Forall Q (evens l).
Proof.
  induction l as [| |x y l IH] using two_step_ind; intros H; cbn; try constructor.
  - inversion H as [|? ? _ H']; inversion H'; assumption.
  - apply IH. inversion H as [|? ? _ H']; inversion H'; assumption.
Qed.

Lemma evens_subseq l : subseq (evens l) l.
Proof.
  induction l as [| |x y l IH] using two_step_ind; cbn; [constructor|apply subseq_drop; constructor|].
  apply subseq_drop, subseq_keep, IH.
Qed.

Lemma skip_remove_block block post :
  Forall (fun x => p x = true) block -> Forall (fun x => p x = false) post ->
  skip_remove p (block ++ post) = evens block ++ post.
Proof.
  intros H Hp. induction block as [|x|x y block IH] using two_step_ind.
  - apply skip_remove_none, Hp.
  - inversion H as [|? ? Hx _]; subst. cbn. rewrite Hx. destruct post as [|z post]; [reflexivity|].
    inversion Hp as [|? ? _ Hp']; subst. rewrite (skip_remove_none post Hp'). reflexivity.
  - inversion H as [|? ? Hx H']; subst. inversion H' as [|? ? Hy H'']; subst.
    cbn. rewrite Hx. rewrite IH by assumption. reflexivity.
Qed.

Lemma iter_skip k pre block post :
  Forall (fun x => p x = false) pre -> Forall (fun x => p x = true) block -> Forall (fun x => p x = false) post ->
  exists left, iter k (skip_remove p) (pre ++ block ++ post) = pre ++ left ++ post /\
    subseq left block /\ length left = length block / 2 ^ k.
Proof.
  intros H1 H2 H3. revert block H2. induction k as [|k IH]; intros block H2; cbn [iter].
  - exists block. split; [reflexivity|]. split; [apply subseq_refl|]. change (2 ^ 0) with 1. rewrite Nat.div_1_r. reflexivity.
  - rewrite skip_remove_pre by assumption. rewrite skip_remove_block by assumption.
    destruct (IH (evens block) (evens_Forall _ _ H2)) as (l & E & S & Hl). exists l. split; [exact E|].
    split; [exact (subseq_trans _ _ _ S (evens_subseq block))|].
    rewrite Hl, evens_length. cbn [Nat.pow]. rewrite Nat.div_div by (try lia; apply Nat.pow_nonzero; lia).
    reflexivity.
Qed.
End Skip.

Section Cleanup.
Context {A : AlgOps}.

(** k passes that delete the objects of a name leave floor(k / 2^passes) of a block. *)
Lemma block_law s (body : oid -> M unit) k w pre block post :
  body_for (is_named w s) body (agrees w) ->
  registry_ok w -> insts w = pre ++ block ++ post ->
  Forall (named w s) block -> Forall (fun i => ~ named w s i) pre -> Forall (fun i => ~ named w s i) post ->
  Forall (fun i => ~ used w i) block ->
  exists w' left, times k (pass body) w = (Ok tt, w') /\ insts w' = pre ++ left ++ post /\
    subseq left block /\ length left = length block / 2 ^ k /\
    (forall i, In i (insts w') -> obj_of w' i = obj_of w i).
Proof.
  intros HB R Hi H1 H2 H3 H4.
  assert (Hn : forall i, named w s i <-> is_named w s i = true).
  { intros i. unfold named, is_named. split.
    - intros (o & -> & <-). apply String.eqb_refl.
    - destruct (obj_of w i) as [o|]; [|discriminate]. intros E. apply String.eqb_eq in E. exists o; auto. }
  assert (P1 : Forall (fun x => is_named w s x = true) block).
  { eapply Forall_impl; [|exact H1]. intros i. apply Hn. }
  assert (P2 : forall l, Forall (fun i => ~ named w s i) l -> Forall (fun x => is_named w s x = false) l).
  { intros l. apply Forall_impl. intros i N. destruct (is_named w s i) eqn:E; [|reflexivity]. exfalso. apply N, Hn, E. }
  destruct (times_skip (is_named w s) body (agrees w) HB (fun a b => agrees_kept w a b) k w) as (w' & E & I & K).
  - intros i _. reflexivity.
  - exact R.
  - intros j Hj Hp. rewrite Hi in Hj. rewrite Forall_forall in H2, H3, H4.
    apply in_app_iff in Hj as [Hj|Hj]; [exfalso; apply (H2 j Hj), Hn, Hp|].
    apply in_app_iff in Hj as [Hj|Hj]; [apply H4, Hj|exfalso; apply (H3 j Hj), Hn, Hp].
  - destruct (iter_skip (is_named w s) k pre block post (P2 _ H2) P1 (P2 _ H3)) as (l & El & S & Hl).
    exists w', l. split; [exact E|]. rewrite I, Hi, El. split; [reflexivity|]. split; [exact S|]. split; [exact Hl|].
    intros i Hii. apply K. rewrite I, Hi, El. exact Hii.
Qed.

Lemma clean_temporaries_law w pre block post :
  registry_ok w -> insts w = pre ++ block ++ post ->
  Forall (named w "TEMP") block -> Forall (fun i => ~ named w "TEMP" i) pre -> Forall (fun i => ~ named w "TEMP" i) post ->
  Forall (fun i => ~ used w i) block ->
  exists w' left, clean_temporaries w = (Ok tt, w') /\ insts w' = pre ++ left ++ post /\
    subseq left block /\ length left = length block / 4 /\ (left = [] <-> length block <= 3) /\
    (forall i, In i (insts w') -> obj_of w' i = obj_of w i).
Proof.
  intros R Hi H1 H2 H3 H4.
  destruct (block_law "TEMP" _ 2 w pre block post (body_for_delete w "TEMP") R Hi H1 H2 H3 H4) as (w' & l & E & I & S & Hl & O).
  exists w', l. split; [exact E|]. split; [exact I|]. split; [exact S|]. change (2 ^ 2) with 4 in Hl. split; [exact Hl|]. split; [|exact O].
  split.
  - intros ->. cbn [length] in Hl. symmetry in Hl. apply Nat.div_small_iff in Hl; lia.
  - intros H. rewrite Nat.div_small in Hl by lia. destruct l; [reflexivity|discriminate].
Qed.

Lemma delete_results_law w silent pre block post :
  registry_ok w -> insts w = pre ++ block ++ post ->
  Forall (named w "Result") block -> Forall (fun i => ~ named w "Result" i) pre -> Forall (fun i => ~ named w "Result" i) post ->
  Forall (fun i => ~ used w i) block ->
  exists w' left, delete_results silent w = (Ok tt, w') /\ insts w' = pre ++ left ++ post /\
    subseq left block /\ length left = length block / 16 /\
    (forall i, In i (insts w') -> obj_of w' i = obj_of w i).
Proof.
  intros R Hi H1 H2 H3 H4.
  exact (block_law "Result" _ 4 w pre block post (body_for_try w "Result" silent) R Hi H1 H2 H3 H4).
Qed.

Lemma delete_results_only w silent : registry_ok w ->
  exists w', delete_results silent w = (Ok tt, w') /\ subseq (insts w') (insts w) /\
    (forall i, In i (insts w) -> ~ In i (insts w') -> named w "Result" i) /\
    (forall i, In i (insts w') -> obj_of w' i = obj_of w i).
Proof.
  intros R. destruct (delete_results_spec w silent R) as (w' & E & (R' & S & D & O)). exists w'. auto.
Qed.

End Cleanup.
